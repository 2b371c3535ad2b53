(** PlonkWires.v: which wires are registered for which variable, and which positions are recorded for
    public inputs, in every circuit that can be built. *)
From Verif Require Import Base Tools KZG SnarkProofs Plonk PlonkSpec PlonkProofs PlonkGadgets PlonkSelect PlonkRange PlonkRows PlonkLogic PlonkFixed.
From Coq Require Import Sorted.
Local Open Scope F_scope.

Section PlonkWires.
Context {F : Type} {fo : FieldOps F} {fl : FieldLaws F} {po : PrimeFieldOps F} {pl : PrimeFieldLaws F}.
Implicit Types (c : composer F) (a : nat -> F) (K : list wire).

Definition mapat c (v : nat) : list wire := nth v (c_map c) [].
(** c' is c with the registrations of the list L *)
Definition regs c c' (L : list (nat * wire)) : Prop :=
  forall v, mapat c' v = mapat c v ++ map snd (filter (fun p => fst p =? v)%nat L).
Lemma regs_refl c : regs c c [].
Proof. intros v. cbn. now rewrite app_nil_r. Qed.
Lemma regs_same c c' : c_map c' = c_map c -> regs c c' [].
Proof. intros E v. cbn. unfold mapat. now rewrite E, app_nil_r. Qed.
Lemma regs_trans c c1 c2 L1 L2 : regs c c1 L1 -> regs c1 c2 L2 -> regs c c2 (L1 ++ L2).
Proof. intros H1 H2 v. now rewrite H2, H1, filter_app, map_app, app_assoc. Qed.
Lemma regs_input v c : regs c (snd (add_input v c)) [].
Proof.
  intros x. cbn [filter map]. rewrite app_nil_r. unfold mapat. cbn [add_input snd set_vars c_map].
  destruct (Nat.ltb_spec x (length (c_map c))) as [L|L]; [now apply app_nth1|].
  rewrite app_nth2, (nth_overflow (c_map c)) by lia. destruct (x - length (c_map c))%nat as [|[|k]]; reflexivity.
Qed.
Lemma regs_map v w c c' : add_variable_to_map v w c = Ok c' -> regs c c' [(v, w)].
Proof.
  intros H x. unfold add_variable_to_map in H. apply obind_ok in H. destruct H as [u [E H]].
  unfold assert_ in E. destruct (Nat.ltb_spec v (length (c_map c))) as [L|L]; [|discriminate].
  injection H as <-. unfold mapat. cbn [set_vars c_map filter fst]. rewrite nth_upd, (Nat.eqb_sym v x), (proj2 (Nat.ltb_lt v (length (c_map c))) L), andb_true_r.
  destruct (Nat.eqb_spec x v) as [->|N]; [reflexivity|]. cbn [map]. now rewrite app_nil_r.
Qed.
Lemma regs_maps v1 v2 v3 v4 i c c' : add_variables_to_map v1 v2 v3 v4 i c = Ok c' ->
  regs c c' [(v1, (Left, i)); (v2, (Right, i)); (v3, (Output, i)); (v4, (Fourth, i))].
Proof.
  unfold add_variables_to_map. intros H. apply obind_ok in H. destruct H as [d1 [H1 H]]. apply obind_ok in H. destruct H as [d2 [H2 H]].
  apply obind_ok in H. destruct H as [d3 [H3 H]].
  exact (regs_trans _ _ _ _ _ (regs_map _ _ _ _ H1) (regs_trans _ _ _ _ _ (regs_map _ _ _ _ H2) (regs_trans _ _ _ _ _ (regs_map _ _ _ _ H3) (regs_map _ _ _ _ H)))).
Qed.

(** the wires registered for v are those that carry v, except for those in K *)
Record reg K c : Prop := {
  r_map : forall v col i, In (col, i) (mapat c v) <-> nth_error (wires c col) i = Some v /\ ~ In (col, i) K;
  r_nodup : forall v, NoDup (mapat c v);
  r_skip : forall col i, In (col, i) K -> (i < length (wires c col))%nat }.

Lemma in_regs (L : list (nat * wire)) v w : In w (map snd (filter (fun p => fst p =? v)%nat L)) <-> In (v, w) L.
Proof.
  rewrite in_map_iff. split.
  - intros [[x y] [E H]]. cbn in E. subst y. apply filter_In in H. destruct H as [H E]. cbn in E. apply Nat.eqb_eq in E. now subst.
  - intros H. exists (v, w). split; [reflexivity|]. apply filter_In. split; [auto|]. cbn. apply Nat.eqb_refl.
Qed.
Lemma nodup_app {A} (l l' : list A) : NoDup l -> NoDup l' -> (forall x, In x l -> ~ In x l') -> NoDup (l ++ l').
Proof.
  intros H H' D. induction H as [|x l N H IH]; [exact H'|]. cbn. constructor.
  - rewrite in_app_iff. intros [K|K]; [auto|]. apply (D x); cbn; auto.
  - apply IH. intros y Hy. apply D. now right.
Qed.
Lemma nodup_regs (L : list (nat * wire)) v : NoDup (map snd L) -> NoDup (map snd (filter (fun p => fst p =? v)%nat L)).
Proof.
  induction L as [|p L IH]; [auto|]. cbn [map filter]. intros H. apply NoDup_cons_iff in H. destruct H as [H1 H2].
  destruct (fst p =? v)%nat; [|auto]. cbn [map]. constructor; [|auto].
  intros K. apply H1. apply in_map_iff in K. destruct K as [q [E K]]. apply filter_In in K. apply in_map_iff. exists q. tauto.
Qed.
(** wires are pushed and registered *)
Lemma reg_push K c c' L W : reg K c -> regs c c' L -> (forall col, wires c' col = wires c col ++ W col) ->
  NoDup (map snd L) -> (forall v col i, In (v, (col, i)) L <-> exists j, i = (length (wires c col) + j)%nat /\ nth_error (W col) j = Some v) ->
  reg K c'.
Proof.
  intros [A1 A2 A3] R EW ND HL.
  assert (forall v col i, In (v, (col, i)) L <-> (length (wires c col) <= i)%nat /\ nth_error (wires c' col) i = Some v) as HL'.
  { intros v col i. rewrite HL, EW. split.
    - intros [j [-> E]]. split; [lia|]. rewrite nth_error_app2 by lia. now replace (length (wires c col) + j - length (wires c col))%nat with j by lia.
    - intros [G E]. exists (i - length (wires c col))%nat. split; [lia|]. now rewrite nth_error_app2 in E by lia. }
  split.
  - intros v col i. rewrite (R v), in_app_iff, A1, in_regs, HL', EW.
    destruct (Nat.ltb_spec i (length (wires c col))) as [Li|Li].
    + rewrite nth_error_app1 by lia. split; [intros [H|[H _]]; [auto|lia]|auto].
    + assert (nth_error (wires c col) i = None) as EN by (now apply nth_error_None). rewrite EN. split.
      * intros [[H _]|[_ H]]; [discriminate|]. split; [auto|]. intros HK. apply A3 in HK. lia.
      * intros [H _]. auto.
  - intros v. rewrite (R v). apply nodup_app; [auto|now apply nodup_regs|].
    intros [col i] H H'. apply A1 in H. apply in_regs, HL' in H'. destruct H as [H _].
    assert (nth_error (wires c col) i <> None) as HN by congruence. apply nth_error_Some in HN. lia.
  - intros col i H. apply A3 in H. rewrite EW, app_length. lia.
Qed.
(** wires are pushed and not registered *)
Lemma reg_skip K c c' W : reg K c -> c_map c' = c_map c -> (forall col, wires c' col = wires c col ++ W col) ->
  forall K', (forall col i, In (col, i) K' <-> (length (wires c col) <= i < length (wires c' col))%nat) -> reg (K ++ K') c'.
Proof.
  intros [A1 A2 A3] EM EW K' HK. assert (forall v, mapat c' v = mapat c v) as EV by (intros v; unfold mapat; now rewrite EM).
  split.
  - intros v col i. rewrite EV, A1, in_app_iff, HK, EW. destruct (Nat.ltb_spec i (length (wires c col))) as [Li|Li].
    + rewrite nth_error_app1 by lia. split; [intros [H1 H2]; split; [auto|intros [H|H]; [auto|lia]]|intros [H1 H2]; auto].
    + assert (nth_error (wires c col) i = None) as EN by (now apply nth_error_None). rewrite EN. split; [now intros [H _]|].
      intros [H1 H2]. exfalso. apply H2. right. split; [lia|]. rewrite <- EW in *.
      assert (nth_error (wires c' col) i <> None) as HN by congruence. now apply nth_error_Some in HN.
  - intros v. rewrite EV. auto.
  - intros col i H. apply in_app_iff in H. destruct H as [H|H]; [apply A3 in H; rewrite EW, app_length; lia|]. now apply HK in H.
Qed.
Lemma reg_same K c c' : reg K c -> regs c c' [] -> (forall col, wires c' col = wires c col) -> reg K c'.
Proof.
  intros R E EW. eapply (reg_push K c c' [] (fun _ => [])); eauto.
  - intros col. now rewrite EW, app_nil_r.
  - constructor.
  - intros v col i. split; [intros []|]. intros [j [_ H]]. now destruct j.
Qed.

(** *** Public inputs *)
Record posok c : Prop := {
  p_sorted : StronglySorted lt (c_pos c);
  p_below : Forall (fun k => k < c_n c)%nat (c_pos c);
  p_keys : StronglySorted lt (map fst (c_pi c));
  p_in : incl (map fst (c_pi c)) (c_pos c);
  p_nz : Forall (fun p => snd p <> 0) (c_pi c) }.

Lemma sorted_snoc l x : StronglySorted lt l -> Forall (fun k => k < x)%nat l -> StronglySorted lt (l ++ [x]).
Proof.
  intros H. induction H as [|y l H IH HF]; intros HX; cbn.
  - repeat constructor.
  - apply Forall_cons_iff in HX. destruct HX as [H1 H2]. constructor; [auto|]. rewrite Forall_app. auto.
Qed.
Lemma pi_put_last pos (v : F) m : Forall (fun k => k < pos)%nat (map fst m) -> pi_put pos v m = m ++ [(pos, v)].
Proof.
  induction m as [|[k u] m IH]; [auto|]. cbn [map fst pi_put]. intros H. apply Forall_cons_iff in H. destruct H as [H1 H2]. cbv beta in H1.
  destruct (Nat.ltb_spec pos k); [exfalso; lia|]. rewrite IH by auto. reflexivity.
Qed.
Lemma posok_add pi c c' : posok c -> add_pi_opt pi c = Ok c' -> posok (add_n 1 c').
Proof.
  intros [A1 A2 A3 A4 A5] H. assert (Forall (fun k => k < c_n c)%nat (map fst (c_pi c))) as KB.
  { apply Forall_forall. intros k Hk. apply A4 in Hk. now apply (proj1 (Forall_forall _ _) A2). }
  assert (forall k, (k < c_n c)%nat -> (k < c_n c + 1)%nat) as W1 by (intros; lia).
  destruct pi as [p|]; cbn [add_pi_opt] in H.
  - unfold add_pi, pi_insert in H. apply obind_ok in H. destruct H as [m [E H]]. injection H as <-. destruct (existsb _ (c_pi c)); [discriminate|].
    assert (StronglySorted lt (c_pos c ++ [c_n c])) as S1 by (now apply sorted_snoc).
    assert (Forall (fun k => k < c_n c + 1)%nat (c_pos c ++ [c_n c])) as B1.
    { rewrite Forall_app. split; [eapply Forall_impl; [exact W1|exact A2]|]. constructor; [lia|constructor]. }
    destruct (feqb p 0) eqn:E0; injection E as <-.
    + constructor; cbn [add_n set_n set_pi c_pos c_pi c_n]; auto. intros k Hk. apply in_or_app. left. auto.
    + rewrite pi_put_last by auto.
      constructor; cbn [add_n set_n set_pi c_pos c_pi c_n]; auto; rewrite ?map_app; cbn [map fst].
      * now apply sorted_snoc.
      * intros k Hk. apply in_app_or in Hk. apply in_or_app. destruct Hk as [Hk|Hk]; [left; auto|right; auto].
      * rewrite Forall_app. split; auto. repeat constructor. cbn. intros ->. assert (feqb (F:=F) 0 0 = true) by (now apply feqb_eq). congruence.
  - injection H as <-. constructor; cbn [add_n set_n c_pos c_pi c_n]; auto. eapply Forall_impl; [exact W1|exact A2].
Qed.
Lemma posok_same c c' : posok c -> c_pos c' = c_pos c -> c_pi c' = c_pi c -> (c_n c <= c_n c')%nat -> posok c'.
Proof.
  intros [A1 A2 A3 A4 A5] E1 E2 L. constructor; rewrite ?E1, ?E2; auto. eapply Forall_impl; [|exact A2]. cbn. intros; lia.
Qed.

(** *** The invariant *)
(** a skipped wire is on a row without selectors, below a row of a range gate, and not in the fourth column *)
Definition idle_below c K : Prop := forall col i, In (col, i) K ->
  col <> Fourth /\ (1 <= i < length (c_sel c))%nat /\ sel_at c i = no_sel /\ sel_at c (i - 1) = range_sel.
Record inv K c : Prop := {
  i_reg : reg K c; i_idle : idle_below c K; i_pos : posok c;
  i_sel : length (c_sel c) = c_n c; i_wires : forall col, length (wires c col) = c_n c }.
Definition good c : Prop := exists K, inv K c.

Lemma idle_app c c' K ss : idle_below c K -> c_sel c' = c_sel c ++ ss -> idle_below c' K.
Proof.
  intros H E col i HK. apply H in HK. destruct HK as [H1 [H2 [H3 H4]]]. unfold sel_at in *. rewrite E, app_length.
  split; auto. split; [lia|]. rewrite !app_nth1 by lia. auto.
Qed.
Lemma good_input v c : good c -> good (snd (add_input v c)).
Proof.
  intros [K [A1 A2 A3 A4 A5]]. exists K. constructor.
  - apply (reg_same K c); [exact A1|apply regs_input|now intros []].
  - exact A2.
  - eapply posok_same; eauto.
  - exact A4.
  - intros []; [apply (A5 Left)|apply (A5 Right)|apply (A5 Output)|apply (A5 Fourth)].
Qed.
Lemma good_table t c : good c -> good (set_table t c).
Proof.
  intros [K [A1 A2 A3 A4 A5]]. exists K. constructor.
  - apply (reg_same K c); [exact A1|now apply regs_same|now intros []].
  - exact A2.
  - eapply posok_same; eauto.
  - exact A4.
  - intros []; [apply (A5 Left)|apply (A5 Right)|apply (A5 Output)|apply (A5 Fourth)].
Qed.
Lemma good_set_zero z c : good c -> good (set_zero z c).
Proof.
  intros [K [A1 A2 A3 A4 A5]]. exists K. constructor.
  - apply (reg_same K c); [exact A1|now apply regs_same|now intros []].
  - exact A2.
  - eapply posok_same; eauto.
  - exact A4.
  - intros []; [apply (A5 Left)|apply (A5 Right)|apply (A5 Output)|apply (A5 Fourth)].
Qed.
(** a list of four registrations against four new wires *)
Lemma four_regs n (x y o f : nat) (W : column -> list nat) v col i : (forall col, W col = [col4 x y o f col]) ->
  In (v, (col, i)) [(x, (Left, n)); (y, (Right, n)); (o, (Output, n)); (f, (Fourth, n))] <->
  exists j, i = (n + j)%nat /\ nth_error (W col) j = Some v.
Proof.
  intros EW. rewrite EW. split.
  - intros [E|[E|[E|[E|[]]]]]; injection E as <- <- <-; exists 0%nat; rewrite Nat.add_0_r; auto.
  - intros [[|[|j]] [-> E]]; [|discriminate E|discriminate E]. rewrite Nat.add_0_r. injection E as <-. destruct col; cbn; auto.
Qed.
Lemma four_nodup n (x y o f : nat) : NoDup (map snd ([(x, (Left, n)); (y, (Right, n)); (o, (Output, n)); (f, (Fourth, n))] : list (nat * wire))).
Proof. cbn. repeat (constructor; [cbn; intuition discriminate|]). constructor. Qed.
Lemma good_gate x y o f s pi c c' : good c -> add_gate x y o f s pi c = Ok c' -> good c'.
Proof.
  intros [K [A1 A2 A3 A4 A5]] H. exists K. unfold add_gate in H. apply obind_ok in H. destruct H as [d1 [E H]]. apply obind_ok in H. destruct H as [d2 [E0 H]]. injection H as <-.
  set (d0 := push_sels [s] (push_wires x y o f c)) in *.
  assert (d1 = set_pi (c_pi d1) (c_pos d1) d0) as ED.
  { destruct pi as [p|]; cbn [add_pi_opt] in E; [|injection E as <-; reflexivity].
    unfold add_pi in E. apply obind_ok in E. destruct E as [m [_ E]]. injection E as <-. reflexivity. }
  assert (posok (add_n 1 d1)) as PO.
  { apply (posok_add pi d0); auto. apply (posok_same c); auto. }
  assert (c_n d1 = c_n c) as EN by (rewrite ED; reflexivity). rewrite EN in E0.
  pose proof (regs_maps _ _ _ _ _ _ _ E0) as RM. apply maps_inv in E0. destruct E0 as [_ [_ [_ [_ [E2 _]]]]].
  assert (forall col, wires (add_n 1 d2) col = wires c col ++ [col4 x y o f col]) as EW by (intros []; cbn [add_n set_n wires c_wl c_wr c_wo c_w4]; rewrite E2, ED; reflexivity).
  assert (c_n (add_n 1 d2) = (c_n c + 1)%nat) as N2 by (cbn [add_n set_n c_n]; rewrite E2, ED; reflexivity).
  assert (c_sel (add_n 1 d2) = c_sel c ++ [s]) as ES by (cbn [add_n set_n c_sel]; rewrite E2, ED; reflexivity).
  constructor.
  - eapply (reg_push K c _ _ (fun col => [col4 x y o f col]) A1); [|exact EW|apply (four_nodup (c_n c))|].
    + intros v. change (mapat (add_n 1 d2) v) with (mapat d2 v). rewrite (RM v). f_equal. unfold mapat. now rewrite ED.
    + intros v col i. rewrite A5. apply (four_regs (c_n c) x y o f (fun col => [col4 x y o f col])). reflexivity.
  - eapply idle_app; eauto.
  - destruct PO as [P1 P2 P3 P4 P5]. constructor; cbn [add_n set_n c_pos c_pi c_n] in *; rewrite E2; cbn [set_vars c_pos c_pi c_n]; auto.
  - rewrite ES, app_length, N2, A4. reflexivity.
  - intros col. rewrite EW, app_length, N2, A5. reflexivity.
Qed.

(** *** Gadgets made of single gates *)
#[local] Opaque add_gate add_input.
Ltac ob H x E := apply obind_ok in H; destruct H as [x [E H]].
Ltac inp H := match type of H with context [add_input ?v ?c] =>
  let G := fresh "G" in assert (good c) as G by auto; apply (good_input v) in G;
  let o := fresh "o" in let d := fresh "d" in destruct (add_input v c) as [o d]; cbn [snd] in G; cbv iota beta in H end.
Lemma good_poly x y o m l r q k pi c c' : good c -> poly_gate x y o m l r q k pi c = Ok c' -> good c'.
Proof. intros G H. unfold poly_gate in H. eauto using good_gate. Qed.
Lemma good_constrain x k pi c c' : good c -> constrain_to_constant x k pi c = Ok c' -> good c'.
Proof. intros G H. unfold constrain_to_constant in H. eauto using good_poly. Qed.
Lemma good_assert x y c c' : good c -> assert_equal x y c = Ok c' -> good c'.
Proof. intros G H. unfold assert_equal in H. eauto using good_poly. Qed.
Lemma good_arithmetic g c o c' : good c -> arithmetic_gate g c = Ok (o, c') -> good c'.
Proof.
  intros G H. unfold arithmetic_gate in H. destruct (g_witness g) as [[[x y] w]|]; [|discriminate].
  destruct (match g_fan_in_3 g with Some qv => qv | None => (0, c_zero c) end) as [q4 w4]. ob H oc E. destruct oc as [o1 c1]. ob H c2 E2. injection H as <- <-.
  assert (good c1) as G1; [|eauto using good_gate]. destruct w as [w|].
  - injection E as <- <-. auto.
  - ob E va E1. ob E vb E3. ob E v4 E4. 
    match type of E with Ok (add_input ?v c) = _ => pose proof (good_input v c G) as G1; assert (add_input v c = (o1, c1)) as E' by congruence; rewrite E' in G1 end. exact G1.
Qed.
Lemma good_boolean x c o c' : good c -> boolean_gate x c = Ok (o, c') -> good c'.
Proof. intros G H. unfold boolean_gate in H. ob H c1 E. injection H as <- <-. eauto using good_gate. Qed.
Lemma good_full vs ss c o c' : good c -> full_affine_transform_gate vs ss c = Ok (o, c') -> good c'.
Proof.
  intros G H. destruct vs as [[x y] z], ss as [[[[s0 s1] s2] s3] s4]. unfold full_affine_transform_gate in H.
  ob H vx E1. ob H vy E2. ob H vz E3. ob H v E4. inp H. ob H c2 E. injection H as <- <-. eauto using good_gate.
Qed.
Lemma good_partial vs ss c o c' : good c -> partial_affine_transform_gate vs ss c = Ok (o, c') -> good c'.
Proof.
  intros G H. destruct vs as [[x y] z], ss as [[[[s0 s1] s2] s3] s4]. unfold partial_affine_transform_gate in H.
  ob H vx E1. ob H vy E2. ob H vz E3. ob H v E4. inp H. ob H c2 E. injection H as <- <-. eauto using good_gate.
Qed.
Lemma good_lookup x y o d pi c v c' : good c -> lookup_gate x y o d pi c = Ok (v, c') -> good c'.
Proof. intros G H. unfold lookup_gate in H. ob H c1 E. injection H as <- <-. eauto using good_gate. Qed.
Lemma good_blinding_row r1 r2 r3 r4 c v1 v2 c' : good c -> blinding_row r1 r2 r3 r4 c = Ok (v1, v2, c') -> good c'.
Proof. intros G H. unfold blinding_row in H. do 4 inp H. ob H c5 E. injection H as <- <- <-. eauto using good_gate. Qed.
Lemma good_blinding (r q : F * F * F * F) c c' : good c -> add_blinding_factors r q c = Ok c' -> good c'.
Proof.
  intros G H. destruct r as [[[r1 r2] r3] r4], q as [[[q1 q2] q3] q4]. unfold add_blinding_factors in H.
  ob H x E. destruct x as [[u1 u2] c1]. apply good_blinding_row in E; auto. ob H x E'. destruct x as [[w1 w2] c2]. apply good_blinding_row in E'; auto.
  eauto using good_gate.
Qed.
Lemma good_dummy c c' : good c -> add_dummy_constraints c = Ok c' -> good c'.
Proof. intros G H. unfold add_dummy_constraints in H. do 4 inp H. ob H c5 E. eauto using good_gate. Qed.
Lemma good_empty : good (mkComposer (F:=F) 0 [] [] [] [] [] [] [] [] 0 [] []).
Proof.
  exists []. constructor.
  - split.
    + intros v col i. unfold mapat. cbn [c_map]. destruct v, col, i; cbn; intuition discriminate.
    + intros v. unfold mapat. cbn [c_map]. destruct v; constructor.
    + intros col i [].
  - intros col i [].
  - constructor; cbn; try constructor. intros k [].
  - reflexivity.
  - now intros [].
Qed.
Lemma good_new (r q : F * F * F * F) c : new_composer r q = Ok c -> good c.
Proof.
  intros H. unfold new_composer in H. ob H x E. destruct x as [z c1]. pose proof good_empty as G0. unfold add_witness_to_circuit_description in E.
  inp E. ob E c2 E2. injection E as <- <-. apply good_constrain in E2; auto. eapply good_blinding; [|exact H]. now apply good_set_zero.
Qed.
Lemma good_wnaf : forall accs alphas base first c c', good c -> wnaf_rows first accs alphas base c = Ok c' -> good c'.
Proof.
  induction accs as [|[s [px py]] accs IH]; intros alphas base first c c' G H; cbn [wnaf_rows] in H.
  - injection H as <-. auto.
  - destruct alphas as [|al alphas]; [injection H as <-; auto|]. destruct base as [|g base]; [injection H as <-; auto|].
    do 3 inp H. ob H c4 E. assert (good c4) as G4.
    { destruct first; [|injection E as <-; auto]. ob E d3 E1. ob E d4 E2. eauto using good_constrain. }
    inp H. ob H c6 E6. eapply IH; [|exact H]. eauto using good_gate.
Qed.
Lemma good_fixed_base size ca cd w g c r c' : good c -> fixed_base_scalar_mul size ca cd w g c = Ok (r, c') -> good c'.
Proof.
  intros G H. unfold fixed_base_scalar_mul in H. cbv zeta in H. ob H x E. ob H u E0. ob H va E1. destruct va as [vals als]. ob H c1 E2.
  apply good_wnaf in E2; auto. ob H sp E3. destruct sp as [s [px py]]. do 3 inp H. ob H y E4. destruct y as [o5 c5]. apply good_arithmetic in E4; auto.
  ob H c6 E5. injection H as <- <-. eauto using good_assert.
Qed.

(** *** Point addition *)
#[local] Transparent add_input.
Lemma good_point_addition ca cd chk p q c r c' : good c -> point_addition_gate ca cd chk p q c = Ok (r, c') -> good c'.
Proof.
  intros G H. destruct p as [x1 y1], q as [x2 y2]. unfold point_addition_gate in H.
  ob H vx1 E1. ob H vy1 E2. ob H vx2 E3. ob H vy2 E4. ob H u1 E5. ob H u2 E6. clear E1 E2 E3 E4 E5 E6 u1 u2.
  destruct (te_add ca cd (vx1, vy1) (vx2, vy2)) as [vx3 vy3].
  set (c1 := snd (add_input (vx1 * vy2) c)) in *. change (add_input (vx1 * vy2) c) with (nvars c, c1) in H. cbv iota beta in H.
  set (c2 := snd (add_input vx3 c1)) in *. change (add_input vx3 c1) with (nvars c1, c2) in H. cbv iota beta in H.
  set (c3 := snd (add_input vy3 c2)) in *. change (add_input vy3 c2) with (nvars c2, c3) in H. cbv iota beta in H. cbv zeta in H.
  assert (good c3) as G3 by (unfold c3, c2, c1; now repeat apply good_input). assert (c_zero c = c_zero c3) as EZ by reflexivity. rewrite EZ in H.
  set (xy := nvars c) in *. set (x3 := nvars c1) in *. set (y3 := nvars c2) in *. clearbody c3 xy x3 y3. clear G EZ c1 c2 c.
  destruct G3 as [K [A1 A2 A3 A4 A5]]. ob H d6 E1. ob H d8 E2. injection H as <- <-.
  change (c_n (push_sels _ _)) with (c_n c3) in *.
  pose proof (regs_maps _ _ _ _ _ _ _ E1) as R1. pose proof (regs_maps _ _ _ _ _ _ _ E2) as R2.
  apply maps_inv in E1. destruct E1 as [_ [_ [_ [_ [E1 _]]]]]. apply maps_inv in E2. destruct E2 as [_ [_ [_ [_ [E2 _]]]]].
  assert (c_n (add_n 1 d6) = (c_n c3 + 1)%nat) as N6 by (cbn [add_n set_n c_n]; rewrite E1; reflexivity). rewrite N6 in R2.
  set (z := c_zero c3) in *.
  assert (forall col, wires (add_n 1 d8) col = wires c3 col ++ [col4 x1 y1 x2 y2 col; col4 x3 y3 z xy col]) as EW.
  { intros []; cbn [add_n set_n wires c_wl c_wr c_wo c_w4]; rewrite E2; cbn [add_n set_n set_vars wires c_wl c_wr c_wo c_w4]; rewrite E1; cbn; rewrite <- app_assoc; reflexivity. }
  assert (c_n (add_n 1 d8) = (c_n c3 + 2)%nat) as N8 by (cbn [add_n set_n c_n]; rewrite E2; cbn [set_vars c_n]; rewrite N6; lia).
  assert (c_sel (add_n 1 d8) = c_sel c3 ++ [var_add_sel; no_sel]) as ES by (cbn [add_n set_n c_sel]; rewrite E2; cbn [set_vars add_n set_n c_sel]; rewrite E1; reflexivity).
  exists K. constructor.
  - assert (regs c3 (add_n 1 d6) [(x1, (Left, c_n c3)); (y1, (Right, c_n c3)); (x2, (Output, c_n c3)); (y2, (Fourth, c_n c3))]) as R1' by exact R1.
    assert (regs (add_n 1 d6) (add_n 1 d8) [(x3, (Left, c_n c3 + 1)); (y3, (Right, c_n c3 + 1)); (z, (Output, c_n c3 + 1)); (xy, (Fourth, c_n c3 + 1))]%nat) as R2' by exact R2.
    eapply (reg_push K c3 _ _ (fun col => [col4 x1 y1 x2 y2 col; col4 x3 y3 z xy col]) A1 (regs_trans _ _ _ _ _ R1' R2')); [exact EW| |].
    + cbn. repeat (constructor; [cbn; intros HH; repeat (destruct HH as [HH|HH]; [try discriminate HH; injection HH; lia|]); exact HH|]). constructor.
    + intros v col i. rewrite in_app_iff. rewrite (four_regs (c_n c3) x1 y1 x2 y2 (fun col => [col4 x1 y1 x2 y2 col])) by reflexivity.
      rewrite (four_regs (c_n c3 + 1) x3 y3 z xy (fun col => [col4 x3 y3 z xy col])) by reflexivity. rewrite A5. split.
      * intros [[j [-> E]]|[j [-> E]]]; destruct j as [|[|j]]; try discriminate E; [exists 0%nat|exists 1%nat]; (split; [lia|exact E]).
      * intros [[|[|[|j]]] [-> E]]; try discriminate E; [left|right]; exists 0%nat; (split; [lia|exact E]).
  - eapply idle_app; eauto.
  - eapply posok_same; eauto; [| |rewrite N8; lia]; cbn [add_n set_n c_pos c_pi]; rewrite E2; cbn [set_vars add_n set_n c_pos c_pi]; rewrite E1; reflexivity.
  - rewrite ES, app_length, N8, A4. reflexivity.
  - intros col. rewrite EW, app_length, N8, A5. reflexivity.
Qed.
End PlonkWires.

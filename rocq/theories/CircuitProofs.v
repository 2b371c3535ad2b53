(** CircuitProofs.v: invariants of the circuit builder. *)
From Verif Require Import Base Spec Tools CS Circuit.
Local Open Scope F_scope.

Lemma nth_error_upd A (l : list A) i j f :
  nth_error (upd l i f) j = if (j =? i)%nat then option_map f (nth_error l j) else nth_error l j.
Proof.
  revert i j; induction l as [|x l IH]; intros i j; cbn [upd].
  - destruct (j =? i)%nat; destruct j; reflexivity.
  - destruct i as [|i]; destruct j as [|j]; cbn; auto.
Qed.
Lemma nth_error_snoc A (l : list A) x j :
  nth_error (l ++ [x]) j = if (j =? length l)%nat then Some x else nth_error l j.
Proof.
  destruct (Nat.eqb_spec j (length l)) as [->|H].
  - rewrite nth_error_app2, Nat.sub_diag by lia. reflexivity.
  - destruct (Nat.lt_ge_cases j (length l)).
    + now apply nth_error_app1.
    + rewrite nth_error_app2 by lia. assert (nth_error l j = None) as -> by (apply nth_error_None; lia).
      apply nth_error_None. cbn. lia.
Qed.
Lemma upd_snoc A (l : list A) x y : upd (l ++ [x]) (length l) (fun _ => y) = l ++ [y].
Proof. induction l; cbn; auto. now rewrite IHl. Qed.
Lemma nth_error_lt A (l : list A) i x : nth_error l i = Some x -> (i < length l)%nat.
Proof. intros H. apply nth_error_Some. congruence. Qed.
Lemma nth_error_ex A (l : list A) i : (i < length l)%nat -> exists x, nth_error l i = Some x.
Proof. intros H. destruct (nth_error l i) eqn:E; eauto. apply nth_error_None in E. lia. Qed.

Section CP.
Context {F : Type} {fo : FieldOps F} {fl : FieldLaws F}.
Add Field Fcp : F_th.

Definition nv (c : circ F) := length (c_vars c).

Record Inv (c : circ F) : Prop := {
  inv_nin : (c_nin c <= nv c)%nat;
  inv_out_in : forall i v, nth_error (c_vars c) i = Some v -> (i < c_nin c)%nat -> v_out v = None;
  inv_out_gate : forall i v, nth_error (c_vars c) i = Some v -> (c_nin c <= i)%nat ->
     exists g, v_out v = Some g /\ var_of_wire c (WOut g) = Some i;
  inv_add : forall k g, nth_error (c_add c) k = Some g ->
     (g_l g < g_o g)%nat /\ (g_r g < g_o g)%nat /\
     exists v, nth_error (c_vars c) (g_o g) = Some v /\ v_out v = Some (OAdd k);
  inv_mul : forall k g, nth_error (c_mul c) k = Some g ->
     (g_l g < g_o g)%nat /\ (g_r g < g_o g)%nat /\
     exists v, nth_error (c_vars c) (g_o g) = Some v /\ v_out v = Some (OMul k);
  inv_const : forall k g, nth_error (c_const c) k = Some g ->
     exists v, nth_error (c_vars c) (cg_o g) = Some v /\ v_out v = Some (OConst k);
  inv_in : forall i v w, nth_error (c_vars c) i = Some v ->
     (In w (v_in v) <-> var_of_wire c (WIn w) = Some i);
  inv_addc : forall a b o, In (a, b, o) (c_addc c) -> In (mkGate a b o) (c_add c);
  inv_mulc : forall a b o, In (a, b, o) (c_mulc c) -> In (mkGate a b o) (c_mul c);
  inv_constc : forall x o, In (x, o) (c_constc c) -> In (mkCGate o x) (c_const c);
  inv_eqs : forall a b, In (a, b) (c_eqs c) -> (a < nv c)%nat /\ (b < nv c)%nat /\ a <> b;
  inv_pub : forall w, In w (c_pub c) -> exists i, var_of_wire c w = Some i }.

(** A valuation of the variables consistent with the inputs and all gates. *)
Record consistent (c : circ F) (inp : list F) (val : nat -> F) : Prop := {
  con_in : forall i, (i < c_nin c)%nat -> val i = coef inp i;
  con_add : forall g, In g (c_add c) -> val (g_o g) = val (g_l g) + val (g_r g);
  con_mul : forall g, In g (c_mul c) -> val (g_o g) = val (g_l g) * val (g_r g);
  con_const : forall g, In g (c_const c) -> val (cg_o g) = cg_v g }.

Lemma inv_new : Inv new_circ.
Proof.
  constructor; cbn; try (intros; contradiction); auto; try (intros [|?]; discriminate).
Qed.

(** *** input variables *)
Lemma add_input_ok (c : circ F) : Inv c -> no_gate c = true ->
  exists c', add_global_input_variable c = (c', Ok (nv c)) /\
    c' = set_nin (set_vars c (c_vars c ++ [mkVar [] None None])) (S (c_nin c)) /\ Inv c' /\ c_nin c = nv c.
Proof.
  intros I H. assert (c_nin c = nv c) as Hn.
  { pose proof (inv_nin c I). destruct (Nat.eq_dec (c_nin c) (nv c)) as [|Hne]; auto.
    destruct (nth_error_ex _ (c_vars c) (c_nin c)) as [v Hv]; [unfold nv in *; lia|].
    destruct (inv_out_gate c I _ _ Hv) as [g [_ Hg]]; auto.
    unfold no_gate in H. destruct (c_add c) eqn:E1; [|discriminate]. destruct (c_mul c) eqn:E2; [|discriminate].
    destruct (c_const c) eqn:E3; [|discriminate].
    destruct g as [k|k|k]; cbn in Hg; rewrite ?E1, ?E2, ?E3 in Hg; destruct k; discriminate. }
  unfold add_global_input_variable, bind, gets. cbn. rewrite H. cbn.
  eexists. split; [reflexivity|]. split; [reflexivity|]. split; [|auto].
  unfold no_gate in H. destruct (c_add c) eqn:E1; [|discriminate]. destruct (c_mul c) eqn:E2; [|discriminate].
  destruct (c_const c) eqn:E3; [|discriminate].
  constructor; cbn; rewrite ?E1, ?E2, ?E3; unfold nv in *.
  - rewrite app_length. cbn. lia.
  - intros i v Hi Hlt. rewrite nth_error_snoc in Hi. destruct (Nat.eqb_spec i (length (c_vars c))).
    + injection Hi as <-. reflexivity.
    + eapply (inv_out_in c I); eauto. lia.
  - intros i v Hi Hlt. apply nth_error_lt in Hi. rewrite app_length in Hi. cbn in Hi. lia.
  - intros [|k]; discriminate.
  - intros [|k]; discriminate.
  - intros [|k]; discriminate.
  - intros i v w Hi. rewrite nth_error_snoc in Hi. destruct (Nat.eqb_spec i (length (c_vars c))).
    + injection Hi as <-. cbn. split; [tauto|]. destruct w as [[|k] []|[|k] []]; cbn; rewrite ?E1, ?E2; discriminate.
    + rewrite (inv_in c I i v w Hi). destruct w as [k []|k []]; cbn; rewrite ?E1, ?E2; reflexivity.
  - intros a b o X. rewrite <- E1. now apply (inv_addc c I).
  - intros a b o X. rewrite <- E2. now apply (inv_mulc c I).
  - intros x o X. rewrite <- E3. now apply (inv_constc c I).
  - intros a b X. rewrite app_length. cbn. destruct (inv_eqs c I a b X) as [? [? ?]]. unfold nv in *. lia.
  - intros w X. destruct (inv_pub c I w X) as [i Hi]. exists i. rewrite <- Hi. destruct w as [[k []|k []]|[k|k|k]]; cbn; rewrite ?E1, ?E2, ?E3; reflexivity.
Qed.

(** *** gates *)
Definition push_wires (k : nat) (mk : nat -> side -> inwire) (a b i : nat) (v : var F) : var F :=
  mkVar (v_in v ++ (if (i =? a)%nat then [mk k SL] else []) ++ (if (i =? b)%nat then [mk k SR] else []))
        (v_out v) (v_val v).

(** the variables after adding a gate with fresh output *)
Definition vars_spec (vs vs' : list (var F)) (k : nat) mk (mko : nat -> outwire) (a b : nat) : Prop :=
  length vs' = S (length vs) /\
  forall i, nth_error vs' i =
    if (i =? length vs)%nat then Some (mkVar [] (Some (mko k)) None)
    else option_map (push_wires k mk a b i) (nth_error vs i).

Lemma wire_pushes (vs : list (var F)) k mk mko a b :
  (a < length vs)%nat -> (b < length vs)%nat ->
  let vs0 := vs ++ [mkVar [] None None] in
  exists va vb vo,
    nth_error vs0 a = Some va /\
    let vs1 := upd vs0 a (fun _ => fst (v_push_in (mk k SL) va)) in
    nth_error vs1 b = Some vb /\
    let vs2 := upd vs1 b (fun _ => fst (v_push_in (mk k SR) vb)) in
    nth_error vs2 (length vs) = Some vo /\ v_out vo = None /\
    vars_spec vs (upd vs2 (length vs) (fun _ => mkVar (v_in vo) (Some (mko k)) (v_val vo))) k mk mko a b.
Proof.
  intros Ha Hb vs0.
  destruct (nth_error_ex _ vs a Ha) as [va Ea]. destruct (nth_error_ex _ vs b Hb) as [vb Eb].
  assert (nth_error vs0 a = Some va) as E0 by (unfold vs0; rewrite nth_error_app1; auto).
  exists va, (if (b =? a)%nat then fst (v_push_in (mk k SL) va) else vb), (mkVar [] None None).
  split; [exact E0|]. cbn zeta.
  assert (forall i, nth_error (upd vs0 a (fun _ => fst (v_push_in (mk k SL) va))) i =
     if (i =? a)%nat then Some (fst (v_push_in (mk k SL) va)) else nth_error vs0 i) as E1.
  { intros i. rewrite nth_error_upd. destruct (Nat.eqb_spec i a); auto. subst. now rewrite E0. }
  set (vs1 := upd vs0 a _) in *.
  assert (nth_error vs1 b = Some (if (b =? a)%nat then fst (v_push_in (mk k SL) va) else vb)) as E1b.
  { rewrite E1. destruct (Nat.eqb_spec b a); auto. unfold vs0. rewrite nth_error_app1; auto. }
  split; [exact E1b|].
  set (vs2 := upd vs1 b _).
  assert (forall i, nth_error vs2 i =
     if (i =? b)%nat then Some (fst (v_push_in (mk k SR) (if (b =? a)%nat then fst (v_push_in (mk k SL) va) else vb)))
     else nth_error vs1 i) as E2.
  { intros i. unfold vs2. rewrite nth_error_upd. destruct (Nat.eqb_spec i b); auto. subst. now rewrite E1b. }
  assert (nth_error vs2 (length vs) = Some (mkVar [] None None)) as E2o.
  { rewrite E2, E1. destruct (Nat.eqb_spec (length vs) b); [lia|]. destruct (Nat.eqb_spec (length vs) a); [lia|].
    unfold vs0. rewrite nth_error_snoc, Nat.eqb_refl. reflexivity. }
  split; [exact E2o|]. split; [reflexivity|]. split.
  - unfold vs2, vs1, vs0. rewrite !upd_length, app_length. cbn. lia.
  - intros i. rewrite nth_error_upd. destruct (Nat.eqb_spec i (length vs)) as [->|Hi].
    + rewrite E2o. reflexivity.
    + rewrite E2, E1. unfold vs0. rewrite nth_error_snoc.
      destruct (Nat.eqb_spec i (length vs)); [lia|].
      unfold push_wires. destruct (Nat.eqb_spec i b) as [->|Hib].
      * rewrite Eb. cbn [option_map]. destruct (Nat.eqb_spec b a) as [->|].
        -- assert (vb = va) by congruence. subst vb. cbn. now rewrite <- app_assoc.
        -- cbn. reflexivity.
      * destruct (Nat.eqb_spec i a) as [->|Hia].
        -- rewrite Ea. cbn. reflexivity.
        -- destruct (nth_error vs i) as [[vi vo vv]|]; cbn; auto. now rewrite app_nil_r.
Qed.

Lemma nth_error_In_iff {A} (l : list A) x : In x l <-> exists k, nth_error l k = Some x.
Proof. split; [apply In_nth_error|intros [k H]; now apply nth_error_In in H]. Qed.

Definition extends (c c' : circ F) : Prop :=
  c_nin c' = c_nin c /\ (nv c <= nv c')%nat /\
  (exists l, c_add c' = c_add c ++ l) /\ (exists l, c_mul c' = c_mul c ++ l) /\
  (exists l, c_const c' = c_const c ++ l) /\
  c_pub c' = c_pub c /\ c_outs c' = c_outs c /\ c_eqs c' = c_eqs c.
Lemma extends_refl c : extends c c.
Proof. repeat split; auto; exists []; now rewrite app_nil_r. Qed.
Lemma extends_trans c1 c2 c3 : extends c1 c2 -> extends c2 c3 -> extends c1 c3.
Proof.
  intros [A1 [A2 [[l1 A3] [[l2 A4] [[l3 A5] [A6 [A7 A8]]]]]]] [B1 [B2 [[m1 B3] [[m2 B4] [[m3 B5] [B6 [B7 B8]]]]]]].
  repeat split; try congruence; try lia.
  - exists (l1 ++ m1). now rewrite B3, A3, app_assoc.
  - exists (l2 ++ m2). now rewrite B4, A4, app_assoc.
  - exists (l3 ++ m3). now rewrite B5, A5, app_assoc.
Qed.
Lemma extends_consistent c c' inp val : extends c c' -> consistent c' inp val -> consistent c inp val.
Proof.
  intros [A1 [A2 [[l1 A3] [[l2 A4] [[l3 A5] _]]]]] [B1 B2 B3 B4]. constructor.
  - rewrite <- A1. exact B1.
  - intros g Hg. apply B2. rewrite A3. apply in_app_iff. auto.
  - intros g Hg. apply B3. rewrite A4. apply in_app_iff. auto.
  - intros g Hg. apply B4. rewrite A5. apply in_app_iff. auto.
Qed.
Lemma var_of_wire_extends c c' w i : extends c c' -> var_of_wire c w = Some i -> var_of_wire c' w = Some i.
Proof.
  intros [A1 [A2 [[l1 A3] [[l2 A4] [[l3 A5] _]]]]].
  destruct w as [[k []|k []]|[k|k|k]]; cbn; rewrite ?A3, ?A4, ?A5; intros H;
  (match goal with |- context[nth_error (?l ++ ?m) k] => destruct (nth_error l k) eqn:E; [|discriminate];
    rewrite nth_error_app1 by (now apply nth_error_lt in E); rewrite E; exact H end).
Qed.

Lemma add_gate_ok (c : circ F) a b : Inv c -> (a < nv c)%nat -> (b < nv c)%nat ->
  exists vs', (do r <- add_new_variable;
               do _ <- unwrapM (add_add_gate a b r);
               do _ <- modify (fun c => set_addc c ((a, b, r) :: c_addc c));
               ret r) c
   = (set_addc (set_vars (set_add c (c_add c ++ [mkGate a b (nv c)])) vs') ((a, b, nv c) :: c_addc c), Ok (nv c)) /\
   vars_spec (c_vars c) vs' (add_num c) IAdd OAdd a b.
Proof.
  intros I Ha Hb.
  destruct (wire_pushes (c_vars c) (add_num c) IAdd OAdd a b Ha Hb) as [va [vb [vo [E1 [E2 [E3 [E4 E5]]]]]]].
  eexists. split; [|exact E5].
  unfold bind, unwrapM, add_new_variable, add_add_gate, bind, modify, gets, with_var.
  unfold add_num. cbn -[nth_error length app]. rewrite app_length. cbn [length].
  replace (length (c_add c) + 1 - 1)%nat with (length (c_add c)) by lia.
  fold (nv c). rewrite E1. cbn -[nth_error length app]. unfold add_num in E2. cbn in E2. rewrite E2. cbn -[nth_error length app].
  cbn in E3. unfold add_num, nv in *. rewrite E3. unfold v_set_out. rewrite E4. reflexivity.
Qed.
Lemma mul_gate_ok (c : circ F) a b : Inv c -> (a < nv c)%nat -> (b < nv c)%nat ->
  exists vs', (do r <- add_new_variable;
               do _ <- unwrapM (add_mul_gate a b r);
               do _ <- modify (fun c => set_mulc c ((a, b, r) :: c_mulc c));
               ret r) c
   = (set_mulc (set_vars (set_mul c (c_mul c ++ [mkGate a b (nv c)])) vs') ((a, b, nv c) :: c_mulc c), Ok (nv c)) /\
   vars_spec (c_vars c) vs' (mul_num c) IMul OMul a b.
Proof.
  intros I Ha Hb.
  destruct (wire_pushes (c_vars c) (mul_num c) IMul OMul a b Ha Hb) as [va [vb [vo [E1 [E2 [E3 [E4 E5]]]]]]].
  eexists. split; [|exact E5].
  unfold bind, unwrapM, add_new_variable, add_mul_gate, bind, modify, gets, with_var.
  unfold mul_num. cbn -[nth_error length app]. rewrite app_length. cbn [length].
  replace (length (c_mul c) + 1 - 1)%nat with (length (c_mul c)) by lia.
  fold (nv c). rewrite E1. cbn -[nth_error length app]. unfold mul_num in E2. cbn in E2. rewrite E2. cbn -[nth_error length app].
  cbn in E3. unfold mul_num, nv in *. rewrite E3. unfold v_set_out. rewrite E4. reflexivity.
Qed.

Lemma inv_add_gate (c : circ F) a b vs' : Inv c -> (a < nv c)%nat -> (b < nv c)%nat ->
  vars_spec (c_vars c) vs' (add_num c) IAdd OAdd a b ->
  let c' := set_addc (set_vars (set_add c (c_add c ++ [mkGate a b (nv c)])) vs') ((a, b, nv c) :: c_addc c) in
  Inv c' /\ extends c c' /\ In (mkGate a b (nv c)) (c_add c') /\ nv c' = S (nv c).
Proof.
  intros I Ha Hb [HL HV] c'. unfold nv, add_num in *.
  assert (extends c c') as X.
  { repeat split; cbn; auto; try (exists []; now rewrite app_nil_r); unfold nv; cbn; try lia. eexists; reflexivity. }
  split; [|split; [auto|split; [apply in_app_iff; right; now left|cbn; lia]]].
  constructor; cbn.
  - unfold nv; cbn. pose proof (inv_nin c I). unfold nv in *. lia.
  - intros i v Hi Hlt. rewrite HV in Hi. destruct (Nat.eqb_spec i (length (c_vars c))).
    + pose proof (inv_nin c I). unfold nv in *. lia.
    + destruct (nth_error (c_vars c) i) as [u|] eqn:Eu; [|discriminate]. injection Hi as <-. cbn.
      now apply (inv_out_in c I i).
  - intros i v Hi Hge. rewrite HV in Hi. destruct (Nat.eqb_spec i (length (c_vars c))).
    + injection Hi as <-. eexists. split; [reflexivity|]. cbn. rewrite nth_error_snoc, Nat.eqb_refl. cbn. now subst.
    + destruct (nth_error (c_vars c) i) as [u|] eqn:Eu; [|discriminate]. injection Hi as <-. cbn.
      destruct (inv_out_gate c I i u Eu Hge) as [g [Hg1 Hg2]]. exists g. split; auto.
      exact (var_of_wire_extends c c' (WOut g) i X Hg2).
  - intros k g Hk. rewrite nth_error_snoc in Hk. destruct (Nat.eqb_spec k (length (c_add c))); [injection Hk as <-; cbn; repeat split; auto; rewrite HV, Nat.eqb_refl; eexists; split; [reflexivity|]; cbn; now subst|].
    destruct (inv_add c I k g Hk) as [H1 [H2 [v [H3 H4]]]]. repeat split; auto.
    rewrite HV. destruct (Nat.eqb_spec (g_o g) (length (c_vars c))); [apply nth_error_lt in H3; lia|].
    rewrite H3. eexists. split; [reflexivity|]. exact H4.
  - intros k g Hk. 
    destruct (inv_mul c I k g Hk) as [H1 [H2 [v [H3 H4]]]]. repeat split; auto.
    rewrite HV. destruct (Nat.eqb_spec (g_o g) (length (c_vars c))); [apply nth_error_lt in H3; lia|].
    rewrite H3. eexists. split; [reflexivity|]. exact H4.
  - intros k g Hk. destruct (inv_const c I k g Hk) as [v [H3 H4]].
    rewrite HV. destruct (Nat.eqb_spec (cg_o g) (length (c_vars c))); [apply nth_error_lt in H3; lia|].
    rewrite H3. eexists. split; [reflexivity|]. exact H4.
  - intros i v w Hi. rewrite HV in Hi. destruct (Nat.eqb_spec i (length (c_vars c))) as [->|Hne].
    + injection Hi as <-. cbn. split; [tauto|]. intros Hw. exfalso.
      assert (forall j, var_of_wire c (WIn w) = Some j -> (j < length (c_vars c))%nat) as Hold.
      { intros j Hj. destruct w as [k s|k s].
        - cbn in Hj. destruct (nth_error (c_add c) k) as [g|] eqn:Eg; [|destruct s; discriminate].
          destruct (inv_add c I k g Eg) as [H1 [H2 [v [H3 _]]]]. apply nth_error_lt in H3.
          destruct s; cbn in Hj; injection Hj as <-; lia.
        - cbn in Hj. destruct (nth_error (c_mul c) k) as [g|] eqn:Eg; [|destruct s; discriminate].
          destruct (inv_mul c I k g Eg) as [H1 [H2 [v [H3 _]]]]. apply nth_error_lt in H3.
          destruct s; cbn in Hj; injection Hj as <-; lia. }
      destruct w as [k s|k s]; cbn in Hw, Hold.
      * rewrite nth_error_snoc in Hw. destruct (Nat.eqb_spec k (length (c_add c))); [destruct s; cbn in Hw; injection Hw as Hw; lia|destruct s; specialize (Hold _ Hw); lia].
      * destruct s; specialize (Hold _ Hw); lia.
    + destruct (nth_error (c_vars c) i) as [u|] eqn:Eu; [|discriminate]. injection Hi as <-.
      unfold push_wires. cbn [v_in]. rewrite !in_app_iff, (inv_in c I i u w Eu).
      destruct w as [k s|k s]; cbn [var_of_wire].
      * cbn. rewrite nth_error_snoc. destruct (Nat.eqb_spec k (length (c_add c))) as [->|Hk].
        -- assert (nth_error (c_add c) (length (c_add c)) = None) as N by (apply nth_error_None; lia).
           rewrite N. cbn. destruct (Nat.eqb_spec i a), (Nat.eqb_spec i b); cbn; destruct s; cbn; intuition congruence.
        -- destruct (Nat.eqb_spec i a), (Nat.eqb_spec i b); cbn; destruct s; intuition congruence.
      * destruct (Nat.eqb_spec i a), (Nat.eqb_spec i b); cbn; destruct s; intuition (congruence || discriminate).
  - intros x y o H. destruct H as [H|H]; [injection H as <- <- <-; apply in_app_iff; right; now left|]. apply in_app_iff; left. now apply (inv_addc c I).
  - intros x y o H.  now apply (inv_mulc c I).
  - exact (inv_constc c I).
  - intros x y H. unfold nv; cbn. destruct (inv_eqs c I x y H) as [? [? ?]]. unfold nv in *. lia.
  - intros w H. destruct (inv_pub c I w H) as [i Hi]. exists i. exact (var_of_wire_extends c c' w i X Hi).
Qed.

Lemma inv_mul_gate (c : circ F) a b vs' : Inv c -> (a < nv c)%nat -> (b < nv c)%nat ->
  vars_spec (c_vars c) vs' (mul_num c) IMul OMul a b ->
  let c' := set_mulc (set_vars (set_mul c (c_mul c ++ [mkGate a b (nv c)])) vs') ((a, b, nv c) :: c_mulc c) in
  Inv c' /\ extends c c' /\ In (mkGate a b (nv c)) (c_mul c') /\ nv c' = S (nv c).
Proof.
  intros I Ha Hb [HL HV] c'. unfold nv, mul_num in *.
  assert (extends c c') as X.
  { repeat split; cbn; auto; try (exists []; now rewrite app_nil_r); unfold nv; cbn; try lia. eexists; reflexivity. }
  split; [|split; [auto|split; [apply in_app_iff; right; now left|cbn; lia]]].
  constructor; cbn.
  - unfold nv; cbn. pose proof (inv_nin c I). unfold nv in *. lia.
  - intros i v Hi Hlt. rewrite HV in Hi. destruct (Nat.eqb_spec i (length (c_vars c))).
    + pose proof (inv_nin c I). unfold nv in *. lia.
    + destruct (nth_error (c_vars c) i) as [u|] eqn:Eu; [|discriminate]. injection Hi as <-. cbn.
      now apply (inv_out_in c I i).
  - intros i v Hi Hge. rewrite HV in Hi. destruct (Nat.eqb_spec i (length (c_vars c))).
    + injection Hi as <-. eexists. split; [reflexivity|]. cbn. rewrite nth_error_snoc, Nat.eqb_refl. cbn. now subst.
    + destruct (nth_error (c_vars c) i) as [u|] eqn:Eu; [|discriminate]. injection Hi as <-. cbn.
      destruct (inv_out_gate c I i u Eu Hge) as [g [Hg1 Hg2]]. exists g. split; auto.
      exact (var_of_wire_extends c c' (WOut g) i X Hg2).
  - intros k g Hk. 
    destruct (inv_add c I k g Hk) as [H1 [H2 [v [H3 H4]]]]. repeat split; auto.
    rewrite HV. destruct (Nat.eqb_spec (g_o g) (length (c_vars c))); [apply nth_error_lt in H3; lia|].
    rewrite H3. eexists. split; [reflexivity|]. exact H4.
  - intros k g Hk. rewrite nth_error_snoc in Hk. destruct (Nat.eqb_spec k (length (c_mul c))); [injection Hk as <-; cbn; repeat split; auto; rewrite HV, Nat.eqb_refl; eexists; split; [reflexivity|]; cbn; now subst|].
    destruct (inv_mul c I k g Hk) as [H1 [H2 [v [H3 H4]]]]. repeat split; auto.
    rewrite HV. destruct (Nat.eqb_spec (g_o g) (length (c_vars c))); [apply nth_error_lt in H3; lia|].
    rewrite H3. eexists. split; [reflexivity|]. exact H4.
  - intros k g Hk. destruct (inv_const c I k g Hk) as [v [H3 H4]].
    rewrite HV. destruct (Nat.eqb_spec (cg_o g) (length (c_vars c))); [apply nth_error_lt in H3; lia|].
    rewrite H3. eexists. split; [reflexivity|]. exact H4.
  - intros i v w Hi. rewrite HV in Hi. destruct (Nat.eqb_spec i (length (c_vars c))) as [->|Hne].
    + injection Hi as <-. cbn. split; [tauto|]. intros Hw. exfalso.
      assert (forall j, var_of_wire c (WIn w) = Some j -> (j < length (c_vars c))%nat) as Hold.
      { intros j Hj. destruct w as [k s|k s].
        - cbn in Hj. destruct (nth_error (c_add c) k) as [g|] eqn:Eg; [|destruct s; discriminate].
          destruct (inv_add c I k g Eg) as [H1 [H2 [v [H3 _]]]]. apply nth_error_lt in H3.
          destruct s; cbn in Hj; injection Hj as <-; lia.
        - cbn in Hj. destruct (nth_error (c_mul c) k) as [g|] eqn:Eg; [|destruct s; discriminate].
          destruct (inv_mul c I k g Eg) as [H1 [H2 [v [H3 _]]]]. apply nth_error_lt in H3.
          destruct s; cbn in Hj; injection Hj as <-; lia. }
      destruct w as [k s|k s]; cbn in Hw, Hold.
      * destruct s; specialize (Hold _ Hw); lia.
      * rewrite nth_error_snoc in Hw. destruct (Nat.eqb_spec k (length (c_mul c))); [destruct s; cbn in Hw; injection Hw as Hw; lia|destruct s; specialize (Hold _ Hw); lia].
    + destruct (nth_error (c_vars c) i) as [u|] eqn:Eu; [|discriminate]. injection Hi as <-.
      unfold push_wires. cbn [v_in]. rewrite !in_app_iff, (inv_in c I i u w Eu).
      destruct w as [k s|k s]; cbn [var_of_wire].
      * destruct (Nat.eqb_spec i a), (Nat.eqb_spec i b); cbn; destruct s; intuition (congruence || discriminate).
      * cbn. rewrite nth_error_snoc. destruct (Nat.eqb_spec k (length (c_mul c))) as [->|Hk].
        -- assert (nth_error (c_mul c) (length (c_mul c)) = None) as N by (apply nth_error_None; lia).
           rewrite N. cbn. destruct (Nat.eqb_spec i a), (Nat.eqb_spec i b); cbn; destruct s; cbn; intuition congruence.
        -- destruct (Nat.eqb_spec i a), (Nat.eqb_spec i b); cbn; destruct s; intuition congruence.
  - intros x y o H.  now apply (inv_addc c I).
  - intros x y o H. destruct H as [H|H]; [injection H as <- <- <-; apply in_app_iff; right; now left|]. apply in_app_iff; left. now apply (inv_mulc c I).
  - exact (inv_constc c I).
  - intros x y H. unfold nv; cbn. destruct (inv_eqs c I x y H) as [? [? ?]]. unfold nv in *. lia.
  - intros w H. destruct (inv_pub c I w H) as [i Hi]. exists i. exact (var_of_wire_extends c c' w i X Hi).
Qed.

Lemma const_gate_ok (c : circ F) x : Inv c ->
  (do r <- add_new_variable;
   do _ <- unwrapM (add_const_gate x r);
   do _ <- modify (fun c => set_constc c ((x, r) :: c_constc c));
   ret r) c
   = (set_constc (set_vars (set_const c (c_const c ++ [mkCGate (nv c) x]))
        (c_vars c ++ [mkVar [] (Some (OConst (const_num c))) None])) ((x, nv c) :: c_constc c), Ok (nv c)).
Proof.
  intros I. unfold bind, unwrapM, add_new_variable, add_const_gate, bind, modify, gets, with_var.
  unfold const_num. cbn -[nth_error length app]. rewrite app_length. cbn [length].
  replace (length (c_const c) + 1 - 1)%nat with (length (c_const c)) by lia.
  rewrite nth_error_snoc, Nat.eqb_refl. cbn -[nth_error length app upd].
  unfold nv, ret. cbn -[nth_error length app upd]. rewrite upd_snoc. reflexivity.
Qed.

Lemma inv_const_gate (c : circ F) x : Inv c ->
  let c' := set_constc (set_vars (set_const c (c_const c ++ [mkCGate (nv c) x]))
        (c_vars c ++ [mkVar [] (Some (OConst (const_num c))) None])) ((x, nv c) :: c_constc c) in
  Inv c' /\ extends c c' /\ In (mkCGate (nv c) x) (c_const c') /\ nv c' = S (nv c).
Proof.
  intros I c'. unfold nv, const_num in *.
  assert (extends c c') as X.
  { repeat split; cbn; auto; try (exists []; now rewrite app_nil_r); unfold nv; cbn; try (rewrite app_length; cbn; lia). eexists; reflexivity. }
  split; [|split; [auto|split; [apply in_app_iff; right; now left|cbn; rewrite app_length; cbn; lia]]].
  pose proof (inv_nin c I) as HN. unfold nv in HN.
  assert (forall i, nth_error (c_vars c) i <> None -> nth_error (c_vars c ++ [mkVar [] (Some (OConst (const_num c))) None]) i = nth_error (c_vars c) i) as Hold.
  { intros i Hi. rewrite nth_error_app1; auto. now apply nth_error_Some. }
  constructor; cbn.
  - unfold nv; cbn. rewrite app_length; cbn. lia.
  - intros i v Hi Hlt. rewrite nth_error_snoc in Hi. destruct (Nat.eqb_spec i (length (c_vars c))); [lia|].
    now apply (inv_out_in c I i).
  - intros i v Hi Hge. rewrite nth_error_snoc in Hi. destruct (Nat.eqb_spec i (length (c_vars c))).
    + injection Hi as <-. eexists. split; [reflexivity|]. cbn. rewrite nth_error_snoc, Nat.eqb_refl. cbn. now subst.
    + destruct (inv_out_gate c I i v Hi Hge) as [g [Hg1 Hg2]]. exists g. split; auto.
      exact (var_of_wire_extends c c' (WOut g) i X Hg2).
  - intros k g Hk. destruct (inv_add c I k g Hk) as [H1 [H2 [v [H3 H4]]]]. repeat split; auto.
    exists v. split; auto. rewrite nth_error_app1; auto. now apply nth_error_lt in H3.
  - intros k g Hk. destruct (inv_mul c I k g Hk) as [H1 [H2 [v [H3 H4]]]]. repeat split; auto.
    exists v. split; auto. rewrite nth_error_app1; auto. now apply nth_error_lt in H3.
  - intros k g Hk. rewrite nth_error_snoc in Hk. destruct (Nat.eqb_spec k (length (c_const c))).
    + injection Hk as <-. cbn. rewrite nth_error_snoc, Nat.eqb_refl. eexists. split; [reflexivity|]. cbn. now subst.
    + destruct (inv_const c I k g Hk) as [v [H3 H4]].
      exists v. split; auto. rewrite nth_error_app1; auto. now apply nth_error_lt in H3.
  - intros i v w Hi. rewrite nth_error_snoc in Hi. destruct (Nat.eqb_spec i (length (c_vars c))) as [->|Hne].
    + injection Hi as <-. cbn. split; [tauto|]. intros Hw. exfalso.
      destruct w as [k s|k s].
      * cbn in Hw. destruct (nth_error (c_add c) k) as [g|] eqn:Eg; [|destruct s; discriminate].
          destruct (inv_add c I k g Eg) as [H1 [H2 [v [H3 _]]]]. apply nth_error_lt in H3.
          destruct s; cbn in Hw; injection Hw as Hw; lia.
      * cbn in Hw. destruct (nth_error (c_mul c) k) as [g|] eqn:Eg; [|destruct s; discriminate].
          destruct (inv_mul c I k g Eg) as [H1 [H2 [v [H3 _]]]]. apply nth_error_lt in H3.
          destruct s; cbn in Hw; injection Hw as Hw; lia.
    + exact (inv_in c I i v w Hi).
  - exact (inv_addc c I).
  - exact (inv_mulc c I).
  - intros y o [H|H].
    + injection H as <- <-. apply in_app_iff. right. now left.
    + apply in_app_iff. left. now apply (inv_constc c I).
  - intros y z H. unfold nv; cbn. rewrite app_length. cbn. destruct (inv_eqs c I y z H) as [? [? ?]]. unfold nv in *. lia.
  - intros w H. destruct (inv_pub c I w H) as [i Hi]. exists i. exact (var_of_wire_extends c c' w i X Hi).
Qed.

(** *** the three value-producing calls *)
Lemma lookup2_In k l o : lookup2 k l = Some o -> In (fst k, snd k, o) l.
Proof.
  induction l as [|[[a b] o'] l IH]; cbn; [discriminate|].
  destruct (Nat.eqb_spec (fst k) a); cbn; [destruct (Nat.eqb_spec (snd k) b); cbn|]; auto.
  intros H. injection H as <-. left. congruence.
Qed.
Lemma lookupF_In (k : F) l o : lookupF k l = Some o -> In (k, o) l.
Proof.
  induction l as [|[x o'] l IH]; cbn; [discriminate|].
  destruct (feqb_spec k x); auto. intros H. injection H as <-. left. congruence.
Qed.
Lemma sort2_lt a b n : (a < n)%nat -> (b < n)%nat -> let '(x, y) := sort2 a b in (x < n)%nat /\ (y < n)%nat.
Proof. intros. unfold sort2. destruct (a <? b)%nat; auto. Qed.
Lemma sort2_cases a b : sort2 a b = (a, b) \/ sort2 a b = (b, a).
Proof. unfold sort2. destruct (a <? b)%nat; auto. Qed.

Lemma gate_out_lt c g : Inv c -> In g (c_add c) \/ In g (c_mul c) -> (g_o g < nv c)%nat.
Proof.
  intros I [H|H]; apply nth_error_In_iff in H; destruct H as [k H].
  - destruct (inv_add c I k g H) as [_ [_ [v [H3 _]]]]. now apply nth_error_lt in H3.
  - destruct (inv_mul c I k g H) as [_ [_ [v [H3 _]]]]. now apply nth_error_lt in H3.
Qed.
Lemma cgate_out_lt c g : Inv c -> In g (c_const c) -> (cg_o g < nv c)%nat.
Proof.
  intros I H. apply nth_error_In_iff in H; destruct H as [k H].
  destruct (inv_const c I k g H) as [v [H3 _]]. now apply nth_error_lt in H3.
Qed.

Lemma add_vars_ok (c : circ F) a b : Inv c -> (a < nv c)%nat -> (b < nv c)%nat ->
  exists c' o, add_vars a b c = (c', Ok o) /\ Inv c' /\ extends c c' /\ (o < nv c')%nat /\
    (forall inp val, consistent c' inp val -> val o = val a + val b) /\ (c_nin c <= o)%nat.
Proof.
  intros I Ha Hb. unfold add_vars. pose proof (sort2_lt a b (nv c) Ha Hb) as Hs.
  destruct (sort2 a b) as [x y] eqn:Es. destruct Hs as [Hx Hy].
  assert (forall val : nat -> F, val x + val y = val a + val b) as Hsum.
  { intros val. destruct (sort2_cases a b) as [E|E]; rewrite Es in E; injection E as -> ->; ring. }
  unfold bind at 1. unfold gets at 1. destruct (lookup2 (x, y) (c_addc c)) as [o|] eqn:El.
  - apply lookup2_In in El. cbn in El. apply (inv_addc c I) in El.
    exists c, o. split; [reflexivity|]. split; [auto|]. split; [apply extends_refl|].
    split; [apply (gate_out_lt c (mkGate x y o)); auto|]. split.
    + intros inp val H. rewrite <- Hsum. exact (con_add _ _ _ H _ El).
    + apply nth_error_In_iff in El. destruct El as [k El]. destruct (inv_add c I k _ El) as [_ [_ [v [H3 H4]]]]. cbn in *.
      destruct (Nat.lt_ge_cases o (c_nin c)) as [Hlt|]; auto. rewrite (inv_out_in c I o v H3 Hlt) in H4. discriminate.
  - destruct (add_gate_ok c x y I Hx Hy) as [vs' [E V]]. rewrite E.
    destruct (inv_add_gate c x y vs' I Hx Hy V) as [I' [X [G N]]].
    eexists. eexists. split; [reflexivity|]. split; [exact I'|]. split; [exact X|]. split; [rewrite N; lia|]. split.
    + intros inp val H. rewrite <- Hsum. exact (con_add _ _ _ H _ G).
    + apply (inv_nin c I).
Qed.
Lemma mul_vars_ok (c : circ F) a b : Inv c -> (a < nv c)%nat -> (b < nv c)%nat ->
  exists c' o, mul_vars a b c = (c', Ok o) /\ Inv c' /\ extends c c' /\ (o < nv c')%nat /\
    (forall inp val, consistent c' inp val -> val o = val a * val b) /\ (c_nin c <= o)%nat.
Proof.
  intros I Ha Hb. unfold mul_vars. pose proof (sort2_lt a b (nv c) Ha Hb) as Hs.
  destruct (sort2 a b) as [x y] eqn:Es. destruct Hs as [Hx Hy].
  assert (forall val : nat -> F, val x * val y = val a * val b) as Hsum.
  { intros val. destruct (sort2_cases a b) as [E|E]; rewrite Es in E; injection E as -> ->; ring. }
  unfold bind at 1. unfold gets at 1. destruct (lookup2 (x, y) (c_mulc c)) as [o|] eqn:El.
  - apply lookup2_In in El. cbn in El. apply (inv_mulc c I) in El.
    exists c, o. split; [reflexivity|]. split; [auto|]. split; [apply extends_refl|].
    split; [apply (gate_out_lt c (mkGate x y o)); auto|]. split.
    + intros inp val H. rewrite <- Hsum. exact (con_mul _ _ _ H _ El).
    + apply nth_error_In_iff in El. destruct El as [k El]. destruct (inv_mul c I k _ El) as [_ [_ [v [H3 H4]]]]. cbn in *.
      destruct (Nat.lt_ge_cases o (c_nin c)) as [Hlt|]; auto. rewrite (inv_out_in c I o v H3 Hlt) in H4. discriminate.
  - destruct (mul_gate_ok c x y I Hx Hy) as [vs' [E V]]. rewrite E.
    destruct (inv_mul_gate c x y vs' I Hx Hy V) as [I' [X [G N]]].
    eexists. eexists. split; [reflexivity|]. split; [exact I'|]. split; [exact X|]. split; [rewrite N; lia|]. split.
    + intros inp val H. rewrite <- Hsum. exact (con_mul _ _ _ H _ G).
    + apply (inv_nin c I).
Qed.
Lemma const_var_ok (c : circ F) x : Inv c ->
  exists c' o, const_var x c = (c', Ok o) /\ Inv c' /\ extends c c' /\ (o < nv c')%nat /\
    (forall inp val, consistent c' inp val -> val o = x) /\ (c_nin c <= o)%nat.
Proof.
  intros I. unfold const_var. unfold bind at 1. unfold gets at 1. destruct (lookupF x (c_constc c)) as [o|] eqn:El.
  - apply lookupF_In in El. apply (inv_constc c I) in El.
    exists c, o. split; [reflexivity|]. split; [auto|]. split; [apply extends_refl|].
    split; [apply (cgate_out_lt c (mkCGate o x)); auto|]. split.
    + intros inp val H. exact (con_const _ _ _ H _ El).
    + apply nth_error_In_iff in El. destruct El as [k El]. destruct (inv_const c I k _ El) as [v [H3 H4]]. cbn in *.
      destruct (Nat.lt_ge_cases o (c_nin c)) as [Hlt|]; auto. rewrite (inv_out_in c I o v H3 Hlt) in H4. discriminate.
  - rewrite (const_gate_ok c x I). destruct (inv_const_gate c x I) as [I' [X [G N]]].
    eexists. eexists. split; [reflexivity|]. split; [exact I'|]. split; [exact X|]. split; [rewrite N; lia|]. split.
    + intros inp val H. exact (con_const _ _ _ H _ G).
    + apply (inv_nin c I).
Qed.

(** *** the other calls *)
Lemma inv_change_eqs c a b : Inv c -> (a < nv c)%nat -> (b < nv c)%nat -> a <> b ->
  Inv (set_eqs c (c_eqs c ++ [(a, b)])).
Proof.
  intros I Ha Hb Hab. destruct I. constructor; auto.
  cbn. intros x y H. apply in_app_iff in H. destruct H as [H|[H|[]]].
  - now apply inv_eqs0.
  - injection H as <- <-. auto.
Qed.
Lemma inv_change_outs c o : Inv c -> Inv (set_outs c o).
Proof. intros I. destruct I. constructor; auto. Qed.
Lemma inv_change_pub c w i : Inv c -> var_of_wire c w = Some i -> Inv (set_pub c (c_pub c ++ [w])).
Proof.
  intros I Hw. destruct I. constructor; auto.
  cbn. intros x H. apply in_app_iff in H. destruct H as [H|[H|[]]].
  - exact (inv_pub0 x H).
  - subst. now exists i.
Qed.

Lemma var_in_wire c i v w : Inv c -> nth_error (c_vars c) i = Some v -> In w (var_wires v) -> var_of_wire c w = Some i.
Proof.
  intros I Hv Hw. unfold var_wires in Hw. apply in_app_iff in Hw. destruct Hw as [Hw|Hw].
  - apply in_map_iff in Hw. destruct Hw as [w' [<- Hw]]. now apply (inv_in c I i v w' Hv).
  - destruct (v_out v) as [g|] eqn:E; [|destruct Hw]. destruct Hw as [<-|[]].
    destruct (Nat.lt_ge_cases i (c_nin c)) as [Hlt|Hge].
    + rewrite (inv_out_in c I i v Hv Hlt) in E. discriminate.
    + destruct (inv_out_gate c I i v Hv Hge) as [g' [E' H]]. congruence.
Qed.

Lemma mark_public_ok c i c' : Inv c -> mark_variable_as_public i c = (c', Ok tt) ->
  exists w, c' = set_pub c (c_pub c ++ [w]) /\ var_of_wire c w = Some i.
Proof.
  intros I H. unfold mark_variable_as_public, bind, query, get_var in H.
  destruct (nth_error (c_vars c) i) as [v|] eqn:Ev; [|discriminate].
  destruct (v_out v) as [g|] eqn:Eo.
  - unfold mark_wire_as_public, modify in H. injection H as <-. exists (WOut g). split; auto.
    apply (var_in_wire c i v); auto. unfold var_wires. rewrite Eo. apply in_app_iff. right. now left.
  - destruct (first_in v) as [w|] eqn:Ef; [|discriminate]. unfold mark_wire_as_public, modify in H. injection H as <-.
    exists (WIn w). split; auto. apply (var_in_wire c i v); auto. unfold var_wires. apply in_app_iff. left.
    unfold first_in in Ef. destruct (v_in v); [discriminate|]. injection Ef as ->. now left.
Qed.

(** *** evaluation *)
Lemma set_vars_id (c : circ F) : set_vars c (c_vars c) = c.
Proof. destruct c; reflexivity. Qed.
Definition skel (v : var F) := (v_in v, v_out v).

Lemma assign_all_spec (input : list F) (vs : list (var F)) :
  length (assign_all input vs) = length vs /\
  map skel (assign_all input vs) = map skel vs /\
  (length input <= length vs -> forall i, (i < length input)%nat ->
     exists v, nth_error (assign_all input vs) i = Some v /\ v_val v = Some (coef input i))%nat.
Proof.
  revert vs; induction input as [|x input IH]; intros vs.
  - cbn. destruct vs; repeat split; auto; cbn; intros; lia.
  - destruct vs as [|v vs]; cbn [assign_all].
    + repeat split; auto. cbn. lia.
    + destruct (IH vs) as [H1 [H2 H3]]. cbn [length map]. rewrite H1, H2. repeat split; auto.
      intros HL i Hi. destruct i as [|i]; cbn [nth_error].
      * eexists. split; [reflexivity|]. reflexivity.
      * destruct (H3 ltac:(lia) i ltac:(lia)) as [u [E1 E2]]. exists u. split; auto.
Qed.

Lemma skel_nth (vs vs' : list (var F)) i v : map skel vs' = map skel vs -> nth_error vs i = Some v ->
  exists v', nth_error vs' i = Some v' /\ v_out v' = v_out v /\ v_in v' = v_in v.
Proof.
  intros H Hi. pose proof (map_nth_error skel i vs Hi) as E. rewrite <- H in E.
  destruct (nth_error vs' i) as [v'|] eqn:E'.
  - rewrite (map_nth_error skel i vs' E') in E. injection E as E1 E2. eauto.
  - apply nth_error_None in E'. assert (nth_error (map skel vs') i = None) as N by (apply nth_error_None; now rewrite map_length).
    congruence.
Qed.
Lemma skel_upd (vs : list (var F)) i v' v : nth_error vs i = Some v -> skel v' = skel v ->
  map skel (upd vs i (fun _ => v')) = map skel vs.
Proof.
  revert i; induction vs as [|u vs IH]; intros [|i] H E; cbn in *; try discriminate.
  - injection H as ->. now rewrite E.
  - now rewrite (IH i).
Qed.

(** values assigned to the first n variables satisfy the gates among them *)
Definition partial_vals (c : circ F) (inp : list F) (vs : list (var F)) (n : nat) (val : nat -> F) : Prop :=
  map skel vs = map skel (c_vars c) /\
  (forall i, (i < n)%nat -> exists v, nth_error vs i = Some v /\ v_val v = Some (val i)) /\
  (forall i, (i < c_nin c)%nat -> (i < n)%nat -> val i = coef inp i) /\
  (forall g, In g (c_add c) -> (g_o g < n)%nat -> val (g_o g) = val (g_l g) + val (g_r g)) /\
  (forall g, In g (c_mul c) -> (g_o g < n)%nat -> val (g_o g) = val (g_l g) * val (g_r g)) /\
  (forall g, In g (c_const c) -> (cg_o g < n)%nat -> val (cg_o g) = cg_v g).

Lemma get_val_partial (c : circ F) vs i (x : F) v : nth_error vs i = Some v -> v_val v = Some x ->
  get_var_value (set_vars c vs) i = Ok x.
Proof. intros H1 H2. unfold get_var_value, get_var. cbn. rewrite H1. cbn. now rewrite H2. Qed.

Definition upd_val (val : nat -> F) (n : nat) (x : F) : nat -> F := fun i => if (i =? n)%nat then x else val i.

Lemma out_unique c k k' g g' : Inv c -> nth_error (c_add c) k = Some g -> nth_error (c_add c) k' = Some g' ->
  g_o g = g_o g' -> g = g'.
Proof.
  intros I H H' E. destruct (inv_add c I k g H) as [_ [_ [v [A B]]]].
  destruct (inv_add c I k' g' H') as [_ [_ [v' [A' B']]]]. rewrite E in A. rewrite A in A'. injection A' as <-.
  rewrite B in B'. injection B' as <-. congruence.
Qed.
Lemma eval_step (c : circ F) inp vs n val : Inv c -> partial_vals c inp vs n val -> (c_nin c <= n)%nat -> (n < nv c)%nat ->
  exists g vs' x v, nth_error vs n = Some v /\ v_out v = Some g /\
    eval_gate g (set_vars c vs) = (set_vars c vs', Ok tt) /\ partial_vals c inp vs' (S n) (upd_val val n x).
Proof.
  intros I [P1 [P2 [P3 [P4 [P5 P6]]]]] Hn Hlt.
  destruct (nth_error_ex _ (c_vars c) n Hlt) as [v0 Hv0].
  destruct (inv_out_gate c I n v0 Hv0 Hn) as [g [Eg Hg]].
  destruct (skel_nth _ _ _ _ P1 Hv0) as [v [Ev [Eo Ei]]].
  assert (forall x, let vs' := upd vs n (fun _ => mkVar (v_in v) (v_out v) (Some x)) in
     map skel vs' = map skel (c_vars c) /\
     (forall i, (i < S n)%nat -> exists u, nth_error vs' i = Some u /\ v_val u = Some (upd_val val n x i))) as HU.
  { intros x vs'. split.
    - unfold vs'. rewrite (skel_upd vs n _ v); auto.
    - intros i Hi. unfold vs'. rewrite nth_error_upd. unfold upd_val. destruct (Nat.eqb_spec i n) as [->|Hne].
      + rewrite Ev. eexists. split; reflexivity.
      + apply P2. lia. }
  assert (forall x, (forall g', In g' (c_add c) -> (g_o g' < S n)%nat -> g_o g' = n -> x = val (g_l g') + val (g_r g')) ->
     (forall g', In g' (c_mul c) -> (g_o g' < S n)%nat -> g_o g' = n -> x = val (g_l g') * val (g_r g')) ->
     (forall g', In g' (c_const c) -> (cg_o g' < S n)%nat -> cg_o g' = n -> x = cg_v g') ->
     partial_vals c inp (upd vs n (fun _ => mkVar (v_in v) (v_out v) (Some x))) (S n) (upd_val val n x)) as HP.
  { intros x HA HM HC. destruct (HU x) as [U1 U2]. split; [exact U1|]. split; [exact U2|]. repeat split.
    - intros i Hi Hi'. unfold upd_val. destruct (Nat.eqb_spec i n); [lia|]. apply P3; lia.
    - intros g' Hg' Ho. pose proof Hg' as Hk. apply nth_error_In_iff in Hk. destruct Hk as [k Hk].
      destruct (inv_add c I k g' Hk) as [L [R _]]. unfold upd_val at 2 3.
      destruct (Nat.eqb_spec (g_l g') n); [lia|]. destruct (Nat.eqb_spec (g_r g') n); [lia|].
      unfold upd_val. destruct (Nat.eqb_spec (g_o g') n); [now apply HA|]. apply P4; auto; lia.
    - intros g' Hg' Ho. pose proof Hg' as Hk. apply nth_error_In_iff in Hk. destruct Hk as [k Hk].
      destruct (inv_mul c I k g' Hk) as [L [R _]]. unfold upd_val at 2 3.
      destruct (Nat.eqb_spec (g_l g') n); [lia|]. destruct (Nat.eqb_spec (g_r g') n); [lia|].
      unfold upd_val. destruct (Nat.eqb_spec (g_o g') n); [now apply HM|]. apply P5; auto; lia.
    - intros g' Hg' Ho. unfold upd_val. destruct (Nat.eqb_spec (cg_o g') n); [now apply HC|]. apply P6; auto; lia. }
  (* any gate with output n is the gate g *)
  assert (forall g', In g' (c_add c) -> g_o g' = n -> exists k, g = OAdd k /\ nth_error (c_add c) k = Some g') as UA.
  { intros g' Hg' Ho. apply nth_error_In_iff in Hg'. destruct Hg' as [k Hk]. exists k.
    destruct (inv_add c I k g' Hk) as [_ [_ [u [A B]]]]. rewrite Ho, Hv0 in A. injection A as <-. split; auto. congruence. }
  assert (forall g', In g' (c_mul c) -> g_o g' = n -> exists k, g = OMul k /\ nth_error (c_mul c) k = Some g') as UM.
  { intros g' Hg' Ho. apply nth_error_In_iff in Hg'. destruct Hg' as [k Hk]. exists k.
    destruct (inv_mul c I k g' Hk) as [_ [_ [u [A B]]]]. rewrite Ho, Hv0 in A. injection A as <-. split; auto. congruence. }
  assert (forall g', In g' (c_const c) -> cg_o g' = n -> exists k, g = OConst k /\ nth_error (c_const c) k = Some g') as UC.
  { intros g' Hg' Ho. apply nth_error_In_iff in Hg'. destruct Hg' as [k Hk]. exists k.
    destruct (inv_const c I k g' Hk) as [u [A B]]. rewrite Ho, Hv0 in A. injection A as <-. split; auto. congruence. }
  exists g. destruct g as [k|k|k]; cbn in Hg.
  - destruct (nth_error (c_add c) k) as [g|] eqn:Ek; [|discriminate]. cbn in Hg. injection Hg as Hg.
    destruct (inv_add c I k g Ek) as [L [R _]].
    destruct (P2 (g_l g) ltac:(lia)) as [vl [El Vl]]. destruct (P2 (g_r g) ltac:(lia)) as [vr [Er Vr]].
    exists (upd vs n (fun _ => mkVar (v_in v) (v_out v) (Some (val (g_l g) + val (g_r g))))), (val (g_l g) + val (g_r g)), v.
    split; [auto|]. split; [congruence|]. split.
    + unfold eval_gate, bind, query, set_var, with_var. cbn [c_add set_vars]. rewrite Ek. cbn [unwrap_opt].
      rewrite (get_val_partial c vs _ _ _ El Vl), (get_val_partial c vs _ _ _ Er Vr). cbn [c_vars set_vars].
      rewrite Hg, Ev. reflexivity.
    + apply HP.
      * intros g' H1 _ H2. destruct (UA g' H1 H2) as [k' [E1 E2]]. injection E1 as <-. congruence.
      * intros g' H1 _ H2. destruct (UM g' H1 H2) as [k' [E1 E2]]. discriminate.
      * intros g' H1 _ H2. destruct (UC g' H1 H2) as [k' [E1 E2]]. discriminate.
  - destruct (nth_error (c_mul c) k) as [g|] eqn:Ek; [|discriminate]. cbn in Hg. injection Hg as Hg.
    destruct (inv_mul c I k g Ek) as [L [R _]].
    destruct (P2 (g_l g) ltac:(lia)) as [vl [El Vl]]. destruct (P2 (g_r g) ltac:(lia)) as [vr [Er Vr]].
    exists (upd vs n (fun _ => mkVar (v_in v) (v_out v) (Some (val (g_l g) * val (g_r g))))), (val (g_l g) * val (g_r g)), v.
    split; [auto|]. split; [congruence|]. split.
    + unfold eval_gate, bind, query, set_var, with_var. cbn [c_mul set_vars]. rewrite Ek. cbn [unwrap_opt].
      rewrite (get_val_partial c vs _ _ _ El Vl), (get_val_partial c vs _ _ _ Er Vr). cbn [c_vars set_vars].
      rewrite Hg, Ev. reflexivity.
    + apply HP.
      * intros g' H1 _ H2. destruct (UA g' H1 H2) as [k' [E1 E2]]. discriminate.
      * intros g' H1 _ H2. destruct (UM g' H1 H2) as [k' [E1 E2]]. injection E1 as <-. congruence.
      * intros g' H1 _ H2. destruct (UC g' H1 H2) as [k' [E1 E2]]. discriminate.
  - destruct (nth_error (c_const c) k) as [g|] eqn:Ek; [|discriminate]. cbn in Hg. injection Hg as Hg.
    exists (upd vs n (fun _ => mkVar (v_in v) (v_out v) (Some (cg_v g)))), (cg_v g), v.
    split; [auto|]. split; [congruence|]. split.
    + unfold eval_gate, bind, query, set_var, with_var. cbn [c_const set_vars]. rewrite Ek. cbn [unwrap_opt].
      cbn [c_vars set_vars]. rewrite Hg, Ev. reflexivity.
    + apply HP.
      * intros g' H1 _ H2. destruct (UA g' H1 H2) as [k' [E1 E2]]. discriminate.
      * intros g' H1 _ H2. destruct (UM g' H1 H2) as [k' [E1 E2]]. discriminate.
      * intros g' H1 _ H2. destruct (UC g' H1 H2) as [k' [E1 E2]]. injection E1 as <-. congruence.
Qed.

Lemma eval_from_ok (c : circ F) inp : Inv c -> forall m n vs val, partial_vals c inp vs n val -> (c_nin c <= n)%nat -> (n + m = nv c)%nat ->
  exists vs' val', eval_from n m (set_vars c vs) = (set_vars c vs', Ok tt) /\ partial_vals c inp vs' (nv c) val'.
Proof.
  intros I. induction m as [|m IH]; intros n vs val P Hn Hm.
  - exists vs, val. split; [reflexivity|]. replace (nv c) with n by lia. exact P.
  - destruct (eval_step c inp vs n val I P Hn ltac:(lia)) as [g [vs' [x [v [E1 [E2 [E3 P']]]]]]].
    cbn [eval_from]. unfold bind at 1, query, get_var. cbn [c_vars set_vars]. rewrite E1. cbn. rewrite E2.
    unfold bind. rewrite E3. apply (IH (S n) vs' (upd_val val n x) P'); lia.
Qed.

Lemma evaluate_ok (c : circ F) inp : Inv c -> is_complete c = true -> length inp = c_nin c ->
  exists vs val, evaluate inp c = (set_vars c vs, Ok tt) /\ map skel vs = map skel (c_vars c) /\
    (forall i, (i < nv c)%nat -> get_var_value (set_vars c vs) i = Ok (val i)) /\ consistent c inp val.
Proof.
  intros I Hc HL. pose proof (inv_nin c I) as HN.
  destruct (assign_all_spec inp (c_vars c)) as [A1 [A2 A3]].
  assert (partial_vals c inp (assign_all inp (c_vars c)) (length inp) (coef inp)) as P0.
  { split; [exact A2|]. split; [apply A3; unfold nv in *; lia|]. repeat split; auto.
    - intros g Hg Ho. apply nth_error_In_iff in Hg. destruct Hg as [k Hk].
      destruct (inv_add c I k g Hk) as [_ [_ [v [X Y]]]]. rewrite (inv_out_in c I _ v X) in Y by lia. discriminate.
    - intros g Hg Ho. apply nth_error_In_iff in Hg. destruct Hg as [k Hk].
      destruct (inv_mul c I k g Hk) as [_ [_ [v [X Y]]]]. rewrite (inv_out_in c I _ v X) in Y by lia. discriminate.
    - intros g Hg Ho. apply nth_error_In_iff in Hg. destruct Hg as [k Hk].
      destruct (inv_const c I k g Hk) as [v [X Y]]. rewrite (inv_out_in c I _ v X) in Y by lia. discriminate. }
  destruct (eval_from_ok c inp I (nv c - length inp) (length inp) _ _ P0 ltac:(lia) ltac:(lia)) as [vs [val [E P]]].
  exists vs, val. destruct P as [P1 [P2 [P3 [P4 [P5 P6]]]]]. repeat split; auto.
  - unfold evaluate, assign_global_inputs, bind, query, get_input_size, assert_complete. rewrite Hc. cbn [obind].
    unfold assert_size. rewrite <- HL, Nat.eqb_refl. unfold modify, gets. cbn [c_vars set_vars]. rewrite A1. exact E.
  - intros i Hi. destruct (P2 i Hi) as [v [X Y]]. now apply (get_val_partial c vs i _ v).
  - intros i Hi. apply P3; lia.
  - intros g Hg. apply P4; auto. now apply gate_out_lt; auto.
  - intros g Hg. apply P5; auto. now apply gate_out_lt; auto.
  - intros g Hg. apply P6; auto. now apply cgate_out_lt.
Qed.
End CP.

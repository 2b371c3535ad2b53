(** R1CSCircTop.v: end-to-end lemmas about R1CS -> circuit -> POV. *)
From Verif Require Import Base Spec ProgSpec Tools MatProofs CS CSProofs POVProofs Circuit CircuitProofs Build CircuitPOV CircuitTop R1CSCirc R1CSCircProofs.
From Coq Require Import Permutation.
Local Open Scope F_scope.

Section RT.
Context {F : Type} {fo : FieldOps F} {fl : FieldLaws F}.
Add Field Frt : F_th.
Implicit Types (c : circ F) (s : R1CS F).

(** *** marking as complete *)
Lemma complete_generic c : Inv c -> (0 < c_nin c)%nat -> (forall i, (i < c_nin c)%nat -> wired c i) ->
  exists outs, mark_as_complete c = (set_outs c outs, Ok tt) /\ is_complete (set_outs c outs) = true /\ wiring_ok c.
Proof.
  intros I H0 HU. unfold mark_as_complete. destruct (Nat.eqb_spec (c_nin c) 0); [lia|]. pose proof (inv_nin c I) as HN.
  assert (forallb connected_var (c_vars c) = true) as HC.
  { apply forallb_nth_error. intros i v Hv. unfold connected_var. destruct (Nat.lt_ge_cases i (c_nin c)) as [Hlt|Hge].
    - apply HU in Hlt. apply (gate_has_inwire c i v I Hv) in Hlt. now rewrite Hlt.
    - destruct (inv_out_gate c I i v Hv Hge) as [g [Hg _]]. unfold is_gate_output. rewrite Hg. apply orb_true_r. }
  destruct (scan_vars 0 (c_vars c) (c_outs c)) as [outs r] eqn:Es.
  assert (r = Ok tt) as ->.
  { assert (X := proj2 (scan_vars_ok 0 (c_vars c) (c_outs c) _) (conj HC eq_refl)). rewrite Es in X. now injection X. }
  apply scan_vars_ok in Es. destruct Es as [_ Eo].
  cut (is_complete (set_outs c outs) = true); [intros EC; rewrite EC; exists outs; auto|].
  destruct (nv c) as [|m] eqn:Em; [lia|].
  destruct (nth_error_ex _ (c_vars c) m) as [v Hv]; [unfold nv in Em; lia|].
  assert (is_gate_input v = false) as Hi.
  { destruct (is_gate_input v) eqn:Ei; auto. apply (gate_has_inwire c m v I Hv) in Ei. destruct Ei as [g [Hg Hlr]].
    pose proof (gate_out_lt c g I Hg) as Ho. destruct Hg as [Hg|Hg]; apply In_nth_error in Hg; destruct Hg as [k Hk];
    [destruct (inv_add c I k g Hk) as [? [? _]]|destruct (inv_mul c I k g Hk) as [? [? _]]]; lia. }
  unfold is_complete. cbn. destruct outs as [|o outs']; auto. exfalso.
  symmetry in Eo. apply app_eq_nil in Eo. destruct Eo as [_ Eo].
  assert (In m (map fst (filter (fun iv => negb (is_gate_input (snd iv))) (combine (seq 0 (length (c_vars c))) (c_vars c))))) as X.
  { apply in_map_iff. exists (m, v). split; auto. apply filter_In. cbn. rewrite Hi. split; auto.
    apply nth_error_In with (n:=m).
    assert (forall (l : list (var F)) (b k : nat) x, nth_error l k = Some x -> nth_error (combine (seq b (length l)) l) k = Some ((b + k)%nat, x)) as HX.
    { induction l as [|y l IHl]; intros b [|k] x Hx; cbn in *; try discriminate.
      - injection Hx as <-. now rewrite Nat.add_0_r.
      - rewrite (IHl (S b) k x Hx). now replace (b + S k)%nat with (S b + k)%nat by lia. }
    rewrite (HX _ 0%nat m v Hv). reflexivity. }
  rewrite Eo in X. destruct X.
Qed.
Lemma complete_fails c : Inv c -> (c_nin c = 0%nat \/ exists i, (i < c_nin c)%nat /\ ~ wired c i) ->
  exists c' e, mark_as_complete c = (c', Err e).
Proof.
  intros I H. unfold mark_as_complete. destruct (Nat.eqb_spec (c_nin c) 0) as [|Hne]; [eauto|].
  destruct H as [H|[i [Hi Hw]]]; [lia|]. pose proof (inv_nin c I) as HN.
  destruct (nth_error_ex _ (c_vars c) i) as [v Hv]; [unfold nv in *; lia|].
  assert (connected_var v = false) as Hcv.
  { unfold connected_var, is_gate_output. rewrite (inv_out_in c I i v Hv Hi). destruct (is_gate_input v) eqn:E; auto.
    exfalso. apply Hw. now apply (gate_has_inwire c i v I Hv). }
  assert (forallb connected_var (c_vars c) = false) as HF.
  { destruct (forallb connected_var (c_vars c)) eqn:E; auto. pose proof (proj1 (forallb_nth_error _ _) E i v Hv). congruence. }
  destruct (scan_vars_err 0 (c_vars c) (c_outs c) HF) as [k' [outs' [E1 _]]]. rewrite E1. eauto.
Qed.

(** *** inputs *)
Lemma inputs_ok l : forall c, Inv c -> no_gate c = true ->
  exists c', mapM (fun _ : nat => unwrapM add_global_input_variable) l c = (c', Ok (seq (nv c) (length l))) /\
    Inv c' /\ no_gate c' = true /\ c_nin c' = (c_nin c + length l)%nat /\ c_pub c' = c_pub c /\ c_eqs c' = c_eqs c /\ c_outs c' = c_outs c.
Proof.
  induction l as [|x l IH]; intros c I HN.
  - exists c. cbn. rewrite Nat.add_0_r. auto 10.
  - destruct (add_input_ok c I HN) as [c1 [E [Ec [I1 En]]]].
    assert (no_gate c1 = true) as HN1 by (rewrite Ec; exact HN).
    destruct (IH c1 I1 HN1) as [c' [E2 [I2 [N2 [L2 [P2 [Q2 O2]]]]]]].
    exists c'. cbn [mapM]. rewrite (bind_eq _ _ c c1 (nv c)) by (unfold unwrapM; now rewrite E).
    rewrite (bind_eq _ _ _ _ _ E2). cbn [ret]. rewrite Ec in *. cbn [c_nin set_nin c_pub c_eqs c_outs set_vars] in *.
    unfold nv in *. cbn [c_vars set_nin set_vars] in *. rewrite app_length in *. cbn [length] in *.
    replace (length (c_vars c) + 1)%nat with (S (length (c_vars c))) by lia. cbn [seq]. 
    split; auto. split; auto. split; auto. split; [lia|]. auto.
Qed.

Lemma const_wire c x c' o : Inv c -> const_var x c = (c', Ok o) -> exists k, var_of_wire c' (WOut (OConst k)) = Some o.
Proof.
  intros I E. unfold const_var in E. unfold bind at 1 in E. unfold gets at 1 in E.
  destruct (lookupF x (c_constc c)) as [o'|] eqn:El.
  - injection E as <- <-. apply lookupF_In in El. apply (inv_constc c I) in El.
    apply In_nth_error in El. destruct El as [k El]. exists k. cbn. rewrite El. reflexivity.
  - rewrite (const_gate_ok c x I) in E. injection E as <- <-. exists (length (c_const c)). cbn. rewrite nth_error_snoc, Nat.eqb_refl. reflexivity.
Qed.

(** *** public inputs *)
Lemma pubs_ok l : forall c, Inv c -> (forall i, In i l -> (i < c_nin c)%nat /\ wired c i) ->
  exists ws us, mapM (fun x => unwrapM (mark_variable_as_public x)) l c = (set_pub c (c_pub c ++ ws), Ok us) /\
    map (var_of_wire c) ws = map Some l /\ Inv (set_pub c (c_pub c ++ ws)).
Proof.
  induction l as [|i l IH]; intros c I H.
  - exists [], []. cbn. rewrite app_nil_r. assert (set_pub c (c_pub c) = c) as -> by (destruct c; reflexivity). auto.
  - destruct (H i (or_introl eq_refl)) as [Hi Hw]. pose proof (inv_nin c I) as HN.
    destruct (nth_error_ex _ (c_vars c) i) as [v Hv]; [unfold nv in *; lia|].
    pose proof (proj2 (gate_has_inwire c i v I Hv) Hw) as Hg.
    assert (exists w, mark_variable_as_public i c = (set_pub c (c_pub c ++ [w]), Ok tt)) as [w E].
    { unfold mark_variable_as_public, bind, query, get_var. rewrite Hv, (inv_out_in c I i v Hv Hi).
      unfold first_in. unfold is_gate_input in Hg. destruct (v_in v) as [|w ws]; [discriminate|]. exists (WIn w). reflexivity. }
    destruct (mark_public_ok c i _ I E) as [w' [Ew Hw']].
    assert (w' = w) as ->.
    { apply (f_equal c_pub) in Ew. cbn in Ew. apply app_inv_head in Ew. congruence. }
    set (c1 := set_pub c (c_pub c ++ [w])) in *.
    assert (I1 : Inv c1) by now apply (inv_change_pub c w i).
    destruct (IH c1 I1) as [ws [us [E2 [V2 I2]]]].
    { intros j Hj. exact (H j (or_intror Hj)). }
    exists (w :: ws), (tt :: us). cbn [mapM].
    rewrite (bind_eq _ _ c c1 tt) by (unfold unwrapM; now rewrite E). rewrite (bind_eq _ _ _ _ _ E2). cbn [ret].
    assert (set_pub c1 (c_pub c1 ++ ws) = set_pub c (c_pub c ++ w :: ws)) as Eq.
    { unfold c1. cbn. rewrite <- app_assoc. reflexivity. }
    rewrite <- Eq. split; auto. split; auto. cbn [map]. f_equal; auto.
Qed.

(** *** keys are non-zero *)
Lemma map_push_keys (Q : F -> Prop) v p m : Q v -> (forall g, In g m -> Q (fst g)) -> forall g, In g (map_push (F:=F) v p m) -> Q (fst g).
Proof.
  intros Hv. induction m as [|[u l] m IH]; intros Hm g; cbn.
  - intros [<-|[]]. exact Hv.
  - destruct (feqb_spec u v).
    + intros [<-|Hg]; [exact (Hm (u, l) (or_introl eq_refl))|apply Hm; now right].
    + intros [<-|Hg]; [exact (Hm (u, l) (or_introl eq_refl))|]. apply IH; auto. intros g' Hg'. apply Hm. now right.
Qed.
Lemma push_matrix_keys t f rows cols vals m : (forall v : F, v <> 0 -> f v <> 0) ->
  (forall g, In g m -> fst g <> 0) -> forall g, In g (push_matrix t f rows cols vals m) -> fst g <> 0.
Proof.
  intros Hf. unfold push_matrix.
  assert (forall e, In e (filter (fun e : nat * nat * F => negb (is_zero (snd e))) (combine (combine rows cols) vals)) -> snd e <> 0) as HE.
  { intros e He. apply filter_In in He. destruct He as [_ He]. destruct (is_zero_spec (snd e)); [discriminate|auto]. }
  revert HE. generalize (filter (fun e : nat * nat * F => negb (is_zero (snd e))) (combine (combine rows cols) vals)) as l.
  intros l. revert m. induction l as [|[[r c] v] l IH]; intros m HE Hm; cbn [fold_left]; auto.
  apply IH; [intros; apply HE; now right|]. apply (map_push_keys (fun x => x <> 0)); auto. apply Hf. exact (HE (r, c, v) (or_introl eq_refl)).
Qed.
Lemma keys_nz s g : In g (value_to_position_lists s) -> fst g <> 0.
Proof.
  unfold value_to_position_lists. apply push_matrix_keys.
  - intros v Hv E. apply Hv. replace v with (- - v) by ring. rewrite E. ring.
  - apply push_matrix_keys; auto. apply push_matrix_keys; auto.
Qed.

(** *** items and entries *)
Definition entA s := entries_of (r_arows s) (r_acols s) (r_avals s).
Definition entB s := entries_of (r_brows s) (r_bcols s) (r_bvals s).
Definition entC s := entries_of (r_crows s) (r_ccols s) (r_cvals s).
Definition ents s := entA s ++ entB s ++ entC s.
Lemma mat_items_In t (f : F -> F) l r (c : nat) t' : (forall v, v <> 0 -> f v <> 0) ->
  ((exists v, In (v, (r, c, t')) (mat_items t f l)) <-> t' = t /\ exists x, In (r, c, x) l /\ x <> 0).
Proof.
  intros Hf. unfold mat_items. split.
  - intros [v H]. apply in_map_iff in H. destruct H as [[[r0 c0] x] [E H]]. injection E as <- <- <- <-. apply filter_In in H.
    destruct H as [H Hz]. split; auto. exists x. split; auto. unfold nz in Hz. cbn in Hz. destruct (is_zero_spec x); [discriminate|auto].
  - intros [-> [x [H Hz]]]. exists (f x). apply in_map_iff. exists (r, c, x). split; auto. apply filter_In. split; auto.
    unfold nz. cbn. destruct (is_zero_spec x); [contradiction|reflexivity].
Qed.
Lemma neg_nz (v : F) : v <> 0 -> - v <> 0.
Proof. intros Hv E. apply Hv. replace v with (- - v) by ring. rewrite E. ring. Qed.
Lemma all_items_In s r (c : nat) : (exists v t, In (v, (r, c, t)) (all_items s)) <-> exists x, In (r, c, x) (ents s) /\ x <> 0.
Proof.
  unfold all_items, ents. split.
  - intros [v [t H]]. rewrite !in_app_iff in H. destruct H as [H|[H|H]];
    (match type of H with In _ (mat_items ?t0 ?f ?l) => pose proof (proj1 (mat_items_In t0 f l r c t ltac:(auto using neg_nz)) (ex_intro _ v H)) as [_ [x [Hx Hz]]] end);
    exists x; rewrite !in_app_iff; auto.
  - intros [x [H Hz]]. rewrite !in_app_iff in H.
    destruct H as [H|[H|H]].
    + destruct (proj2 (mat_items_In MA (fun v => v) (entA s) r c MA ltac:(auto))) as [v Hv]; [split; eauto|].
      exists v, MA. rewrite !in_app_iff. auto.
    + destruct (proj2 (mat_items_In MB (fun v => v) (entB s) r c MB ltac:(auto))) as [v Hv]; [split; eauto|].
      exists v, MB. rewrite !in_app_iff. auto.
    + destruct (proj2 (mat_items_In MC (fun v => - v) (entC s) r c MC ltac:(auto using neg_nz))) as [v Hv]; [split; eauto|].
      exists v, MC. rewrite !in_app_iff. auto.
Qed.
Lemma shape_filter (l : entries (F:=F)) h k : nonzero_in_shape l h k -> in_shape (filter nz l) h k.
Proof.
  intros H r c x Hx. apply filter_In in Hx. destruct Hx as [Hx Hz]. apply (H r c x Hx).
  unfold nz in Hz. cbn in Hz. destruct (is_zero_spec x); [discriminate|auto].
Qed.

Definition conv_pre s : Prop :=
  (2 <= r_ncols s)%nat /\ nonzero_in_shape (ents s) (r_nrows s) (r_ncols s) /\
  (forall j, (1 <= j < r_ncols s)%nat -> column_used (ents s) j).

Record converted s c : Prop := {
  cv_inv : Inv c; cv_nin : c_nin c = (r_ncols s - 1)%nat; cv_wir : wiring_ok c; cv_com : is_complete c = true;
  cv_pub : map (var_of_wire c) (c_pub c) = map Some (firstn (r_input_size s) (seq 0 (r_ncols s - 1)));
  cv_eqs : forall inp val, consistent c inp val ->
     (eqs_hold c val <-> r1cs_holds (entA s) (entB s) (entC s) (r_nrows s) (r_ncols s) (1 :: inp)) }.

Lemma nth_repeat_nil {A} n r : nth r (repeat (@nil A) n) [] = [].
Proof. revert r; induction n; intros [|r]; cbn; auto. Qed.

Lemma combine_nth3 (a b d : list nat) h : length a = h -> length b = h -> length d = h ->
  forall x y z, In (x, y, z) (combine (combine a b) d) <-> exists r, (r < h)%nat /\ x = nth r a 0%nat /\ y = nth r b 0%nat /\ z = nth r d 0%nat.
Proof.
  intros La Lb Ld x y z. split.
  - intros H. apply (In_nth _ _ (0, 0, 0)%nat) in H. destruct H as [r [Hr H]]. rewrite !combine_length in Hr.
    exists r. split; [lia|]. rewrite combine_nth in H by (rewrite combine_length; lia). rewrite combine_nth in H by lia. injection H as <- <- <-. auto.
  - intros [r [Hr [-> [-> ->]]]].
    replace (nth r a 0%nat, nth r b 0%nat, nth r d 0%nat) with (nth r (combine (combine a b) d) (0,0,0)%nat)
      by (rewrite combine_nth by (rewrite combine_length; lia); rewrite combine_nth by lia; reflexivity).
    apply nth_In. rewrite !combine_length. lia.
Qed.

Lemma conv_main ord s : (forall m, Permutation (ord m) m) ->
  (conv_pre s -> exists c, r1cs_to_circuit ord s new_circ = (c, Ok tt) /\ converted s c) /\
  (~ conv_pre s -> snd (r1cs_to_circuit ord s new_circ) = Panic).
Proof.
  intros HO. unfold r1cs_to_circuit. destruct (Nat.eqb_spec (r_ncols s) 0) as [E0|E0].
  { split; [intros [H _]; lia|reflexivity]. }
  set (n := (r_ncols s - 1)%nat). set (gs := ord (value_to_position_lists s)).
  assert (HI : Permutation (items gs) (all_items s)).
  { rewrite <- items_all. unfold items, gs. apply Permutation_flat_map. apply HO. }
  set (Used := fun i => exists v r t, In (v, (r, S i, t)) (items gs)).
  destruct (inputs_ok (seq 0 n) new_circ inv_new eq_refl) as [c0 [E [I0 [N0 [L0 [P0 [Q0 O0]]]]]]].
  rewrite (bind_eq _ _ _ _ _ E). rewrite seq_length in *. change (nv (new_circ (F:=F))) with 0%nat in *. cbn in L0.
  assert (G0 : G n Used c0).
  { constructor; auto. intros i Hi [g [Hg _]]. exfalso. unfold gates_in in Hg. unfold no_gate in N0.
    destruct (c_add c0), (c_mul c0); try discriminate. destruct Hg as [[]|[]]. }
  destruct (const_full n Used c0 0 G0) as [c1 [zero [E1 [G1 [X1 [Gz [Nz Vz]]]]]]].
  rewrite (bind_eq _ _ _ _ _ E1). destruct (const_wire c0 0 c1 zero I0 E1) as [kz Kz].
  destruct (consts_ok n Used gs c1 G1) as [c2 [cv [E2 [G2 [X2 [Lcv H2]]]]]].
  rewrite (bind_eq _ _ _ _ _ E2).
  set (h := r_nrows s). set (empty := repeat (@nil nat) h).
  pose proof (extends_lec _ _ X2) as L2.
  assert (HP : P n Used h [] c2 (empty, empty, empty)).
  { constructor; auto.
    - intros t. destruct t; cbn; apply repeat_length.
    - intros t r x. destruct t; cbn; unfold empty; rewrite nth_repeat_nil; intros [].
    - intros inp val Hc t r Hr. destruct t; cbn; unfold empty; rewrite nth_repeat_nil; reflexivity.
    - intros v r ci t [].
    - intros v r ci t []. }
  assert (Hmap : map fst (combine gs cv) = gs).
  { clear -Lcv. revert cv Lcv. induction gs as [|g l IH]; intros [|x cv] HL; cbn in *; try lia; auto. now rewrite IH by lia. }
  assert (Hpos : forall p, In p (flat_map (fun g => snd (fst g)) (combine gs cv)) <-> exists v, In (v, p) (items gs)).
  { intros p. assert (items gs = items (map fst (combine gs cv))) as -> by now rewrite Hmap. unfold items. rewrite in_flat_map. split.
    - intros [[g x] [Hg Hp]]. exists (fst g). apply in_flat_map. exists g. split; [apply in_map_iff; now exists (g, x)|].
      apply in_map_iff. now exists p.
    - intros [v Hv]. apply in_flat_map in Hv. destruct Hv as [g [Hg Hv]]. apply in_map_iff in Hg. destruct Hg as [[g' x] [<- Hg]].
      exists (g', x). split; auto. apply in_map_iff in Hv. destruct Hv as [p' [Ep Hp]]. injection Ep as _ <-. exact Hp. }
  destruct (mul_groups n Used h zero (combine gs cv)) with (done := @nil (item (F:=F))) (c := c2) (rows := (empty, empty, empty)) as [M1 M2]; auto.
  { intros g x Hgx. split; [|split].
    - apply (keys_nz s). apply (Permutation_in _ (HO _)). now apply in_combine_l in Hgx.
    - now apply (H2 g x).
    - intros [[r ci] t] Hp. cbn. intros Hci _. exists (fst g), r, t. replace (S (ci - 1)) with ci by lia.
      unfold items. apply in_flat_map. exists g. split; [now apply in_combine_l in Hgx|]. apply in_map_iff. eauto. }
  { intros g x Hgx. destruct (H2 g x Hgx) as [A [B C]]. auto. }
  rewrite Hmap in M1.
  assert (HNS : nonzero_in_shape (ents s) (r_nrows s) (r_ncols s) <-> (forall p, In p (flat_map (fun g => snd (fst g)) (combine gs cv)) -> rng n h p)).
  { split.
    - intros HS [[r ci] t] Hp. apply Hpos in Hp. destruct Hp as [v Hv]. apply (Permutation_in _ HI) in Hv.
      destruct (proj1 (all_items_In s r ci)) as [x [Hx Hz]]; [eauto|]. destruct (HS r ci x Hx Hz). unfold rng, n, h. lia.
    - intros HR r ci x Hx Hz. destruct (proj2 (all_items_In s r ci)) as [v [t Hv]]; [eauto|].
      apply (Permutation_in _ (Permutation_sym HI)) in Hv.
      specialize (HR (r, ci, t) (proj2 (Hpos _) (ex_intro _ v Hv))). unfold rng, n, h in HR. lia. }
  assert (HUsed : forall i, Used i <-> column_used (ents s) (S i)).
  { intros i. unfold Used, column_used. split.
    - intros [v [r [t H]]]. apply (Permutation_in _ HI) in H. destruct (proj1 (all_items_In s r (S i))) as [x Hx]; eauto.
    - intros [r [x Hx]]. destruct (proj2 (all_items_In s r (S i))) as [v [t Hv]]; [eauto|]. exists v, r, t.
      apply (Permutation_in _ (Permutation_sym HI)). exact Hv. }
  assert (Hdec : (forall p, In p (flat_map (fun g => snd (fst g)) (combine gs cv)) -> rng n h p) \/
                 exists p, In p (flat_map (fun g => snd (fst g)) (combine gs cv)) /\ ~ rng n h p).
  { generalize (flat_map (fun g : F * list pos * nat => snd (fst g)) (combine gs cv)) as l. induction l as [|[[r ci] t] l IH]; [left; intros p []|].
    assert (rng n h (r, ci, t) \/ ~ rng n h (r, ci, t)) as [A|A] by (cbn; lia).
    - destruct IH as [IH|[p [Hp Hn]]]; [left; intros p [<-|Hp]; auto|right; exists p; split; auto; now right].
    - right. exists (r, ci, t). split; auto. now left. }
  destruct Hdec as [Hall|Hex].
  2:{ split.
      - intros [_ [HS _]]. exfalso. destruct Hex as [p [Hp Hr]]. apply Hr. now apply HNS.
      - intros _. apply bind_panic. now apply M2. }
  destruct (M1 Hall) as [c3 [rows [E3 [X3 HP3]]]]. cbn [app] in HP3. rewrite (bind_eq _ _ _ _ _ E3).
  destruct rows as [[ra rb] rc]. pose proof (extends_lec _ _ X3) as L3.
  pose proof (P_len _ _ _ _ _ _ HP3) as WL. pose proof (WL MA) as LA. pose proof (WL MB) as LB. pose proof (WL MC) as LC. cbn in LA, LB, LC.
  pose proof (P_G _ _ _ _ _ _ HP3) as G3.
  assert (Gz3 : good n Used c3 zero) by (apply (good_le _ _ c2); auto; now apply (good_le _ _ c1)).
  assert (Vz3 : forall inp val, consistent c3 inp val -> val zero = 0).
  { intros inp val Hc. apply (Vz inp). apply (le_con _ _ L2), (le_con _ _ L3), Hc. }
  destruct (sum_rows_ok n Used ra c3 zero G3 Gz3 Vz3 (P_good _ _ _ _ _ _ HP3 MA)) as [c4 [sa [E4 [G4 [X4 [Lsa [Gsa [Vsa Wsa]]]]]]]].
  pose proof (extends_lec _ _ X4) as L4. rewrite (bind_eq _ _ _ _ _ E4).
  destruct (sum_rows_ok n Used rb c4 zero G4 (good_le _ _ _ _ _ L4 Gz3)) as [c5 [sb [E5 [G5 [X5 [Lsb [Gsb [Vsb Wsb]]]]]]]].
  { intros inp val Hc. apply (Vz3 inp). apply (le_con _ _ L4), Hc. }
  { intros r y Hy. apply (good_le _ _ c3); auto. exact (P_good _ _ _ _ _ _ HP3 MB r y Hy). }
  pose proof (extends_lec _ _ X5) as L5. pose proof (lec_trans _ _ _ L4 L5) as L35. rewrite (bind_eq _ _ _ _ _ E5).
  destruct (sum_rows_ok n Used rc c5 zero G5 (good_le _ _ _ _ _ L35 Gz3)) as [c6 [sc [E6 [G6 [X6 [Lsc [Gsc [Vsc Wsc]]]]]]]].
  { intros inp val Hc. apply (Vz3 inp). apply (le_con _ _ L35), Hc. }
  { intros r y Hy. apply (good_le _ _ c3); auto. exact (P_good _ _ _ _ _ _ HP3 MC r y Hy). }
  pose proof (extends_lec _ _ X6) as L6. pose proof (lec_trans _ _ _ L35 L6) as L36. rewrite (bind_eq _ _ _ _ _ E6).
  pose proof (lec_trans _ _ _ L5 L6) as L46.
  destruct (constraints_ok n Used (combine (combine sa sb) sc) c6 zero G6 (good_le _ _ _ _ _ L36 Gz3)) as [c7 [E7 [[us Eu] [G7 [L7 [V7 W7]]]]]]; auto.
  { exists kz. apply (var_of_wire_extends c5 c6); auto. apply (var_of_wire_extends c4 c5); auto. apply (var_of_wire_extends c3 c4); auto.
    apply (var_of_wire_extends c2 c3); auto. apply (var_of_wire_extends c1 c2); auto. }
  { intros inp val Hc. apply (Vz3 inp). apply (le_con _ _ L36), Hc. }
  { intros a b d Habd. apply (combine_nth3 sa sb sc h) in Habd; try lia. destruct Habd as [r [Hr [-> [-> ->]]]]. split; [|split].
    - apply (good_le _ _ c4); auto. apply Gsa. lia.
    - apply (good_le _ _ c5); auto. apply Gsb. lia.
    - apply Gsc. lia. }
  destruct (mapM (row_constraint zero) (combine (combine sa sb) sc) c6) as [c7' r7] eqn:E7'. cbn in E7, Eu. subst c7' r7.
  rewrite (bind_eq _ _ _ _ _ E7').
  assert (HW : forall i, (i < n)%nat -> (wired c7 i <-> Used i)).
  { intros i Hi. split; [apply (G_used _ _ _ G7); auto|]. intros [v [r [t Hv]]].
    assert (r < h)%nat as Hr by apply (P_rng _ _ _ _ _ _ HP3 v r (S i) t Hv).
    destruct (P_used _ _ _ _ _ _ HP3 v r i t Hv) as [Hw|Hin].
    - apply (le_wired _ _ L7), (le_wired _ _ L36), Hw.
    - assert (In (nth r sa 0, nth r sb 0, nth r sc 0)%nat (combine (combine sa sb) sc)) as Hin3.
      { apply (combine_nth3 sa sb sc h); try lia. exists r. auto. }
      destruct (W7 _ _ _ Hin3) as [WA [WB WC]]. destruct t; cbn [rows_at] in Hin.
      + destruct (Wsa r i Hin) as [H|<-]; auto. apply (le_wired _ _ L7), (le_wired _ _ L46), H.
      + destruct (Wsb r i Hin) as [H|<-]; auto. apply (le_wired _ _ L7), (le_wired _ _ L6), H.
      + destruct (Wsc r i Hin) as [H|<-]; auto. apply (le_wired _ _ L7), H. }
  pose proof (G_inv _ _ _ G7) as I7. pose proof (G_nin _ _ _ G7) as N7.
  assert (Hcase : ((0 < n)%nat /\ forall i, (i < n)%nat -> wired c7 i) \/ (n = 0%nat \/ exists i, (i < n)%nat /\ ~ wired c7 i)).
  { assert (forall i, (i < n)%nat -> wired c7 i \/ ~ wired c7 i) as Hd.
    { intros i Hi. pose proof (inv_nin c7 I7) as HN7. destruct (nth_error_ex _ (c_vars c7) i) as [v Hv]; [unfold nv in *; lia|].
      pose proof (gate_has_inwire c7 i v I7 Hv) as Hiff. unfold wired. destruct (is_gate_input v); [left; now apply Hiff|right; intros X; apply Hiff in X; discriminate]. }
    destruct n as [|n']; [now right; left|].
    assert (forall m, (m <= S n')%nat -> (forall i, (i < m)%nat -> wired c7 i) \/ exists i, (i < m)%nat /\ ~ wired c7 i) as HH.
    { induction m as [|m IH]; intros Hm; [left; intros; lia|]. destruct IH as [IH|[i [Hi Hw]]]; [lia| |right; exists i; split; auto; lia].
      destruct (Hd m ltac:(lia)) as [Y|Y]; [left; intros i Hi; destruct (Nat.eq_dec i m) as [->|]; auto; apply IH; lia|right; exists m; split; auto; lia]. }
    destruct (HH (S n') ltac:(lia)) as [A|A]; [left; split; auto; lia|right; right; exact A]. }
  destruct Hcase as [[Hn0 Hw]|Hbad].
  2:{ split.
      - intros [H1 [H3 H4]]. exfalso. destruct Hbad as [|[i [Hi Hw]]]; [unfold n in *; lia|].
        apply Hw. apply (HW i Hi). apply HUsed. apply H4. unfold n in Hi. lia.
      - intros _. apply bind_panic. unfold unwrapM.
        destruct (complete_fails c7 I7) as [c' [e Ee]]; [rewrite N7; exact Hbad|]. rewrite Ee. reflexivity. }
  destruct (complete_generic c7 I7) as [outs [E8 [C8 W8]]]; [lia|rewrite N7; exact Hw|].
  rewrite (bind_eq _ _ c7 (set_outs c7 outs) tt) by (unfold unwrapM; now rewrite E8).
  set (c8 := set_outs c7 outs) in *.
  assert (I8 : Inv c8) by now apply inv_change_outs.
  destruct (pubs_ok (firstn (r_input_size s) (seq 0 n)) c8 I8) as [ws [us' [E9 [V9 I9]]]].
  { intros i Hi. assert (In i (seq 0 n)) as Hs.
    { rewrite <- (firstn_skipn (r_input_size s) (seq 0 n)). apply in_app_iff. now left. }
    apply in_seq in Hs. cbn. rewrite N7. split; [lia|]. apply Hw. lia. }
  rewrite (bind_eq _ _ _ _ _ E9). cbn [ret].
  split; [intros HC|intros HC; exfalso; apply HC; split; [unfold n in Hn0; lia|split; [now apply HNS|]];
    intros j Hj; replace j with (S (j - 1)) by lia; apply HUsed; apply HW; [unfold n; lia|apply Hw; unfold n; lia]].
  assert (c_pub c8 = []) as HP8.
  { cbn. rewrite (le_pub _ _ L7), (le_pub _ _ L36), (le_pub _ _ L3), (le_pub _ _ L2), (le_pub _ _ (extends_lec _ _ X1)). exact P0. }
  rewrite HP8 in *. cbn [app] in *.
  eexists. split; [reflexivity|]. constructor.
  - exact I9.
  - exact N7.
  - exact W8.
  - exact C8.
  - change (c_pub (set_pub c8 ws)) with ws. fold n. rewrite <- V9. apply map_ext. intros w. destruct w as [[? []|? []]|[]]; reflexivity.
  - intros inp val [Y1 Y2 Y3 Y4].
    assert (Hc7 : consistent c7 inp val) by (constructor; auto).
    change (eqs_hold (set_pub c8 ws) val) with (eqs_hold c7 val). rewrite (V7 inp val Hc7).
    assert (Eq6 : c_eqs c6 = []).
    { transitivity (c_eqs c5); [apply X6|]. transitivity (c_eqs c4); [apply X5|]. transitivity (c_eqs c3); [apply X4|].
      transitivity (c_eqs c2); [apply X3|]. transitivity (c_eqs c1); [apply X2|]. transitivity (c_eqs c0); [apply X1|]. exact Q0. }
    assert (eqs_hold c6 val) as HE6 by (intros x y; rewrite Eq6; intros []).
    pose proof (le_con _ _ L7 _ _ Hc7) as Hc6. pose proof (le_con _ _ L6 _ _ Hc6) as Hc5. pose proof (le_con _ _ L5 _ _ Hc5) as Hc4.
    pose proof (le_con _ _ L4 _ _ Hc4) as Hc3.
    pose proof HC as [_ [HS _]].
    assert (HSA : nonzero_in_shape (entA s) (r_nrows s) (r_ncols s)) by (intros r ci x Hx; apply (HS r ci x); unfold ents; rewrite !in_app_iff; auto).
    assert (HSB : nonzero_in_shape (entB s) (r_nrows s) (r_ncols s)) by (intros r ci x Hx; apply (HS r ci x); unfold ents; rewrite !in_app_iff; auto).
    assert (HSC : nonzero_in_shape (entC s) (r_nrows s) (r_ncols s)) by (intros r ci x Hx; apply (HS r ci x); unfold ents; rewrite !in_app_iff; auto).
    assert (Hrow : forall t r z, row_of t r z (items gs) = row_of t r z (all_items s)) by (intros; now apply row_of_perm).
    assert (HA : forall r, (r < h)%nat -> val (nth r sa 0%nat) = mat_vec (entA s) (r_ncols s) (1 :: inp) r).
    { intros r Hr. rewrite (Vsa inp val Hc4 r) by lia. change ra with (rows_at MA (ra, rb, rc)).
      rewrite (P_sum _ _ _ _ _ _ HP3 inp val Hc3 MA r Hr), Hrow. unfold all_items. rewrite !row_of_app.
      rewrite !mat_items_other by reflexivity. unfold entA in HSA.
      rewrite (mat_items_same MA (fun v => v) _ (r_nrows s) (r_ncols s)); [unfold entA; ring|intros; ring|now apply shape_filter]. }
    assert (HB : forall r, (r < h)%nat -> val (nth r sb 0%nat) = mat_vec (entB s) (r_ncols s) (1 :: inp) r).
    { intros r Hr. rewrite (Vsb inp val Hc5 r) by lia. change rb with (rows_at MB (ra, rb, rc)).
      rewrite (P_sum _ _ _ _ _ _ HP3 inp val Hc3 MB r Hr), Hrow. unfold all_items. rewrite !row_of_app.
      rewrite (mat_items_other MC) by reflexivity. rewrite (mat_items_other MA) by reflexivity. unfold entB in HSB.
      rewrite (mat_items_same MB (fun v => v) _ (r_nrows s) (r_ncols s)); [unfold entB; ring|intros; ring|now apply shape_filter]. }
    assert (HCC : forall r, (r < h)%nat -> val (nth r sc 0%nat) = - mat_vec (entC s) (r_ncols s) (1 :: inp) r).
    { intros r Hr. rewrite (Vsc inp val Hc6 r) by lia. change rc with (rows_at MC (ra, rb, rc)).
      rewrite (P_sum _ _ _ _ _ _ HP3 inp val Hc3 MC r Hr), Hrow. unfold all_items. rewrite !row_of_app.
      rewrite (mat_items_other MB) by reflexivity. rewrite (mat_items_other MA) by reflexivity. unfold entC in HSC.
      rewrite (mat_items_same MC (fun v => - v) _ (r_nrows s) (r_ncols s)); [unfold entC; ring|intros; ring|now apply shape_filter]. }
    unfold r1cs_holds. fold h. split.
    + intros [_ H] r Hr. specialize (H (nth r sa 0%nat) (nth r sb 0%nat) (nth r sc 0%nat)).
      rewrite (HA r Hr), (HB r Hr), (HCC r Hr) in H.
      assert (In (nth r sa 0%nat, nth r sb 0%nat, nth r sc 0%nat) (combine (combine sa sb) sc)) as Hin.
      { apply (combine_nth3 sa sb sc h); try lia. exists r. auto. }
      specialize (H Hin).
      set (x := mat_vec (entA s) _ _ _) in *. set (y := mat_vec (entB s) _ _ _) in *. set (z := mat_vec (entC s) _ _ _) in *.
      transitivity (x * y + - z + z); [ring|]. rewrite H. ring.
    + intros H. split; auto. intros a b d Habd. apply (combine_nth3 sa sb sc h) in Habd; try lia. destruct Habd as [r [Hr [-> [-> ->]]]].
      rewrite (HA r Hr), (HB r Hr), (HCC r Hr), (H r Hr). ring.
Qed.
End RT.

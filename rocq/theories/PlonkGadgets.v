(** PlonkGadgets.v: what the gates and gadgets enforce. *)
From Verif Require Import Base Tools KZG SnarkProofs Plonk PlonkSpec PlonkProofs.
Local Open Scope F_scope.

Section PlonkGadgets.
Context {F : Type} {fo : FieldOps F} {fl : FieldLaws F} {po : PrimeFieldOps F} {pl : PrimeFieldLaws F}.
Add Field Fpg : F_th.
Variables ca cd : F.
Implicit Types (c : composer F) (s : sel F) (a : nat -> F).
Notation satisfies := (satisfies ca cd).
Notation honest := (honest ca cd).
Notation computes := (computes ca cd).
Notation enforces := (enforces ca cd).

(** c' extends c by gates that restrict the assignments to those with R *)
Record ext c c' (R : (nat -> F) -> Prop) : Prop := {
  ext_wf : wf c';
  ext_n : (nvars c <= nvars c')%nat;
  ext_zero : c_zero c' = c_zero c;
  ext_table : c_table c' = c_table c;
  ext_vals : forall v, (v < nvars c)%nat -> values c' v = values c v;
  ext_sat : forall a, satisfies c' a <-> satisfies c a /\ R a }.

Lemma ext_refl c : wf c -> ext c c (fun _ => True).
Proof. intros W. split; auto. tauto. Qed.
Lemma ext_trans c c1 c2 R1 R2 : ext c c1 R1 -> ext c1 c2 R2 -> ext c c2 (fun a => R1 a /\ R2 a).
Proof.
  intros A B. split.
  - apply (ext_wf _ _ _ B).
  - pose proof (ext_n _ _ _ A). pose proof (ext_n _ _ _ B). lia.
  - rewrite (ext_zero _ _ _ B). apply (ext_zero _ _ _ A).
  - rewrite (ext_table _ _ _ B). apply (ext_table _ _ _ A).
  - intros v Hv. pose proof (ext_n _ _ _ A). rewrite (ext_vals _ _ _ B) by lia. now apply (ext_vals _ _ _ A).
  - intros a. rewrite (ext_sat _ _ _ B), (ext_sat _ _ _ A). tauto.
Qed.
Lemma ext_iff c c' R R' : ext c c' R -> (forall a, R a <-> R' a) -> ext c c' R'.
Proof. intros A E. split; try apply A. intros a. now rewrite (ext_sat _ _ _ A), E. Qed.
Lemma ext_input v c : wf c -> ext c (snd (add_input v c)) (fun _ => True).
Proof.
  intros W. split.
  - now apply add_input_wf.
  - rewrite add_input_nvars. lia.
  - reflexivity.
  - reflexivity.
  - intros x Hx. unfold values. cbn [add_input snd set_vars c_vals]. apply app_nth1. now rewrite (wf_vals _ W).
  - intros a. rewrite add_input_sat. tauto.
Qed.
Lemma input_value v c : wf c -> values (snd (add_input v c)) (nvars c) = v.
Proof.
  intros W. unfold values. cbn [add_input snd set_vars c_vals]. rewrite <- (wf_vals _ W), app_nth2, Nat.sub_diag by lia. reflexivity.
Qed.
Lemma ext_gate x y o f s pi c c' : wf c -> no_next s -> add_gate x y o f s pi c = Ok c' ->
  ext c c' (fun a => row1_ok (c_table c) s (pi_val pi) (a x) (a y) (a o) (a f)) /\ nvars c' = nvars c /\
  (x < nvars c /\ y < nvars c /\ o < nvars c /\ f < nvars c)%nat.
Proof.
  intros W HS H. destruct (add_gate_inv ca cd _ _ _ _ _ _ _ _ W HS H) as [W' [N [Z [V [T [L S]]]]]].
  split; [|auto]. split; auto; [lia|]. intros v Hv. unfold values. now rewrite V.
Qed.
Definition arith_eq (m l r o f k pi : F) (x y z t : F) : Prop := m * x * y + l * x + r * y + o * z + f * t + k + pi = 0.
Lemma row1_arith table m l r o f k pi x y z t : row1_ok table (arith_sel m l r o f k) pi x y z t <-> arith_eq m l r o f k pi x y z t.
Proof.
  rewrite <- (row_ok_no_next ca cd _ _ _ _ _ _ _ 0 0 0) by apply arith_no_next. apply arith_ok.
Qed.
Lemma ext_arith x y o f m l r q q4 k pi c c' : wf c -> add_gate x y o f (arith_sel m l r q q4 k) pi c = Ok c' ->
  ext c c' (fun a => arith_eq m l r q q4 k (pi_val pi) (a x) (a y) (a o) (a f)) /\ nvars c' = nvars c /\
  (x < nvars c /\ y < nvars c /\ o < nvars c /\ f < nvars c)%nat.
Proof.
  intros W H. apply ext_gate in H; auto; [|apply arith_no_next]. destruct H as [A B]. split; [|exact B].
  apply (ext_iff _ _ _ _ A). intros a. apply row1_arith.
Qed.
Lemma map_ok v w c : (v < nvars c)%nat -> exists c', add_variable_to_map v w c = Ok c' /\ nvars c' = nvars c.
Proof.
  intros H. unfold add_variable_to_map, nvars in *. destruct (Nat.ltb_spec v (length (c_map c))); [|lia].
  eexists. split; [reflexivity|]. cbn [c_map set_vars]. apply upd_length.
Qed.
Lemma maps_ok v1 v2 v3 v4 i c : (v1 < nvars c)%nat -> (v2 < nvars c)%nat -> (v3 < nvars c)%nat -> (v4 < nvars c)%nat ->
  exists c', add_variables_to_map v1 v2 v3 v4 i c = Ok c' /\ nvars c' = nvars c.
Proof.
  intros. unfold add_variables_to_map.
  destruct (map_ok v1 (Left, i) c) as [c1 [-> N1]]; auto. cbn [obind].
  destruct (map_ok v2 (Right, i) c1) as [c2 [-> N2]]; [congruence|]. cbn [obind].
  destruct (map_ok v3 (Output, i) c2) as [c3 [-> N3]]; [congruence|]. cbn [obind].
  destruct (map_ok v4 (Fourth, i) c3) as [c4 [-> N4]]; [congruence|]. exists c4. split; congruence.
Qed.
Lemma add_pi_ok pi c : (forall v, ~ In (c_n c, v) (c_pi c)) -> exists c', add_pi_opt pi c = Ok c' /\ nvars c' = nvars c.
Proof.
  intros HN. destruct pi as [p|]; cbn [add_pi_opt]; [|eauto].
  unfold add_pi, pi_insert. destruct (existsb _ (c_pi c)) eqn:EX.
  - apply existsb_exists in EX. destruct EX as [[k v] [H1 H2]]. apply Nat.eqb_eq in H2. cbn in H2. subst. now apply HN in H1.
  - destruct (feqb p 0); cbn [obind]; eexists; split; reflexivity.
Qed.
Lemma add_gate_ok x y o f s pi c : wf c -> (x < nvars c)%nat -> (y < nvars c)%nat -> (o < nvars c)%nat -> (f < nvars c)%nat ->
  exists c', add_gate x y o f s pi c = Ok c'.
Proof.
  intros W X Y O T. unfold add_gate.
  destruct (add_pi_ok pi (push_sels [s] (push_wires x y o f c))) as [c1 [-> N1]].
  { intros v Hv. cbn [push_sels set_sel push_wires set_wires c_n c_pi] in Hv. apply (wf_pi _ W) in Hv. lia. }
  cbn [obind]. change (nvars (push_sels [s] (push_wires x y o f c))) with (nvars c) in N1.
  destruct (maps_ok x y o f (c_n c1) c1) as [c2 [-> N2]]; try lia. cbn [obind]. eauto.
Qed.

(** the assignment with the values l for the variables from n on *)
Definition ins (n : nat) (l : list F) a : nat -> F := fun v => if (v <? n)%nat then a v else nth (v - n) l 0.
Lemma ins_old n l a v : (v < n)%nat -> ins n l a v = a v.
Proof. intros H. unfold ins. destruct (Nat.ltb_spec v n); [auto|lia]. Qed.
Lemma ins_new n l a i : ins n l a (n + i) = nth i l 0.
Proof. unfold ins. destruct (Nat.ltb_spec (n + i) n); [lia|]. f_equal. lia. Qed.
Lemma ins_new0 n l a : ins n l a n = nth 0 l 0.
Proof. rewrite <- (ins_new n l a 0). f_equal. lia. Qed.
Lemma ins_newS n l a i : ins n l a (S (n + i)) = nth (S i) l 0.
Proof. rewrite <- (ins_new n l a (S i)). f_equal. lia. Qed.
Lemma ins_same n l a : same_upto n a (ins n l a).
Proof. intros v Hv. now apply ins_old. Qed.

(** from the equations of the gates to the relation *)
Lemma computes_intro c c' o R R' : wf c -> ext c c' R' ->
  (forall a, satisfies c a -> forall y, (exists a', same_upto (nvars c) a a' /\ a' o = y /\ R' a') <-> R a y) ->
  computes c c' o R.
Proof.
  intros W E H a y. split.
  - intros [a' [S1 [O1 S2]]]. apply (ext_sat _ _ _ E) in S2. destruct S2 as [S2 S3].
    pose proof (proj2 (satisfies_same ca cd c a a' W S1) S2) as S4. split; [exact S4|]. apply H; auto. eauto.
  - intros [S1 R1]. apply H in R1; auto. destruct R1 as [a' [S2 [O2 R2]]]. exists a'. split; auto. split; auto.
    apply (ext_sat _ _ _ E). split; auto. exact (proj1 (satisfies_same ca cd c a a' W S2) S1).
Qed.
Lemma enforces_intro c c' R R' : wf c -> ext c c' R' ->
  (forall a, satisfies c a -> (exists a', same_upto (nvars c) a a' /\ R' a') <-> R a) ->
  enforces c c' R.
Proof.
  intros W E H a. split.
  - intros [a' [S1 S2]]. apply (ext_sat _ _ _ E) in S2. destruct S2 as [S2 S3].
    pose proof (proj2 (satisfies_same ca cd c a a' W S1) S2) as S4. split; [exact S4|]. apply H; auto. eauto.
  - intros [S1 R1]. apply H in R1; auto. destruct R1 as [a' [S2 R2]]. exists a'. split; auto.
    apply (ext_sat _ _ _ E). split; auto. exact (proj1 (satisfies_same ca cd c a a' W S2) S1).
Qed.
(** without new variables *)
Lemma enforces_old c c' R : wf c -> ext c c' R -> (forall a a', same_upto (nvars c) a a' -> R a -> R a') -> enforces c c' R.
Proof.
  intros W E H. eapply enforces_intro; eauto. intros a Ha. split.
  - intros [a' [S1 R1]]. eapply H; [|exact R1]. now apply same_upto_sym.
  - intros R1. exists a. split; auto. apply same_upto_refl.
Qed.
Lemma honest_ext c c' R : wf c -> ext c c' R -> honest c' <-> honest c /\ R (values c').
Proof.
  intros W E. unfold PlonkSpec.honest. rewrite (ext_sat _ _ _ E).
  assert (same_upto (nvars c) (values c) (values c')) as SV by (intros v Hv; now apply (ext_vals _ _ _ E)).
  split; intros [A B]; (split; [|exact B]).
  - exact (proj2 (satisfies_same ca cd c (values c) (values c') W SV) A).
  - exact (proj1 (satisfies_same ca cd c (values c) (values c') W SV) A).
Qed.
Lemma honest_zero c : wf c -> honest c -> values c (c_zero c) = 0.
Proof. intros W H. now apply (satisfies_zero ca cd). Qed.

(** *** the basic gates *)
Lemma poly_gate_ext x y o m l r q k pi c c' : wf c -> poly_gate x y o m l r q k pi c = Ok c' ->
  ext c c' (fun a => m * a x * a y + l * a x + r * a y + q * a o + k + pi_val pi = 0) /\ nvars c' = nvars c /\
  (x < nvars c /\ y < nvars c /\ o < nvars c)%nat.
Proof.
  intros W H. unfold poly_gate in H. apply ext_arith in H; auto. destruct H as [A [N B]]. split; [|split; [auto|tauto]].
  apply (ext_iff _ _ _ _ A). intros a. unfold arith_eq. split; intros E; refine (eq_trans _ E); ring.
Qed.
Lemma constrain_ext x k pi c c' : wf c -> constrain_to_constant x k pi c = Ok c' ->
  ext c c' (fun a => a x + pi_val pi = k) /\ nvars c' = nvars c /\ (x < nvars c)%nat.
Proof.
  intros W H. apply poly_gate_ext in H; auto. destruct H as [A [N B]]. split; [|split; [auto|tauto]].
  apply (ext_iff _ _ _ _ A). intros a. split; intros E.
  - replace k with (0 * a x * a x + 1 * a x + 0 * a x + 0 * a x + - k + pi_val pi + k) by (rewrite E; ring). ring.
  - rewrite <- E. ring.
Qed.
Lemma assert_equal_ext x y c c' : wf c -> assert_equal x y c = Ok c' ->
  ext c c' (fun a => a x = a y) /\ nvars c' = nvars c /\ (x < nvars c /\ y < nvars c)%nat.
Proof.
  intros W H. apply poly_gate_ext in H; auto. destruct H as [A [N B]]. split; [|split; [auto|tauto]].
  apply (ext_iff _ _ _ _ A). intros a. cbn [pi_val]. split; intros E.
  - transitivity (0 * a x * a y + 1 * a x + - (1) * a y + 0 * a (c_zero c) + 0 + 0 + a y); [ring|rewrite E; ring].
  - rewrite E. ring.
Qed.
Lemma boolean_ext x c o c' : wf c -> boolean_gate x c = Ok (o, c') ->
  o = x /\ ext c c' (fun a => a x = 0 \/ a x = 1) /\ nvars c' = nvars c /\ (x < nvars c)%nat.
Proof.
  intros W H. unfold boolean_gate in H. apply obind_ok in H. destruct H as [d [E H]]. injection H as <- <-.
  apply ext_arith in E; auto. destruct E as [A [N B]]. split; [auto|]. split; [|split; [auto|tauto]].
  apply (ext_iff _ _ _ _ A). intros a. unfold arith_eq. cbn [pi_val]. split; intros E.
  - assert (a x * (a x - 1) = 0) as E1 by (refine (eq_trans _ E); ring). apply fmul_integral in E1. destruct E1 as [E1|E1]; [auto|].
    right. transitivity (a x - 1 + 1); [ring|]. rewrite E1. ring.
  - destruct E as [E|E]; rewrite E; ring.
Qed.
Lemma witness_ext v c x c' : wf c -> add_witness_to_circuit_description v c = Ok (x, c') ->
  x = nvars c /\ nvars c' = S (nvars c) /\ ext c c' (fun a => a x = v) /\ values c' x = v.
Proof.
  intros W H. unfold add_witness_to_circuit_description in H. destruct (add_input v c) as [x1 c1] eqn:EI.
  apply obind_ok in H. destruct H as [c2 [E H]]. injection H as <- <-.
  pose proof (ext_input v c W) as A. pose proof (input_value v c W) as V. pose proof (add_input_nvars v c) as N. pose proof (add_input_var v c) as X.
  rewrite EI in A, V, N, X. cbn [fst snd] in A, V, N, X. subst x1.
  apply constrain_ext in E; [|apply (ext_wf _ _ _ A)]. destruct E as [B [N2 L]].
  split; [auto|]. split; [lia|]. split.
  - apply (ext_iff _ _ _ _ (ext_trans _ _ _ _ _ A B)). intros a. cbn [pi_val]. split.
    + intros [_ E]. refine (eq_trans _ E). ring.
    + intros E. split; auto. rewrite E. ring.
  - rewrite (ext_vals _ _ _ B) by lia. exact V.
Qed.

(** *** arithmetic gates *)
Definition g_in4 c (g : gate F) : F * nat := match g_fan_in_3 g with Some qv => qv | None => (0, c_zero c) end.
Definition g_lin c (g : gate F) (x y : nat) a : F :=
  g_mul g * a x * a y + fst (g_add g) * a x + snd (g_add g) * a y + fst (g_in4 c g) * a (snd (g_in4 c g)) + g_const g + pi_val (g_pi g).
Lemma arithmetic_ext_some g x y o c out c' : wf c -> g_witness g = Some (x, y, Some o) -> arithmetic_gate g c = Ok (out, c') ->
  out = o /\ nvars c' = nvars c /\ ext c c' (fun a => g_lin c g x y a + g_out g * a o = 0) /\
  (x < nvars c /\ y < nvars c /\ o < nvars c /\ snd (g_in4 c g) < nvars c)%nat.
Proof.
  intros W EG H. unfold arithmetic_gate in H. rewrite EG in H. fold (g_in4 c g) in H. unfold g_lin. destruct (g_in4 c g) as [q4 w4].
  cbn [obind fst snd] in *. apply obind_ok in H. destruct H as [d [E H]]. injection H as <- <-.
  apply ext_arith in E; auto. destruct E as [A [N B]]. split; [auto|]. split; [auto|]. split; [|auto].
  apply (ext_iff _ _ _ _ A). intros a. unfold arith_eq. split; intros E; refine (eq_trans _ E); ring.
Qed.
Lemma arithmetic_ext_none g x y c out c' : wf c -> g_witness g = Some (x, y, None) -> arithmetic_gate g c = Ok (out, c') ->
  out = nvars c /\ nvars c' = S (nvars c) /\ ext c c' (fun a => g_lin c g x y a + g_out g * a out = 0) /\
  (x < nvars c /\ y < nvars c /\ snd (g_in4 c g) < nvars c)%nat /\
  values c' out = g_lin c g x y (values c) * - g_out g.
Proof.
  intros W EG H. unfold arithmetic_gate in H. rewrite EG in H. fold (g_in4 c g) in H. unfold g_lin. destruct (g_in4 c g) as [q4 w4].
  cbn [fst snd] in *. apply obind_ok in H. destruct H as [[o c1] [E1 H]].
  apply obind_ok in E1. destruct E1 as [va [Va E1]]. apply obind_ok in E1. destruct E1 as [vb [Vb E1]].
  apply obind_ok in E1. destruct E1 as [v4 [V4 E1]].
  apply value_inv in Va; auto. destruct Va as [Lx ->]. apply value_inv in Vb; auto. destruct Vb as [Ly ->].
  apply value_inv in V4; auto. destruct V4 as [L4 ->].
  match type of E1 with Ok (add_input ?v c) = _ => set (v0 := v) in E1 end.
  pose proof (ext_input v0 c W) as A. pose proof (input_value v0 c W) as V. pose proof (add_input_nvars v0 c) as N. pose proof (add_input_var v0 c) as X.
  assert (add_input v0 c = (o, c1)) as EI by congruence. rewrite EI in A, V, N, X. cbn [fst snd] in A, V, N, X. subst o.
  apply obind_ok in H. destruct H as [d [E H]]. injection H as <- <-.
  apply ext_arith in E; [|apply (ext_wf _ _ _ A)]. destruct E as [B [N2 L]].
  split; [auto|]. split; [lia|]. split; [|split].
  - apply (ext_iff _ _ _ _ (ext_trans _ _ _ _ _ A B)). intros a. unfold arith_eq. split.
    + intros [_ E]. refine (eq_trans _ E). ring.
    + intros E. split; auto. refine (eq_trans _ E). ring.
  - auto.
  - rewrite (ext_vals _ _ _ B) by lia. rewrite V. unfold v0, pi_val. ring.
Qed.
Lemma arithmetic_ok g x y o c : wf c -> g_witness g = Some (x, y, o) -> (x < nvars c)%nat -> (y < nvars c)%nat ->
  (forall o', o = Some o' -> (o' < nvars c)%nat) -> (forall q v, g_fan_in_3 g = Some (q, v) -> (v < nvars c)%nat) ->
  exists out c', arithmetic_gate g c = Ok (out, c').
Proof.
  intros W EG X Y O T. unfold arithmetic_gate. rewrite EG.
  assert (snd (g_in4 c g) < nvars c)%nat as L4.
  { unfold g_in4. destruct (g_fan_in_3 g) as [[q v]|] eqn:E; cbn [snd]; [now apply (T q v)|apply (wf_zero _ W)]. }
  fold (g_in4 c g). destruct (g_in4 c g) as [q4 w4]. cbn [snd] in L4.
  destruct o as [o|].
  - cbn [obind]. edestruct (add_gate_ok x y o w4) as [c1 ->]; eauto. cbn [obind]. eauto.
  - rewrite !value_ok by auto. cbn [obind]. match goal with |- context [add_input ?v c] => set (v0 := v) end.
    pose proof (add_input_nvars v0 c) as N. pose proof (add_input_wf v0 c W) as W1. destruct (add_input v0 c) as [o c1] eqn:EI.
    cbn [snd] in *. assert (o = nvars c) as -> by (unfold add_input in EI; unfold nvars; congruence).
    edestruct (add_gate_ok x y (nvars c) w4) as [c2 ->]; eauto; try lia. cbn [obind]. eauto.
Qed.
End PlonkGadgets.

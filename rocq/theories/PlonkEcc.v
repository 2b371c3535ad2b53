(** PlonkEcc.v: the small gadgets on curve points; scalar multiplication as a function. *)
From Verif Require Import Base Tools KZG SnarkProofs Plonk PlonkSpec PlonkProofs PlonkGadgets PlonkSelect PlonkRange PlonkRows PlonkLogic PlonkPoint PlonkFixed PlonkVarBase.
Local Open Scope F_scope.

Section PlonkEcc.
Context {F : Type} {fo : FieldOps F} {fl : FieldLaws F} {po : PrimeFieldOps F} {pl : PrimeFieldLaws F}.
Add Field Fecc : F_th.
Variables ca cd : F.
Implicit Types (c : composer F) (a : nat -> F).
Notation satisfies := (satisfies ca cd).
Notation honest := (honest ca cd).
Notation ext := (ext ca cd).
Notation total := (total ca cd).
Notation add_rel := (add_rel ca cd).
Notation te_add := (te_add ca cd).
Notation on_curve := (on_curve ca cd).
#[local] Opaque add_gate assert_equal constrain_to_constant arithmetic_gate conditional_select conditional_select_zero conditional_select_one add_witness_to_circuit_description.

Ltac glin := unfold g_lin, g_in4; cbn [g_mul g_add g_const g_pi g_out g_fan_in_3 with_mul with_add with_const with_fan_in_3 gate_of fst snd pi_val].
Lemma witness_total v c x c' : wf c -> add_witness_to_circuit_description v c = Ok (x, c') ->
  total c c' (fun a => a x = v) /\ x = nvars c /\ nvars c' = S (nvars c).
Proof.
  intros W H. apply (witness_ext ca cd) in H; auto. destruct H as [-> [N [E V]]]. split; [|auto].
  apply (total_of_ext ca cd _ _ _ _ E); auto.
  - intros a Ha. exists (ins (nvars c) [v] a). split; [apply ins_same|]. apply (ext_sat _ _ _ _ _ E). split.
    + apply (satisfies_same ca cd _ _ _ W (ins_same (nvars c) [v] a)). exact Ha.
    + rewrite ins_new0. reflexivity.
  - rewrite (honest_ext ca cd _ _ _ W E). tauto.
Qed.
Lemma identity_total c p c' : wf c -> point_identity c = Ok (p, c') -> total c c' (fun a => pnt p a = (0, 1)) /\ below_pt p (nvars c').
Proof.
  intros W H. unfold point_identity in H. apply obind_ok in H. destruct H as [[one c1] [E H]]. injection H as <- <-.
  apply witness_total in E; auto. destruct E as [T [-> N]]. pose proof (t_wf _ _ _ _ _ T) as W1. split.
  - apply (total_weak ca cd _ _ _ _ T). intros a Ha Q. unfold pnt. cbn [fst snd]. rewrite Q, (satisfies_zero ca cd _ _ W1 Ha). reflexivity.
  - split; cbn [fst snd]; [|lia]. apply (wf_zero _ W1).
Qed.
Lemma equal_point_ext p q c c' : wf c -> assert_equal_point p q c = Ok c' ->
  ext c c' (fun a => pnt p a = pnt q a) /\ nvars c' = nvars c /\ below_pt p (nvars c) /\ below_pt q (nvars c).
Proof.
  intros W H. unfold assert_equal_point in H. apply obind_ok in H. destruct H as [c1 [E1 E2]].
  apply (assert_equal_ext ca cd) in E1; auto. destruct E1 as [X1 [N1 L1]]. apply (assert_equal_ext ca cd) in E2; [|apply X1]. destruct E2 as [X2 [N2 L2]].
  split; [|split; [lia|split; split; lia]]. eapply ext_iff; [eapply ext_trans; [exact X1|exact X2]|]. intros a. unfold pnt. cbv beta. split; [intros [-> ->]; reflexivity|intros Q; injection Q; auto].
Qed.
Lemma public_point_ext p (v : F * F) c c' : wf c -> assert_equal_public_point p v c = Ok c' ->
  ext c c' (fun a => pnt p a = v) /\ nvars c' = nvars c /\ below_pt p (nvars c).
Proof.
  intros W H. unfold assert_equal_public_point in H. apply obind_ok in H. destruct H as [c1 [E1 E2]].
  apply (constrain_ext ca cd) in E1; auto. destruct E1 as [X1 [N1 L1]]. apply (constrain_ext ca cd) in E2; [|apply X1]. destruct E2 as [X2 [N2 L2]].
  split; [|split; [lia|split; lia]]. eapply ext_iff; [eapply ext_trans; [exact X1|exact X2]|]. intros a. unfold pnt. cbv beta. cbn [pi_val]. destruct v as [vx vy]. cbn [fst snd].
  assert (forall x y : F, x + - y = 0 <-> x = y) as Q.
  { intros x y. split; intros K; [transitivity (x + - y + y); [ring|rewrite K; ring]|rewrite K; ring]. }
  rewrite !Q. split; [intros [-> ->]; reflexivity|intros K; injection K; auto].
Qed.
Lemma affine_ext (v : F * F) c p c' : wf c -> add_affine v c = (p, c') ->
  ext c c' (fun _ => True) /\ p = (nvars c, S (nvars c)) /\ nvars c' = S (S (nvars c)) /\ pnt p (values c') = v.
Proof.
  intros W H. unfold add_affine in H.
  set (c1 := snd (add_input (fst v) c)) in *. change (add_input (fst v) c) with (nvars c, c1) in H. cbv iota beta in H.
  set (c2 := snd (add_input (snd v) c1)) in *. change (add_input (snd v) c1) with (nvars c1, c2) in H. cbv iota beta in H. injection H as <- <-.
  assert (nvars c1 = S (nvars c)) as N1 by apply add_input_nvars. assert (nvars c2 = S (nvars c1)) as N2 by apply add_input_nvars.
  pose proof (ext_input ca cd (fst v) c W) as X1. fold c1 in X1. pose proof (ext_wf _ _ _ _ _ X1) as W1. pose proof (ext_input ca cd (snd v) c1 W1) as X2. fold c2 in X2.
  split; [eapply ext_iff; [eapply ext_trans; [exact X1|exact X2]|]; cbn; tauto|]. rewrite N1 in *. split; [reflexivity|]. split; [exact N2|].
  unfold pnt. cbn [fst snd]. rewrite (ext_vals _ _ _ _ _ X2) by lia. unfold c1 at 1. rewrite input_value by auto. rewrite <- N1. unfold c2. rewrite input_value by auto. symmetry. apply surjective_pairing.
Qed.
Lemma public_affine_total (v : F * F) c p c' : wf c -> add_public_affine v c = Ok (p, c') -> total c c' (fun a => pnt p a = v) /\ p = (nvars c, S (nvars c)) /\ below_pt p (nvars c').
Proof.
  intros W H. unfold add_public_affine in H. destruct (add_affine v c) as [[x y] c1] eqn:E1. apply affine_ext in E1; auto. destruct E1 as [X1 [EP [N1 V1]]]. pose proof (ext_wf _ _ _ _ _ X1) as W1.
  apply obind_ok in H. destruct H as [c2 [E2 H]]. injection H as <- <-. apply public_point_ext in E2; auto. destruct E2 as [X2 [N2 L2]].
  split; [|split; [exact EP|now rewrite N2]].
  assert (ext c c2 (fun a => pnt (x, y) a = v)) as X by (eapply ext_iff; [eapply ext_trans; [exact X1|exact X2]|]; cbn; tauto). clear X1.
  injection EP as -> ->. apply (total_of_ext ca cd _ _ _ _ X); auto.
  - intros a Ha. exists (ins (nvars c) [fst v; snd v] a). split; [apply ins_same|]. apply (ext_sat _ _ _ _ _ X). split.
    + apply (satisfies_same ca cd _ _ _ W (ins_same (nvars c) [fst v; snd v] a)). exact Ha.
    + unfold pnt. cbn [fst snd]. rewrite ins_new0. rewrite <- (Nat.add_1_r (nvars c)), ins_new. cbn. symmetry. apply surjective_pairing.
  - rewrite (honest_ext ca cd _ _ _ W X). split; [tauto|]. intros HH. split; auto. rewrite <- V1. unfold pnt. cbn [fst snd]. rewrite !(ext_vals _ _ _ _ _ X2) by lia. reflexivity.
Qed.
Lemma description_affine_total (v : F * F) c p c' : wf c -> add_affine_to_circuit_description v c = Ok (p, c') -> total c c' (fun a => pnt p a = v) /\ below_pt p (nvars c').
Proof.
  intros W H. unfold add_affine_to_circuit_description in H. apply obind_ok in H. destruct H as [[x c1] [E1 H]]. apply obind_ok in H. destruct H as [[y c2] [E2 H]]. injection H as <- <-.
  apply witness_total in E1; auto. destruct E1 as [T1 [-> N1]]. apply witness_total in E2; [|apply T1]. destruct E2 as [T2 [-> N2]].
  split; [|split; cbn [fst snd]; lia]. apply (total_weak ca cd _ _ _ _ (total_trans ca cd _ _ _ _ _ T1 T2)). intros a Ha [Q1 Q2]. unfold pnt. cbn [fst snd]. rewrite Q1, Q2. symmetry. apply surjective_pairing.
Qed.
(** the point x * p1 + (1 - x) * p0, coordinate by coordinate *)
Definition blend (x : F) (p1 p0 : F * F) : F * F := (x * fst p1 + (1 - x) * fst p0, x * snd p1 + (1 - x) * snd p0).
Lemma blend_bit b p1 p0 : blend (fbit b) p1 p0 = if b then p1 else p0.
Proof. unfold blend, fbit. destruct b, p1 as [x1 y1], p0 as [x0 y0]; cbn [bit_Z fst snd]; rewrite ?from_Z_1, ?from_Z_0; f_equal; ring. Qed.
Lemma point_select_total p1 p0 bit c p c' : wf c -> below_pt p1 (nvars c) -> below_pt p0 (nvars c) -> conditional_point_select p1 p0 bit c = Ok (p, c') ->
  total c c' (fun a => pnt p a = blend (a bit) (pnt p1 a) (pnt p0 a)) /\ below_pt p (nvars c').
Proof.
  intros W B1 B0 H. unfold conditional_point_select in H. apply obind_ok in H. destruct H as [[x c1] [E1 H]]. apply obind_ok in H. destruct H as [[y c2] [E2 H]]. injection H as <- <-.
  apply (cond_select_total ca cd) in E1; auto. destruct E1 as [T1 [O1 [L1 _]]]. pose proof (t_n _ _ _ _ _ T1).
  apply (cond_select_total ca cd) in E2; [|apply T1]. destruct E2 as [T2 [O2 [L2 _]]]. pose proof (t_n _ _ _ _ _ T2).
  split; [|split; cbn [fst snd]; lia]. apply (total_weak ca cd _ _ _ _ (total_trans ca cd _ _ _ _ _ T1 T2)). intros a Ha [Q1 Q2]. unfold pnt, blend. cbn [fst snd]. rewrite Q1, Q2. reflexivity.
Qed.
Lemma point_neg_total bit p c q c' : wf c -> below_pt p (nvars c) -> conditional_point_neg bit p c = Ok (q, c') ->
  total c c' (fun a => pnt q a = blend (a bit) (- fst (pnt p a), snd (pnt p a)) (pnt p a)) /\ below_pt q (nvars c').
Proof.
  intros W B H. unfold conditional_point_neg in H. apply obind_ok in H. destruct H as [[nx c1] [E1 H]]. apply obind_ok in H. destruct H as [[x c2] [E2 H]]. injection H as <- <-.
  eapply (arithmetic_total ca cd) in E1; [|exact W|reflexivity|reflexivity]. destruct E1 as [T1 [-> [N1 _]]].
  apply (cond_select_total ca cd) in E2; [|apply T1]. destruct E2 as [T2 [O2 [L2 _]]]. pose proof (t_n _ _ _ _ _ T2). destruct B as [B1 B2].
  split; [|split; cbn [fst snd]; lia]. apply (total_weak ca cd _ _ _ _ (total_trans ca cd _ _ _ _ _ T1 T2)). intros a Ha [Q1 Q2]. unfold pnt, blend. cbn [fst snd]. rewrite Q2, Q1.
  glin. f_equal; ring.
Qed.
Lemma select_identity_total bit p c q c' : wf c -> below_pt p (nvars c) -> conditional_select_identity bit p c = Ok (q, c') ->
  total c c' (fun a => pnt q a = blend (a bit) (pnt p a) (0, 1)) /\ below_pt q (nvars c').
Proof.
  intros W B H. unfold conditional_select_identity in H. apply obind_ok in H. destruct H as [[x c1] [E1 H]]. apply obind_ok in H. destruct H as [[y c2] [E2 H]]. injection H as <- <-.
  apply (cond_zero_total ca cd) in E1; auto. destruct E1 as [T1 [-> [N1 _]]]. apply (cond_one_total ca cd) in E2; [|apply T1]. destruct E2 as [T2 [-> [N2 _]]].
  split; [|split; cbn [fst snd]; lia]. apply (total_weak ca cd _ _ _ _ (total_trans ca cd _ _ _ _ _ T1 T2)). intros a Ha [Q1 Q2]. unfold pnt, blend. cbn [fst snd]. rewrite Q1, Q2. f_equal; ring.
Qed.

(** *** on a complete curve the additions are determined *)
Hypothesis two_nz : (1 + 1 : F) <> 0.
Fixpoint mul_val (bits : list bool) (p acc : F * F) : F * F :=
  match bits with [] => acc | b :: bits => mul_val bits p (te_add (te_add acc acc) (if b then p else (0, 1))) end.
Lemma mul_val_curve bits : forall p acc, complete_curve ca cd -> on_curve p -> on_curve acc -> on_curve (mul_val bits p acc) /\ forall r, mul_rel ca cd bits p acc r <-> r = mul_val bits p acc.
Proof.
  induction bits as [|b bits IH]; intros p acc C HP HA; cbn [mul_val mul_rel]; [split; [auto|reflexivity]|].
  assert (on_curve (if b then p else (0, 1))) as HQ by (destruct b; [auto|apply zero_on_curve]).
  assert (on_curve (te_add acc acc)) as H1 by now apply te_add_on_curve.
  assert (on_curve (te_add (te_add acc acc) (if b then p else (0, 1)))) as H2 by now apply te_add_on_curve.
  destruct (IH p _ C HP H2) as [I1 I2]. split; auto. intros r. split.
  - intros [r1 [r2 [A1 [A2 M]]]]. apply te_add_rel in A1; auto. subst r1. apply te_add_rel in A2; auto. subst r2. now apply I2.
  - intros ->. exists (te_add acc acc), (te_add (te_add acc acc) (if b then p else (0, 1))). split; [now apply te_add_rel|]. split; [now apply te_add_rel|]. now apply I2.
Qed.
Fixpoint sums_val (ds : list Z) (base : list (F * F)) (p : F * F) : F * F :=
  match ds, base with e :: ds, g :: base => sums_val ds base (te_add p (signed e g)) | _, _ => p end.
Lemma sums_val_curve ds : forall base p, complete_curve ca cd -> Forall on_curve base -> length ds = length base -> on_curve p ->
  on_curve (sums_val ds base p) /\ forall r, sums ca cd ds base p r <-> r = sums_val ds base p.
Proof.
  induction ds as [|e ds IH]; intros [|g base] p C FB L HP; try discriminate; cbn [sums_val sums]; [split; [auto|reflexivity]|].
  inversion FB as [|? ? HG FB']; subst. assert (on_curve (signed e g)) as HS by now apply signed_on_curve.
  assert (on_curve (te_add p (signed e g))) as H1 by now apply te_add_on_curve. injection L as L.
  destruct (IH base _ C FB' L H1) as [I1 I2]. split; auto. intros r. split.
  - intros [q [A M]]. apply te_add_rel in A; auto. subst. now apply I2.
  - intros ->. exists (te_add p (signed e g)). split; [now apply te_add_rel|now apply I2].
Qed.
End PlonkEcc.

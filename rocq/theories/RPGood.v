(** RPGood.v: a satisfied R1CS makes every constraint of the prover-efficient R1CS argument vanish. *)
From Verif Require Import Base Spec Tools ToolsProofs MatProofs ToolsProofs2 CS KZG KZGProofs Snark Laurent Laurent2 SnarkPerm
  PovPEConst SparseSum RP RPProofs RPConst.
Local Open Scope F_scope.

Section RPGood.
Context {F : Type} {fo : FieldOps F} {fl : FieldLaws F}.
Add Field Frg : F_th.

Section Good.
Variable e : rp_s6 F.
Variables (h k sa sb sc l : nat) (rows cols : list nat) (vals z : list F) (d0 d1 : F).
Let m := (sa + sb + sc)%nat.
Let M := entries_of rows cols vals.
Hypothesis EH : rp_cap_h e = Z.of_nat h.
Hypothesis EK : rp_cap_k e = Z.of_nat k.
Hypothesis ESa : rp_cap_s_a e = Z.of_nat sa.
Hypothesis ESb : rp_cap_s_b e = Z.of_nat sb.
Hypothesis ESc : rp_cap_s_c e = Z.of_nat sc.
Hypothesis Hh : (1 <= h)%nat.
Hypothesis H3h : (3 * h <= m)%nat.
Hypothesis Hkm : (k <= m)%nat.
Hypothesis Lr : length rows = length vals.
Hypothesis Lc : length cols = length vals.
Hypothesis Lv : length vals = m.
Hypothesis HM : in_shape M (3 * h) k.
Hypothesis Lz : length z = k.
Hypothesis Hga : rp_gamma e <> 0.
Hypothesis Ey1 : rp_y_vec_1 e = map (mat_vec M k z) (seq 0 (3 * h)) ++ repeat 0 (m - 3 * h) ++ [d0].
Hypothesis Erv : rp_r_vec e = rp_r_val e.
Hypothesis Env : rp_rnu_vec e = rp_rnu_val e.
Hypothesis Etv : rp_t_vec e = rp_t_val e.
Hypothesis Ec : rp_c_vec e = map (mat_vec (transpose M) (3 * h) (rp_r_vec e)) (seq 0 k).
Hypothesis Eu : rp_u_vec e = int_array_to_power_vector rows (rp_gamma e).
Hypothesis Ew : rp_w_vec e = int_array_to_power_vector cols (rp_gamma e).
Hypothesis Ev : rp_v_vec e = vals.
Hypothesis Ey : rp_y_vec e = hadamard_vector (rp_u_vec e) (rp_w_vec e).
Hypothesis Er : rp_r_vec_tilde e = rp_r_acc e ++ [d1].
Hypothesis Hmu : forall i, (i < 3 * h)%nat -> rp_mu e <> fpow (rp_gamma e) i.
Hypothesis Hnu : forall i, (i < k)%nat -> rp_nu e <> fpow (rp_gamma e) i.
Hypothesis Hz : forall i, (i < k)%nat -> rp_z e (Z.of_nat (S i)) = coef z i.
Hypothesis Hrow : forall r, (r < h)%nat -> mat_vec M k z r * mat_vec M k z (r + 2 * h) = mat_vec M k z (r + h).

Notation mu := (rp_mu e).
Notation nu := (rp_nu e).
Notation ga := (rp_gamma e).
Notation C := (mat_vec (transpose M) (3 * h) (rp_r_vec e)).
Notation UW := (uwinverse_vector mu (rp_u_vec e) nu (rp_w_vec e)).
Notation vv := (Z.of_nat sa + Z.of_nat sb + Z.of_nat sc)%Z.
Lemma rpg_m : Z.of_nat m = (Z.of_nat sa + Z.of_nat sb + Z.of_nat sc)%Z. Proof. unfold m. lia. Qed.

Lemma rpg_mu_neq i : (i < 3 * h)%nat -> mu - fpow ga i <> 0.
Proof. intros Hi E. apply (Hmu i Hi). now apply fsub_0_eq. Qed.
Lemma rpg_nu_neq i : (i < k)%nat -> nu - fpow ga i <> 0.
Proof. intros Hi E. apply (Hnu i Hi). now apply fsub_0_eq. Qed.

Lemma rpg_r_len : length (rp_r_vec e) = (3 * h)%nat.
Proof. rewrite Erv. unfold rp_r_val. rewrite expression_vector_inverse_length, EH. lia. Qed.
Lemma rpg_r j : (j < 3 * h)%nat -> coef (rp_r_vec e) j = finv (mu - fpow ga j).
Proof.
  intros Hj. rewrite Erv. unfold rp_r_val. rewrite coef_expression_vector_inverse; rewrite ?EH; try lia; unfold rp_r_val_at; rewrite EH, power_vidx_fpow; auto; try lia.
  now apply rpg_mu_neq.
Qed.
Lemma rpg_rnu_len : length (rp_rnu_vec e) = k.
Proof. rewrite Env. unfold rp_rnu_val. rewrite expression_vector_inverse_length, EK. lia. Qed.
Lemma rpg_rnu j : (j < k)%nat -> coef (rp_rnu_vec e) j = finv (nu - fpow ga j).
Proof.
  intros Hj. rewrite Env. unfold rp_rnu_val. rewrite coef_expression_vector_inverse; rewrite ?EK; try lia; unfold rp_rnu_val_at; rewrite EK, power_vidx_fpow; auto; try lia.
  now apply rpg_nu_neq.
Qed.
Lemma rpg_u_len : length (rp_u_vec e) = m. Proof. rewrite Eu, power_vector_length. lia. Qed.
Lemma rpg_w_len : length (rp_w_vec e) = m. Proof. rewrite Ew, power_vector_length. lia. Qed.
Lemma rpg_uw_len : length UW = m. Proof. rewrite uwinverse_length, rpg_u_len, rpg_w_len. lia. Qed.
Lemma rpg_u j : (j < m)%nat -> coef (rp_u_vec e) j = fpow ga (nth j rows 0%nat).
Proof. intros. rewrite Eu. apply coef_power_vector; auto. lia. Qed.
Lemma rpg_w j : (j < m)%nat -> coef (rp_w_vec e) j = fpow ga (nth j cols 0%nat).
Proof. intros. rewrite Ew. apply coef_power_vector; auto. lia. Qed.
Lemma rpg_uw j : (j < m)%nat ->
  coef UW j * ((mu - coef (rp_u_vec e) j) * (nu - coef (rp_w_vec e) j)) = 1.
Proof.
  intros Hj. apply coef_uwinverse; rewrite ?rpg_u_len, ?rpg_w_len; auto. rewrite rpg_u, rpg_w by auto.
  destruct (in_shape_nth rows cols vals (3 * h) k j) as [H1 H2]; auto; [lia|].
  apply fmul_neq_0; [now apply rpg_mu_neq|now apply rpg_nu_neq].
Qed.


Lemma rpg_t_len : length (rp_t_vec e) = m.
Proof. rewrite Etv. apply rpg_uw_len. Qed.
Lemma rpg_y1_len : length (rp_y_vec_1 e) = (m + 1)%nat.
Proof. rewrite Ey1, !app_length, map_length, seq_length, repeat_length. cbn [length]. lia. Qed.
Lemma rpg_y1 j : (j < m)%nat -> coef (rp_y_vec_1 e) j = if (j <? 3 * h)%nat then mat_vec M k z j else 0.
Proof.
  intros Hj. rewrite Ey1, !coef_app, map_length, seq_length, repeat_length, coef_repeat_0.
  destruct (Nat.ltb_spec j (3 * h)); [now rewrite coef_map_seq by lia|].
  destruct (Nat.ltb_spec (j - 3 * h) (m - 3 * h)); [reflexivity|lia].
Qed.
Lemma rpg_c_len : length (rp_c_vec e) = k.
Proof. rewrite Ec, map_length, seq_length. reflexivity. Qed.
Lemma rpg_c j : (j < k)%nat -> coef (rp_c_vec e) j = C j.
Proof. intros Hj. rewrite Ec, coef_map_seq by lia. reflexivity. Qed.

(** the two inner products *)
Lemma rpg_inner_1 : sumn (3 * h) (fun r => coef (rp_r_vec e) r * mat_vec M k z r) = sumn k (fun c => coef z c * C c).
Proof. apply mat_vec_adjoint. Qed.
Lemma rpg_inner_2 : sumn k (fun c => finv (nu - fpow ga c) * C c) = sumn m (fun j => coef UW j * coef vals j).
Proof.
  unfold mat_vec.
  rewrite (sumn_ext k _ (fun c => finv (nu - fpow ga c) * sumn (3 * h) (fun r => mat_at M r c * coef (rp_r_vec e) r))).
  2:{ intros c Hc. f_equal. apply sumn_ext. intros r Hr. now rewrite mat_at_transpose. }
  rewrite (mat_bilinear M (3 * h) k) by auto. unfold M.
  rewrite (entries_sum rows cols vals (fun r c x => coef (rp_r_vec e) r * finv (nu - fpow ga c) * x)) by auto.
  rewrite Lv. apply sumn_ext. intros j Hj.
  destruct (in_shape_nth rows cols vals (3 * h) k j) as [H1 H2]; auto; [lia|].
  rewrite rpg_r by auto. pose proof (rpg_uw j Hj) as E. rewrite rpg_u, rpg_w in E by auto.
  pose proof (rpg_mu_neq _ H1) as N1. pose proof (rpg_nu_neq _ H2) as N2.
  assert (coef UW j = finv (mu - fpow ga (nth j rows 0%nat)) * finv (nu - fpow ga (nth j cols 0%nat))) as ->; [|ring].
  set (a := mu - fpow ga (nth j rows 0%nat)) in *. set (b := nu - fpow ga (nth j cols 0%nat)) in *.
  transitivity (coef UW j * (a * b) * (finv a * finv b)); [field; auto|]. rewrite E. field. auto.
Qed.


Lemma rpg_r1_len : length (rp_r_vec_1 e) = m.
Proof. unfold rp_r_vec_1, rp_n. rewrite expression_vector_length, ESa, ESb, ESc. unfold m. lia. Qed.
Lemma rpg_r1_at j : (j < m)%nat -> coef (rp_r_vec_1 e) j =
  coef (rp_c_vec e) j * rp_z e (Z.of_nat (S j)) - coef (rp_y_vec_1 e) j * coef (rp_r_vec e) j
  + rp_beta e * (coef (rp_c_vec e) j * coef (rp_rnu_vec e) j - coef (rp_t_vec e) j * coef vals j).
Proof.
  intros Hj. unfold rp_r_vec_1.
  rewrite nth_expression_vector by (unfold rp_n; rewrite ESa, ESb, ESc; unfold m in Hj; lia).
  unfold rp_r_vec_1_at, power_linear_combination, minus_i64, rp_z. cbn [fold_left fst snd]. rewrite Ev, !vidx_S.
  replace (Z.of_nat (S j) - 2 + 1)%Z with (Z.of_nat (S j) - 1)%Z by lia.
  replace (Z.of_nat (S j) - (rp_ell e + 2) + 1)%Z with (Z.of_nat (S j) - rp_ell e - 1)%Z by lia. ring.
Qed.

Lemma rpg_sum_0 : sumn m (coef (rp_r_vec_1 e)) = 0.
Proof.
  rewrite (sumn_ext m _ _ rpg_r1_at). rewrite sumn_add, sumn_mul_l, !sumn_sub.
  assert (forall f, sumn m (fun j => coef (rp_c_vec e) j * f j) = sumn k (fun j => f j * C j)) as Sc'.
  { intros f. replace m with (k + (m - k))%nat by lia. rewrite sumn_split, (sumn_0 (m - k)).
    2:{ intros i Hi. unfold coef. rewrite nth_overflow by (rewrite rpg_c_len; lia). ring. }
    rewrite (sumn_ext k _ (fun j => f j * C j)); [ring|]. intros i Hi. rewrite rpg_c by auto. ring. }
  rewrite (Sc' (fun j => rp_z e (Z.of_nat (S j)))), (Sc' (coef (rp_rnu_vec e))).
  rewrite (sumn_ext k (fun j => rp_z e (Z.of_nat (S j)) * C j) (fun j => coef z j * C j)) by (intros i Hi; now rewrite Hz).
  assert (sumn m (fun j => coef (rp_y_vec_1 e) j * coef (rp_r_vec e) j) = sumn (3 * h) (fun r => coef (rp_r_vec e) r * mat_vec M k z r)) as ->.
  { replace m with (3 * h + (m - 3 * h))%nat by lia. rewrite sumn_split, (sumn_0 (m - 3 * h)).
    2:{ intros i Hi. rewrite rpg_y1 by lia. destruct (Nat.ltb_spec (3 * h + i) (3 * h)); [lia|]. ring. }
    rewrite (sumn_ext (3 * h) _ (fun r => coef (rp_r_vec e) r * mat_vec M k z r)); [ring|].
    intros i Hi. rewrite rpg_y1 by lia. destruct (Nat.ltb_spec i (3 * h)); [|lia]. ring. }
  rewrite rpg_inner_1.
  rewrite (sumn_ext k (fun j => coef (rp_rnu_vec e) j * C j) (fun c => finv (nu - fpow ga c) * C c)) by (intros i Hi; now rewrite rpg_rnu).
  rewrite rpg_inner_2. rewrite Etv. change (rp_t_val e) with UW. ring.
Qed.

Lemma sat_rp_sat : rp_sat e.
Proof.
  pose proof rpg_m as Em.
  split; rewrite ?EK, ?ESa, ?ESb, ?ESc; unfold rp_k0, rp_k1, rp_k2, rp_k3, rp_k4, rp_k6, rp_k7, rp_k8, rp_k9, rp_k10;
    rewrite ?EH, ?EK, ?ESa, ?ESb, ?ESc; intros i Hi.
  all: set (j := Z.to_nat (i - 1)); assert (i = Z.of_nat (S j)) as Ei by lia; assert (j < m)%nat as Hj by lia.
  - destruct (Z_le_gt_dec i (3 * Z.of_nat h)); [|rewrite range_out by lia; ring].
    rewrite range_in, Ei, vidx_S, rpg_r by lia.
    replace (fpowZ ga (Z.of_nat (S j) - 1)) with (fpow ga j) by (rewrite <- fpowZ_nat; f_equal; lia).
    pose proof (rpg_mu_neq j) as N. set (a := mu - fpow ga j) in *. field. apply N. lia.
  - destruct (Z_le_gt_dec i (Z.of_nat k)); [|rewrite range_out by lia; ring].
    rewrite range_in, Ei, vidx_S, rpg_rnu by lia.
    replace (fpowZ ga (Z.of_nat (S j) - 1)) with (fpow ga j) by (rewrite <- fpowZ_nat; f_equal; lia).
    pose proof (rpg_nu_neq j) as N. set (a := nu - fpow ga j) in *. field. apply N. lia.
  - destruct (Z_le_gt_dec i (3 * Z.of_nat h)); [rewrite range_out by lia; ring|].
    rewrite Ei, vidx_S. unfold coef. rewrite nth_overflow by (rewrite rpg_r_len; lia). ring.
  - destruct (Z_le_gt_dec i (Z.of_nat k)); [rewrite range_out by lia; ring|].
    rewrite Ei, vidx_S. unfold coef. rewrite nth_overflow by (rewrite rpg_rnu_len; lia). ring.
  - destruct (Z_le_gt_dec i (Z.of_nat k)); [rewrite range_out by lia; ring|].
    rewrite Ei, vidx_S. unfold coef. rewrite nth_overflow by (rewrite rpg_c_len; lia). ring.
  - rewrite !range_in by lia. rewrite Ei, !vidx_S, Ey, coef_hadamard, rpg_u_len, rpg_w_len, Nat.min_id.
    destruct (Nat.ltb_spec j m); [|lia]. pose proof (rpg_uw j Hj) as E. rewrite Etv. change (rp_t_val e) with UW.
    match type of E with ?a = _ => transitivity (a - 1); [ring|rewrite E; ring] end.
  - destruct (Z_le_gt_dec i (3 * Z.of_nat h)); [rewrite range_out by lia; ring|].
    rewrite Ei, vidx_S, rpg_y1 by auto. destruct (Nat.ltb_spec j (3 * h)); [lia|]. ring.
  - destruct (Z_le_gt_dec i (2 * Z.of_nat h)).
    { rewrite range_out, (vidx_out _ (i - 2 * Z.of_nat h)) by lia. ring. }
    destruct (Z_le_gt_dec i (3 * Z.of_nat h)).
    + rewrite range_in by lia. rewrite (vidx_coef _ (i - 2 * Z.of_nat h) (j - 2 * h)), (vidx_coef _ (i - Z.of_nat h) (j - h)), (vidx_coef _ i j), !rpg_y1 by lia.
      repeat match goal with |- context [(?x <? ?y)%nat] => destruct (Nat.ltb_spec x y); try lia end.
      replace j with (j - 2 * h + 2 * h)%nat at 2 by lia. rewrite Hrow by lia.
      replace (j - h)%nat with (j - 2 * h + h)%nat by lia. ring.
    + rewrite range_out by lia. rewrite (vidx_coef _ i j), rpg_y1 by lia. destruct (Nat.ltb_spec j (3 * h)); [lia|]. ring.
  - rewrite range_in, Er, Ev by lia. 
    unfold rp_r_acc. rewrite running_sum_step by (rewrite rpg_r1_len; lia).
    rewrite (vidx_coef (rp_r_vec_1 e) i j), rpg_r1_at, Ei, !vidx_S by lia. ring.
  - unfold delta. destruct (Z.eqb_spec i vv) as [E|]; [|ring]. rewrite E.
    replace vv with (Z.of_nat (length (rp_r_vec_1 e))) at 1 by (rewrite rpg_r1_len; lia).
    rewrite Er. unfold rp_r_acc. rewrite running_sum_end by (rewrite rpg_r1_len; lia). rewrite rpg_r1_len, rpg_sum_0. ring.
Qed.
End Good.
End RPGood.

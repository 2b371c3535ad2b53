(** R1Good.v: a satisfied R1CS makes every constraint of the R1CS argument vanish. *)
From Verif Require Import Base Spec Tools ToolsProofs MatProofs ToolsProofs2 CS KZG KZGProofs Snark Laurent Laurent2 SnarkPerm
  PovPEConst SparseSum R1 R1Proofs R1Const.
Local Open Scope F_scope.

Section R1Good.
Context {F : Type} {fo : FieldOps F} {fl : FieldLaws F}.
Add Field Frg : F_th.

Section Good.
Variable e : r1_s6 F.
Variables (h k sa sb sc l : nat) (rows cols : list nat) (vals z : list F) (d0 d1 : F).
Let m := (sa + sb + sc)%nat.
Let M := entries_of rows cols vals.
Hypothesis EH : r1_cap_h e = Z.of_nat h.
Hypothesis EK : r1_cap_k e = Z.of_nat k.
Hypothesis ESa : r1_cap_s_a e = Z.of_nat sa.
Hypothesis ESb : r1_cap_s_b e = Z.of_nat sb.
Hypothesis ESc : r1_cap_s_c e = Z.of_nat sc.
Hypothesis EL : r1_ell e = Z.of_nat l.
Hypothesis Hh : (1 <= h)%nat.
Hypothesis Hlk : (l + 1 <= k)%nat.
Hypothesis H3h : (3 * h <= m)%nat.
Hypothesis Lr : length rows = length vals.
Hypothesis Lc : length cols = length vals.
Hypothesis Lv : length vals = m.
Hypothesis HM : in_shape M (3 * h) k.
Hypothesis Lz : length z = k.
Hypothesis Hga : r1_gamma e <> 0.
Hypothesis Eu1 : r1_u_vec_1 e = (map (mat_vec M k z) (seq 0 (3 * h)) ++ z ++ repeat 0 (m - 3 * h)) ++ [d0].
Hypothesis Es : r1_s_vec e = concat_neg_vector (r1_r_vec e) (map (mat_vec (transpose M) (3 * h) (r1_r_vec e)) (seq 0 k)).
Hypothesis Eh : r1_h_vec e = r1_h_val e.
Hypothesis Eu : r1_u_vec e = int_array_to_power_vector rows (r1_gamma e).
Hypothesis Ew : r1_w_vec e = int_array_to_power_vector cols (r1_gamma e).
Hypothesis Ev : r1_v_vec e = vals.
Hypothesis Ey : r1_y_vec e = hadamard_vector (r1_u_vec e) (r1_w_vec e).
Hypothesis Er : r1_r_vec_tilde e = r1_r_acc e ++ [d1].
Hypothesis Hmu : forall i, (i < 3 * h)%nat -> r1_mu e <> fpow (r1_gamma e) i.
Hypothesis Hnu : forall i, (i < k)%nat -> r1_nu e <> fpow (r1_gamma e) i.
Hypothesis Hx : forall i, (i <= l)%nat -> coef z i = coef (1 :: r1_x_vec e) i.
Hypothesis Hrow : forall r, (r < h)%nat -> mat_vec M k z r * mat_vec M k z (r + h) = mat_vec M k z (r + 2 * h).

Notation mu := (r1_mu e).
Notation nu := (r1_nu e).
Notation ga := (r1_gamma e).
Notation C := (mat_vec (transpose M) (3 * h) (r1_r_vec e)).
Notation UW := (uwinverse_vector mu (r1_u_vec e) nu (r1_w_vec e)).
Notation vv := (Z.of_nat k + Z.of_nat sa + Z.of_nat sb + Z.of_nat sc)%Z.
Lemma rg_m : Z.of_nat m = (Z.of_nat sa + Z.of_nat sb + Z.of_nat sc)%Z. Proof. unfold m. lia. Qed.

Lemma rg_mu_neq i : (i < 3 * h)%nat -> mu - fpow ga i <> 0.
Proof. intros Hi E. apply (Hmu i Hi). now apply fsub_0_eq. Qed.
Lemma rg_nu_neq i : (i < k)%nat -> nu - fpow ga i <> 0.
Proof. intros Hi E. apply (Hnu i Hi). now apply fsub_0_eq. Qed.

Lemma rg_r_len : length (r1_r_vec e) = (3 * h)%nat.
Proof. unfold r1_r_vec. rewrite expression_vector_inverse_length, EH. lia. Qed.
Lemma rg_r j : (j < 3 * h)%nat -> coef (r1_r_vec e) j = finv (mu - fpow ga j).
Proof.
  intros Hj. unfold r1_r_vec. rewrite coef_expression_vector_inverse; rewrite ?EH; try lia; unfold r1_r_vec_at; rewrite EH, power_vidx_fpow; auto; try lia.
  now apply rg_mu_neq.
Qed.
Lemma rg_rnu_len : length (r1_rnu_vec e) = k.
Proof. unfold r1_rnu_vec. rewrite expression_vector_inverse_length, EK. lia. Qed.
Lemma rg_rnu j : (j < k)%nat -> coef (r1_rnu_vec e) j = finv (nu - fpow ga j).
Proof.
  intros Hj. unfold r1_rnu_vec. rewrite coef_expression_vector_inverse; rewrite ?EK; try lia; unfold r1_rnu_vec_at; rewrite EK, power_vidx_fpow; auto; try lia.
  now apply rg_nu_neq.
Qed.
Lemma rg_u_len : length (r1_u_vec e) = m. Proof. rewrite Eu, power_vector_length. lia. Qed.
Lemma rg_w_len : length (r1_w_vec e) = m. Proof. rewrite Ew, power_vector_length. lia. Qed.
Lemma rg_uw_len : length UW = m. Proof. rewrite uwinverse_length, rg_u_len, rg_w_len. lia. Qed.
Lemma rg_u j : (j < m)%nat -> coef (r1_u_vec e) j = fpow ga (nth j rows 0%nat).
Proof. intros. rewrite Eu. apply coef_power_vector; auto. lia. Qed.
Lemma rg_w j : (j < m)%nat -> coef (r1_w_vec e) j = fpow ga (nth j cols 0%nat).
Proof. intros. rewrite Ew. apply coef_power_vector; auto. lia. Qed.
Lemma rg_uw j : (j < m)%nat ->
  coef UW j * ((mu - coef (r1_u_vec e) j) * (nu - coef (r1_w_vec e) j)) = 1.
Proof.
  intros Hj. apply coef_uwinverse; rewrite ?rg_u_len, ?rg_w_len; auto. rewrite rg_u, rg_w by auto.
  destruct (in_shape_nth rows cols vals (3 * h) k j) as [H1 H2]; auto; [lia|].
  apply fmul_neq_0; [now apply rg_mu_neq|now apply rg_nu_neq].
Qed.

Lemma rg_h_len : length (r1_h_vec e) = (k + m)%nat.
Proof. rewrite Eh. unfold r1_h_val, concat_uwinverse_vector. now rewrite app_length, rg_rnu_len, rg_uw_len. Qed.
Lemma rg_h i : (1 <= i)%Z -> vidx (r1_h_vec e) i =
  if (i <=? Z.of_nat k)%Z then finv (nu - fpow ga (Z.to_nat (i - 1))) else coef UW (Z.to_nat (i - 1) - k).
Proof.
  intros Hi. rewrite (vidx_coef _ i (Z.to_nat (i - 1))) by lia. rewrite Eh. unfold r1_h_val, concat_uwinverse_vector.
  rewrite coef_app, rg_rnu_len. destruct (Nat.ltb_spec (Z.to_nat (i - 1)) k), (Z.leb_spec i (Z.of_nat k)); try lia; auto.
  now apply rg_rnu.
Qed.
Lemma rg_s_len : length (r1_s_vec e) = (3 * h + k)%nat.
Proof. rewrite Es. unfold concat_neg_vector. now rewrite app_length, !map_length, rg_r_len, seq_length. Qed.
Lemma rg_s i : (1 <= i)%Z -> vidx (r1_s_vec e) i =
  if (i <=? 3 * Z.of_nat h)%Z then finv (mu - fpow ga (Z.to_nat (i - 1))) else
  if (i <=? 3 * Z.of_nat h + Z.of_nat k)%Z then - C (Z.to_nat (i - 1) - 3 * h) else 0.
Proof.
  intros Hi. rewrite (vidx_coef _ i (Z.to_nat (i - 1))) by lia. rewrite Es. unfold concat_neg_vector.
  rewrite coef_app, rg_r_len, coef_map_opp.
  destruct (Nat.ltb_spec (Z.to_nat (i - 1)) (3 * h)), (Z.leb_spec i (3 * Z.of_nat h)); try lia; [now apply rg_r|].
  destruct (Z.leb_spec i (3 * Z.of_nat h + Z.of_nat k)).
  - rewrite coef_map_seq by lia. reflexivity.
  - unfold coef. rewrite nth_overflow by (rewrite map_length, seq_length; lia). ring.
Qed.
Lemma rg_u1 i : (1 <= i <= vv)%Z -> vidx (r1_u_vec_1 e) i =
  if (i <=? 3 * Z.of_nat h)%Z then mat_vec M k z (Z.to_nat (i - 1)) else
  if (i <=? 3 * Z.of_nat h + Z.of_nat k)%Z then coef z (Z.to_nat (i - 1) - 3 * h) else 0.
Proof.
  intros Hi. pose proof rg_m as Em. rewrite (vidx_coef _ i (Z.to_nat (i - 1))) by lia. rewrite Eu1.
  rewrite !coef_app, !app_length, map_length, seq_length, repeat_length, Lz, coef_repeat_0.
  destruct (Nat.ltb_spec (Z.to_nat (i - 1)) (3 * h + (k + (m - 3 * h)))); [|lia].
  destruct (Nat.ltb_spec (Z.to_nat (i - 1)) (3 * h)), (Z.leb_spec i (3 * Z.of_nat h)); try lia.
  - now rewrite coef_map_seq by lia.
  - destruct (Nat.ltb_spec (Z.to_nat (i - 1) - 3 * h) k), (Z.leb_spec i (3 * Z.of_nat h + Z.of_nat k)); try lia; auto.
Qed.

(** the two inner products *)
Lemma rg_inner_1 : sumn (3 * h) (fun r => coef (r1_r_vec e) r * mat_vec M k z r) = sumn k (fun c => coef z c * C c).
Proof. apply mat_vec_adjoint. Qed.
Lemma rg_inner_2 : sumn k (fun c => finv (nu - fpow ga c) * C c) = sumn m (fun j => coef UW j * coef vals j).
Proof.
  unfold mat_vec.
  rewrite (sumn_ext k _ (fun c => finv (nu - fpow ga c) * sumn (3 * h) (fun r => mat_at M r c * coef (r1_r_vec e) r))).
  2:{ intros c Hc. f_equal. apply sumn_ext. intros r Hr. now rewrite mat_at_transpose. }
  rewrite (mat_bilinear M (3 * h) k) by auto. unfold M.
  rewrite (entries_sum rows cols vals (fun r c x => coef (r1_r_vec e) r * finv (nu - fpow ga c) * x)) by auto.
  rewrite Lv. apply sumn_ext. intros j Hj.
  destruct (in_shape_nth rows cols vals (3 * h) k j) as [H1 H2]; auto; [lia|].
  rewrite rg_r by auto. pose proof (rg_uw j Hj) as E. rewrite rg_u, rg_w in E by auto.
  pose proof (rg_mu_neq _ H1) as N1. pose proof (rg_nu_neq _ H2) as N2.
  assert (coef UW j = finv (mu - fpow ga (nth j rows 0%nat)) * finv (nu - fpow ga (nth j cols 0%nat))) as ->; [|ring].
  set (a := mu - fpow ga (nth j rows 0%nat)) in *. set (b := nu - fpow ga (nth j cols 0%nat)) in *.
  transitivity (coef UW j * (a * b) * (finv a * finv b)); [field; auto|]. rewrite E. field. auto.
Qed.

Lemma rg_r1_len : length (r1_r_vec_1 e) = (k + m)%nat.
Proof. unfold r1_r_vec_1, r1_vovectorsize. rewrite expression_vector_length, EK, ESa, ESb, ESc. unfold m. lia. Qed.
Lemma rg_r1_at i : (1 <= i <= vv)%Z -> vidx (r1_r_vec_1 e) i =
  vidx (r1_u_vec_1 e) i * vidx (r1_s_vec e) i
  - r1_beta e * (vidx (r1_h_vec e) (i - 3 * Z.of_nat h) * vidx (r1_s_vec e) i + vidx (r1_h_vec e) i * vidx vals (i - Z.of_nat k)).
Proof.
  intros Hi. unfold r1_r_vec_1. rewrite (vidx_coef _ i (Z.to_nat (i - 1))) by lia.
  rewrite nth_expression_vector by (unfold r1_vovectorsize; rewrite EK, ESa, ESb, ESc; lia).
  replace (Z.of_nat (S (Z.to_nat (i - 1)))) with i by lia.
  unfold r1_r_vec_1_at, power_linear_combination, minus_i64. cbn [fold_left fst snd]. rewrite EH, EK, Ev.
  replace (i - (3 * Z.of_nat h + 1) + 1)%Z with (i - 3 * Z.of_nat h)%Z by lia.
  replace (i - (Z.of_nat k + 1) + 1)%Z with (i - Z.of_nat k)%Z by lia. ring.
Qed.

Lemma rg_sum_0 : sumn (k + m) (coef (r1_r_vec_1 e)) = 0.
Proof.
  pose proof rg_m as Em.
  rewrite (sumn_ext (k + m) _ (fun i => let p := Z.of_nat (S i) in vidx (r1_u_vec_1 e) p * vidx (r1_s_vec e) p
    - r1_beta e * (vidx (r1_h_vec e) (p - 3 * Z.of_nat h) * vidx (r1_s_vec e) p + vidx (r1_h_vec e) p * vidx vals (p - Z.of_nat k)))).
  2:{ intros i Hi. cbn zeta. rewrite <- rg_r1_at by lia. symmetry. apply vidx_coef. lia. }
  cbn zeta. rewrite sumn_sub, sumn_mul_l, sumn_add.
  assert (sumn (k + m) (fun i => vidx (r1_u_vec_1 e) (Z.of_nat (S i)) * vidx (r1_s_vec e) (Z.of_nat (S i))) = 0) as ->.
  { replace (k + m)%nat with (3 * h + (k + (m - 3 * h)))%nat by lia. rewrite !sumn_split.
    rewrite (sumn_ext (3 * h) _ (fun r => coef (r1_r_vec e) r * mat_vec M k z r)).
    2:{ intros i Hi. rewrite rg_u1, rg_s by lia. destruct (Z.leb_spec (Z.of_nat (S i)) (3 * Z.of_nat h)); [|lia].
        replace (Z.to_nat (Z.of_nat (S i) - 1)) with i by lia. rewrite <- rg_r by auto. ring. }
    rewrite (sumn_ext k _ (fun c => - (coef z c * C c))).
    2:{ intros i Hi. rewrite rg_u1, rg_s by lia. destruct (Z.leb_spec (Z.of_nat (S (3 * h + i))) (3 * Z.of_nat h)); [lia|].
        destruct (Z.leb_spec (Z.of_nat (S (3 * h + i))) (3 * Z.of_nat h + Z.of_nat k)); [|lia].
        replace (Z.to_nat (Z.of_nat (S (3 * h + i)) - 1) - 3 * h)%nat with i by lia. ring. }
    rewrite (sumn_0 (m - 3 * h)).
    2:{ intros i Hi. rewrite rg_s by lia. repeat match goal with |- context [(?x <=? ?y)%Z] => destruct (Z.leb_spec x y); try lia end. ring. }
    rewrite sumn_opp, rg_inner_1. ring. }
  assert (sumn (k + m) (fun i => vidx (r1_h_vec e) (Z.of_nat (S i) - 3 * Z.of_nat h) * vidx (r1_s_vec e) (Z.of_nat (S i))) =
          - sumn k (fun c => finv (nu - fpow ga c) * C c)) as ->.
  { replace (k + m)%nat with (3 * h + (k + (m - 3 * h)))%nat by lia. rewrite !sumn_split.
    rewrite (sumn_0 (3 * h)). 2:{ intros i Hi. rewrite (vidx_out (r1_h_vec e)) by lia. ring. }
    rewrite (sumn_ext k _ (fun c => - (finv (nu - fpow ga c) * C c))).
    2:{ intros i Hi. rewrite rg_h, rg_s by lia. 
        repeat match goal with |- context [(?x <=? ?y)%Z] => destruct (Z.leb_spec x y); try lia end.
        replace (Z.to_nat (Z.of_nat (S (3 * h + i)) - 1) - 3 * h)%nat with i by lia.
        replace (Z.to_nat (Z.of_nat (S (3 * h + i)) - 3 * Z.of_nat h - 1))%nat with i by lia. ring. }
    rewrite (sumn_0 (m - 3 * h)).
    2:{ intros i Hi. rewrite rg_s by lia. repeat match goal with |- context [(?x <=? ?y)%Z] => destruct (Z.leb_spec x y); try lia end. ring. }
    rewrite sumn_opp. ring. }
  assert (sumn (k + m) (fun i => vidx (r1_h_vec e) (Z.of_nat (S i)) * vidx vals (Z.of_nat (S i) - Z.of_nat k)) =
          sumn m (fun j => coef UW j * coef vals j)) as ->.
  { rewrite sumn_split. rewrite (sumn_0 k). 2:{ intros i Hi. rewrite (vidx_out vals) by lia. ring. }
    rewrite (sumn_ext m _ (fun j => coef UW j * coef vals j)); [ring|].
    intros i Hi. rewrite rg_h by lia. destruct (Z.leb_spec (Z.of_nat (S (k + i))) (Z.of_nat k)); [lia|].
    rewrite (vidx_coef vals _ i) by lia. replace (Z.to_nat (Z.of_nat (S (k + i)) - 1) - k)%nat with i by lia. reflexivity. }
  rewrite rg_inner_2. ring.
Qed.

Lemma sat_r1_sat : r1_sat e.
Proof.
  pose proof rg_m as Em. pose proof rg_h_len as Lhv.
  split; rewrite ?EK, ?ESa, ?ESb, ?ESc; unfold r1_k0, r1_k1, r1_k2, r1_k4, r1_k5, r1_k6, r1_k7, r1_k8;
    rewrite ?EH, ?EK, ?ESa, ?ESb, ?ESc, ?EL; intros i Hi.
  - destruct (Z_le_gt_dec i (3 * Z.of_nat h)); [|rewrite range_out by lia; ring].
    rewrite range_in, rg_s by lia. destruct (Z.leb_spec i (3 * Z.of_nat h)); [|lia].
    replace (fpowZ ga (i - 1)) with (fpow ga (Z.to_nat (i - 1))) by (rewrite <- fpowZ_nat; f_equal; lia).
    pose proof (rg_mu_neq (Z.to_nat (i - 1))) as N. set (a := mu - fpow ga (Z.to_nat (i - 1))) in *.
    field. apply N. lia.
  - destruct (Z_le_gt_dec i (Z.of_nat k)); [|rewrite range_out by lia; ring].
    rewrite range_in, rg_h by lia. destruct (Z.leb_spec i (Z.of_nat k)); [|lia].
    replace (fpowZ ga (i - 1)) with (fpow ga (Z.to_nat (i - 1))) by (rewrite <- fpowZ_nat; f_equal; lia).
    pose proof (rg_nu_neq (Z.to_nat (i - 1))) as N. set (a := nu - fpow ga (Z.to_nat (i - 1))) in *.
    field. apply N. lia.
  - destruct (Z_le_gt_dec (Z.of_nat k + 3 * Z.of_nat h + 1) i); [|rewrite range_out by lia; ring].
    rewrite rg_s by lia. repeat match goal with |- context [(?x <=? ?y)%Z] => destruct (Z.leb_spec x y); try lia end. ring.
  - destruct (Z_le_gt_dec i (Z.of_nat k)).
    { rewrite !range_out, !(vidx_out _ (i - Z.of_nat k)) by lia. ring. }
    rewrite !range_in, rg_h by lia. destruct (Z.leb_spec i (Z.of_nat k)); [lia|].
    set (j := (Z.to_nat (i - 1) - k)%nat). rewrite !(vidx_coef _ (i - Z.of_nat k) j) by lia.
    rewrite Ey, coef_hadamard, rg_u_len, rg_w_len, Nat.min_id.
    assert (j < m)%nat as Hj by lia. destruct (Nat.ltb_spec j m); [|lia]. pose proof (rg_uw j Hj) as E.
    match type of E with ?a = _ => transitivity (a - 1); [ring|rewrite E; ring] end.
  - destruct (Z_le_gt_dec i (vv - Z.of_nat h)).
    { rewrite range_out, (vidx_out _ (i - vv + Z.of_nat h)) by lia. ring. }
    rewrite range_in, !rg_u1 by lia. repeat match goal with |- context [(?x <=? ?y)%Z] => destruct (Z.leb_spec x y); try lia end.
    set (j := Z.to_nat (i - vv + Z.of_nat h - 1)).
    replace (Z.to_nat (i - vv + 2 * Z.of_nat h - 1)) with (j + h)%nat by lia.
    replace (Z.to_nat (i - vv + 3 * Z.of_nat h - 1)) with (j + 2 * h)%nat by lia.
    rewrite Hrow by lia. ring.
  - destruct (Z_le_gt_dec (3 * Z.of_nat h + 1) i), (Z_le_gt_dec i (3 * Z.of_nat h + Z.of_nat l + 1));
      try (rewrite range_out by lia; ring).
    rewrite rg_u1 by lia. repeat match goal with |- context [(?x <=? ?y)%Z] => destruct (Z.leb_spec x y); try lia end.
    set (j := (Z.to_nat (i - 1) - 3 * h)%nat). rewrite Hx by lia. 
    unfold delta. destruct (Z.eqb_spec (i - 3 * Z.of_nat h) 1).
    + rewrite vidx_out by lia. replace j with 0%nat by lia. cbn. ring.
    + rewrite (vidx_coef _ (i - 3 * Z.of_nat h - 1) (j - 1)) by lia.
      replace j with (S (j - 1)) at 1 by lia. change (coef (1 :: r1_x_vec e) (S (j - 1))) with (coef (r1_x_vec e) (j - 1)). ring.
  - rewrite range_in, Er, Ev by lia. unfold r1_r_acc.
    rewrite running_sum_step by (rewrite rg_r1_len; lia). rewrite rg_r1_at by lia. ring.
  - unfold delta. destruct (Z.eqb_spec i vv) as [->|]; [|ring].
    replace vv with (Z.of_nat (length (r1_r_vec_1 e))) at 1 by (rewrite rg_r1_len; lia).
    rewrite Er. unfold r1_r_acc. rewrite running_sum_end by (rewrite rg_r1_len; lia). rewrite rg_r1_len, rg_sum_0. ring.
Qed.
End Good.
End R1Good.

(** HPGood.v: a satisfied HPR makes every constraint of the HPR argument vanish. *)
From Verif Require Import Base Spec Tools ToolsProofs MatProofs ToolsProofs2 CS KZG KZGProofs Snark Laurent Laurent2 SnarkPerm
  PovPEConst SparseSum HP HPProofs HPConst.
Local Open Scope F_scope.

Section HPGood.
Context {F : Type} {fo : FieldOps F} {fl : FieldLaws F}.
Add Field Frg : F_th.

Section Good.
Variable e : hp_s6 F.
Variables (h k sa sb sc sd : nat) (rows cols : list nat) (vals w : list F) (d0 d1 : F).
Let m := (sa + sb + sc + sd)%nat.
Let K := (3 * k + 1)%nat.
Let M := entries_of rows cols vals.
Let z := 1 :: w.
Hypothesis EH : hp_cap_h e = Z.of_nat h.
Hypothesis EK : hp_cap_k e = Z.of_nat k.
Hypothesis ESa : hp_cap_s_a e = Z.of_nat sa.
Hypothesis ESb : hp_cap_s_b e = Z.of_nat sb.
Hypothesis ESc : hp_cap_s_c e = Z.of_nat sc.
Hypothesis ESd : hp_cap_s_d e = Z.of_nat sd.
Hypothesis Hh : (1 <= h)%nat.
Hypothesis Hkk : (1 <= k)%nat.
Hypothesis Hhm : (h <= m)%nat.
Hypothesis Lr : length rows = length vals.
Hypothesis Lc : length cols = length vals.
Hypothesis Lv : length vals = m.
Hypothesis HM : in_shape M h K.
Hypothesis Lw : length w = (3 * k)%nat.
Hypothesis Lx : (length (hp_x_vec e) <= h)%nat.
Hypothesis Hga : hp_gamma e <> 0.
Hypothesis Ew1 : hp_w_vec_1 e = (w ++ repeat 0 (m + 1)) ++ [d0].
Hypothesis Es : hp_s_vec e = concat_neg_vector (hp_r_vec e) (map (mat_vec (transpose M) h (hp_r_vec e)) (seq 0 K)).
Hypothesis Eh : hp_h_vec e = hp_h_val e.
Hypothesis Eu : hp_u_vec e = int_array_to_power_vector rows (hp_gamma e).
Hypothesis Ew : hp_w_vec e = int_array_to_power_vector cols (hp_gamma e).
Hypothesis Ev : hp_v_vec e = vals.
Hypothesis Ey : hp_y_vec e = hadamard_vector (hp_u_vec e) (hp_w_vec e).
Hypothesis Er : hp_r_vec_tilde e = hp_r_acc e ++ [d1].
Hypothesis Hmu : forall i, (i < h)%nat -> hp_mu e <> fpow (hp_gamma e) i.
Hypothesis Hnu : forall i, (i < K)%nat -> hp_nu e <> fpow (hp_gamma e) i.
Hypothesis Hx : forall r, (r < h)%nat -> mat_vec M K z r = coef (hp_x_vec e) r.
Hypothesis Hhad : forall i, (i < k)%nat -> coef w i * coef w (k + i) = coef w (2 * k + i).

Notation mu := (hp_mu e).
Notation nu := (hp_nu e).
Notation ga := (hp_gamma e).
Notation C := (mat_vec (transpose M) h (hp_r_vec e)).
Notation UW := (uwinverse_vector mu (hp_u_vec e) nu (hp_w_vec e)).
Notation vv := (3 * Z.of_nat k + Z.of_nat sa + Z.of_nat sb + Z.of_nat sc + Z.of_nat sd + 1)%Z.
Lemma rg_m : Z.of_nat m = (Z.of_nat sa + Z.of_nat sb + Z.of_nat sc + Z.of_nat sd)%Z. Proof. unfold m. lia. Qed.
Lemma rg_K : Z.of_nat K = (3 * Z.of_nat k + 1)%Z. Proof. unfold K. lia. Qed.

Lemma rg_mu_neq i : (i < h)%nat -> mu - fpow ga i <> 0.
Proof. intros Hi E. apply (Hmu i Hi). now apply fsub_0_eq. Qed.
Lemma rg_nu_neq i : (i < K)%nat -> nu - fpow ga i <> 0.
Proof. intros Hi E. apply (Hnu i Hi). now apply fsub_0_eq. Qed.

Lemma rg_r_len : length (hp_r_vec e) = h.
Proof. unfold hp_r_vec. rewrite expression_vector_inverse_length, EH. lia. Qed.
Lemma rg_r j : (j < h)%nat -> coef (hp_r_vec e) j = finv (mu - fpow ga j).
Proof.
  intros Hj. unfold hp_r_vec. rewrite coef_expression_vector_inverse; rewrite ?EH; try lia; unfold hp_r_vec_at; rewrite EH, power_vidx_fpow; auto; try lia.
  now apply rg_mu_neq.
Qed.
Lemma rg_rnu_len : length (hp_rnu_vec e) = K.
Proof. unfold hp_rnu_vec. rewrite expression_vector_inverse_length, EK. unfold K. lia. Qed.
Lemma rg_rnu j : (j < K)%nat -> coef (hp_rnu_vec e) j = finv (nu - fpow ga j).
Proof.
  intros Hj. pose proof rg_K as EKK. unfold hp_rnu_vec. rewrite coef_expression_vector_inverse; rewrite ?EK; try lia; unfold hp_rnu_vec_at; rewrite EK, power_vidx_fpow; auto; try lia.
  now apply rg_nu_neq.
Qed.
Lemma rg_u_len : length (hp_u_vec e) = m. Proof. rewrite Eu, power_vector_length. lia. Qed.
Lemma rg_w_len : length (hp_w_vec e) = m. Proof. rewrite Ew, power_vector_length. lia. Qed.
Lemma rg_uw_len : length UW = m. Proof. rewrite uwinverse_length, rg_u_len, rg_w_len. lia. Qed.
Lemma rg_u j : (j < m)%nat -> coef (hp_u_vec e) j = fpow ga (nth j rows 0%nat).
Proof. intros. rewrite Eu. apply coef_power_vector; auto. lia. Qed.
Lemma rg_w j : (j < m)%nat -> coef (hp_w_vec e) j = fpow ga (nth j cols 0%nat).
Proof. intros. rewrite Ew. apply coef_power_vector; auto. lia. Qed.
Lemma rg_uw j : (j < m)%nat ->
  coef UW j * ((mu - coef (hp_u_vec e) j) * (nu - coef (hp_w_vec e) j)) = 1.
Proof.
  intros Hj. apply coef_uwinverse; rewrite ?rg_u_len, ?rg_w_len; auto. rewrite rg_u, rg_w by auto.
  destruct (in_shape_nth rows cols vals h K j) as [H1 H2]; auto; [lia|].
  apply fmul_neq_0; [now apply rg_mu_neq|now apply rg_nu_neq].
Qed.

Lemma rg_h_len : length (hp_h_vec e) = (K + m)%nat.
Proof. rewrite Eh. unfold hp_h_val, concat_uwinverse_vector. now rewrite app_length, rg_rnu_len, rg_uw_len. Qed.
Lemma rg_h i : (1 <= i)%Z -> vidx (hp_h_vec e) i =
  if (i <=? Z.of_nat K)%Z then finv (nu - fpow ga (Z.to_nat (i - 1))) else coef UW (Z.to_nat (i - 1) - K).
Proof.
  intros Hi. rewrite (vidx_coef _ i (Z.to_nat (i - 1))) by lia. rewrite Eh. unfold hp_h_val, concat_uwinverse_vector.
  rewrite coef_app, rg_rnu_len. destruct (Nat.ltb_spec (Z.to_nat (i - 1)) K), (Z.leb_spec i (Z.of_nat K)); try lia; auto.
  now apply rg_rnu.
Qed.
Lemma rg_s_len : length (hp_s_vec e) = (h + K)%nat.
Proof. rewrite Es. unfold concat_neg_vector. now rewrite app_length, !map_length, rg_r_len, seq_length. Qed.
Lemma rg_s i : (1 <= i)%Z -> vidx (hp_s_vec e) i =
  if (i <=? Z.of_nat h)%Z then finv (mu - fpow ga (Z.to_nat (i - 1))) else
  if (i <=? Z.of_nat h + Z.of_nat K)%Z then - C (Z.to_nat (i - 1) - h) else 0.
Proof.
  intros Hi. rewrite (vidx_coef _ i (Z.to_nat (i - 1))) by lia. rewrite Es. unfold concat_neg_vector.
  rewrite coef_app, rg_r_len, coef_map_opp.
  destruct (Nat.ltb_spec (Z.to_nat (i - 1)) (h)), (Z.leb_spec i (Z.of_nat h)); try lia; [now apply rg_r|].
  destruct (Z.leb_spec i (Z.of_nat h + Z.of_nat K)).
  - rewrite coef_map_seq by lia. reflexivity.
  - unfold coef. rewrite nth_overflow by (rewrite map_length, seq_length; lia). ring.
Qed.
Lemma rg_w1 i : (1 <= i <= vv)%Z -> vidx (hp_w_vec_1 e) i = coef w (Z.to_nat (i - 1)).
Proof.
  intros Hi. pose proof rg_m as Em. rewrite (vidx_coef _ i (Z.to_nat (i - 1))) by lia. rewrite Ew1.
  rewrite !coef_app, !app_length, repeat_length, Lw, coef_repeat_0.
  destruct (Nat.ltb_spec (Z.to_nat (i - 1)) (3 * k + (m + 1))); [|lia].
  destruct (Nat.ltb_spec (Z.to_nat (i - 1)) (3 * k)); auto.
  unfold coef. now rewrite nth_overflow by lia.
Qed.
Lemma rg_z c : coef z c = vidx (hp_w_vec_1 e) (Z.of_nat c) + delta (Z.of_nat c + 1) 1 \/ (K <= c)%nat.
Proof.
  pose proof rg_m as Em. pose proof rg_K as EKK. destruct (le_lt_dec K c) as [|Hc]; auto. left. unfold z, delta.
  destruct c as [|c].
  - rewrite (vidx_out _ (Z.of_nat 0)) by lia. cbn. ring.
  - rewrite rg_w1 by lia. destruct (Z.eqb_spec (Z.of_nat (S c) + 1) 1); [lia|].
    replace (Z.to_nat (Z.of_nat (S c) - 1)) with c by lia. change (coef (1 :: w) (S c)) with (coef w c). ring.
Qed.

(** the two inner products *)
Lemma rg_inner_1 : sumn h (fun r => coef (hp_r_vec e) r * mat_vec M K z r) = sumn K (fun c => coef z c * C c).
Proof. apply mat_vec_adjoint. Qed.
Lemma rg_inner_2 : sumn K (fun c => finv (nu - fpow ga c) * C c) = sumn m (fun j => coef UW j * coef vals j).
Proof.
  unfold mat_vec.
  rewrite (sumn_ext K _ (fun c => finv (nu - fpow ga c) * sumn h (fun r => mat_at M r c * coef (hp_r_vec e) r))).
  2:{ intros c Hc. f_equal. apply sumn_ext. intros r Hr. now rewrite mat_at_transpose. }
  rewrite (mat_bilinear M h K) by auto. unfold M.
  rewrite (entries_sum rows cols vals (fun r c x => coef (hp_r_vec e) r * finv (nu - fpow ga c) * x)) by auto.
  rewrite Lv. apply sumn_ext. intros j Hj.
  destruct (in_shape_nth rows cols vals h K j) as [H1 H2]; auto; [lia|].
  rewrite rg_r by auto. pose proof (rg_uw j Hj) as E. rewrite rg_u, rg_w in E by auto.
  pose proof (rg_mu_neq _ H1) as N1. pose proof (rg_nu_neq _ H2) as N2.
  assert (coef UW j = finv (mu - fpow ga (nth j rows 0%nat)) * finv (nu - fpow ga (nth j cols 0%nat))) as ->; [|ring].
  set (a := mu - fpow ga (nth j rows 0%nat)) in *. set (b := nu - fpow ga (nth j cols 0%nat)) in *.
  transitivity (coef UW j * (a * b) * (finv a * finv b)); [field; auto|]. rewrite E. field. auto.
Qed.

Lemma rg_rv_len : length (hp_r_vec_1 e) = (K + m)%nat.
Proof. unfold hp_r_vec_1, hp_vovectorsize. rewrite expression_vector_length, EK, ESa, ESb, ESc, ESd. unfold m, K. lia. Qed.
Lemma rg_rv_at i : (1 <= i <= vv)%Z -> vidx (hp_r_vec_1 e) i =
  (vidx (hp_x_vec e) i + vidx (hp_w_vec_1 e) (i - Z.of_nat h - 1) + delta i (Z.of_nat h + 1)) * vidx (hp_s_vec e) i
  - hp_beta e * (vidx (hp_h_vec e) (i - Z.of_nat h) * vidx (hp_s_vec e) i + vidx (hp_h_vec e) i * vidx vals (i - 3 * Z.of_nat k - 1)).
Proof.
  intros Hi. unfold hp_r_vec_1. rewrite (vidx_coef _ i (Z.to_nat (i - 1))) by lia.
  rewrite nth_expression_vector by (unfold hp_vovectorsize; rewrite EK, ESa, ESb, ESc, ESd; lia).
  replace (Z.of_nat (S (Z.to_nat (i - 1)))) with i by lia.
  unfold hp_r_vec_1_at, power_linear_combination, minus_i64. cbn [fold_left fst snd]. rewrite EH, EK, Ev.
  replace (i - (Z.of_nat h + 1) + 1)%Z with (i - Z.of_nat h)%Z by lia.
  replace (i - (Z.of_nat h + 2) + 1)%Z with (i - Z.of_nat h - 1)%Z by lia.
  replace (i - 1 + 1)%Z with i by lia.
  replace (i - (3 * Z.of_nat k + 2) + 1)%Z with (i - 3 * Z.of_nat k - 1)%Z by lia. ring.
Qed.

Lemma rg_sum_0 : sumn (K + m) (coef (hp_r_vec_1 e)) = 0.
Proof.
  pose proof rg_m as Em. pose proof rg_K as EKK.
  rewrite (sumn_ext (K + m) _ (fun i => let p := Z.of_nat (S i) in
    (vidx (hp_x_vec e) p + vidx (hp_w_vec_1 e) (p - Z.of_nat h - 1) + delta p (Z.of_nat h + 1)) * vidx (hp_s_vec e) p
    - hp_beta e * (vidx (hp_h_vec e) (p - Z.of_nat h) * vidx (hp_s_vec e) p + vidx (hp_h_vec e) p * vidx vals (p - 3 * Z.of_nat k - 1)))).
  2:{ intros i Hi. cbn zeta. rewrite <- rg_rv_at by lia. symmetry. apply vidx_coef. lia. }
  cbn zeta. rewrite sumn_sub, sumn_mul_l, sumn_add.
  assert (sumn (K + m) (fun i => (vidx (hp_x_vec e) (Z.of_nat (S i)) + vidx (hp_w_vec_1 e) (Z.of_nat (S i) - Z.of_nat h - 1)
     + delta (Z.of_nat (S i)) (Z.of_nat h + 1)) * vidx (hp_s_vec e) (Z.of_nat (S i))) = 0) as ->.
  { replace (K + m)%nat with (h + (K + (m - h)))%nat by lia. rewrite !sumn_split.
    rewrite (sumn_ext h _ (fun r => coef (hp_r_vec e) r * mat_vec M K z r)).
    2:{ intros i Hi. rewrite Hx by auto. rewrite rg_s by lia. destruct (Z.leb_spec (Z.of_nat (S i)) (Z.of_nat h)); [|lia].
        rewrite (vidx_out (hp_w_vec_1 e)), (vidx_coef _ _ i) by lia. unfold delta. destruct (Z.eqb_spec (Z.of_nat (S i)) (Z.of_nat h + 1)); [lia|].
        replace (Z.to_nat (Z.of_nat (S i) - 1)) with i by lia. rewrite <- rg_r by auto. ring. }
    rewrite (sumn_ext K _ (fun c => - (coef z c * C c))).
    2:{ intros i Hi. destruct (rg_z i) as [E|]; [|lia]. rewrite E, rg_s by lia.
        destruct (Z.leb_spec (Z.of_nat (S (h + i))) (Z.of_nat h)); [lia|].
        destruct (Z.leb_spec (Z.of_nat (S (h + i))) (Z.of_nat h + Z.of_nat K)); [|lia].
        rewrite (vidx_out (hp_x_vec e)) by lia.
        replace (Z.of_nat (S (h + i)) - Z.of_nat h - 1)%Z with (Z.of_nat i) by lia.
        assert (delta (F := F) (Z.of_nat (S (h + i))) (Z.of_nat h + 1) = delta (Z.of_nat i + 1) 1) as ->.
        { unfold delta. destruct (Z.eqb_spec (Z.of_nat (S (h + i))) (Z.of_nat h + 1)), (Z.eqb_spec (Z.of_nat i + 1) 1); auto; lia. }
        replace (Z.to_nat (Z.of_nat (S (h + i)) - 1) - h)%nat with i by lia. ring. }
    rewrite (sumn_0 (m - h)).
    2:{ intros i Hi. rewrite rg_s by lia. repeat match goal with |- context [(?x <=? ?y)%Z] => destruct (Z.leb_spec x y); try lia end. ring. }
    rewrite sumn_opp, rg_inner_1. ring. }
  assert (sumn (K + m) (fun i => vidx (hp_h_vec e) (Z.of_nat (S i) - Z.of_nat h) * vidx (hp_s_vec e) (Z.of_nat (S i))) =
          - sumn K (fun c => finv (nu - fpow ga c) * C c)) as ->.
  { replace (K + m)%nat with (h + (K + (m - h)))%nat by lia. rewrite !sumn_split.
    rewrite (sumn_0 h). 2:{ intros i Hi. rewrite (vidx_out (hp_h_vec e)) by lia. ring. }
    rewrite (sumn_ext K _ (fun c => - (finv (nu - fpow ga c) * C c))).
    2:{ intros i Hi. rewrite rg_h, rg_s by lia. 
        repeat match goal with |- context [(?x <=? ?y)%Z] => destruct (Z.leb_spec x y); try lia end.
        replace (Z.to_nat (Z.of_nat (S (h + i)) - 1) - h)%nat with i by lia.
        replace (Z.to_nat (Z.of_nat (S (h + i)) - Z.of_nat h - 1))%nat with i by lia. ring. }
    rewrite (sumn_0 (m - h)).
    2:{ intros i Hi. rewrite rg_s by lia. repeat match goal with |- context [(?x <=? ?y)%Z] => destruct (Z.leb_spec x y); try lia end. ring. }
    rewrite sumn_opp. ring. }
  assert (sumn (K + m) (fun i => vidx (hp_h_vec e) (Z.of_nat (S i)) * vidx vals (Z.of_nat (S i) - 3 * Z.of_nat k - 1)) =
          sumn m (fun j => coef UW j * coef vals j)) as ->.
  { rewrite sumn_split. rewrite (sumn_0 K). 2:{ intros i Hi. rewrite (vidx_out vals) by lia. ring. }
    rewrite (sumn_ext m _ (fun j => coef UW j * coef vals j)); [ring|].
    intros i Hi. rewrite rg_h by lia. destruct (Z.leb_spec (Z.of_nat (S (K + i))) (Z.of_nat K)); [lia|].
    rewrite (vidx_coef vals _ i) by lia. replace (Z.to_nat (Z.of_nat (S (K + i)) - 1) - K)%nat with i by lia. reflexivity. }
  rewrite rg_inner_2. ring.
Qed.

Lemma sat_hp_sat : hp_sat e.
Proof.
  pose proof rg_m as Em. pose proof rg_K as EKK. pose proof rg_h_len as Lhv.
  split; rewrite ?EK, ?ESa, ?ESb, ?ESc, ?ESd; unfold hp_k0, hp_k1, hp_k2, hp_k4, hp_k5, hp_k6, hp_k7;
    rewrite ?EH, ?EK, ?ESa, ?ESb, ?ESc, ?ESd; intros i Hi.
  - destruct (Z_le_gt_dec i (Z.of_nat h)); [|rewrite range_out by lia; ring].
    rewrite range_in, rg_s by lia. destruct (Z.leb_spec i (Z.of_nat h)); [|lia].
    replace (fpowZ ga (i - 1)) with (fpow ga (Z.to_nat (i - 1))) by (rewrite <- fpowZ_nat; f_equal; lia).
    pose proof (rg_mu_neq (Z.to_nat (i - 1))) as N. set (a := mu - fpow ga (Z.to_nat (i - 1))) in *.
    field. apply N. lia.
  - destruct (Z_le_gt_dec i (Z.of_nat K)); [|rewrite range_out by lia; ring].
    rewrite range_in, rg_h by lia. destruct (Z.leb_spec i (Z.of_nat K)); [|lia].
    replace (fpowZ ga (i - 1)) with (fpow ga (Z.to_nat (i - 1))) by (rewrite <- fpowZ_nat; f_equal; lia).
    pose proof (rg_nu_neq (Z.to_nat (i - 1))) as N. set (a := nu - fpow ga (Z.to_nat (i - 1))) in *.
    field. apply N. lia.
  - destruct (Z_le_gt_dec (Z.of_nat h + 3 * Z.of_nat k + 2) i); [|rewrite range_out by lia; ring].
    rewrite rg_s by lia. repeat match goal with |- context [(?x <=? ?y)%Z] => destruct (Z.leb_spec x y); try lia end. ring.
  - destruct (Z_le_gt_dec i (Z.of_nat K)).
    { rewrite !range_out, !(vidx_out _ (i - 3 * Z.of_nat k - 1)) by lia. ring. }
    rewrite !range_in, rg_h by lia. destruct (Z.leb_spec i (Z.of_nat K)); [lia|].
    set (j := (Z.to_nat (i - 1) - K)%nat). rewrite !(vidx_coef _ (i - 3 * Z.of_nat k - 1) j) by lia.
    rewrite Ey, coef_hadamard, rg_u_len, rg_w_len, Nat.min_id.
    assert (j < m)%nat as Hj by lia. destruct (Nat.ltb_spec j m); [|lia]. pose proof (rg_uw j Hj) as E.
    match type of E with ?a = _ => transitivity (a - 1); [ring|rewrite E; ring] end.
  - destruct (Z_le_gt_dec i (vv - Z.of_nat k)).
    { rewrite range_out, (vidx_out _ (i - vv + Z.of_nat k)) by lia. ring. }
    rewrite range_in, !rg_w1 by lia.
    set (j := Z.to_nat (i - vv + Z.of_nat k - 1)).
    replace (Z.to_nat (i - vv + 2 * Z.of_nat k - 1)) with (k + j)%nat by lia.
    replace (Z.to_nat (i - vv + 3 * Z.of_nat k - 1)) with (2 * k + j)%nat by lia.
    rewrite Hhad by lia. ring.
  - rewrite range_in, Er, Ev by lia. unfold hp_r_acc.
    rewrite running_sum_step by (rewrite rg_rv_len; lia). rewrite rg_rv_at by lia. ring.
  - unfold delta. destruct (Z.eqb_spec i vv) as [->|]; [|ring].
    replace vv with (Z.of_nat (length (hp_r_vec_1 e))) at 1 by (rewrite rg_rv_len; lia).
    rewrite Er. unfold hp_r_acc. rewrite running_sum_end by (rewrite rg_rv_len; lia). rewrite rg_rv_len, rg_sum_0. ring.
Qed.
End Good.
End HPGood.

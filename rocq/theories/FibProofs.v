(** FibProofs.v: the algebra of the Fibonacci argument: its convolution checks, the product
    polynomial and the combined polynomial. *)
From Verif Require Import Base Spec Tools ToolsProofs ToolsProofs2 CS KZG KZGProofs Snark Laurent SnarkProofs SnarkPerm PovPEConst Fib.
Local Open Scope F_scope.

Section FibProofs.
Context {F : Type} {fo : FieldOps F} {fl : FieldLaws F}.
Add Field Ffib : F_th.

(** coefficient k of the product of two vectors given by expressions *)
Lemma conv_coef (A B : Z -> F) (N : Z) om k : (1 <= N)%Z -> om <> 0 ->
  (forall i, (i < 1 \/ N < i)%Z -> B i = 0) ->
  coef (vector_poly_mul (expression_vector A N) (expression_vector B N) om) k =
  sumZ 1 (Z.to_nat N) (fun i => fpowZ om (i - 1) * (A i * B (i + Z.of_nat k - N + 1)%Z)).
Proof.
  intros HN Ho HB. pose proof (expression_vector_length A N) as LA.
  pose proof (corr_at0' (expression_vector A N) (expression_vector B N) om (1 - Z.of_nat k) (Z.to_nat N) Ho
    ltac:(lia) ltac:(lia)) as E.
  unfold minus_i64 in E. replace (1 - (1 - Z.of_nat k) + 1)%Z with (Z.of_nat (S k)) in E by lia.
  rewrite vidx_S in E. rewrite E. apply sumZ_ext. intros i Hi. rewrite LA, !vidx_expression_vector.
  replace ((1 <=? i)%Z && (i <=? N)%Z) with true by (symmetry; apply andb_true_iff; split; apply Z.leb_le; lia).
  replace (i + 2 - (1 - Z.of_nat k) - Z.of_nat (Z.to_nat N))%Z with (i + Z.of_nat k - N + 1)%Z by lia.
  destruct (Z.leb_spec 1 (i + Z.of_nat k - N + 1)), (Z.leb_spec (i + Z.of_nat k - N + 1) N); cbn [andb]; auto;
    rewrite HB by lia; reflexivity.
Qed.
Lemma poly_mul_length_le (u v : list F) om : (length (vector_poly_mul u v om) <= length u + length v - 1)%nat.
Proof.
  unfold vector_poly_mul. destruct (Nat.le_gt_cases (length (strip (pmul (strip (vector_reverse_omega u om)) (strip v)))) (length u + length v - 1)) as [H|H]; auto.
  exfalso. set (p := pmul _ _) in *.
  assert (strip p <> []) as Hn by (intros E; rewrite E in H; cbn in H; lia).
  apply strip_last in Hn. apply Hn. change (strip p) with (vector_poly_mul u v om). apply coef_poly_mul_over.
  unfold vector_poly_mul. fold p. lia.
Qed.
Lemma check_vector_eq_ok (u v : list F) : length u = length v -> (forall i, (i < length u)%nat -> coef u i = coef v i) ->
  check_vector_eq_o u v = Ok tt.
Proof.
  intros L E. assert (u = v) as ->.
  { apply (nth_ext _ _ 0 0 L). intros i Hi. now apply E. }
  unfold check_vector_eq_o, check_vector_eq. rewrite Nat.eqb_refl. cbn [andb].
  replace (forallb _ _) with true; auto. symmetry. apply forallb_forall. intros [a b] Hab.
  cbn [fst snd]. assert (a = b) as ->; [|apply feqb_refl].
  clear L E. induction v as [|x v IH]; cbn [combine] in Hab; [contradiction|]. destruct Hab as [Hab|Hab]; [congruence|auto].
Qed.
Lemma check_vector_eq_inv (u v : list F) : check_vector_eq_o u v = Ok tt -> u = v.
Proof.
  unfold check_vector_eq_o, check_vector_eq. destruct (Nat.eqb_spec (length u) (length v)) as [L|]; [|discriminate].
  cbn [andb]. destruct (forallb _ _) eqn:E; [|discriminate]. intros _. revert v L E.
  induction u as [|a u IH]; intros [|b v] L E; try discriminate; auto. cbn [combine forallb fst snd] in E.
  apply andb_true_iff in E. destruct E as [E1 E2]. apply feqb_eq in E1. subst. f_equal. apply IH; auto.
Qed.

(** the convolution checks succeed as soon as the expected coefficients are the right sums *)
Lemma conv_check (A B at_ : Z -> F) (N : Z) om : (1 <= N)%Z -> om <> 0 ->
  (forall i, (i < 1 \/ N < i)%Z -> B i = 0) ->
  (forall i, (1 <= i <= 2 * N - 1)%Z -> CT om (Z.to_nat N) (at_ i) (fun j => A j * B (j + (i - (N - 1)) - 1)%Z)) ->
  (let! p := zero_pad (vector_poly_mul (expression_vector A N) (expression_vector B N) om) (Z.to_nat (2 * N - 1)) in
   check_vector_eq_o (expression_vector at_ (2 * N - 1)) p) = Ok tt /\
  forall i, (1 <= i <= 2 * N - 1)%Z ->
    vidx (vector_poly_mul (expression_vector A N) (expression_vector B N) om) i = at_ i.
Proof.
  intros HN Ho HB HC.
  assert (forall i, (1 <= i <= 2 * N - 1)%Z ->
    vidx (vector_poly_mul (expression_vector A N) (expression_vector B N) om) i = at_ i) as V.
  { intros i Hi. rewrite vidx_in by lia. rewrite conv_coef by auto. rewrite (HC i Hi). apply sumZ_ext. intros j Hj.
    do 3 f_equal. lia. }
  split; auto. pose proof (poly_mul_length_le (expression_vector A N) (expression_vector B N) om) as L.
  rewrite !expression_vector_length in L.
  destruct (zero_pad_ok (E:=error) (vector_poly_mul (expression_vector A N) (expression_vector B N) om) (Z.to_nat (2 * N - 1))
    ltac:(lia)) as [p [-> [Lp Cp]]]. cbn [obind]. apply check_vector_eq_ok; rewrite expression_vector_length; auto.
  intros i Hi. rewrite Cp, nth_expression_vector by auto. rewrite <- (V (Z.of_nat (S i))) by lia. now rewrite vidx_S.
Qed.

Record fb_sizes (e : fb_s3 F) : Prop := {
  fz_n : (2 <= fb_n e)%Z;
  fz_t : (Z.of_nat (length (fb_pk_t_vec e)) = fb_n e)%Z;
  fz_w : (Z.of_nat (length (fb_w_vec e)) = fb_n e + 1)%Z;
  fz_r : (Z.of_nat (length (fb_r_vec e)) = fb_n e + 1)%Z;
  fz_t1 : exists dl, fb_t_vec_1 e = dl :: fb_t_vec_1_tail e;
  fz_d : (fb_n e + 3 <= fb_cap_d e)%Z }.

Section Alg.
Variable e : fb_s3 F.
Hypothesis SZ : fb_sizes e.
Notation n := (fb_n e).
Notation al := (fb_alpha e).
Notation om := (fb_omega e).
Notation w := (fb_w_vec e).
Notation r := (fb_r_vec e).
Notation t := (fb_pk_t_vec e).
Notation t1 := (fb_t_vec_1 e).
Hypothesis Hom : om <> 0.

Lemma fb_t1_tail_0 i : (1 <= i)%Z -> fb_t_vec_1_at e i = 0.
Proof.
  intros Hi. destruct SZ as [Sn St Sw Sr _ _]. unfold fb_t_vec_1_at, fb_n_1, minus_i64.
  rewrite range_out by lia. rewrite (vidx_out t) by lia. ring.
Qed.
Lemma fb_t1_out i : (i < 1 \/ 1 < i)%Z -> vidx t1 i = 0.
Proof.
  intros Hi. destruct (fz_t1 e SZ) as [dl E]. 
  assert (length t1 = 5%nat) as L by (rewrite E; cbn [length]; unfold fb_t_vec_1_tail; rewrite expression_vector_length; reflexivity).
  destruct Hi as [Hi|Hi]; [now rewrite vidx_out by lia|].
  destruct (Z_lt_le_dec 5 i); [now rewrite vidx_out by lia|].
  replace i with (Z.of_nat (S (S (Z.to_nat (i - 2))))) by lia. rewrite vidx_S, E.
  change (coef (dl :: fb_t_vec_1_tail e) (S (Z.to_nat (i - 2)))) with (coef (fb_t_vec_1_tail e) (Z.to_nat (i - 2))).
  unfold fb_t_vec_1_tail. rewrite nth_expression_vector by (unfold fb_maxshift; lia). apply fb_t1_tail_0. lia.
Qed.
Lemma fb_t1_len : length t1 = 5%nat.
Proof. destruct (fz_t1 e SZ) as [dl E]. rewrite E. cbn [length]. unfold fb_t_vec_1_tail. now rewrite expression_vector_length. Qed.

Lemma fb_inv_om : power om (-1) = finv om.
Proof. rewrite pw by auto. fpz. field. auto. Qed.

(** *** The convolutions *)
Notation NN := (n + 3)%Z.
Lemma fb_M : (fb_maxshift e + fb_n_1 e + 1 = NN)%Z. Proof. unfold fb_maxshift, fb_n_1; lia. Qed.
Lemma fb_2M : (2 * fb_maxshift e + 2 * fb_n_1 e + 1 = 2 * NN - 1)%Z. Proof. unfold fb_maxshift, fb_n_1; lia. Qed.

Ltac same_delta :=
  match goal with
  | |- context [delta ?a ?b] => match goal with |- context [delta ?a' ?b'] =>
      tryif (constr_eq a a'; constr_eq b b') then fail else
      replace (delta (F:=F) a' b') with (delta (F:=F) a b) by (unfold delta; destruct (Z.eqb_spec a b), (Z.eqb_spec a' b'); auto; lia) end
  end.
Ltac same_range :=
  match goal with
  | |- context [range_index ?a ?b ?c] => match goal with |- context [range_index ?a' ?b' ?c'] =>
      tryif (constr_eq a a'; constr_eq b b'; constr_eq c c') then fail else
      replace (range_index (F:=F) a' b' c') with (range_index (F:=F) a b c) by
       (unfold range_index; destruct (Z.leb_spec a c), (Z.leb_spec c b), (Z.leb_spec a' c'), (Z.leb_spec c' b'); cbn [andb]; auto; lia) end
  end.
(** coefficients at offset K as constant terms *)
Ltac at_one K :=
  repeat match goal with
  | |- context [minus_i64 K ?b] => replace (minus_i64 K b) with (minus_i64 1 (b - K + 1)) by (unfold minus_i64; lia)
  | |- context [delta K 1] => replace (delta (F:=F) K 1) with (delta (F:=F) 1 (2 - K)) by
       (unfold delta; destruct (Z.eqb_spec 1 (2 - K)), (Z.eqb_spec K 1); auto; lia)
  end.
Ltac fb_conv :=
  destruct SZ as [Sn St Sw Sr [dl St1] Sd]; intros i Hi;
  unfold fb_maxshift, fb_n_1;
  replace (i - (n + 3 - 1))%Z with (i - 2 - n)%Z by lia;
  generalize (i - 2 - n)%Z; intros K; at_one K;
  eapply CT_ext; [|repeat first [ apply CT_add | apply CT_sub | apply CT_opp ];
    lazymatch goal with |- CT _ _ (?c * _) _ => apply CT_scale; ct_leaf (fb_omega e) c | |- _ => ct_leaf (fb_omega e) (f1 : F) end];
  [|try assumption; try apply f1_neq_0; try lia ..];
  let j := fresh "j" in intros j Hj; cbn beta; rewrite ?Sw, ?Sr, ?St; rewrite ?(pw om) by auto;
  unfold minus_i64; repeat idx_step; rewrite <- ?range_power_vidx;
  repeat same_delta; repeat same_range; repeat same_idx.
Ltac fb_fin := fpz; try (assert (fpowZ om n <> 0) as Pn by now apply fpowZ_neq_0); try ring; field; auto.

Lemma fb_conv_1 : fb_check_1 e = Ok tt /\ forall i, (1 <= i <= 2 * NN - 1)%Z -> vidx (fb_abnaive_vec e) i = fb_atimesb_vec_at e i.
Proof.
  unfold fb_check_1, fb_abnaive_vec, fb_atimesb_vec. rewrite fb_M, fb_2M.
  apply conv_check; auto; [destruct SZ; lia| |].
  - intros i Hi. unfold fb_abnaive_vec_right. apply delta_neq. destruct SZ; lia.
  - unfold fb_atimesb_vec_at, fb_abnaive_vec_left, fb_abnaive_vec_right, fb_v_vec, fb_v_vec_1, fb_shiftlength, fb_shiftlength_1, fb_c_2.
    fb_conv. fb_fin.
Qed.

Lemma fb_conv_2 : fb_check_2 e = Ok tt /\ forall i, (1 <= i <= 2 * NN - 1)%Z -> vidx (fb_abnaive_vec_1 e) i = fb_atimesb_vec_1_at e i.
Proof.
  unfold fb_check_2, fb_abnaive_vec_1, fb_atimesb_vec_1. rewrite fb_M, fb_2M.
  apply conv_check; auto; [destruct SZ; lia| |].
  - intros i Hi. unfold fb_abnaive_vec_1_right. unfold minus_i64; rewrite range_out by (destruct SZ; lia); auto.
  - unfold fb_atimesb_vec_1_at, fb_abnaive_vec_1_left, fb_abnaive_vec_1_right, fb_v_vec_3, fb_v_vec_2, fb_shiftlength_2.
    fb_conv. fb_fin.
Qed.
Lemma fb_conv_3 : fb_check_3 e = Ok tt /\ forall i, (1 <= i <= 2 * NN - 1)%Z -> vidx (fb_abnaive_vec_2 e) i = fb_atimesb_vec_2_at e i.
Proof.
  unfold fb_check_3, fb_abnaive_vec_2, fb_atimesb_vec_2. rewrite fb_M, fb_2M.
  apply conv_check; auto; [destruct SZ; lia| |].
  - intros i Hi. unfold fb_abnaive_vec_2_right. apply vidx_out; unfold minus_i64; destruct SZ; lia.
  - unfold fb_atimesb_vec_2_at, fb_abnaive_vec_2_left, fb_abnaive_vec_2_right, fb_v_vec_4, fb_shiftlength_3, fb_c_3, fb_c_1.
    fb_conv. fb_fin.
Qed.
Lemma fb_conv_4 : fb_check_4 e = Ok tt /\ forall i, (1 <= i <= 2 * NN - 1)%Z -> vidx (fb_abnaive_vec_3 e) i = fb_atimesb_vec_3_at e i.
Proof.
  unfold fb_check_4, fb_abnaive_vec_3, fb_atimesb_vec_3. rewrite fb_M, fb_2M.
  apply conv_check; auto; [destruct SZ; lia| |].
  - intros i Hi. unfold fb_abnaive_vec_3_right. apply delta_neq. destruct SZ; lia.
  - unfold fb_atimesb_vec_3_at, fb_abnaive_vec_3_left, fb_abnaive_vec_3_right, fb_v_vec_5, fb_v_vec_6, fb_shiftlength_4, fb_shiftlength_5, fb_c_4, fb_c_5.
    fb_conv. fb_fin.
Qed.
Lemma fb_conv_5 : fb_check_5 e = Ok tt /\ forall i, (1 <= i <= 2 * NN - 1)%Z -> vidx (fb_abnaive_vec_4 e) i = fb_atimesb_vec_4_at e i.
Proof.
  unfold fb_check_5, fb_abnaive_vec_4, fb_atimesb_vec_4. rewrite fb_M, fb_2M.
  apply conv_check; auto; [destruct SZ; lia| |].
  - intros i Hi. unfold fb_abnaive_vec_4_right. apply delta_neq. destruct SZ; lia.
  - unfold fb_atimesb_vec_4_at, fb_abnaive_vec_4_left, fb_abnaive_vec_4_right, fb_v_vec_7, fb_shiftlength_6, fb_c_6.
    fb_conv. fb_fin.
Qed.
Lemma fb_conv_6 : fb_check_6 e = Ok tt /\ forall i, (1 <= i <= 2 * NN - 1)%Z -> vidx (fb_abnaive_vec_5 e) i = fb_atimesb_vec_5_at e i.
Proof.
  unfold fb_check_6, fb_abnaive_vec_5, fb_atimesb_vec_5. rewrite fb_M, fb_2M.
  apply conv_check; auto; [destruct SZ; lia| |].
  - intros i Hi. unfold fb_abnaive_vec_5_right. unfold minus_i64; rewrite range_out, !delta_neq by (destruct SZ; lia). ring.
  - unfold fb_atimesb_vec_5_at, fb_abnaive_vec_5_left, fb_abnaive_vec_5_right, fb_v_vec_10, fb_v_vec_11, fb_v_vec_8, fb_v_vec_9, fb_shiftlength_7, fb_shiftlength_8, fb_c_7, fb_c_8, fb_c_9, fb_c_10.
    fb_conv. fb_fin.
Qed.
Lemma fb_conv_7 : fb_check_7 e = Ok tt /\ forall i, (1 <= i <= 2 * NN - 1)%Z -> vidx (fb_abnaive_vec_6 e) i = fb_atimesb_vec_6_at e i.
Proof.
  unfold fb_check_7, fb_abnaive_vec_6, fb_atimesb_vec_6. rewrite fb_M, fb_2M.
  apply conv_check; auto; [destruct SZ; lia| |].
  - intros i Hi. unfold fb_abnaive_vec_6_right. apply fb_t1_out. unfold minus_i64, fb_n_1. destruct SZ; lia.
  - unfold fb_atimesb_vec_6_at, fb_abnaive_vec_6_left, fb_abnaive_vec_6_right, fb_v_vec_12, fb_c_11, fb_c_12.
    rewrite fb_inv_om. fb_conv. fb_fin.
Qed.
(** *** The product polynomial *)
Definition fb_at_sum (i : Z) : F := fb_atimesb_vec_at e i + fb_atimesb_vec_1_at e i + fb_atimesb_vec_2_at e i
  + fb_atimesb_vec_3_at e i + fb_atimesb_vec_4_at e i + fb_atimesb_vec_5_at e i + fb_atimesb_vec_6_at e i.
Lemma fb_h_at_sum i : fb_h_vec_at e i = fb_at_sum i.
Proof.
  unfold fb_at_sum, fb_h_vec_at, fb_atimesb_vec_at, fb_atimesb_vec_1_at, fb_atimesb_vec_2_at, fb_atimesb_vec_3_at,
    fb_atimesb_vec_4_at, fb_atimesb_vec_5_at, fb_atimesb_vec_6_at.
  change (fb_v_vec_13 e) with (fb_v_vec e). change (fb_v_vec_14 e) with (fb_v_vec_1 e).
  change (fb_v_vec_15 e) with (fb_v_vec_2 e). change (fb_v_vec_16 e) with (fb_v_vec_4 e).
  change (fb_v_vec_17 e) with (fb_v_vec_10 e). change (fb_v_vec_18 e) with (fb_v_vec_3 e).
  change (fb_v_vec_19 e) with (fb_v_vec_12 e). change (fb_v_vec_11 e) with (fb_v_vec_3 e).
  change (fb_v_vec_5 e) with (fb_v_vec e). change (fb_v_vec_6 e) with (fb_v_vec_2 e). change (fb_v_vec_7 e) with (fb_v_vec e).
  change (fb_v_vec_8 e) with (fb_v_vec e). change (fb_v_vec_9 e) with (fb_v_vec_2 e).
  change (fb_shiftlength_4 e) with (fb_shiftlength e). change (fb_shiftlength_5 e) with (fb_shiftlength_2 e).
  change (fb_shiftlength_6 e) with (fb_shiftlength e). change (fb_shiftlength_7 e) with (fb_shiftlength e).
  change (fb_shiftlength_8 e) with (fb_shiftlength_2 e). change (fb_shiftlength_9 e) with (fb_shiftlength e).
  change (fb_shiftlength_10 e) with (fb_shiftlength_1 e). change (fb_shiftlength_11 e) with (fb_shiftlength_2 e).
  change (fb_shiftlength_12 e) with (fb_shiftlength_3 e).
  unfold fb_c_13, fb_c_14, fb_c_15, fb_c_16, fb_c_2, fb_c_3, fb_c_4, fb_c_5, fb_c_6, fb_c_7, fb_c_8, fb_c_9, fb_c_10, fb_c_12.
  ring.
Qed.
End Alg.
End FibProofs.

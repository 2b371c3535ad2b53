(** R1Const.v: the constant term of the product polynomial of the R1CS argument is a sum over
    positions; the summands say that the matrix product, the row checks, the public input and the
    running sum are right. *)
From Verif Require Import Base Spec Tools ToolsProofs ToolsProofs2 CS KZG KZGProofs Snark Laurent Laurent2 PovPEConst R1 R1Proofs.
Local Open Scope F_scope.

Section R1Const.
Context {F : Type} {fo : FieldOps F} {fl : FieldLaws F}.
Add Field Fr1 : F_th.
Ltac r1_unf := unfold r1_hK, r1_v_vec_1, r1_v_vec_2, r1_v_vec_3, r1_v_vec_4, r1_v_vec_5, r1_v_vec_6, r1_v_vec_7, r1_v_vec_8, r1_v_vec_9, r1_v_vec_10, r1_v_vec_11, r1_v_vec_12, r1_v_vec_13, r1_v_vec_14, r1_v_vec_15, r1_v_vec_16, r1_v_vec_17, r1_v_vec_18, r1_v_vec_19, r1_v_vec_20, r1_v_vec_21, r1_v_vec_22, r1_v_vec_23, r1_v_vec_2, r1_shiftlength, r1_shiftlength_1, r1_shiftlength_2, r1_shiftlength_3, r1_shiftlength_4, r1_shiftlength_5, r1_shiftlength_6, r1_shiftlength_7, r1_ell_1, r1_c_12, r1_c_13.
Ltac r1_leaf om ga c :=
  let sh := lazymatch c with context [power (ga * om) ?a] => a | _ => ct_pow om c end in
  lazymatch goal with
  | |- CT _ _ (vidx (power_power_mul _ (Z.to_nat _) _ (Z.to_nat _)) _) _ => apply CT_ppm with (b := sh)
  | |- CT _ _ (vidx (vector_power_mul _ (1 / (ga * om)) (Z.to_nat _)) _) _ => apply CT_pow_g with (b := sh)
  | |- CT _ _ (power_vidx (finv om) _ _) _ => apply CT_powvec with (b := sh)
  | _ => ct_leaf om c
  end.
Ltac r1_tree om ga :=
  repeat first [ apply CT_add | apply CT_sub | apply CT_opp ];
  lazymatch goal with |- CT _ _ (?c * _) _ => apply CT_scale; r1_leaf om ga c end.
Ltac same_range :=
  match goal with
  | |- context [range_index ?s ?a ?i] => match goal with |- context [range_index s ?b i] =>
      tryif constr_eq a b then fail else replace (range_index (F := F) s b i) with (range_index (F := F) s a i) by (f_equal; lia) end
  end.
Section Const.
Variable e : r1_s6 F.
Hypothesis SZ : r1_sizes e.
Notation Hh := (r1_cap_h e).
Notation Kk := (r1_cap_k e).
Notation Sa := (r1_cap_s_a e).
Notation Sb := (r1_cap_s_b e).
Notation Sc := (r1_cap_s_c e).
Notation el := (r1_ell e).
Notation al := (r1_alpha e).
Notation om := (r1_omega e).
Notation ga := (r1_gamma e).
Notation mu := (r1_mu e).
Notation nu := (r1_nu e).
Notation be := (r1_beta e).
Notation vv := (Kk + Sa + Sb + Sc)%Z.
Notation sv := (vidx (r1_s_vec e)).
Notation hv := (vidx (r1_h_vec e)).
Notation u1 := (vidx (r1_u_vec_1 e)).
Notation rt := (vidx (r1_r_vec_tilde e)).
Hypothesis Hom : om <> 0.
Hypothesis Hga : ga <> 0.

(** the constraints at position i, one for every power of alpha (the third has no positions) *)
Definition r1_k0 (i : Z) : F := range_index 1 (3 * Hh) i * ((mu - fpowZ ga (i - 1)) * sv i)
  - range_index 1 (3 * Hh) i * range_index 1 (3 * Hh) i.
Definition r1_k1 (i : Z) : F := range_index 1 Kk i * ((nu - fpowZ ga (i - 1)) * hv i)
  - range_index 1 Kk i * range_index 1 Kk i.
Definition r1_k2 (i : Z) : F := range_index (Kk + 3 * Hh + 1) vv i * sv i.
Definition r1_k4 (i : Z) : F :=
  hv i * (mu * nu * range_index 1 (Sa + Sb + Sc) (i - Kk) - mu * vidx (r1_w_vec e) (i - Kk)
          - nu * vidx (r1_u_vec e) (i - Kk) + vidx (r1_y_vec e) (i - Kk))
  - range_index (Kk + 1) vv i * range_index 1 (Sa + Sb + Sc) (i - Kk).
Definition r1_k5 (i : Z) : F :=
  u1 (i - vv + Hh) * u1 (i - vv + 2 * Hh) - range_index (vv - Hh + 1) vv i * u1 (i - vv + 3 * Hh).
Definition r1_k6 (i : Z) : F :=
  range_index (3 * Hh + 1) (3 * Hh + el + 1) i * (u1 i - delta (i - 3 * Hh) 1 - vidx (r1_x_vec e) (i - 3 * Hh - 1)).
Definition r1_k7 (i : Z) : F :=
  u1 i * sv i - be * (hv (i - 3 * Hh) * sv i + hv i * vidx (r1_v_vec e) (i - Kk))
  - range_index 1 vv i * (rt i - rt (i - 1)).
Definition r1_k8 (i : Z) : F := delta i vv * rt i.
(** the summand at position i *)
Definition r1_br (i : Z) : F :=
  r1_k0 i + al * r1_k1 i + power al 2 * r1_k2 i + power al 4 * r1_k4 i + power al 5 * r1_k5 i
  + power al 6 * r1_k6 i + power al 7 * r1_k7 i + power al 8 * r1_k8 i
  - range_index (vv + 1) (2 * vv - Hh + 1) i * vidx (r1_t_vec e) (i - vv + 1).

Variable N : Z.
Hypothesis HN : (2 * vv - Hh + 1 <= N)%Z.
Hypothesis HNu : (Z.of_nat (length (r1_u_vec_1 e)) + vv - Hh <= N)%Z.
Hypothesis HNh : (Z.of_nat (length (r1_h_vec e)) + 3 * Hh <= N)%Z.

Lemma r1_CT : CT om (Z.to_nat N) (r1_hK e 1) r1_br.
Proof.
  destruct SZ. eapply CT_ext.
  2:{ r1_unf. 
  assert (power om (-1) = finv om) as -> by (rewrite pw by auto; change (-1)%Z with (- (1))%Z; rewrite fpowZ_opp, fpowZ_1 by auto; field; auto).
  unfold r1_c, r1_c_1, r1_c_2, r1_c_3, r1_c_4, r1_c_5, r1_c_6, r1_c_7, r1_c_8, r1_c_9, r1_c_10, r1_c_11, r1_c_14, r1_c_15, r1_c_16, r1_c_17, r1_c_18, r1_c_19, r1_c_20, r1_c_21, r1_c_22, r1_c_23, r1_c_24, r1_c_25, r1_c_26, r1_c_27, r1_c_28, r1_c_29, r1_c_30, r1_c_31, r1_c_32, r1_c_33, r1_c_34, r1_vovectorsize.
  r1_tree (r1_omega e) (r1_gamma e).
  all: try assumption; try apply f1_neq_0; try lia. }
  intros i Hi. cbn beta. assert (ga * om <> 0) as Hgo by now apply fmul_neq_0. rewrite !(pw om), !(pw (ga * om)), !(fpowZ_mul_base ga om) by auto.
  unfold r1_br, r1_k0, r1_k1, r1_k2, r1_k4, r1_k5, r1_k6, r1_k7, r1_k8, minus_i64.
  repeat idx_step. rewrite <- !range_power_vidx, ?delta_sub.
  rewrite (range_out (vv + 1) vv) by lia.
  repeat same_idx. repeat same_range.
  fpz.
  assert (forall k, fpowZ om k <> 0) as Po by (intros; now apply fpowZ_neq_0).
  assert (forall k, fpowZ ga k <> 0) as Pg by (intros; now apply fpowZ_neq_0).
  pose proof (Po Hh) as P1; pose proof (Po Kk) as P2; pose proof (Po Sa) as P3. pose proof (Po Sb) as P4; pose proof (Po Sc) as P5; pose proof (Po el) as P6.
  pose proof (Pg Hh) as G1; pose proof (Pg Kk) as G2. clear Po Pg.
  field. repeat split; assumption.
Qed.

(** the constraints hold at every position the vectors have *)
Record r1_sat : Prop := {
  rs_k0 : forall i, (1 <= i <= vv)%Z -> r1_k0 i = 0;
  rs_k1 : forall i, (1 <= i <= vv)%Z -> r1_k1 i = 0;
  rs_k2 : forall i, (1 <= i <= vv)%Z -> r1_k2 i = 0;
  rs_k4 : forall i, (1 <= i <= vv)%Z -> r1_k4 i = 0;
  rs_k5 : forall i, (1 <= i <= vv)%Z -> r1_k5 i = 0;
  rs_k6 : forall i, (1 <= i <= vv)%Z -> r1_k6 i = 0;
  rs_k7 : forall i, (1 <= i <= vv)%Z -> r1_k7 i = 0;
  rs_k8 : forall i, (1 <= i <= vv)%Z -> r1_k8 i = 0 }.

Lemma r1_br_0 : r1_sat -> (exists dl, r1_t_vec e = dl :: r1_t_vec_tail e) ->
  forall i, (1 <= i <= 2 * vv - Hh + 1)%Z -> r1_br i = 0.
Proof.
  intros [G0 G1 G2 G4 G5 G6 G7 G8] [dl Gt] i Hi. destruct SZ.
  unfold r1_br. destruct (Z_le_gt_dec i vv) as [Hl|Hl].
  - rewrite G0, G1, G2, G4, G5, G6, G7, G8 by lia. rewrite (range_out (vv + 1)) by lia. ring.
  - unfold r1_k0, r1_k1, r1_k2, r1_k4, r1_k5, r1_k6, r1_k7, r1_k8.
    rewrite (range_in (vv + 1)), (range_out 1 (3 * Hh)), (range_out 1 Kk), (range_out (Kk + 3 * Hh + 1)),
      (range_out (Kk + 1)), (range_out 1 (Sa + Sb + Sc)), (range_out (vv - Hh + 1)), (range_out (3 * Hh + 1)),
      (range_out 1 vv), (delta_neq i vv) by lia.
    rewrite Gt. replace (i - vv + 1)%Z with (Z.of_nat (S (S (Z.to_nat (i - vv - 1))))) by lia.
    rewrite vidx_S. change (coef (dl :: r1_t_vec_tail e) (S (Z.to_nat (i - vv - 1)))) with (coef (r1_t_vec_tail e) (Z.to_nat (i - vv - 1))).
    unfold r1_t_vec_tail. rewrite nth_expression_vector by (unfold r1_maxshift; lia).
    replace (Z.of_nat (S (Z.to_nat (i - vv - 1)))) with (i - vv)%Z by lia.
    unfold r1_t_vec_at, r1_c, r1_c_1, r1_c_2, r1_c_3, r1_c_4, r1_c_5, r1_c_6, r1_c_7, r1_c_8, r1_c_9, r1_c_10, r1_c_11, r1_ell_1, minus_i64, r1_vovectorsize. repeat idx_step.
    repeat same_idx.
    assert (forall n, (n < i)%Z -> power_vidx ga n i = 0) as Po.
    { intros n Hn. unfold power_vidx. destruct (Z.leb_spec i n); [lia|]. now rewrite Bool.andb_false_r. }
    rewrite (range_out 1 (3 * Hh)), (range_out 1 Kk), (range_out 1 (Sa + Sb + Sc)), (range_out 1 Hh),
      (range_out 1 vv), !Po, (pw_pos 0 2) by lia.
    change (Pos.to_nat 2) with 2%nat. cbn [fpow]. ring.
Qed.
End Const.
End R1Const.

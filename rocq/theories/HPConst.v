(** HPConst.v: the constant term of the product polynomial of the HPR argument is a sum over
    positions; the summands say that the matrix product, the Hadamard product and the running sum are right. *)
From Verif Require Import Base Spec Tools ToolsProofs ToolsProofs2 CS KZG KZGProofs Snark Laurent Laurent2 PovPEConst HP HPProofs.
Local Open Scope F_scope.

Section HPConst.
Context {F : Type} {fo : FieldOps F} {fl : FieldLaws F}.
Add Field Fhp : F_th.
Ltac hp_unf := unfold hp_hK, hp_v_vec_1, hp_v_vec_2, hp_v_vec_3, hp_v_vec_4, hp_v_vec_5, hp_v_vec_6, hp_v_vec_7, hp_v_vec_8, hp_v_vec_9, hp_v_vec_10, hp_v_vec_11, hp_v_vec_12, hp_v_vec_13, hp_v_vec_14, hp_v_vec_15, hp_v_vec_16, hp_v_vec_17, hp_v_vec_18, hp_v_vec_19, hp_v_vec_20, hp_v_vec_21, hp_v_vec_22, hp_v_vec_2, hp_shiftlength, hp_shiftlength_1, hp_shiftlength_2, hp_shiftlength_3, hp_shiftlength_4, hp_shiftlength_5, hp_shiftlength_6, hp_shiftlength_7, hp_shiftlength_8, hp_ell, hp_c_12, hp_c_13.
Lemma CT_corrE u v (om : F) b (a : Z) N : om <> 0 -> (0 <= a)%Z ->
  (Z.of_nat (length u) + a <= Z.of_nat N)%Z ->
  CT om N (vidx (vector_poly_mul u v om) (minus_i64 1 b))
     (fun i => fpowZ om (- a) * (vidx u (i - a) * vidx v (i - a + 2 - b - Z.of_nat (length u)))).
Proof.
  intros. destruct u as [|x u]; [|apply CT_corr; auto; cbn; lia].
  rewrite poly_mul_nil. unfold CT. symmetry. apply sumZ_0. intros i _.
  rewrite (vidx_out []) by (cbn; lia). ring.
Qed.
Ltac hp_leaf om ga c :=
  let sh := lazymatch c with context [power (ga * om) ?a] => a | _ => ct_pow om c end in
  lazymatch goal with
  | |- CT _ _ (vidx (power_power_mul _ (Z.to_nat _) _ (Z.to_nat _)) _) _ => apply CT_ppm with (b := sh)
  | |- CT _ _ (vidx (vector_power_mul _ (1 / (ga * om)) (Z.to_nat _)) _) _ => apply CT_pow_g with (b := sh)
  | |- CT _ _ (power_vidx (finv om) _ _) _ => apply CT_powvec with (b := sh)
  | |- CT _ _ (vidx (vector_poly_mul _ _ _) (minus_i64 1 _)) _ => apply CT_corrE with (a := sh)
  | _ => ct_leaf om c
  end.
Ltac hp_tree om ga :=
  repeat first [ apply CT_add | apply CT_sub | apply CT_opp ];
  lazymatch goal with |- CT _ _ (?c * _) _ => apply CT_scale; hp_leaf om ga c end.
Ltac same_range :=
  match goal with
  | |- context [range_index ?s ?a ?i] => match goal with |- context [range_index s ?b i] =>
      tryif constr_eq a b then fail else replace (range_index (F := F) s b i) with (range_index (F := F) s a i) by (f_equal; lia) end
  end.
Section Const.
Variable e : hp_s6 F.
Hypothesis SZ : hp_sizes e.
Notation Hh := (hp_cap_h e).
Notation Kk := (hp_cap_k e).
Notation Sa := (hp_cap_s_a e).
Notation Sb := (hp_cap_s_b e).
Notation Sc := (hp_cap_s_c e).
Notation Sd := (hp_cap_s_d e).
Notation al := (hp_alpha e).
Notation om := (hp_omega e).
Notation ga := (hp_gamma e).
Notation mu := (hp_mu e).
Notation nu := (hp_nu e).
Notation be := (hp_beta e).
Notation ss := (Sa + Sb + Sc + Sd)%Z.
Notation vv := (3 * Kk + Sa + Sb + Sc + Sd + 1)%Z.
Notation sv := (vidx (hp_s_vec e)).
Notation hv := (vidx (hp_h_vec e)).
Notation w1 := (vidx (hp_w_vec_1 e)).
Notation rt := (vidx (hp_r_vec_tilde e)).
Hypothesis Hom : om <> 0.
Hypothesis Hga : ga <> 0.

(** the constraints at position i, one for every power of alpha (the third has no positions) *)
Definition hp_k0 (i : Z) : F := range_index 1 Hh i * ((mu - fpowZ ga (i - 1)) * sv i)
  - range_index 1 Hh i * range_index 1 Hh i.
Definition hp_k1 (i : Z) : F := range_index 1 (3 * Kk + 1) i * ((nu - fpowZ ga (i - 1)) * hv i)
  - range_index 1 (3 * Kk + 1) i * range_index 1 (3 * Kk + 1) i.
Definition hp_k2 (i : Z) : F := range_index (Hh + 3 * Kk + 2) vv i * sv i.
Definition hp_k4 (i : Z) : F :=
  hv i * (mu * nu * range_index 1 ss (i - 3 * Kk - 1) - mu * vidx (hp_w_vec e) (i - 3 * Kk - 1)
          - nu * vidx (hp_u_vec e) (i - 3 * Kk - 1) + vidx (hp_y_vec e) (i - 3 * Kk - 1))
  - range_index (3 * Kk + 2) vv i * range_index 1 ss (i - 3 * Kk - 1).
Definition hp_k5 (i : Z) : F :=
  w1 (i - vv + Kk) * w1 (i - vv + 2 * Kk) - range_index (vv - Kk + 1) vv i * w1 (i - vv + 3 * Kk).
Definition hp_k6 (i : Z) : F :=
  (vidx (hp_x_vec e) i + w1 (i - Hh - 1) + delta i (Hh + 1)) * sv i
  - be * (hv (i - Hh) * sv i + hv i * vidx (hp_v_vec e) (i - 3 * Kk - 1))
  - range_index 1 vv i * (rt i - rt (i - 1)).
Definition hp_k7 (i : Z) : F := delta i vv * rt i.
(** the summand at position i *)
Definition hp_br (i : Z) : F :=
  hp_k0 i + al * hp_k1 i + power al 2 * hp_k2 i + power al 4 * hp_k4 i + power al 5 * hp_k5 i
  + power al 6 * hp_k6 i + power al 7 * hp_k7 i
  - range_index (vv + 1) (2 * vv - Kk + 1) i * vidx (hp_t_vec e) (i - vv + 1).

Variable N : Z.
Hypothesis HN : (2 * vv - Kk + 1 <= N)%Z.
Hypothesis HNu : (Z.of_nat (length (hp_w_vec_1 e)) + vv - Kk <= N)%Z.
Hypothesis HNh : (Z.of_nat (length (hp_h_vec e)) + Hh <= N)%Z.
Hypothesis HNx : (Z.of_nat (length (hp_x_vec e)) <= N)%Z.

Lemma hp_CT : CT om (Z.to_nat N) (hp_hK e 1) hp_br.
Proof.
  destruct SZ. eapply CT_ext.
  2:{ hp_unf. 
  assert (power om (-1) = finv om) as -> by (rewrite pw by auto; change (-1)%Z with (- (1))%Z; rewrite fpowZ_opp, fpowZ_1 by auto; field; auto).
  unfold hp_c, hp_c_1, hp_c_2, hp_c_3, hp_c_4, hp_c_5, hp_c_6, hp_c_7, hp_c_8, hp_c_9, hp_c_10, hp_c_11, hp_c_14, hp_c_15, hp_c_16, hp_c_17, hp_c_18, hp_c_19, hp_c_20, hp_c_21, hp_c_22, hp_c_23, hp_c_24, hp_c_25, hp_c_26, hp_c_27, hp_c_28, hp_c_29, hp_c_30, hp_c_31, hp_c_32, hp_c_33, hp_c_34, hp_vovectorsize.
  hp_tree (hp_omega e) (hp_gamma e).
  all: try assumption; try apply f1_neq_0; try lia.
  }
  intros i Hi. cbn beta. assert (ga * om <> 0) as Hgo by now apply fmul_neq_0. rewrite !(pw om), !(pw (ga * om)), !(fpowZ_mul_base ga om) by auto.
  unfold hp_br, hp_k0, hp_k1, hp_k2, hp_k4, hp_k5, hp_k6, hp_k7, minus_i64.
  repeat idx_step. rewrite <- !range_power_vidx, ?delta_sub.
  rewrite (range_out (3 * Kk + Sa + Sb + Sc + Sd + 2) vv) by lia.
  replace (3 * Kk + Hh + 2)%Z with (Hh + 3 * Kk + 2)%Z by lia.
  repeat same_idx. repeat same_range.
  fpz.
  assert (forall k, fpowZ om k <> 0) as Po by (intros; now apply fpowZ_neq_0).
  assert (forall k, fpowZ ga k <> 0) as Pg by (intros; now apply fpowZ_neq_0).
  pose proof (Po Hh) as P1; pose proof (Po Kk) as P2; pose proof (Po Sa) as P3. pose proof (Po Sb) as P4; pose proof (Po Sc) as P5; pose proof (Po Sd) as P6.
  pose proof (Pg Hh) as G1; pose proof (Pg Kk) as G2. clear Po Pg.
  field. repeat split; assumption.
Qed.

(** the constraints hold at every position the vectors have *)
Record hp_sat : Prop := {
  hs_k0 : forall i, (1 <= i <= vv)%Z -> hp_k0 i = 0;
  hs_k1 : forall i, (1 <= i <= vv)%Z -> hp_k1 i = 0;
  hs_k2 : forall i, (1 <= i <= vv)%Z -> hp_k2 i = 0;
  hs_k4 : forall i, (1 <= i <= vv)%Z -> hp_k4 i = 0;
  hs_k5 : forall i, (1 <= i <= vv)%Z -> hp_k5 i = 0;
  hs_k6 : forall i, (1 <= i <= vv)%Z -> hp_k6 i = 0;
  hs_k7 : forall i, (1 <= i <= vv)%Z -> hp_k7 i = 0 }.

Lemma hp_br_0 : hp_sat -> (exists dl, hp_t_vec e = dl :: hp_t_vec_tail e) ->
  forall i, (1 <= i <= 2 * vv - Kk + 1)%Z -> hp_br i = 0.
Proof.
  intros [G0 G1 G2 G4 G5 G6 G7] [dl Gt] i Hi. destruct SZ.
  unfold hp_br. destruct (Z_le_gt_dec i vv) as [Hl|Hl].
  - rewrite G0, G1, G2, G4, G5, G6, G7 by lia. rewrite (range_out (vv + 1)) by lia. ring.
  - unfold hp_k0, hp_k1, hp_k2, hp_k4, hp_k5, hp_k6, hp_k7.
    rewrite (range_in (vv + 1)), (range_out 1 Hh), (range_out 1 (3 * Kk + 1)), (range_out (Hh + 3 * Kk + 2)),
      (range_out (3 * Kk + 2)), (range_out 1 ss), (range_out (vv - Kk + 1)),
      (range_out 1 vv), (delta_neq i vv) by lia.
    rewrite Gt. replace (i - vv + 1)%Z with (Z.of_nat (S (S (Z.to_nat (i - vv - 1))))) by lia.
    rewrite vidx_S. change (coef (dl :: hp_t_vec_tail e) (S (Z.to_nat (i - vv - 1)))) with (coef (hp_t_vec_tail e) (Z.to_nat (i - vv - 1))).
    unfold hp_t_vec_tail. rewrite nth_expression_vector by (unfold hp_maxshift; lia).
    replace (Z.of_nat (S (Z.to_nat (i - vv - 1)))) with (i - vv)%Z by lia.
    unfold hp_t_vec_at, hp_c, hp_c_1, hp_c_2, hp_c_3, hp_c_4, hp_c_5, hp_c_6, hp_c_7, hp_c_8, hp_c_9, hp_c_10, hp_c_11, hp_ell, minus_i64, hp_vovectorsize. repeat idx_step.
    repeat same_idx.
    assert (forall n, (n < i)%Z -> power_vidx ga n i = 0) as Po.
    { intros n Hn. unfold power_vidx. destruct (Z.leb_spec i n); [lia|]. now rewrite Bool.andb_false_r. }
    rewrite (range_out 1 Hh), (range_out 1 (3 * Kk + 1)), (range_out 1 ss), (range_out 1 Kk),
      (range_out 1 vv), !Po, (pw_pos 0 2) by lia.
    change (Pos.to_nat 2) with 2%nat. cbn [fpow]. ring.
Qed.
End Const.
End HPConst.

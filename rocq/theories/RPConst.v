(** RPConst.v: the constant term of the product polynomial of the prover-efficient R1CS argument is a sum
    over positions; the summands say that the matrix product, the row checks and the running sum are right. *)
From Verif Require Import Base Spec Tools ToolsProofs ToolsProofs2 CS KZG KZGProofs Snark Laurent Laurent2 PovPEConst RP RPProofs.
Local Open Scope F_scope.

Section RPConst.
Context {F : Type} {fo : FieldOps F} {fl : FieldLaws F}.
Add Field Frp : F_th.
Ltac rp_unf := unfold rp_hK, rp_v_vec_1, rp_v_vec_2, rp_v_vec_3, rp_v_vec_4, rp_v_vec_5, rp_v_vec_6, rp_v_vec_7, rp_v_vec_8, rp_v_vec_9, rp_v_vec_10, rp_v_vec_11, rp_v_vec_12, rp_v_vec_13, rp_v_vec_14, rp_v_vec_15, rp_v_vec_16, rp_v_vec_17, rp_v_vec_18, rp_v_vec_19, rp_v_vec_20, rp_v_vec_21, rp_v_vec_22, rp_v_vec_23, rp_v_vec_24, rp_v_vec_25, rp_v_vec_26, rp_v_vec_27, rp_v_vec_2, rp_shiftlength, rp_shiftlength_1, rp_shiftlength_2, rp_shiftlength_3, rp_shiftlength_4, rp_shiftlength_5, rp_shiftlength_6, rp_shiftlength_7, rp_shiftlength_8, rp_shiftlength_9, rp_shiftlength_10, rp_ell_1, rp_c_13, rp_c_14.
Ltac rp_leaf om ga c :=
  let sh := lazymatch c with context [power (ga * om) ?a] => a | _ => ct_pow om c end in
  lazymatch goal with
  | |- CT _ _ (vidx (power_power_mul _ (Z.to_nat _) _ (Z.to_nat _)) _) _ => apply CT_ppm with (b := sh)
  | |- CT _ _ (vidx (vector_power_mul _ (1 / (ga * om)) (Z.to_nat _)) _) _ => apply CT_pow_g with (b := sh)
  | |- CT _ _ (power_vidx (finv om) _ _) _ => apply CT_powvec with (b := sh)
  | _ => ct_leaf om c
  end.
Ltac rp_tree om ga :=
  repeat first [ apply CT_add | apply CT_sub | apply CT_opp ];
  lazymatch goal with |- CT _ _ (?c * _) _ => apply CT_scale; rp_leaf om ga c end.
Ltac same_range :=
  match goal with
  | |- context [range_index ?s ?a ?i] => match goal with |- context [range_index s ?b i] =>
      tryif constr_eq a b then fail else replace (range_index (F := F) s b i) with (range_index (F := F) s a i) by (f_equal; lia) end
  end.
Section Const.
Variable e : rp_s6 F.
Hypothesis SZ : rp_sizes e.
Notation Hh := (rp_cap_h e).
Notation Kk := (rp_cap_k e).
Notation Sa := (rp_cap_s_a e).
Notation Sb := (rp_cap_s_b e).
Notation Sc := (rp_cap_s_c e).
Notation el := (rp_ell e).
Notation al := (rp_alpha e).
Notation om := (rp_omega e).
Notation ga := (rp_gamma e).
Notation mu := (rp_mu e).
Notation nu := (rp_nu e).
Notation be := (rp_beta e).
Notation vv := (Sa + Sb + Sc)%Z.
Notation rv := (vidx (rp_r_vec e)).
Notation cv := (vidx (rp_c_vec e)).
Notation nv := (vidx (rp_rnu_vec e)).
Notation tv := (vidx (rp_t_vec e)).
Notation y1 := (vidx (rp_y_vec_1 e)).
Notation wv := (vidx (rp_wit_vec e)).
Notation rt := (vidx (rp_r_vec_tilde e)).
Hypothesis Hom : om <> 0.
Hypothesis Hga : ga <> 0.

(** the assignment that the committed witness stands for, at position i *)
Definition rp_z (i : Z) : F := vidx (rp_x_vec e) (i - 1) + delta i 1 + wv (i - el - 1).
(** the constraints at position i, one for every power of alpha (the fifth has no positions) *)
Definition rp_k0 (i : Z) : F := range_index 1 (3 * Hh) i * ((mu - fpowZ ga (i - 1)) * rv i)
  - range_index 1 (3 * Hh) i * range_index 1 (3 * Hh) i.
Definition rp_k1 (i : Z) : F := range_index 1 Kk i * ((nu - fpowZ ga (i - 1)) * nv i)
  - range_index 1 Kk i * range_index 1 Kk i.
Definition rp_k2 (i : Z) : F := range_index (3 * Hh + 1) vv i * rv i.
Definition rp_k3 (i : Z) : F := range_index (Kk + 1) vv i * nv i.
Definition rp_k4 (i : Z) : F := range_index (Kk + 1) vv i * cv i.
Definition rp_k6 (i : Z) : F :=
  tv i * (mu * nu * range_index 1 vv i - mu * vidx (rp_w_vec e) i
          - nu * vidx (rp_u_vec e) i + vidx (rp_y_vec e) i)
  - range_index 1 vv i * range_index 1 vv i.
Definition rp_k7 (i : Z) : F := range_index (3 * Hh + 1) vv i * y1 i.
Definition rp_k8 (i : Z) : F :=
  y1 (i - 2 * Hh) * y1 i - range_index (2 * Hh + 1) (3 * Hh) i * y1 (i - Hh).
Definition rp_k9 (i : Z) : F :=
  cv i * rp_z i - y1 i * rv i + be * (cv i * nv i - tv i * vidx (rp_v_vec e) i)
  - range_index 1 vv i * (rt i - rt (i - 1)).
Definition rp_k10 (i : Z) : F := delta i vv * rt i.
(** the summand at position i *)
Definition rp_br (i : Z) : F :=
  rp_k0 i + al * rp_k1 i + power al 2 * rp_k2 i + power al 3 * rp_k3 i + power al 4 * rp_k4 i
  + power al 6 * rp_k6 i + power al 7 * rp_k7 i + power al 8 * rp_k8 i + power al 9 * rp_k9 i
  + power al 10 * rp_k10 i
  - range_index (vv + 1) (vv + 2 * Hh + 1) i * vidx (rp_t_vec_1 e) (i - vv + 1).

Variable N : Z.
Hypothesis HN : (vv + 2 * Hh + 1 <= N)%Z.
Hypothesis HNy : (Z.of_nat (length (rp_y_vec_1 e)) + 2 * Hh <= N)%Z.
Hypothesis HNc : (Z.of_nat (length (rp_c_vec e)) <= N)%Z.
Hypothesis HNt : (Z.of_nat (length (rp_t_vec e)) <= N)%Z.

Lemma rp_CT : CT om (Z.to_nat N) (rp_hK e 1) rp_br.
Proof.
  destruct SZ. eapply CT_ext.
  2:{ rp_unf. 
  unfold rp_c, rp_c_1, rp_c_2, rp_c_3, rp_c_4, rp_c_5, rp_c_6, rp_c_7, rp_c_8, rp_c_9, rp_c_10, rp_c_11, rp_c_12, rp_c_15, rp_c_16, rp_c_17, rp_c_18, rp_c_19, rp_c_20, rp_c_21, rp_c_22, rp_c_23, rp_c_24, rp_c_25, rp_c_26, rp_c_27, rp_c_28, rp_c_29, rp_c_30, rp_c_31, rp_c_32, rp_c_33, rp_c_34, rp_c_35, rp_n.
  rp_tree (rp_omega e) (rp_gamma e).
  all: try assumption; try apply f1_neq_0; try lia. }
  intros i Hi. cbn beta. assert (ga * om <> 0) as Hgo by now apply fmul_neq_0. rewrite !(pw om), !(pw (ga * om)), !(fpowZ_mul_base ga om) by auto.
  unfold rp_br, rp_z, rp_k0, rp_k1, rp_k2, rp_k3, rp_k4, rp_k6, rp_k7, rp_k8, rp_k9, rp_k10, rp_z, minus_i64.
  repeat idx_step. rewrite <- !range_power_vidx, ?delta_sub.
  rewrite (range_out (vv + 1) vv) by lia.
  repeat same_idx. repeat same_range.
  fpz.
  assert (forall k, fpowZ om k <> 0) as Po by (intros; now apply fpowZ_neq_0).
  assert (forall k, fpowZ ga k <> 0) as Pg by (intros; now apply fpowZ_neq_0).
  pose proof (Po Hh) as P1; pose proof (Po Kk) as P2; pose proof (Po Sa) as P3. pose proof (Po Sb) as P4; pose proof (Po Sc) as P5; pose proof (Po el) as P6.
  pose proof (Pg Hh) as G1; pose proof (Pg Kk) as G2. clear Po Pg.
  field. repeat split; assumption.
Qed.
(** the constraints hold at every position the vectors have *)
Record rp_sat : Prop := {
  rps_k0 : forall i, (1 <= i <= vv)%Z -> rp_k0 i = 0;
  rps_k1 : forall i, (1 <= i <= vv)%Z -> rp_k1 i = 0;
  rps_k2 : forall i, (1 <= i <= vv)%Z -> rp_k2 i = 0;
  rps_k3 : forall i, (1 <= i <= vv)%Z -> rp_k3 i = 0;
  rps_k4 : forall i, (1 <= i <= vv)%Z -> rp_k4 i = 0;
  rps_k6 : forall i, (1 <= i <= vv)%Z -> rp_k6 i = 0;
  rps_k7 : forall i, (1 <= i <= vv)%Z -> rp_k7 i = 0;
  rps_k8 : forall i, (1 <= i <= vv)%Z -> rp_k8 i = 0;
  rps_k9 : forall i, (1 <= i <= vv)%Z -> rp_k9 i = 0;
  rps_k10 : forall i, (1 <= i <= vv)%Z -> rp_k10 i = 0 }.

Lemma rp_br_0 : rp_sat -> (exists dl, rp_t_vec_1 e = dl :: rp_t_vec_1_tail e) ->
  forall i, (1 <= i <= vv + 2 * Hh + 1)%Z -> rp_br i = 0.
Proof.
  intros [G0 G1 G2 G3 G4 G6 G7 G8 G9 G10] [dl Gt] i Hi. destruct SZ.
  unfold rp_br. destruct (Z_le_gt_dec i vv) as [Hl|Hl].
  - rewrite G0, G1, G2, G3, G4, G6, G7, G8, G9, G10 by lia. rewrite (range_out (vv + 1)) by lia. ring.
  - unfold rp_z, rp_k0, rp_k1, rp_k2, rp_k3, rp_k4, rp_k6, rp_k7, rp_k8, rp_k9, rp_k10, rp_z.
    rewrite (range_in (vv + 1)), (range_out 1 (3 * Hh)), (range_out 1 Kk), (range_out (Kk + 1)), (range_out (3 * Hh + 1)),
      (range_out 1 vv), (range_out (2 * Hh + 1)), (delta_neq i vv), (delta_neq i 1) by lia.
    rewrite Gt. replace (i - vv + 1)%Z with (Z.of_nat (S (S (Z.to_nat (i - vv - 1))))) by lia.
    rewrite vidx_S. change (coef (dl :: rp_t_vec_1_tail e) (S (Z.to_nat (i - vv - 1)))) with (coef (rp_t_vec_1_tail e) (Z.to_nat (i - vv - 1))).
    unfold rp_t_vec_1_tail. rewrite nth_expression_vector by (unfold rp_maxshift; lia).
    replace (Z.of_nat (S (Z.to_nat (i - vv - 1)))) with (i - vv)%Z by lia.
    unfold rp_t_vec_1_at, rp_c, rp_c_1, rp_c_2, rp_c_3, rp_c_4, rp_c_5, rp_c_6, rp_c_7, rp_c_8, rp_c_9, rp_c_10, rp_c_11, rp_c_12, rp_ell_1, minus_i64, rp_n. repeat idx_step.
    repeat same_idx.
    assert (forall n, (n < i)%Z -> power_vidx ga n i = 0) as Po.
    { intros n Hn. unfold power_vidx. destruct (Z.leb_spec i n); [lia|]. now rewrite Bool.andb_false_r. }
    rewrite ?(range_out 1 (3 * Hh)), ?(range_out 1 Kk), ?(range_out 1 vv), ?(range_out 1 Hh), ?(delta_neq i 1), !Po by lia.
    ring.
Qed.
End Const.
End RPConst.

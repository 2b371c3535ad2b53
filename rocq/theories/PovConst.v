(** PovConst.v: the constant term of the product polynomial of the POV argument is a sum over
    positions; the summands say that the gates, the public values and the running product are right. *)
From Verif Require Import Base Spec Tools ToolsProofs ToolsProofs2 CS KZG KZGProofs Snark Laurent PovPEConst Pov PovProofs.
Local Open Scope F_scope.

Section PovConst.
Context {F : Type} {fo : FieldOps F} {fl : FieldLaws F}.
Add Field Fpv : F_th.
Ltac pv_unf := unfold pv_hK, pv_v_vec, pv_v_vec_1, pv_v_vec_2, pv_v_vec_3, pv_v_vec_4, pv_v_vec_5, pv_v_vec_6,
  pv_v_vec_7, pv_v_vec_8, pv_v_vec_9, pv_v_vec_10, pv_v_vec_11, pv_v_vec_12, pv_v_vec_4, pv_shiftlength,
  pv_shiftlength_1, pv_shiftlength_2, pv_shiftlength_3, pv_shiftlength_4, pv_shiftlength_5, pv_c_3.
Section Const.
Variable e : pv_s4 F.
Hypothesis SZ : pv_sizes e.
Notation C := (pv_cap_c_total e).
Notation Ca := (pv_cap_c_a e).
Notation Cm := (pv_cap_c_m e).
Notation al := (pv_alpha e).
Notation om := (pv_omega e).
Notation ga := (pv_gamma e).
Notation wv := (vidx (pv_w_vec e)).
Notation rv := (vidx (pv_r_vec e)).
Hypothesis Hom : om <> 0.
Hypothesis Hga : ga <> 0.

(** the constraints at position i, one for every power of alpha *)
Definition pv_k0 (i : Z) : F := wv (i + Cm - 3 * C) * wv (i + Cm - 2 * C) - range_index (3 * C - Cm + 1) (3 * C) i * wv (i + Cm - C).
Definition pv_k1 (i : Z) : F := range_index (Cm + 2 * C + 1) (Ca + Cm + 2 * C) i * (wv (i - 2 * C) + wv (i - C) - wv i).
Definition pv_k2 (i : Z) : F := range_index (2 * C + Ca + Cm + 1) (3 * C) i * (wv i - vidx (pv_d_vec e) (i - Ca - Cm - 2 * C)).
Definition pv_k3 (i : Z) : F := vidx (pv_t_vec e) i * (wv i - vidx (pv_x_vec e) i).
Definition pv_k4 (i : Z) : F := (delta i 1 + rv (i - 1)) * pv_r_num e i - rv i * pv_r_den e i.
Definition pv_k5 (i : Z) : F := delta i (3 * C) * (rv i - 1).
(** the summand at position i *)
Definition pv_br (i : Z) : F :=
  pv_k0 i + al * pv_k1 i + power al 2 * pv_k2 i + power al 3 * pv_k3 i + power al 4 * pv_k4 i + power al 5 * pv_k5 i
  - range_index (3 * C + 1) (- Cm + 6 * C + 1) i * vidx (pv_t_vec_1 e) (i - 3 * C + 1).

Variable N : Z.
Hypothesis HN : (6 * C - Cm + 1 <= N)%Z.
Hypothesis HNw : (Z.of_nat (length (pv_w_vec e)) + 3 * C - Cm <= N)%Z.
Hypothesis HNr : (Z.of_nat (length (pv_r_vec e)) + 1 <= N)%Z.

Lemma pv_CT : CT om (Z.to_nat N) (pv_hK e 1) pv_br.
Proof.
  destruct SZ as [Sa Sm SC Sam Sd Sw Sr Ss Sx St]. eapply CT_ext.
  2:{ pv_unf. 
  assert (power om (-1) = finv om) as -> by (rewrite pw by auto; change (-1)%Z with (- (1))%Z; rewrite fpowZ_opp, fpowZ_1 by auto; field; auto).
  unfold pv_c, pv_c_1, pv_c_2, pv_c_4, pv_c_5, pv_c_6, pv_c_7, pv_c_8, pv_c_9, pv_c_10, pv_c_11,
    pv_c_12, pv_c_13, pv_c_14, pv_c_15, pv_c_16, pv_c_17, pv_c_18, pv_c_19.
  ct_tree (pv_omega e).
  all: try assumption; try apply f1_neq_0; try lia. }
  intros i Hi. cbn beta. rewrite !(pw om) by auto.
  unfold pv_br, pv_k0, pv_k1, pv_k2, pv_k3, pv_k4, pv_k5, pv_r_num, pv_r_den, minus_i64.
  repeat idx_step. rewrite <- !range_power_vidx, !delta_sub. fpz.
  assert (forall k, fpowZ om k <> 0) as Po by (intros; now apply fpowZ_neq_0).
  pose proof (Po C) as P4; pose proof (Po Ca) as P5; pose proof (Po Cm) as P6. clear Po.
  assert (delta i (3 * C) * delta i (3 * C) = (delta i (3 * C) : F)) as Ed by apply delta_idem.
  match goal with |- ?t + _ + _ + _ + _ + _ + _ + _ + _ + _ + _ + _ + _ + _ + _ + _ + _ + _ + _ + _ + _ = _ =>
    replace t with (- power al 5 * (delta i (3 * C) * delta i (3 * C))) by (field; auto) end.
  rewrite Ed. field. auto.
Qed.

(** the constraints hold at every position the circuit has *)
Record pv_sat : Prop := {
  ps_k0 : forall i, (1 <= i <= 3 * C)%Z -> pv_k0 i = 0;
  ps_k1 : forall i, (1 <= i <= 3 * C)%Z -> pv_k1 i = 0;
  ps_k2 : forall i, (1 <= i <= 3 * C)%Z -> pv_k2 i = 0;
  ps_k3 : forall i, (1 <= i <= 3 * C)%Z -> pv_k3 i = 0;
  ps_k4 : forall i, (1 <= i <= 3 * C)%Z -> pv_k4 i = 0;
  ps_k5 : forall i, (1 <= i <= 3 * C)%Z -> pv_k5 i = 0 }.

Lemma pv_br_0 : pv_sat -> (exists dl, pv_t_vec_1 e = dl :: pv_t_vec_1_tail e) ->
  forall i, (1 <= i <= 6 * C - Cm + 1)%Z -> pv_br i = 0.
Proof.
  intros [G0 G1 G2 G3 G4 G5] [dl G6] i Hi. destruct SZ as [Sa Sm SC Sam Sd Sw Sr Ss Sx St].
  unfold pv_br. destruct (Z_le_gt_dec i (3 * C)) as [Hl|Hl].
  - rewrite G0, G1, G2, G3, G4, G5 by lia. rewrite (range_out (3 * C + 1)) by lia. ring.
  - unfold pv_k1, pv_k2, pv_k5.
    rewrite (range_in (3 * C + 1)), (range_out (Cm + 2 * C + 1)), (range_out (2 * C + Ca + Cm + 1)), (delta_neq i (3 * C)) by lia.
    rewrite G6. replace (i - 3 * C + 1)%Z with (Z.of_nat (S (S (Z.to_nat (i - 3 * C - 1))))) by lia.
    rewrite vidx_S. change (coef (dl :: pv_t_vec_1_tail e) (S (Z.to_nat (i - 3 * C - 1)))) with (coef (pv_t_vec_1_tail e) (Z.to_nat (i - 3 * C - 1))).
    unfold pv_t_vec_1_tail. rewrite nth_expression_vector by (unfold pv_maxshift; lia).
    replace (Z.of_nat (S (Z.to_nat (i - 3 * C - 1)))) with (i - 3 * C)%Z by lia.
    unfold pv_t_vec_1_at, pv_k0, pv_k3, pv_k4, pv_r_num, pv_r_den, pv_c, pv_c_1, pv_c_2, minus_i64, pv_vovectorsize. repeat idx_step.
    repeat same_idx. rewrite (range_out 1 Cm), (range_out (3 * C - Cm + 1)) by lia. repeat same_idx. ring.
Qed.
End Const.
End PovConst.

(** PovPEConst.v: the constant term of the product polynomial of the prover-efficient POV argument
    is a sum over positions whose summands vanish for a satisfied instance. *)
From Verif Require Import Base Spec Tools ToolsProofs ToolsProofs2 CS KZG KZGProofs Snark Laurent PovPE PovPEProofs.
Local Open Scope F_scope.

Section PovPEConst.
Context {F : Type} {fo : FieldOps F} {fl : FieldLaws F}.
Add Field Fpe : F_th.
Ltac pe_unf := unfold pe_hK, pe_v_vec_1, pe_v_vec_2, pe_v_vec_3, pe_v_vec_4, pe_v_vec_5, pe_v_vec_6,
  pe_v_vec_7, pe_v_vec_8, pe_v_vec_9, pe_v_vec_10, pe_v_vec_11, pe_v_vec_12, pe_v_vec_13, pe_v_vec_14,
  pe_v_vec_15, pe_v_vec_8, pe_shiftlength, pe_shiftlength_1, pe_shiftlength_2, pe_shiftlength_3,
  pe_shiftlength_4, pe_shiftlength_5, pe_shiftlength_6, pe_shiftlength_7, pe_shiftlength_8.
Section Const.
Variable e : pe_s4 F.
Hypothesis SZ : pe_sizes e.
Notation C := (pe_cap_c_total e).
Notation Ca := (pe_cap_c_a e).
Notation Cm := (pe_cap_c_m e).
Notation al := (pe_alpha e).
Notation om := (pe_omega e).
Notation ga := (pe_gamma e).
Hypothesis Hom : om <> 0.
Hypothesis Hga : ga <> 0.

(** the summand at position i *)
Definition pe_br (i : Z) : F :=
  vidx (pe_u_vec e) (i - C) * vidx (pe_u_vec e) i - range_index (C + 1) (Cm + C) i * vidx (pe_v_vec e) (i - Cm)
  + al * (range_index (C + 1) (Ca + C) i * (vidx (pe_v_vec e) (i - C) + vidx (pe_u_vec e) (i + Cm - C) - vidx (pe_v_vec e) i))
  + power al 2 * (vidx (pe_t_vec e) i * (vidx (pe_u_vec e) i + vidx (pe_v_vec e) (i - Cm - C) - vidx (pe_x_vec e) i))
  + power al 3 * ((delta i 1 + vidx (pe_r_vec e) (i - 1)) * pe_r_num e i - vidx (pe_r_vec e) i * pe_r_den e i)
  + power al 4 * (delta i (3 * C) * (vidx (pe_r_vec e) i - 1))
  - range_index (3 * C + 1) (Cm + 4 * C + 1) i * vidx (pe_t_vec_1 e) (i - 3 * C + 1).

Lemma pe_CT : CT om (Z.to_nat (4 * C + Cm + 1)) (pe_hK e 1) pe_br.
Proof.
  destruct SZ as [Sa Sm SC Sd Su Sv Sr Ss Sx St St1]. eapply CT_ext.
  2:{ pe_unf. unfold pe_c, pe_c_1, pe_c_2, pe_c_3, pe_c_4, pe_c_5, pe_c_6, pe_c_7, pe_c_8, pe_c_9, pe_c_10, pe_c_11,
    pe_c_12, pe_c_13, pe_c_14, pe_c_15, pe_c_16, pe_c_17.
  ct_tree (pe_omega e).
  all: try assumption; try apply f1_neq_0; try lia. }
  intros i Hi. cbn beta. rewrite Su, Sr, St. rewrite !(pw om) by auto.
  unfold pe_br, pe_r_num, pe_r_den, minus_i64.
  repeat idx_step. rewrite <- !range_power_vidx, !delta_sub. fpz.
  assert (forall k, fpowZ om k <> 0) as Po by (intros; now apply fpowZ_neq_0).
  pose proof (Po C) as P4; pose proof (Po Ca) as P5; pose proof (Po Cm) as P6. clear Po.
  assert (delta i (3 * C) * delta i (3 * C) = (delta i (3 * C) : F)) as Ed by apply delta_idem.
  match goal with |- ?t + _ + _ + _ + _ + _ + _ + _ + _ + _ + _ + _ + _ + _ + _ + _ + _ + _ + _ + _ + _ + _ + _ + _ + _ + _ = _ =>
    replace t with (- power al 4 * (delta i (3 * C) * delta i (3 * C))) by (field; auto) end.
  rewrite Ed. field. auto.
Qed.

Record pe_good : Prop := {
  gd_mul : forall i, (1 <= i <= 3 * C)%Z ->
    vidx (pe_u_vec e) (i - C) * vidx (pe_u_vec e) i = range_index (C + 1) (Cm + C) i * vidx (pe_v_vec e) (i - Cm);
  gd_add : forall i, (C + 1 <= i <= Ca + C)%Z ->
    vidx (pe_v_vec e) (i - C) + vidx (pe_u_vec e) (i + Cm - C) = vidx (pe_v_vec e) i;
  gd_pub : forall i, (1 <= i <= 3 * C)%Z ->
    vidx (pe_t_vec e) i * (vidx (pe_u_vec e) i + vidx (pe_v_vec e) (i - Cm - C) - vidx (pe_x_vec e) i) = 0;
  gd_rec : forall i, (1 <= i <= 3 * C)%Z ->
    (delta i 1 + vidx (pe_r_vec e) (i - 1)) * pe_r_num e i = vidx (pe_r_vec e) i * pe_r_den e i;
  gd_end : vidx (pe_r_vec e) (3 * C) = 1;
  gd_t1 : exists dl, pe_t_vec_1 e = dl :: pe_t_vec_1_tail e }.

Lemma range_in (s t i : Z) : (s <= i <= t)%Z -> range_index s t i = (1 : F).
Proof. intros Hi. unfold range_index. destruct (Z.leb_spec s i), (Z.leb_spec i t); cbn [andb]; auto; lia. Qed.
Lemma range_out (s t i : Z) : (i < s \/ t < i)%Z -> range_index s t i = (0 : F).
Proof. intros Hi. unfold range_index. destruct (Z.leb_spec s i), (Z.leb_spec i t); cbn [andb]; auto; lia. Qed.
Lemma delta_neq (i k : Z) : i <> k -> delta i k = (0 : F).
Proof. intros Hi. unfold delta. destruct (Z.eqb_spec i k); congruence. Qed.

Lemma pe_br_0 : pe_good -> forall i, (1 <= i <= 4 * C + Cm + 1)%Z -> pe_br i = 0.
Proof.
  intros [G1 G2 G3 G4 G5 [dl G6]] i Hi. destruct SZ as [Sa Sm SC Sd Su Sv Sr Ss Sx St St1].
  unfold pe_br. destruct (Z_le_gt_dec i (3 * C)) as [Hl|Hl].
  - rewrite G1, G4, G3 by lia. rewrite (range_out (3 * C + 1)) by lia.
    assert (delta i (3 * C) * (vidx (pe_r_vec e) i - 1) = 0) as ->.
    { unfold delta. destruct (Z.eqb_spec i (3 * C)) as [->|]; [rewrite G5|]; ring. }
    assert (range_index (C + 1) (Ca + C) i * (vidx (pe_v_vec e) (i - C) + vidx (pe_u_vec e) (i + Cm - C) - vidx (pe_v_vec e) i) = 0) as ->.
    { destruct (Z_le_gt_dec (C + 1) i), (Z_le_gt_dec i (Ca + C)); try (rewrite range_out by lia; ring).
      rewrite G2 by lia. ring. }
    ring.
  - rewrite (range_in (3 * C + 1)), (range_out (C + 1) (Cm + C)), (range_out (C + 1) (Ca + C)), (delta_neq i (3 * C)) by lia.
    rewrite G6. replace (i - 3 * C + 1)%Z with (Z.of_nat (S (S (Z.to_nat (i - 3 * C - 1))))) by lia.
    rewrite vidx_S. change (coef (dl :: pe_t_vec_1_tail e) (S (Z.to_nat (i - 3 * C - 1)))) with (coef (pe_t_vec_1_tail e) (Z.to_nat (i - 3 * C - 1))).
    unfold pe_t_vec_1_tail. rewrite nth_expression_vector by (unfold pe_maxshift; lia).
    replace (Z.of_nat (S (Z.to_nat (i - 3 * C - 1)))) with (i - 3 * C)%Z by lia.
    unfold pe_t_vec_1_at, pe_r_num, pe_r_den, pe_c, pe_c_1, pe_c_2, minus_i64, pe_n. repeat idx_step.
    rewrite (range_out 1 Cm) by lia. repeat same_idx. ring.
Qed.
Lemma pe_hK_1 : pe_good -> pe_hK e 1 = 0.
Proof.
  intros G. assert (1 <= C)%Z as HC by now destruct SZ. assert (0 <= Cm)%Z as Hm by now destruct SZ.
  refine (CT_0 _ _ _ _ _ pe_CT). intros i Hi. apply (pe_br_0 G). lia.
Qed.
End Const.
End PovPEConst.

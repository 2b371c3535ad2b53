(** PovPEGen.v: the algebra of the prover-efficient POV argument for vectors of any length (a
    dishonest prover commits to polynomials of any degree the parameters allow). *)
From Verif Require Import Base Spec Tools ToolsProofs ToolsProofs2 CS KZG KZGProofs Snark Laurent PovPE PovPEProofs PovPEConst.
Local Open Scope F_scope.

Section PovPEGen.
Context {F : Type} {fo : FieldOps F} {fl : FieldLaws F}.
Add Field Fpeg : F_th.

Record pe_gsizes (e : pe_s4 F) : Prop := {
  gz_a : (0 <= pe_cap_c_a e)%Z; gz_m : (0 <= pe_cap_c_m e)%Z;
  gz_C : (1 <= pe_cap_c_total e)%Z; gz_am : (pe_cap_c_a e + pe_cap_c_m e <= pe_cap_c_total e)%Z;
  gz_d : (Z.of_nat (length (pe_d_vec e)) = pe_cap_c_total e - pe_cap_c_a e - pe_cap_c_m e)%Z;
  gz_u : (1 <= length (pe_u_vec e))%nat;
  gz_v : (1 <= length (pe_v_vec e))%nat;
  gz_r : (1 <= length (pe_r_vec e))%nat;
  gz_s : (Z.of_nat (length (pe_sigma_vec e)) = 3 * pe_cap_c_total e)%Z;
  gz_x : (Z.of_nat (length (pe_x_vec e)) = 3 * pe_cap_c_total e)%Z;
  gz_t : (Z.of_nat (length (pe_t_vec e)) = 3 * pe_cap_c_total e)%Z }.

Ltac lp_leaf :=
  lazymatch goal with
  | |- LP _ (fun K => delta K _) _ _ => apply LP_delta
  | |- LP _ (fun K => range_index 1 _ (minus_i64 K _)) _ _ => apply LP_range
  | |- LP _ (fun K => power_vidx _ _ (minus_i64 K _)) _ _ => apply LP_powvec
  | |- LP _ (fun K => vidx (vector_poly_mul _ _ _) (minus_i64 K _)) _ _ => apply LP_corr'
  | |- LP _ (fun K => vidx (vector_power_mul (vector_reverse_omega _ _) _ _) (minus_i64 K _)) _ _ => apply LP_reverse_pow'
  | |- LP _ (fun K => vidx (vector_power_mul _ _ _) (minus_i64 K _)) _ _ => apply LP_pow
  | |- LP _ (fun K => vidx (vector_reverse_omega _ _) (minus_i64 K _)) _ _ => apply LP_reverse'
  | |- LP _ (fun K => vidx _ (minus_i64 K _)) _ _ => apply LP_list
  end.
Ltac lp_tree := repeat first [ apply LP_add | apply LP_sub | apply LP_scale ]; lp_leaf.

Ltac pe_unf := unfold pe_hK, pe_v_vec_1, pe_v_vec_2, pe_v_vec_3, pe_v_vec_4, pe_v_vec_5, pe_v_vec_6,
  pe_v_vec_7, pe_v_vec_8, pe_v_vec_9, pe_v_vec_10, pe_v_vec_11, pe_v_vec_12, pe_v_vec_13, pe_v_vec_14,
  pe_v_vec_15, pe_v_vec_8, pe_shiftlength, pe_shiftlength_1, pe_shiftlength_2, pe_shiftlength_3,
  pe_shiftlength_4, pe_shiftlength_5, pe_shiftlength_6, pe_shiftlength_7, pe_shiftlength_8.

Section Alg.
Variable e : pe_s4 F.
Hypothesis SZ : pe_gsizes e.
Variable z : F.
Notation C := (pe_cap_c_total e).
Notation Ca := (pe_cap_c_a e).
Notation Cm := (pe_cap_c_m e).
Notation al := (pe_alpha e).
Notation om := (pe_omega e).
Notation ga := (pe_gamma e).
Variable M : Z.
Hypothesis HM : (4 * C + Cm <= M)%Z.
Hypothesis HMu : (Z.of_nat (length (pe_u_vec e)) + C <= M)%Z.
Hypothesis HMv : (Z.of_nat (length (pe_v_vec e)) + C + Cm <= M)%Z.
Hypothesis HMr : (Z.of_nat (length (pe_r_vec e)) <= M)%Z.
Hypothesis HMt : (Z.of_nat (length (pe_t_vec_1 e)) - 2 <= M)%Z.
Hypothesis Hz : z <> 0.
Hypothesis Hom : om <> 0.
Hypothesis Hga : ga <> 0.
Hypothesis Hz1 : z <> 1.
Hypothesis Hgz : ga * z <> 1.
Hypothesis Hoz : om <> z.
Variable q : pe_ctx F.
Hypothesis Hq : pe_ctx_pub q = pe_s1_pub e.
Hypothesis Hqz : pe_q_z q = z.
Hypothesis Hq1 : pe_q_zeta q = pe_zeta e.
Hypothesis Hq2 : pe_q_zeta_1 q = pe_zeta_1 e.
Hypothesis Hq3 : pe_q_alpha q = pe_alpha e.
Hypothesis Hq4 : pe_q_omega q = pe_omega e.
Hypothesis Hy : pe_q_y q = peval (pe_u_vec e) (om / z).
Hypothesis Hy2 : pe_q_y_2 q = peval (pe_r_vec e) (om / z).
Hypothesis Ht : eval_sparse_zero_one_vector (om / z) (pe_x0 e) = peval (pe_t_vec e) (om / z).
Hypothesis Hx : eval_sparse_vector z (pe_x0 e) (pe_x1 e) = peval (pe_x_vec e) z.

Lemma pe_gLP : LP M (pe_hK e) z
  (pe_p_c_18 q * peval (pe_u_vec e) z + pe_p_c_19 q * peval (pe_v_vec e) z + pe_p_c_20 q
   + pe_p_c_21 q * peval (pe_d_vec e) z + pe_p_c_22 q * peval (pe_sigma_vec e) z
   + pe_p_c_23 q * peval (pe_t_vec_1 e) z).
Proof.
  destruct SZ. eapply LP_val. 2:{ eapply LP_ext; [intros K; pe_unf; reflexivity|].
  lp_tree.
  all: try assumption; try apply f1_neq_0; try (now apply finv_neq_0); try lia. }
  unfold pe_p_c_18, pe_p_c_19, pe_p_c_20, pe_p_c_21, pe_p_c_22, pe_p_c_23, pe_p_y_1, pe_n.
  rewrite ?Hqz, ?Hq1, ?Hq2, ?Hq3, ?Hq4, ?Hy, ?Hy2, ?Hq, ?Ht, ?Hx.
  unfold pe_c, pe_c_1, pe_c_2, pe_c_3, pe_c_4, pe_c_5, pe_c_6, pe_c_7, pe_c_8, pe_c_9, pe_c_10, pe_c_11,
    pe_c_12, pe_c_13, pe_c_14, pe_c_15, pe_c_16, pe_c_17.
  assert (om / z <> 0) as Hd by (intros E; apply Hom; transitivity (om / z * z); [field; auto|rewrite E; ring]).
  assert (ga * z <> 0) as Hgz0 by now apply fmul_neq_0.
  assert (finv om * z <> 0) as Hfo by (apply fmul_neq_0; auto; now apply finv_neq_0).
  assert (finv om * z <> 1) as Hfo1.
  { intros E. apply Hoz. transitivity (om * (finv om * z)); [rewrite E; ring|field; auto]. }
  rewrite !(pw om), !(pw z), !(pw (om / z)), !(pw (ga * z)) by auto.
  rewrite !pw_pos. cbn [Pos.to_nat Pos.iter_op Nat.add fpow].
  replace (1 * z) with z by ring. rewrite ?(geoZ z), ?(geoZ (ga * z)), ?(geoZ (finv om * z)) by (auto; lia).
  change (Pos.to_nat 2) with 2%nat. change (Pos.to_nat 3) with 3%nat. change (Pos.to_nat 4) with 4%nat. change (Pos.to_nat 5) with 5%nat.
  cbn [fpow].
  rewrite ?(fpowZ_mul_base (finv om) z), ?(fpowZ_mul_base ga z), ?(fpowZ_finv om), ?(fpowZ_div om z) by (auto using finv_neq_0).
  fpz.
  assert (forall k, fpowZ z k <> 0) as Pz by (intros; now apply fpowZ_neq_0).
  assert (forall k, fpowZ om k <> 0) as Po by (intros; now apply fpowZ_neq_0).
  pose proof (Pz C) as P1; pose proof (Pz Ca) as P2; pose proof (Pz Cm) as P3.
  pose proof (Po C) as P4; pose proof (Po Ca) as P5; pose proof (Po Cm) as P6.
  pose proof (Pz (Z.of_nat (length (pe_u_vec e)))) as P7. pose proof (Pz (Z.of_nat (length (pe_v_vec e)))) as P10. pose proof (Pz (Z.of_nat (length (pe_r_vec e)))) as P8.
  pose proof (Pz (Z.of_nat (length (pe_t_vec e)))) as P9.
  clear Pz Po.
  generalize dependent (fpowZ z C). generalize dependent (fpowZ z Ca). generalize dependent (fpowZ z Cm).
  generalize dependent (fpowZ om C). generalize dependent (fpowZ om Ca). generalize dependent (fpowZ om Cm).
  generalize dependent (fpowZ z (Z.of_nat (length (pe_u_vec e)))). generalize dependent (fpowZ z (Z.of_nat (length (pe_v_vec e)))).
  generalize dependent (fpowZ z (Z.of_nat (length (pe_r_vec e)))).
  generalize dependent (fpowZ z (Z.of_nat (length (pe_t_vec e)))).
  generalize (fpowZ ga C).
  generalize (peval (pe_u_vec e) z), (peval (pe_v_vec e) z), (peval (pe_u_vec e) (om / z)), (peval (pe_r_vec e) (om / z)),
    (peval (pe_t_vec e) (om / z)), (peval (pe_x_vec e) z), (peval (pe_d_vec e) z),
    (peval (pe_sigma_vec e) z), (peval (pe_t_vec_1 e) z).
  intros.
  assert (om - z <> 0) as N1 by (intros E; now apply Hoz, fsub_0_eq).
  assert (ga * z - 1 <> 0) as N2 by (intros E; now apply Hgz, fsub_0_eq).
  assert (1 - z <> 0) as N3 by (intros E; apply Hz1; symmetry; now apply fsub_0_eq).
  assert (1 - ga * z <> 0) as N4 by (intros E; apply Hgz; symmetry; now apply fsub_0_eq).
  field. repeat split; assumption.
Qed.
End Alg.

Section Const.
Variable e : pe_s4 F.
Hypothesis SZ : pe_gsizes e.
Notation C := (pe_cap_c_total e).
Notation Ca := (pe_cap_c_a e).
Notation Cm := (pe_cap_c_m e).
Notation al := (pe_alpha e).
Notation om := (pe_omega e).
Notation ga := (pe_gamma e).
Hypothesis Hom : om <> 0.
Hypothesis Hga : ga <> 0.

Variable N : Z.
Hypothesis HN : (4 * C + Cm + 1 <= N)%Z.
Hypothesis HNu : (Z.of_nat (length (pe_u_vec e)) + C <= N)%Z.
Hypothesis HNv : (Z.of_nat (length (pe_v_vec e)) + C + Cm <= N)%Z.
Hypothesis HNr : (Z.of_nat (length (pe_r_vec e)) + 1 <= N)%Z.

Lemma pe_gCT : CT om (Z.to_nat N) (pe_hK e 1) (pe_br e).
Proof.
  destruct SZ as [Sa Sm SC Sam Sd Su Sv Sr Ss Sx St]. eapply CT_ext.
  2:{ pe_unf. unfold pe_c, pe_c_1, pe_c_2, pe_c_3, pe_c_4, pe_c_5, pe_c_6, pe_c_7, pe_c_8, pe_c_9, pe_c_10, pe_c_11,
    pe_c_12, pe_c_13, pe_c_14, pe_c_15, pe_c_16, pe_c_17.
  ct_tree (pe_omega e).
  all: try assumption; try apply f1_neq_0; try lia. }
  intros i Hi. cbn beta. rewrite !(pw om) by auto.
  unfold pe_br, pe_r_num, pe_r_den, minus_i64.
  repeat idx_step. rewrite <- !range_power_vidx, !delta_sub. fpz.
  assert (forall k, fpowZ om k <> 0) as Po by (intros; now apply fpowZ_neq_0).
  pose proof (Po C) as P4; pose proof (Po Ca) as P5; pose proof (Po Cm) as P6. clear Po.
  assert (delta i (3 * C) * delta i (3 * C) = (delta i (3 * C) : F)) as Ed by apply delta_idem.
  match goal with |- ?t + _ + _ + _ + _ + _ + _ + _ + _ + _ + _ + _ + _ + _ + _ + _ + _ + _ + _ + _ + _ + _ + _ + _ + _ + _ = _ =>
    replace t with (- power al 4 * (delta i (3 * C) * delta i (3 * C))) by (field; auto) end.
  rewrite Ed. field. auto.
Qed.

End Const.
End PovPEGen.

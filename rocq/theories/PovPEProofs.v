(** PovPEProofs.v: completeness of the prover-efficient POV argument. *)
From Verif Require Import Base Spec Tools ToolsProofs ToolsProofs2 CS KZG KZGProofs Snark Laurent PovPE.
Local Open Scope F_scope.

Section PovPEProofs.
Context {F : Type} {fo : FieldOps F} {fl : FieldLaws F}.
Add Field Fpe : F_th.

(** The coefficient of X^(K-1) of the product polynomial; h_vec_1 and h_vec_2 are its two halves. *)
Definition pe_hK (e : pe_s4 F) (K : Z) : F := - power (pe_alpha e) 4%Z * power (pe_omega e) (3
  * pe_cap_c_total e - 1)%Z * delta K 1%Z + pe_c e * vidx (pe_v_vec_2 e) (minus_i64 K (1
  - pe_shiftlength_1 e))%Z + pe_c e * vidx (pe_v_vec_3 e) (minus_i64 K (pe_cap_c_m e +
  pe_cap_c_total e - pe_shiftlength_2 e + 1))%Z + pe_c_1 e * vidx (pe_v_vec e) (minus_i64 K
  (pe_cap_c_m e + pe_cap_c_total e + 1))%Z + pe_c_1 e * vidx (pe_u_vec e) (minus_i64 K 1)%Z +
  pe_c_1 e * vidx (pe_d_vec e) (minus_i64 K (pe_cap_c_a e + pe_cap_c_m e + 2 * pe_cap_c_total e +
  1))%Z + pe_c_10 e * range_index 1%Z (3 * pe_cap_c_total e)%Z (minus_i64 K 1)%Z + pe_c_11 e
  * vidx (pe_v_vec_10 e) (minus_i64 K (2 - pe_cap_c_total e))%Z + pe_c_12 e * vidx (pe_v_vec_11 e)
  (minus_i64 K (2 - pe_cap_c_a e))%Z + pe_c_12 e * vidx (pe_v_vec_12 e) (minus_i64 K (- pe_cap_c_a e
  - pe_cap_c_m e + 2))%Z + pe_c_13 e * vidx (pe_v_vec_11 e) (minus_i64 K (- pe_cap_c_a e
  - pe_cap_c_total e + 2))%Z + pe_c_14 e * vidx (pe_v_vec_13 e) (minus_i64 K
  (- pe_shiftlength_7 e))%Z + pe_c_15 e * vidx (pe_v_vec_14 e) (minus_i64 K
  (- pe_shiftlength_7 e))%Z + pe_c_16 e * vidx (pe_v_vec_14 e) (minus_i64 K (1
  - pe_shiftlength_7 e))%Z + pe_c_17 e * vidx (pe_v_vec_15 e) (minus_i64 K (- pe_cap_c_m e
  - pe_cap_c_total e))%Z + pe_c_2 e * vidx (pe_v_vec_5 e) (minus_i64 K (1 - pe_shiftlength_4 e))%Z +
  pe_c_2 e * vidx (pe_v_vec_6 e) (minus_i64 K (pe_cap_c_m e + pe_cap_c_total e - pe_shiftlength_5 e
  + 1))%Z + pe_c_2 e * vidx (pe_v_vec_7 e) (minus_i64 K (pe_cap_c_a e + pe_cap_c_m e + 2
  * pe_cap_c_total e - pe_shiftlength_6 e + 1))%Z + pe_c_4 e * vidx (pe_v_vec_1 e) (minus_i64 K
  (- pe_cap_c_total e - pe_shiftlength e + 1))%Z + pe_c_5 e * vidx (pe_v_vec_4 e) (minus_i64 K (1
  - pe_shiftlength_3 e))%Z + pe_c_6 e * vidx (pe_v_vec_5 e) (minus_i64 K (- pe_shiftlength_4 e))%Z +
  pe_c_6 e * vidx (pe_v_vec_6 e) (minus_i64 K (pe_cap_c_m e + pe_cap_c_total e
  - pe_shiftlength_5 e))%Z + pe_c_6 e * vidx (pe_v_vec_7 e) (minus_i64 K (pe_cap_c_a e +
  pe_cap_c_m e + 2 * pe_cap_c_total e - pe_shiftlength_6 e))%Z + pe_c_7 e * vidx (pe_v_vec_8 e)
  (minus_i64 K (3 * pe_cap_c_total e - pe_shiftlength_7 e))%Z + pe_c_8 e * vidx (pe_v_vec_9 e)
  (minus_i64 K (1 - pe_shiftlength_8 e))%Z + pe_c_9 e * power_vidx (pe_gamma e) (3
  * pe_cap_c_total e)%Z (minus_i64 K 1)%Z.

Lemma pe_h1_hK (e : pe_s4 F) i : pe_h_vec_1_at e i = pe_hK e (i - (pe_maxshift e + pe_n e)).
Proof. rewrite Z.sub_add_distr. reflexivity. Qed.
Lemma pe_h2_hK (e : pe_s4 F) i : pe_h_vec_2_at e i = pe_hK e (i + 1).
Proof. reflexivity. Qed.

(** sizes of the vectors of a run *)
Record pe_sizes (e : pe_s4 F) : Prop := {
  sz_a : (0 <= pe_cap_c_a e)%Z; sz_m : (0 <= pe_cap_c_m e)%Z;
  sz_C : (1 <= pe_cap_c_total e)%Z; 
  sz_d : (Z.of_nat (length (pe_d_vec e)) = pe_cap_c_total e - pe_cap_c_a e - pe_cap_c_m e)%Z;
  sz_u : (Z.of_nat (length (pe_u_vec e)) = 3 * pe_cap_c_total e + 1)%Z;
  sz_v : (Z.of_nat (length (pe_v_vec e)) = 3 * pe_cap_c_total e + 1)%Z;
  sz_r : (Z.of_nat (length (pe_r_vec e)) = 3 * pe_cap_c_total e + 1)%Z;
  sz_s : (Z.of_nat (length (pe_sigma_vec e)) = 3 * pe_cap_c_total e)%Z;
  sz_x : (Z.of_nat (length (pe_x_vec e)) = 3 * pe_cap_c_total e)%Z;
  sz_t : (Z.of_nat (length (pe_t_vec e)) = 3 * pe_cap_c_total e)%Z;
  sz_t1 : (Z.of_nat (length (pe_t_vec_1 e)) = pe_cap_c_m e + pe_cap_c_total e + 3)%Z }.

Ltac lp_leaf :=
  lazymatch goal with
  | |- LP _ (fun K => delta K _) _ _ => apply LP_delta
  | |- LP _ (fun K => range_index 1 _ (minus_i64 K _)) _ _ => apply LP_range
  | |- LP _ (fun K => power_vidx _ _ (minus_i64 K _)) _ _ => apply LP_powvec
  | |- LP _ (fun K => vidx (vector_poly_mul _ _ _) (minus_i64 K _)) _ _ => apply LP_corr'
  | |- LP _ (fun K => vidx (vector_power_mul (vector_reverse_omega _ _) _ _) (minus_i64 K _)) _ _ => apply LP_reverse_pow'
  | |- LP _ (fun K => vidx (vector_power_mul _ _ _) (minus_i64 K _)) _ _ => apply LP_pow
  | |- LP _ (fun K => vidx (vector_reverse_omega _ _) (minus_i64 K _)) _ _ => apply LP_reverse'
  | |- LP _ (fun K => vidx _ (minus_i64 K _)) _ _ => apply LP_list
  end.
Ltac lp_tree := repeat first [ apply LP_add | apply LP_sub | apply LP_scale ]; lp_leaf.

Ltac pe_unf := unfold pe_hK, pe_v_vec_1, pe_v_vec_2, pe_v_vec_3, pe_v_vec_4, pe_v_vec_5, pe_v_vec_6,
  pe_v_vec_7, pe_v_vec_8, pe_v_vec_9, pe_v_vec_10, pe_v_vec_11, pe_v_vec_12, pe_v_vec_13, pe_v_vec_14,
  pe_v_vec_15, pe_v_vec_8, pe_shiftlength, pe_shiftlength_1, pe_shiftlength_2, pe_shiftlength_3,
  pe_shiftlength_4, pe_shiftlength_5, pe_shiftlength_6, pe_shiftlength_7, pe_shiftlength_8.

Section Alg.
Variable e : pe_s4 F.
Hypothesis SZ : pe_sizes e.
Variable z : F.
Notation C := (pe_cap_c_total e).
Notation Ca := (pe_cap_c_a e).
Notation Cm := (pe_cap_c_m e).
Notation al := (pe_alpha e).
Notation om := (pe_omega e).
Notation ga := (pe_gamma e).
Hypothesis Hz : z <> 0.
Hypothesis Hom : om <> 0.
Hypothesis Hga : ga <> 0.

Hypothesis Hz1 : z <> 1.
Hypothesis Hgz : ga * z <> 1.
Hypothesis Hoz : om <> z.

Let q := pe_ctx_of e z.
Hypothesis Ht : eval_sparse_zero_one_vector (om / z) (pe_x0 e) = peval (pe_t_vec e) (om / z).
Hypothesis Hx : eval_sparse_vector z (pe_x0 e) (pe_x1 e) = peval (pe_x_vec e) z.

Lemma pe_LP : LP (4 * C + Cm) (pe_hK e) z
  (pe_p_c_18 q * peval (pe_u_vec e) z + pe_p_c_19 q * peval (pe_v_vec e) z + pe_p_c_20 q
   + pe_p_c_21 q * peval (pe_d_vec e) z + pe_p_c_22 q * peval (pe_sigma_vec e) z
   + pe_p_c_23 q * peval (pe_t_vec_1 e) z).
Proof.
  destruct SZ. eapply LP_val. 2:{ eapply LP_ext; [intros K; pe_unf; reflexivity|].
  lp_tree.
  all: try assumption; try apply f1_neq_0; try (now apply finv_neq_0); try lia. }
  unfold pe_p_c_18, pe_p_c_19, pe_p_c_20, pe_p_c_21, pe_p_c_22, pe_p_c_23, pe_p_y_1, q, pe_ctx_of.
  cbn [pe_q_zeta pe_q_zeta_1 pe_q_alpha pe_q_omega pe_q_z pe_q_y pe_q_y_2 pe_ctx_pub].
  unfold pe_y, pe_y_2, pe_n. rewrite !eval_vidx by lia. rewrite Ht, Hx.
  rewrite ?sz_u0, ?sz_v0, ?sz_r0, ?sz_t0, ?sz_x0, ?sz_s0, ?sz_d0, ?sz_t2.
  unfold pe_c, pe_c_1, pe_c_2, pe_c_3, pe_c_4, pe_c_5, pe_c_6, pe_c_7, pe_c_8, pe_c_9, pe_c_10, pe_c_11,
    pe_c_12, pe_c_13, pe_c_14, pe_c_15, pe_c_16, pe_c_17.
  assert (om / z <> 0) as Hd by (intros E; apply Hom; transitivity (om / z * z); [field; auto|rewrite E; ring]).
  assert (ga * z <> 0) as Hgz0 by now apply fmul_neq_0.
  assert (finv om * z <> 0) as Hfo by (apply fmul_neq_0; auto; now apply finv_neq_0).
  assert (finv om * z <> 1) as Hfo1.
  { intros E. apply Hoz. transitivity (om * (finv om * z)); [rewrite E; ring|field; auto]. }
  rewrite !(pw om), !(pw z), !(pw (om / z)), !(pw (ga * z)) by auto.
  rewrite !pw_pos. cbn [Pos.to_nat Pos.iter_op Nat.add fpow].
  replace (1 * z) with z by ring. rewrite ?(geoZ z), ?(geoZ (ga * z)), ?(geoZ (finv om * z)) by (auto; lia).
  change (Pos.to_nat 2) with 2%nat. change (Pos.to_nat 3) with 3%nat. change (Pos.to_nat 4) with 4%nat.
  cbn [fpow].
  rewrite ?(fpowZ_mul_base (finv om) z), ?(fpowZ_mul_base ga z), ?(fpowZ_finv om), ?(fpowZ_div om z) by (auto using finv_neq_0).
  fpz.
  assert (forall k, fpowZ z k <> 0) as Pz by (intros; now apply fpowZ_neq_0).
  assert (forall k, fpowZ om k <> 0) as Po by (intros; now apply fpowZ_neq_0).
  pose proof (Pz C) as P1; pose proof (Pz Ca) as P2; pose proof (Pz Cm) as P3.
  pose proof (Po C) as P4; pose proof (Po Ca) as P5; pose proof (Po Cm) as P6. clear Pz Po.
  generalize dependent (fpowZ z C). generalize dependent (fpowZ z Ca). generalize dependent (fpowZ z Cm).
  generalize dependent (fpowZ om C). generalize dependent (fpowZ om Ca). generalize dependent (fpowZ om Cm).
  generalize (fpowZ ga C).
  generalize (peval (pe_u_vec e) z), (peval (pe_u_vec e) (om / z)), (peval (pe_r_vec e) (om / z)),
    (peval (pe_t_vec e) (om / z)), (peval (pe_x_vec e) z), (peval (pe_v_vec e) z), (peval (pe_d_vec e) z),
    (peval (pe_sigma_vec e) z), (peval (pe_t_vec_1 e) z).
  intros.
  assert (om - z <> 0) as N1 by (intros E; now apply Hoz, fsub_0_eq).
  assert (ga * z - 1 <> 0) as N2 by (intros E; now apply Hgz, fsub_0_eq).
  assert (1 - z <> 0) as N3 by (intros E; apply Hz1; symmetry; now apply fsub_0_eq).
  assert (1 - ga * z <> 0) as N4 by (intros E; apply Hgz; symmetry; now apply fsub_0_eq).
  field. repeat split; assumption.
Qed.
End Alg.

End PovPEProofs.

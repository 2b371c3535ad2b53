(** PovProofs.v: the product polynomial of the POV argument, as a Laurent polynomial. *)
From Verif Require Import Base Spec Tools ToolsProofs ToolsProofs2 CS KZG KZGProofs Snark Laurent Pov.
Local Open Scope F_scope.

Section PovProofs.
Context {F : Type} {fo : FieldOps F} {fl : FieldLaws F}.
Add Field Fpv : F_th.

(** The coefficient of X^(K-1) of the product polynomial; h_vec_1 and h_vec_2 are its two halves. *)
Definition pv_hK (e : pv_s4 F) (K : Z) : F := - power (pv_alpha e) 5%Z * power (pv_omega e) (3
  * pv_cap_c_total e - 1)%Z * delta K 1%Z + pv_c e * vidx (pv_v_vec_1 e) (minus_i64 K (1
  - pv_shiftlength_1 e))%Z + pv_c_1 e * vidx (pv_w_vec e) (minus_i64 K 1)%Z + pv_c_10 e
  * range_index 1%Z (3 * pv_cap_c_total e)%Z (minus_i64 K 1)%Z + pv_c_11 e * vidx (pv_v_vec_6 e)
  (minus_i64 K (- pv_cap_c_m e - 2 * pv_cap_c_total e + 2))%Z + pv_c_12 e * vidx (pv_v_vec_7 e)
  (minus_i64 K (- pv_cap_c_a e - pv_cap_c_m e + 2))%Z + pv_c_12 e * vidx (pv_v_vec_7 e) (minus_i64 K
  (- pv_cap_c_a e - pv_cap_c_m e - pv_cap_c_total e + 2))%Z + pv_c_13 e * vidx (pv_v_vec_7 e)
  (minus_i64 K (- pv_cap_c_a e - pv_cap_c_m e - 2 * pv_cap_c_total e + 2))%Z + pv_c_14 e
  * vidx (pv_v_vec_8 e) (minus_i64 K (2 - 3 * pv_cap_c_total e))%Z + pv_c_15 e * vidx (pv_v_vec_9 e)
  (minus_i64 K (pv_cap_c_a e + pv_cap_c_m e - pv_cap_c_total e + 2))%Z + pv_c_16 e
  * vidx (pv_v_vec_10 e) (minus_i64 K (- pv_shiftlength_4 e))%Z + pv_c_17 e * vidx (pv_v_vec_11 e)
  (minus_i64 K (- pv_shiftlength_4 e))%Z + pv_c_18 e * vidx (pv_v_vec_11 e) (minus_i64 K (1
  - pv_shiftlength_4 e))%Z + pv_c_19 e * vidx (pv_v_vec_12 e) (minus_i64 K (pv_cap_c_m e - 3
  * pv_cap_c_total e))%Z + pv_c_2 e * vidx (pv_v_vec_3 e) (minus_i64 K (1 - pv_shiftlength_3 e))%Z +
  pv_c_4 e * vidx (pv_v_vec e) (minus_i64 K (- pv_cap_c_total e - pv_shiftlength e + 1))%Z +
  pv_c_5 e * vidx (pv_v_vec_2 e) (minus_i64 K (1 - pv_shiftlength_2 e))%Z + pv_c_6 e
  * vidx (pv_v_vec_3 e) (minus_i64 K (- pv_shiftlength_3 e))%Z + pv_c_7 e * vidx (pv_v_vec_4 e)
  (minus_i64 K (3 * pv_cap_c_total e - pv_shiftlength_4 e))%Z + pv_c_8 e * vidx (pv_v_vec_5 e)
  (minus_i64 K (1 - pv_shiftlength_5 e))%Z + pv_c_9 e * power_vidx (pv_gamma e) (3
  * pv_cap_c_total e)%Z (minus_i64 K 1)%Z.

Lemma pv_h1_hK (e : pv_s4 F) i : pv_h_vec_1_at e i = pv_hK e (i - (pv_maxshift e + pv_vovectorsize e)).
Proof. rewrite Z.sub_add_distr. reflexivity. Qed.
Lemma pv_h2_hK (e : pv_s4 F) i : pv_h_vec_2_at e i = pv_hK e (i + 1).
Proof. reflexivity. Qed.

(** sizes of the vectors; the lengths of the three committed vectors are left open, for dishonest
    provers *)
Record pv_sizes (e : pv_s4 F) : Prop := {
  sz_a : (0 <= pv_cap_c_a e)%Z; sz_m : (0 <= pv_cap_c_m e)%Z;
  sz_C : (1 <= pv_cap_c_total e)%Z; sz_am : (pv_cap_c_a e + pv_cap_c_m e <= pv_cap_c_total e)%Z;
  sz_d : (Z.of_nat (length (pv_d_vec e)) = pv_cap_c_total e - pv_cap_c_a e - pv_cap_c_m e)%Z;
  sz_w : (1 <= length (pv_w_vec e))%nat;
  sz_r : (1 <= length (pv_r_vec e))%nat;
  sz_s : (Z.of_nat (length (pv_sigma_vec e)) = 3 * pv_cap_c_total e)%Z;
  sz_x : (Z.of_nat (length (pv_x_vec e)) = 3 * pv_cap_c_total e)%Z;
  sz_t : (Z.of_nat (length (pv_t_vec e)) = 3 * pv_cap_c_total e)%Z }.

Ltac lp_leaf :=
  lazymatch goal with
  | |- LP _ (fun K => delta K _) _ _ => apply LP_delta
  | |- LP _ (fun K => range_index 1 _ (minus_i64 K _)) _ _ => apply LP_range
  | |- LP _ (fun K => power_vidx _ _ (minus_i64 K _)) _ _ => apply LP_powvec
  | |- LP _ (fun K => vidx (vector_poly_mul _ _ _) (minus_i64 K _)) _ _ => apply LP_corr'
  | |- LP _ (fun K => vidx (vector_power_mul (vector_reverse_omega _ _) _ _) (minus_i64 K _)) _ _ => apply LP_reverse_pow'
  | |- LP _ (fun K => vidx (vector_power_mul _ _ _) (minus_i64 K _)) _ _ => apply LP_pow
  | |- LP _ (fun K => vidx (vector_reverse_omega _ _) (minus_i64 K _)) _ _ => apply LP_reverse'
  | |- LP _ (fun K => vidx _ (minus_i64 K _)) _ _ => apply LP_list
  end.
Ltac lp_tree := repeat first [ apply LP_add | apply LP_sub | apply LP_scale ]; lp_leaf.

Ltac pv_unf := unfold pv_hK, pv_v_vec, pv_v_vec_1, pv_v_vec_2, pv_v_vec_3, pv_v_vec_4, pv_v_vec_5, pv_v_vec_6,
  pv_v_vec_7, pv_v_vec_8, pv_v_vec_9, pv_v_vec_10, pv_v_vec_11, pv_v_vec_12, pv_v_vec_4, pv_shiftlength,
  pv_shiftlength_1, pv_shiftlength_2, pv_shiftlength_3, pv_shiftlength_4, pv_shiftlength_5, pv_c_3.

Section Alg.
Variable e : pv_s4 F.
Hypothesis SZ : pv_sizes e.
Variable z : F.
Notation C := (pv_cap_c_total e).
Notation Ca := (pv_cap_c_a e).
Notation Cm := (pv_cap_c_m e).
Notation al := (pv_alpha e).
Notation om := (pv_omega e).
Notation ga := (pv_gamma e).
Variable M : Z.
Hypothesis HM : (6 * C - Cm <= M)%Z.
Hypothesis HMw : (Z.of_nat (length (pv_w_vec e)) + C - 1 <= M)%Z.
Hypothesis HMr : (Z.of_nat (length (pv_r_vec e)) <= M)%Z.
Hypothesis HMt : (Z.of_nat (length (pv_t_vec_1 e)) - 2 <= M)%Z.
Hypothesis Hz : z <> 0.
Hypothesis Hom : om <> 0.
Hypothesis Hga : ga <> 0.
Hypothesis Hz1 : z <> 1.
Hypothesis Hgz : ga * z <> 1.
Hypothesis Hoz : om <> z.
Variable q : pv_ctx F.
Hypothesis Hq : pv_ctx_pub q = pv_s1_pub e.
Hypothesis Hqz : pv_q_z q = z.
Hypothesis Hq1 : pv_q_zeta q = pv_zeta e.
Hypothesis Hq2 : pv_q_zeta_1 q = pv_zeta_1 e.
Hypothesis Hq3 : pv_q_alpha q = pv_alpha e.
Hypothesis Hq4 : pv_q_omega q = pv_omega e.
Hypothesis Hy : pv_q_y q = peval (pv_w_vec e) (om / z).
Hypothesis Hy2 : pv_q_y_2 q = peval (pv_r_vec e) (om / z).
Hypothesis Ht : eval_sparse_zero_one_vector (om / z) (pv_x0 e) = peval (pv_t_vec e) (om / z).
Hypothesis Hx : eval_sparse_vector z (pv_x0 e) (pv_x1 e) = peval (pv_x_vec e) z.

Lemma pv_LP : LP M (pv_hK e) z
  (pv_p_c_20 q * peval (pv_w_vec e) z + pv_p_c_21 q * peval (pv_d_vec e) z + pv_p_c_22 q
   + pv_p_c_23 q * peval (pv_sigma_vec e) z + pv_p_c_24 q * peval (pv_t_vec_1 e) z).
Proof.
  destruct SZ. eapply LP_val. 2:{ eapply LP_ext; [intros K; pv_unf; reflexivity|].
  assert (power om (-1) = finv om) as -> by (rewrite pw by auto; change (-1)%Z with (- (1))%Z; rewrite fpowZ_opp, fpowZ_1 by auto; field; auto).
  lp_tree.
  all: try assumption; try apply f1_neq_0; try (now apply finv_neq_0); try lia. }
  unfold pv_p_c_20, pv_p_c_21, pv_p_c_22, pv_p_c_23, pv_p_c_24, pv_p_y_1, pv_vovectorsize.
  rewrite ?Hqz, ?Hq1, ?Hq2, ?Hq3, ?Hq4, ?Hy, ?Hy2, ?Hq, ?Ht, ?Hx.
  unfold pv_c, pv_c_1, pv_c_2, pv_c_4, pv_c_5, pv_c_6, pv_c_7, pv_c_8, pv_c_9, pv_c_10, pv_c_11,
    pv_c_12, pv_c_13, pv_c_14, pv_c_15, pv_c_16, pv_c_17, pv_c_18, pv_c_19.
  assert (om / z <> 0) as Hd by (intros E; apply Hom; transitivity (om / z * z); [field; auto|rewrite E; ring]).
  assert (ga * z <> 0) as Hgz0 by now apply fmul_neq_0.
  assert (finv om * z <> 0) as Hfo by (apply fmul_neq_0; auto; now apply finv_neq_0).
  assert (finv om * z <> 1) as Hfo1.
  { intros E. apply Hoz. transitivity (om * (finv om * z)); [rewrite E; ring|field; auto]. }
  rewrite !(pw om), !(pw z), !(pw (om / z)), !(pw (ga * z)) by auto.
  rewrite !pw_pos. cbn [Pos.to_nat Pos.iter_op Nat.add fpow].
  replace (1 * z) with z by ring. rewrite ?(geoZ z), ?(geoZ (ga * z)), ?(geoZ (finv om * z)) by (auto; lia).
  change (Pos.to_nat 2) with 2%nat. change (Pos.to_nat 3) with 3%nat. change (Pos.to_nat 4) with 4%nat. change (Pos.to_nat 5) with 5%nat.
  cbn [fpow].
  rewrite ?(fpowZ_mul_base (finv om) z), ?(fpowZ_mul_base ga z), ?(fpowZ_finv om), ?(fpowZ_div om z) by (auto using finv_neq_0).
  fpz.
  assert (forall k, fpowZ z k <> 0) as Pz by (intros; now apply fpowZ_neq_0).
  assert (forall k, fpowZ om k <> 0) as Po by (intros; now apply fpowZ_neq_0).
  pose proof (Pz C) as P1; pose proof (Pz Ca) as P2; pose proof (Pz Cm) as P3.
  pose proof (Po C) as P4; pose proof (Po Ca) as P5; pose proof (Po Cm) as P6.
  pose proof (Pz (Z.of_nat (length (pv_w_vec e)))) as P7. pose proof (Pz (Z.of_nat (length (pv_r_vec e)))) as P8.
  pose proof (Pz (Z.of_nat (length (pv_t_vec e)))) as P9.
  clear Pz Po.
  generalize dependent (fpowZ z C). generalize dependent (fpowZ z Ca). generalize dependent (fpowZ z Cm).
  generalize dependent (fpowZ om C). generalize dependent (fpowZ om Ca). generalize dependent (fpowZ om Cm).
  generalize dependent (fpowZ z (Z.of_nat (length (pv_w_vec e)))).
  generalize dependent (fpowZ z (Z.of_nat (length (pv_r_vec e)))).
  generalize dependent (fpowZ z (Z.of_nat (length (pv_t_vec e)))).
  generalize (fpowZ ga C).
  generalize (peval (pv_w_vec e) z), (peval (pv_w_vec e) (om / z)), (peval (pv_r_vec e) (om / z)),
    (peval (pv_t_vec e) (om / z)), (peval (pv_x_vec e) z), (peval (pv_d_vec e) z),
    (peval (pv_sigma_vec e) z), (peval (pv_t_vec_1 e) z).
  intros.
  assert (om - z <> 0) as N1 by (intros E; now apply Hoz, fsub_0_eq).
  assert (ga * z - 1 <> 0) as N2 by (intros E; now apply Hgz, fsub_0_eq).
  assert (1 - z <> 0) as N3 by (intros E; apply Hz1; symmetry; now apply fsub_0_eq).
  assert (1 - ga * z <> 0) as N4 by (intros E; apply Hgz; symmetry; now apply fsub_0_eq).
  field. repeat split; assumption.
Qed.
End Alg.

End PovProofs.

(** R1Proofs.v: the product polynomial of the R1CS argument, as a Laurent polynomial. *)
From Verif Require Import Base Spec Tools ToolsProofs ToolsProofs2 CS KZG KZGProofs Snark Laurent Laurent2 R1.
Local Open Scope F_scope.

Section R1Proofs.
Context {F : Type} {fo : FieldOps F} {fl : FieldLaws F}.
Add Field Fr1 : F_th.

(** The coefficient of X^(K-1) of the product polynomial; h_vec_2 and h_vec_3 are its two halves. *)
Definition r1_hK (e : r1_s6 F) (K : Z) : F := r1_c_10 e * vidx (r1_v_vec_8 e) (minus_i64 K
  (r1_cap_k e - r1_shiftlength_7 e + 1))%Z + r1_c_14 e * vidx (r1_v_vec_1 e) (minus_i64 K
  (r1_cap_k e - r1_shiftlength e + 1))%Z + r1_c_15 e * vidx (r1_v_vec_3 e) (minus_i64 K (r1_cap_k e
  - r1_shiftlength_2 e + 1))%Z + r1_c_16 e * vidx (r1_v_vec_5 e) (minus_i64 K (- r1_cap_h e
  - r1_shiftlength_4 e + 1))%Z + r1_c_17 e * vidx (r1_v_vec_7 e) (minus_i64 K (- 3 * r1_cap_h e
  - r1_shiftlength_6 e + 1))%Z + r1_c_18 e * vidx (r1_r_vec_tilde e) (minus_i64 K (2
  - r1_vovectorsize e))%Z + r1_c_19 e * power_vidx (r1_c_12 e) (r1_ell e + 1)%Z (minus_i64 K (1
  - r1_ell e))%Z + r1_c_19 e * vidx (r1_v_vec_18 e) (minus_i64 K (2 - r1_ell e))%Z + r1_c_2 e
  * vidx (r1_v_vec_4 e) (minus_i64 K (r1_cap_k e - r1_shiftlength_3 e + 1))%Z + r1_c_20 e
  * vidx (r1_v_vec_9 e) (minus_i64 K (2 - 3 * r1_cap_h e))%Z + r1_c_21 e * vidx (r1_v_vec_10 e)
  (minus_i64 K (2 - 3 * r1_cap_h e))%Z + r1_c_22 e * vidx (r1_v_vec_11 e) (minus_i64 K (- r1_cap_k e
  - r1_cap_s_a e - r1_cap_s_b e - r1_cap_s_c e + 2))%Z + r1_c_23 e * vidx (r1_v_vec_12 e)
  (minus_i64 K (2 - r1_cap_k e))%Z + r1_c_24 e * vidx (r1_v_vec_13 e) (minus_i64 K (2
  - r1_cap_k e))%Z + r1_c_25 e * vidx (r1_v_vec_14 e) (minus_i64 K (- r1_cap_k e - r1_ell_1 e +
  2))%Z + r1_c_26 e * vidx (r1_v_vec_15 e) (minus_i64 K (r1_cap_k e - r1_shiftlength_1 e + 1))%Z +
  r1_c_27 e * vidx (r1_v_vec_16 e) (minus_i64 K (2 - 3 * r1_cap_h e))%Z + r1_c_28 e
  * vidx (r1_v_vec_17 e) (minus_i64 K (- 3 * r1_cap_h e - r1_ell e + 1))%Z + r1_c_29 e
  * vidx (r1_v_vec_19 e) (minus_i64 K (- r1_cap_k e - r1_cap_s_a e - r1_cap_s_b e - r1_cap_s_c e +
  2))%Z + r1_c_30 e * vidx (r1_v_vec_19 e) (minus_i64 K (- r1_cap_k e - r1_cap_s_a e - r1_cap_s_b e
  - r1_cap_s_c e + 3))%Z + r1_c_31 e * vidx (r1_v_vec_20 e) (minus_i64 K (r1_cap_h e - r1_cap_k e
  - r1_cap_s_a e - r1_cap_s_b e - r1_cap_s_c e))%Z + r1_c_32 e * vidx (r1_v_vec_21 e) (minus_i64 K
  (2 - 3 * r1_cap_h e))%Z + r1_c_33 e * vidx (r1_v_vec_22 e) (minus_i64 K (2 - r1_cap_k e))%Z +
  r1_c_34 e * vidx (r1_v_vec_23 e) (minus_i64 K (- r1_cap_s_a e - r1_cap_s_b e - r1_cap_s_c e +
  2))%Z + r1_c_9 e * vidx (r1_v_vec_6 e) (minus_i64 K (1 - r1_shiftlength_5 e))%Z.

Lemma r1_h2_hK (e : r1_s6 F) i : r1_h_vec_2_at e i = r1_hK e (i - (r1_maxshift e + r1_vovectorsize e)).
Proof. rewrite Z.sub_add_distr. reflexivity. Qed.
Lemma r1_h3_hK (e : r1_s6 F) i : r1_h_vec_3_at e i = r1_hK e (i + 1).
Proof. reflexivity. Qed.

(** sizes of the vectors; the lengths of the committed vectors are left open, for dishonest provers *)
Record r1_sizes (e : r1_s6 F) : Prop := {
  sz_h : (1 <= r1_cap_h e)%Z; sz_a : (0 <= r1_cap_s_a e)%Z; sz_b : (0 <= r1_cap_s_b e)%Z;
  sz_c : (0 <= r1_cap_s_c e)%Z; sz_l : (0 <= r1_ell e)%Z; sz_lk : (r1_ell e + 1 <= r1_cap_k e)%Z;
  sz_3h : (3 * r1_cap_h e <= r1_cap_s_a e + r1_cap_s_b e + r1_cap_s_c e)%Z;
  sz_u : (Z.of_nat (length (r1_u_vec e)) = r1_cap_s_a e + r1_cap_s_b e + r1_cap_s_c e)%Z;
  sz_w : (Z.of_nat (length (r1_w_vec e)) = r1_cap_s_a e + r1_cap_s_b e + r1_cap_s_c e)%Z;
  sz_v : (Z.of_nat (length (r1_v_vec e)) = r1_cap_s_a e + r1_cap_s_b e + r1_cap_s_c e)%Z;
  sz_y : (Z.of_nat (length (r1_y_vec e)) = r1_cap_s_a e + r1_cap_s_b e + r1_cap_s_c e)%Z;
  sz_u1 : (1 <= length (r1_u_vec_1 e))%nat;
  sz_hv : (1 <= length (r1_h_vec e))%nat }.

Ltac lp_leaf :=
  lazymatch goal with
  | |- LP _ (fun K => power_vidx _ _ (minus_i64 K _)) _ _ => apply LP_powvec
  | |- LP _ (fun K => vidx (vector_poly_mul _ _ _) (minus_i64 K _)) _ _ => apply LP_corr'
  | |- LP _ (fun K => vidx (power_power_mul _ _ _ _) (minus_i64 K _)) _ _ => apply LP_ppm
  | |- LP _ (fun K => vidx (vector_power_mul (vector_reverse_omega _ _) _ _) (minus_i64 K _)) _ _ => apply LP_reverse_pow'
  | |- LP _ (fun K => vidx (vector_power_mul _ _ _) (minus_i64 K _)) _ _ => apply LP_pow
  | |- LP _ (fun K => vidx _ (minus_i64 K _)) _ _ => apply LP_list
  end.
Ltac lp_tree := repeat first [ apply LP_add | apply LP_sub | apply LP_scale ]; lp_leaf.

Ltac r1_unf := unfold r1_hK, r1_v_vec_1, r1_v_vec_2, r1_v_vec_3, r1_v_vec_4, r1_v_vec_5, r1_v_vec_6, r1_v_vec_7, r1_v_vec_8, r1_v_vec_9, r1_v_vec_10, r1_v_vec_11, r1_v_vec_12, r1_v_vec_13, r1_v_vec_14, r1_v_vec_15, r1_v_vec_16, r1_v_vec_17, r1_v_vec_18, r1_v_vec_19, r1_v_vec_20, r1_v_vec_21, r1_v_vec_22, r1_v_vec_23, r1_v_vec_2, r1_shiftlength, r1_shiftlength_1, r1_shiftlength_2, r1_shiftlength_3, r1_shiftlength_4, r1_shiftlength_5, r1_shiftlength_6, r1_shiftlength_7, r1_ell_1, r1_c_12, r1_c_13.

Section Alg.
Variable e : r1_s6 F.
Hypothesis SZ : r1_sizes e.
Variable z : F.
Notation Hh := (r1_cap_h e).
Notation Kk := (r1_cap_k e).
Notation Sa := (r1_cap_s_a e).
Notation Sb := (r1_cap_s_b e).
Notation Sc := (r1_cap_s_c e).
Notation el := (r1_ell e).
Notation al := (r1_alpha e).
Notation om := (r1_omega e).
Notation ga := (r1_gamma e).
Variable M : Z.
Hypothesis HM : (2 * Kk + 2 * (Sa + Sb + Sc) - Hh <= M)%Z.
Hypothesis HMu : (Z.of_nat (length (r1_u_vec_1 e)) + Hh - 1 <= M)%Z.
Hypothesis HMh : (Z.of_nat (length (r1_h_vec e)) + 3 * Hh - 1 <= M)%Z.
Hypothesis HMs : (Z.of_nat (length (r1_s_vec e)) <= M)%Z.
Hypothesis HMr : (Z.of_nat (length (r1_r_vec_tilde e)) <= M)%Z.
Hypothesis HMt : (Z.of_nat (length (r1_t_vec e)) - 2 <= M)%Z.
Hypothesis HMx : (Z.of_nat (length (r1_x_vec e)) <= M)%Z.
Hypothesis Hz : z <> 0.
Hypothesis Hom : om <> 0.
Hypothesis Hga : ga <> 0.
Hypothesis Hz1 : z <> 1.
Hypothesis Hgo : ga * om <> z.
Hypothesis Hoz : om <> z.
Variable q : r1_ctx F.
Hypothesis Hq : r1_ctx_pub q = r1_s1_pub e.
Hypothesis Hqz : r1_q_z q = z.
Hypothesis Hq1 : r1_q_mu q = r1_mu e.
Hypothesis Hq2 : r1_q_nu q = r1_nu e.
Hypothesis Hq5 : r1_q_beta q = r1_beta e.
Hypothesis Hq3 : r1_q_alpha q = r1_alpha e.
Hypothesis Hq4 : r1_q_omega q = r1_omega e.
Hypothesis Hy : r1_q_y q = peval (r1_h_vec e) (om / z).
Hypothesis Hy1 : r1_q_y_1 q = peval (r1_u_vec_1 e) (om / z).

Lemma r1_LP : LP M (r1_hK e) z
  (r1_p_c_35 q * peval (r1_s_vec e) z + r1_p_c_36 q + r1_p_c_37 q * peval (r1_h_vec e) z
   + r1_p_c_38 q * peval (r1_w_vec e) z + r1_p_c_39 q * peval (r1_u_vec e) z
   + r1_p_c_40 q * peval (r1_y_vec e) z + r1_p_c_41 q * peval (r1_u_vec_1 e) z
   + r1_p_c_42 q * peval (r1_v_vec e) z + r1_p_c_43 q * peval (r1_r_vec_tilde e) z
   + r1_p_c_44 q * peval (r1_t_vec e) z).
Proof.
  destruct SZ.
  assert (ga * om <> 0) as Hgo0 by now apply fmul_neq_0.
  eapply LP_val. 2:{ eapply LP_ext; [intros K; r1_unf; reflexivity|].
  assert (power om (-1) = finv om) as -> by (rewrite pw by auto; change (-1)%Z with (- (1))%Z; rewrite fpowZ_opp, fpowZ_1 by auto; field; auto).
  assert (1 / (ga * om) = finv (ga * om)) as -> by (field; auto).
  lp_tree.
  all: try assumption; try apply f1_neq_0; try (now apply finv_neq_0); try lia. 
  all: unfold r1_vovectorsize; try lia. }
  unfold r1_p_c_35, r1_p_c_36, r1_p_c_37, r1_p_c_38, r1_p_c_39, r1_p_c_40, r1_p_c_41, r1_p_c_42, r1_p_c_43, r1_p_c_44, r1_p_c_45, r1_p_c_46, r1_vovectorsize, r1_ell_1.
  rewrite ?Hqz, ?Hq1, ?Hq2, ?Hq3, ?Hq4, ?Hq5, ?Hy, ?Hy1, ?Hq, ?eval_vector_as_poly_peval.
  unfold r1_c, r1_c_1, r1_c_2, r1_c_3, r1_c_4, r1_c_5, r1_c_6, r1_c_7, r1_c_8, r1_c_9, r1_c_10, r1_c_11, r1_c_14, r1_c_15, r1_c_16, r1_c_17, r1_c_18, r1_c_19, r1_c_20, r1_c_21, r1_c_22, r1_c_23, r1_c_24, r1_c_25, r1_c_26, r1_c_27, r1_c_28, r1_c_29, r1_c_30, r1_c_31, r1_c_32, r1_c_33, r1_c_34, r1_vovectorsize.
  assert (om / z <> 0) as Hd by (intros E; apply Hom; transitivity (om / z * z); [field; auto|rewrite E; ring]).
  assert (finv om * z <> 0) as Hfo by (apply fmul_neq_0; auto; now apply finv_neq_0).
  assert (finv om * z <> 1) as Hfo1.
  { intros E. apply Hoz. transitivity (om * (finv om * z)); [rewrite E; ring|field; auto]. }
  assert (finv (ga * om) * z <> 0) as Hfg by (apply fmul_neq_0; auto; now apply finv_neq_0).
  assert (finv (ga * om) * z <> 1) as Hfg1.
  { intros E. apply Hgo. transitivity (ga * om * (finv (ga * om) * z)); [rewrite E; ring|field; auto]. }
  assert (ga * om / z <> 0) as Hgd by (intros E; apply Hgo0; transitivity (ga * om / z * z); [field; auto|rewrite E; ring]).
  rewrite !(pw om), !(pw z), !(pw (om / z)), !(pw (ga * om)), !(pw (ga * om / z)) by auto.
  rewrite !pw_pos. cbn [Pos.to_nat Pos.iter_op Nat.add fpow].
  replace (1 * z) with z by ring.
  change (Pos.to_nat 2) with 2%nat.
  change (Pos.to_nat 3) with 3%nat.
  change (Pos.to_nat 4) with 4%nat.
  change (Pos.to_nat 5) with 5%nat.
  change (Pos.to_nat 6) with 6%nat.
  change (Pos.to_nat 7) with 7%nat.
  change (Pos.to_nat 8) with 8%nat.
  cbn [fpow].
  change (Z.to_nat 0) with 0%nat. rewrite !geo_0.
  rewrite ?(geoZ z), ?(geoZ (finv (ga * om) * z)), ?(geoZ (finv om * z)) by (auto; lia).
  rewrite ?(fpowZ_mul_base (finv (ga * om)) z), ?(fpowZ_mul_base (finv om) z), ?(fpowZ_finv om), ?(fpowZ_finv (ga * om)), ?(fpowZ_div om z), ?(fpowZ_div (ga * om) z), ?(fpowZ_mul_base ga om) by (auto using finv_neq_0).
  fpz.
  assert (forall k, fpowZ z k <> 0) as Pz by (intros; now apply fpowZ_neq_0).
  assert (forall k, fpowZ om k <> 0) as Po by (intros; now apply fpowZ_neq_0).
  assert (forall k, fpowZ ga k <> 0) as Pg by (intros; now apply fpowZ_neq_0).
  pose proof (Pz Hh) as P1; pose proof (Pz Kk) as P2; pose proof (Pz Sa) as P3; pose proof (Pz Sb) as P4; pose proof (Pz Sc) as P5; pose proof (Pz el) as P6.
  pose proof (Po Hh) as Q1; pose proof (Po Kk) as Q2; pose proof (Po Sa) as Q3; pose proof (Po Sb) as Q4; pose proof (Po Sc) as Q5; pose proof (Po el) as Q6.
  pose proof (Pg Hh) as G1; pose proof (Pg Kk) as G2.
  pose proof (Pz (Z.of_nat (length (r1_h_vec e)))) as P7. pose proof (Pz (Z.of_nat (length (r1_u_vec_1 e)))) as P8.
  clear Pz Po Pg.
  generalize dependent (fpowZ z Hh). generalize dependent (fpowZ z Kk). generalize dependent (fpowZ z Sa). 
  generalize dependent (fpowZ z Sb). generalize dependent (fpowZ z Sc). generalize dependent (fpowZ z el). 
  generalize dependent (fpowZ om Hh). generalize dependent (fpowZ om Kk). generalize dependent (fpowZ om Sa). 
  generalize dependent (fpowZ om Sb). generalize dependent (fpowZ om Sc). generalize dependent (fpowZ om el). 
  generalize dependent (fpowZ ga Hh). generalize dependent (fpowZ ga Kk).
  generalize dependent (fpowZ z (Z.of_nat (length (r1_h_vec e)))).
  generalize dependent (fpowZ z (Z.of_nat (length (r1_u_vec_1 e)))).
  generalize (peval (r1_s_vec e) z), (peval (r1_h_vec e) (om / z)), (peval (r1_h_vec e) z), (peval (r1_w_vec e) z),
    (peval (r1_u_vec e) z), (peval (r1_y_vec e) z), (peval (r1_u_vec_1 e) z), (peval (r1_u_vec_1 e) (om / z)),
    (peval (r1_v_vec e) z), (peval (r1_r_vec_tilde e) z), (peval (r1_t_vec e) z), (peval (r1_x_vec e) z).
  intros.
  assert (om - z <> 0) as N1 by (intros E; now apply Hoz, fsub_0_eq).
  assert (ga * om - z <> 0) as N2 by (intros E; now apply Hgo, fsub_0_eq).
  assert (1 - z <> 0) as N3 by (intros E; apply Hz1; symmetry; now apply fsub_0_eq).
  field. repeat split; assumption.
Qed.
End Alg.

End R1Proofs.

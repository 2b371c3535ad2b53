(** RPProofs.v: the product polynomial of the prover-efficient R1CS argument, as a Laurent polynomial. *)
From Verif Require Import Base Spec Tools ToolsProofs ToolsProofs2 CS KZG KZGProofs Snark Laurent Laurent2 RP.
Local Open Scope F_scope.

Section RPProofs.
Context {F : Type} {fo : FieldOps F} {fl : FieldLaws F}.
Add Field Frp : F_th.

(** The coefficient of X^(K-1) of the product polynomial; h_vec_1 and h_vec_2 are its two halves. *)
Definition rp_hK (e : rp_s6 F) (K : Z) : F := rp_c_10 e * vidx (rp_v_vec_9 e) (minus_i64 K (1
  - rp_shiftlength_8 e))%Z + rp_c_11 e * vidx (rp_v_vec_10 e) (minus_i64 K (1
  - rp_shiftlength_9 e))%Z + rp_c_12 e * vidx (rp_v_vec_11 e) (minus_i64 K (1
  - rp_shiftlength_10 e))%Z + rp_c_15 e * vidx (rp_v_vec_1 e) (minus_i64 K (1 - rp_shiftlength e))%Z
  + rp_c_16 e * vidx (rp_v_vec_3 e) (minus_i64 K (1 - rp_shiftlength_2 e))%Z + rp_c_17 e
  * vidx (rp_v_vec_5 e) (minus_i64 K (- 2 * rp_cap_h e - rp_shiftlength_4 e + 1))%Z + rp_c_18 e
  * vidx (rp_r_vec_tilde e) (minus_i64 K (2 - rp_n e))%Z + rp_c_19 e * vidx (rp_v_vec_12 e)
  (minus_i64 K (2 - 3 * rp_cap_h e))%Z + rp_c_2 e * vidx (rp_v_vec_4 e) (minus_i64 K (1
  - rp_shiftlength_3 e))%Z + rp_c_20 e * vidx (rp_v_vec_13 e) (minus_i64 K (2 - 3 * rp_cap_h e))%Z +
  rp_c_21 e * vidx (rp_v_vec_14 e) (minus_i64 K (- rp_cap_s_a e - rp_cap_s_b e - rp_cap_s_c e +
  2))%Z + rp_c_22 e * vidx (rp_v_vec_15 e) (minus_i64 K (2 - rp_cap_k e))%Z + rp_c_23 e
  * vidx (rp_v_vec_16 e) (minus_i64 K (2 - rp_cap_k e))%Z + rp_c_24 e * vidx (rp_v_vec_17 e)
  (minus_i64 K (- rp_cap_s_a e - rp_cap_s_b e - rp_cap_s_c e + 2))%Z + rp_c_25 e
  * vidx (rp_v_vec_18 e) (minus_i64 K (- rp_cap_s_a e - rp_cap_s_b e - rp_cap_s_c e + 2))%Z +
  rp_c_26 e * vidx (rp_v_vec_19 e) (minus_i64 K (2 - rp_ell_1 e))%Z + rp_c_27 e
  * vidx (rp_v_vec_20 e) (minus_i64 K (1 - rp_shiftlength_1 e))%Z + rp_c_28 e * vidx (rp_v_vec_21 e)
  (minus_i64 K (- rp_cap_s_a e - rp_cap_s_b e - rp_cap_s_c e + 2))%Z + rp_c_29 e
  * vidx (rp_v_vec_22 e) (minus_i64 K (2 - 2 * rp_cap_h e))%Z + rp_c_30 e * vidx (rp_v_vec_23 e)
  (minus_i64 K (- rp_cap_s_a e - rp_cap_s_b e - rp_cap_s_c e + 2))%Z + rp_c_31 e
  * vidx (rp_v_vec_23 e) (minus_i64 K (- rp_cap_s_a e - rp_cap_s_b e - rp_cap_s_c e + 3))%Z +
  rp_c_32 e * vidx (rp_v_vec_24 e) (minus_i64 K (- 2 * rp_cap_h e))%Z + rp_c_33 e
  * vidx (rp_v_vec_25 e) (minus_i64 K (2 - 3 * rp_cap_h e))%Z + rp_c_34 e * vidx (rp_v_vec_26 e)
  (minus_i64 K (2 - rp_cap_k e))%Z + rp_c_35 e * vidx (rp_v_vec_27 e) (minus_i64 K (- rp_cap_s_a e
  - rp_cap_s_b e - rp_cap_s_c e + 2))%Z + rp_c_9 e * vidx (rp_v_vec_6 e) (minus_i64 K (2
  - rp_shiftlength_5 e))%Z + rp_c_9 e * vidx (rp_v_vec_7 e) (minus_i64 K (1 - rp_shiftlength_6 e))%Z
  + rp_c_9 e * vidx (rp_v_vec_8 e) (minus_i64 K (rp_ell e - rp_shiftlength_7 e + 2))%Z.

Lemma rp_h1_hK (e : rp_s6 F) i : rp_h_vec_1_at e i = rp_hK e (i - (rp_maxshift e + rp_n e)).
Proof. rewrite Z.sub_add_distr. reflexivity. Qed.
Lemma rp_h2_hK (e : rp_s6 F) i : rp_h_vec_2_at e i = rp_hK e (i + 1).
Proof. reflexivity. Qed.

(** sizes of the vectors; the lengths of the committed vectors are left open, for dishonest provers *)
Record rp_sizes (e : rp_s6 F) : Prop := {
  sz_h : (1 <= rp_cap_h e)%Z; sz_a : (0 <= rp_cap_s_a e)%Z; sz_b : (0 <= rp_cap_s_b e)%Z;
  sz_c : (0 <= rp_cap_s_c e)%Z; sz_l : (0 <= rp_ell e)%Z; sz_lk : (rp_ell e + 1 <= rp_cap_k e)%Z;
  sz_3h : (3 * rp_cap_h e <= rp_cap_s_a e + rp_cap_s_b e + rp_cap_s_c e)%Z;
  sz_k : (rp_cap_k e <= rp_cap_s_a e + rp_cap_s_b e + rp_cap_s_c e)%Z;
  sz_u : (Z.of_nat (length (rp_u_vec e)) = rp_cap_s_a e + rp_cap_s_b e + rp_cap_s_c e)%Z;
  sz_w : (Z.of_nat (length (rp_w_vec e)) = rp_cap_s_a e + rp_cap_s_b e + rp_cap_s_c e)%Z;
  sz_v : (Z.of_nat (length (rp_v_vec e)) = rp_cap_s_a e + rp_cap_s_b e + rp_cap_s_c e)%Z;
  sz_y : (Z.of_nat (length (rp_y_vec e)) = rp_cap_s_a e + rp_cap_s_b e + rp_cap_s_c e)%Z;
  sz_y1 : (1 <= length (rp_y_vec_1 e))%nat;
  sz_cv : (1 <= length (rp_c_vec e))%nat;
  sz_tv : (1 <= length (rp_t_vec e))%nat }.

Ltac lp_leaf :=
  lazymatch goal with
  | |- LP _ (fun K => power_vidx _ _ (minus_i64 K _)) _ _ => apply LP_powvec
  | |- LP _ (fun K => vidx (vector_poly_mul _ _ _) (minus_i64 K _)) _ _ => apply LP_corr'
  | |- LP _ (fun K => vidx (power_power_mul _ _ _ _) (minus_i64 K _)) _ _ => apply LP_ppm
  | |- LP _ (fun K => vidx (vector_power_mul (vector_reverse_omega _ _) _ _) (minus_i64 K _)) _ _ => apply LP_reverse_pow'
  | |- LP _ (fun K => vidx (vector_reverse_omega _ _) (minus_i64 K _)) _ _ => apply LP_reverse'
  | |- LP _ (fun K => vidx (vector_power_mul _ _ _) (minus_i64 K _)) _ _ => apply LP_pow
  | |- LP _ (fun K => vidx _ (minus_i64 K _)) _ _ => apply LP_list
  end.
Ltac lp_tree := repeat first [ apply LP_add | apply LP_sub | apply LP_scale ]; lp_leaf.

Ltac rp_unf := unfold rp_hK, rp_v_vec_1, rp_v_vec_2, rp_v_vec_3, rp_v_vec_4, rp_v_vec_5, rp_v_vec_6, rp_v_vec_7, rp_v_vec_8, rp_v_vec_9, rp_v_vec_10, rp_v_vec_11, rp_v_vec_12, rp_v_vec_13, rp_v_vec_14, rp_v_vec_15, rp_v_vec_16, rp_v_vec_17, rp_v_vec_18, rp_v_vec_19, rp_v_vec_20, rp_v_vec_21, rp_v_vec_22, rp_v_vec_23, rp_v_vec_24, rp_v_vec_25, rp_v_vec_26, rp_v_vec_27, rp_v_vec_2, rp_shiftlength, rp_shiftlength_1, rp_shiftlength_2, rp_shiftlength_3, rp_shiftlength_4, rp_shiftlength_5, rp_shiftlength_6, rp_shiftlength_7, rp_shiftlength_8, rp_shiftlength_9, rp_shiftlength_10, rp_ell_1, rp_c_13, rp_c_14.

Section Alg.
Variable e : rp_s6 F.
Hypothesis SZ : rp_sizes e.
Variable z : F.
Notation Hh := (rp_cap_h e).
Notation Kk := (rp_cap_k e).
Notation Sa := (rp_cap_s_a e).
Notation Sb := (rp_cap_s_b e).
Notation Sc := (rp_cap_s_c e).
Notation el := (rp_ell e).
Notation al := (rp_alpha e).
Notation om := (rp_omega e).
Notation ga := (rp_gamma e).
Variable M : Z.
Hypothesis HM : (2 * Hh + (Sa + Sb + Sc) <= M)%Z.
Hypothesis HMy : (Z.of_nat (length (rp_y_vec_1 e)) + 2 * Hh - 1 <= M)%Z.
Hypothesis HMw : (Z.of_nat (length (rp_wit_vec e)) + el <= M)%Z.
Hypothesis HMr : (Z.of_nat (length (rp_r_vec e)) <= M)%Z.
Hypothesis HMc : (Z.of_nat (length (rp_c_vec e)) <= M)%Z.
Hypothesis HMn : (Z.of_nat (length (rp_rnu_vec e)) <= M)%Z.
Hypothesis HMt : (Z.of_nat (length (rp_t_vec e)) <= M)%Z.
Hypothesis HMrt : (Z.of_nat (length (rp_r_vec_tilde e)) <= M)%Z.
Hypothesis HMt1 : (Z.of_nat (length (rp_t_vec_1 e)) - 2 <= M)%Z.
Hypothesis HMx : (Z.of_nat (length (rp_x_vec e)) <= M)%Z.
Hypothesis Hz : z <> 0.
Hypothesis Hom : om <> 0.
Hypothesis Hga : ga <> 0.
Hypothesis Hz1 : z <> 1.
Hypothesis Hgo : ga * om <> z.
Hypothesis Hoz : om <> z.
Variable q : rp_ctx F.
Hypothesis Hq : rp_ctx_pub q = rp_s1_pub e.
Hypothesis Hqz : rp_q_z q = z.
Hypothesis Hq1 : rp_q_mu q = rp_mu e.
Hypothesis Hq2 : rp_q_nu q = rp_nu e.
Hypothesis Hq5 : rp_q_beta q = rp_beta e.
Hypothesis Hq3 : rp_q_alpha q = rp_alpha e.
Hypothesis Hq4 : rp_q_omega q = rp_omega e.
Hypothesis Hy : rp_q_y q = peval (rp_t_vec e) (om / z).
Hypothesis Hy1 : rp_q_y_1 q = peval (rp_y_vec_1 e) (om / z).
Hypothesis Hy2 : rp_q_y_2 q = peval (rp_c_vec e) (om / z).

Lemma rp_LP : LP M (rp_hK e) z
  (rp_p_c_36 q * peval (rp_r_vec e) z + rp_p_c_37 q + rp_p_c_38 q * peval (rp_rnu_vec e) z
   + rp_p_c_39 q * peval (rp_c_vec e) z + rp_p_c_40 q * peval (rp_w_vec e) z
   + rp_p_c_41 q * peval (rp_u_vec e) z + rp_p_c_42 q * peval (rp_y_vec e) z
   + rp_p_c_43 q * peval (rp_y_vec_1 e) z + rp_p_c_44 q * peval (rp_wit_vec e) z
   + rp_p_c_45 q * peval (rp_v_vec e) z + rp_p_c_46 q * peval (rp_r_vec_tilde e) z
   + rp_p_c_47 q * peval (rp_t_vec_1 e) z).
Proof.
  destruct SZ.
  assert (ga * om <> 0) as Hgo0 by now apply fmul_neq_0.
  eapply LP_val. 2:{ eapply LP_ext; [intros K; rp_unf; reflexivity|].
  assert (1 / (ga * om) = finv (ga * om)) as -> by (field; auto).
  lp_tree.
  all: try assumption; try apply f1_neq_0; try (now apply finv_neq_0); try lia. 
  all: unfold rp_n; try lia. }
  unfold rp_p_c_36, rp_p_c_37, rp_p_c_38, rp_p_c_39, rp_p_c_40, rp_p_c_41, rp_p_c_42, rp_p_c_43, rp_p_c_44, rp_p_c_45, rp_p_c_46, rp_p_c_47, rp_p_c_48, rp_p_c_49, rp_n, rp_ell_1.
  rewrite ?Hqz, ?Hq1, ?Hq2, ?Hq3, ?Hq4, ?Hq5, ?Hy, ?Hy1, ?Hy2, ?Hq, ?eval_vector_as_poly_peval.
  unfold rp_c, rp_c_1, rp_c_2, rp_c_3, rp_c_4, rp_c_5, rp_c_6, rp_c_7, rp_c_8, rp_c_9, rp_c_10, rp_c_11, rp_c_12, rp_c_15, rp_c_16, rp_c_17, rp_c_18, rp_c_19, rp_c_20, rp_c_21, rp_c_22, rp_c_23, rp_c_24, rp_c_25, rp_c_26, rp_c_27, rp_c_28, rp_c_29, rp_c_30, rp_c_31, rp_c_32, rp_c_33, rp_c_34, rp_c_35, rp_n.
  assert (om / z <> 0) as Hd by (intros E; apply Hom; transitivity (om / z * z); [field; auto|rewrite E; ring]).
  assert (finv om * z <> 0) as Hfo by (apply fmul_neq_0; auto; now apply finv_neq_0).
  assert (finv om * z <> 1) as Hfo1.
  { intros E. apply Hoz. transitivity (om * (finv om * z)); [rewrite E; ring|field; auto]. }
  assert (finv (ga * om) * z <> 0) as Hfg by (apply fmul_neq_0; auto; now apply finv_neq_0).
  assert (finv (ga * om) * z <> 1) as Hfg1.
  { intros E. apply Hgo. transitivity (ga * om * (finv (ga * om) * z)); [rewrite E; ring|field; auto]. }
  assert (ga * om / z <> 0) as Hgd by (intros E; apply Hgo0; transitivity (ga * om / z * z); [field; auto|rewrite E; ring]).
  rewrite !(pw om), !(pw z), !(pw (om / z)), !(pw (ga * om)), !(pw (ga * om / z)) by auto.
  rewrite !pw_pos. cbn [Pos.to_nat Pos.iter_op Nat.add fpow].
  replace (1 * z) with z by ring.
  change (Pos.to_nat 2) with 2%nat.
  change (Pos.to_nat 3) with 3%nat.
  change (Pos.to_nat 4) with 4%nat.
  change (Pos.to_nat 5) with 5%nat.
  change (Pos.to_nat 6) with 6%nat.
  change (Pos.to_nat 7) with 7%nat.
  change (Pos.to_nat 8) with 8%nat.
  change (Pos.to_nat 9) with 9%nat.
  change (Pos.to_nat 10) with 10%nat.
  cbn [fpow].
  change (Z.to_nat 0) with 0%nat. rewrite !geo_0.
  rewrite ?(geoZ z), ?(geoZ (finv (ga * om) * z)), ?(geoZ (finv om * z)) by (auto; lia).
  rewrite ?(fpowZ_mul_base (finv (ga * om)) z), ?(fpowZ_mul_base (finv om) z), ?(fpowZ_finv om), ?(fpowZ_finv (ga * om)), ?(fpowZ_div om z), ?(fpowZ_div (ga * om) z), ?(fpowZ_mul_base ga om) by (auto using finv_neq_0).
  fpz.
  assert (forall k, fpowZ z k <> 0) as Pz by (intros; now apply fpowZ_neq_0).
  assert (forall k, fpowZ om k <> 0) as Po by (intros; now apply fpowZ_neq_0).
  assert (forall k, fpowZ ga k <> 0) as Pg by (intros; now apply fpowZ_neq_0).
  pose proof (Pz Hh) as P1; pose proof (Pz Kk) as P2; pose proof (Pz Sa) as P3; pose proof (Pz Sb) as P4; pose proof (Pz Sc) as P5; pose proof (Pz el) as P6.
  pose proof (Po Hh) as Q1; pose proof (Po Kk) as Q2; pose proof (Po Sa) as Q3; pose proof (Po Sb) as Q4; pose proof (Po Sc) as Q5; pose proof (Po el) as Q6.
  pose proof (Pg Hh) as G1; pose proof (Pg Kk) as G2.
  pose proof (Pz (Z.of_nat (length (rp_t_vec e)))) as P7. pose proof (Pz (Z.of_nat (length (rp_y_vec_1 e)))) as P8.
  pose proof (Pz (Z.of_nat (length (rp_c_vec e)))) as P9.
  clear Pz Po Pg.
  generalize dependent (fpowZ z Hh). generalize dependent (fpowZ z Kk). generalize dependent (fpowZ z Sa). 
  generalize dependent (fpowZ z Sb). generalize dependent (fpowZ z Sc). generalize dependent (fpowZ z el). 
  generalize dependent (fpowZ om Hh). generalize dependent (fpowZ om Kk). generalize dependent (fpowZ om Sa). 
  generalize dependent (fpowZ om Sb). generalize dependent (fpowZ om Sc). generalize dependent (fpowZ om el). 
  generalize dependent (fpowZ ga Hh). generalize dependent (fpowZ ga Kk).
  generalize dependent (fpowZ z (Z.of_nat (length (rp_t_vec e)))).
  generalize dependent (fpowZ z (Z.of_nat (length (rp_y_vec_1 e)))).
  generalize dependent (fpowZ z (Z.of_nat (length (rp_c_vec e)))).
  generalize (peval (rp_r_vec e) z), (peval (rp_t_vec e) (om / z)), (peval (rp_rnu_vec e) z), (peval (rp_w_vec e) z),
    (peval (rp_u_vec e) z), (peval (rp_y_vec e) z), (peval (rp_y_vec_1 e) z), (peval (rp_y_vec_1 e) (om / z)), (peval (rp_c_vec e) z), (peval (rp_c_vec e) (om / z)),
    (peval (rp_wit_vec e) z), (peval (rp_t_vec e) z),
    (peval (rp_v_vec e) z), (peval (rp_r_vec_tilde e) z), (peval (rp_t_vec_1 e) z), (peval (rp_x_vec e) z).
  intros.
  assert (om - z <> 0) as N1 by (intros E; now apply Hoz, fsub_0_eq).
  assert (- om + z <> 0) as N4 by (intros E; apply Hoz; transitivity (om + (- om + z)); [rewrite E; ring|ring]).
  assert (ga * om - z <> 0) as N2 by (intros E; now apply Hgo, fsub_0_eq).
  assert (1 - z <> 0) as N3 by (intros E; apply Hz1; symmetry; now apply fsub_0_eq).
  field. repeat split; assumption.
Qed.
End Alg.

End RPProofs.

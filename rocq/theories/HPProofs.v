(** HPProofs.v: the product polynomial of the HPR argument, as a Laurent polynomial. *)
From Verif Require Import Base Spec Tools ToolsProofs ToolsProofs2 CS KZG KZGProofs Snark Laurent Laurent2 HP.
Local Open Scope F_scope.

Section HPProofs.
Context {F : Type} {fo : FieldOps F} {fl : FieldLaws F}.
Add Field Fhp : F_th.

(** The coefficient of X^(K-1) of the product polynomial; h_vec_2 and h_vec_3 are its two halves. *)
Definition hp_hK (e : hp_s6 F) (K : Z) : F := hp_c_10 e * vidx (hp_v_vec_9 e) (minus_i64 K (3
  * hp_cap_k e - hp_shiftlength_8 e + 2))%Z + hp_c_14 e * vidx (hp_s_vec e) (minus_i64 K (1
  - hp_cap_h e))%Z + hp_c_15 e * vidx (hp_v_vec_1 e) (minus_i64 K (3 * hp_cap_k e - hp_shiftlength e
  + 2))%Z + hp_c_16 e * vidx (hp_v_vec_3 e) (minus_i64 K (3 * hp_cap_k e - hp_shiftlength_2 e +
  2))%Z + hp_c_17 e * vidx (hp_v_vec_5 e) (minus_i64 K (- hp_cap_k e - hp_shiftlength_4 e + 1))%Z +
  hp_c_18 e * vidx (hp_v_vec_7 e) (minus_i64 K (- hp_cap_h e - hp_shiftlength_6 e))%Z + hp_c_19 e
  * vidx (hp_v_vec_8 e) (minus_i64 K (- hp_cap_h e - hp_shiftlength_7 e + 1))%Z + hp_c_2 e
  * vidx (hp_v_vec_4 e) (minus_i64 K (3 * hp_cap_k e - hp_shiftlength_3 e + 2))%Z + hp_c_20 e
  * vidx (hp_r_vec_tilde e) (minus_i64 K (2 - hp_vovectorsize e))%Z + hp_c_21 e
  * vidx (hp_v_vec_10 e) (minus_i64 K (2 - hp_cap_h e))%Z + hp_c_22 e * vidx (hp_v_vec_11 e)
  (minus_i64 K (2 - hp_cap_h e))%Z + hp_c_23 e * vidx (hp_v_vec_12 e) (minus_i64 K (- 3 * hp_cap_k e
  - hp_cap_s_a e - hp_cap_s_b e - hp_cap_s_c e - hp_cap_s_d e + 1))%Z + hp_c_24 e
  * vidx (hp_v_vec_13 e) (minus_i64 K (1 - 3 * hp_cap_k e))%Z + hp_c_25 e * vidx (hp_v_vec_14 e)
  (minus_i64 K (1 - 3 * hp_cap_k e))%Z + hp_c_26 e * vidx (hp_v_vec_15 e) (minus_i64 K (- 3
  * hp_cap_k e - hp_ell e + 1))%Z + hp_c_27 e * vidx (hp_v_vec_16 e) (minus_i64 K (3 * hp_cap_k e
  - hp_shiftlength_1 e + 2))%Z + hp_c_28 e * vidx (hp_v_vec_17 e) (minus_i64 K (2 - 3
  * hp_cap_k e))%Z + hp_c_29 e * vidx (hp_v_vec_18 e) (minus_i64 K (- 3 * hp_cap_k e - hp_cap_s_a e
  - hp_cap_s_b e - hp_cap_s_c e - hp_cap_s_d e + 1))%Z + hp_c_30 e * vidx (hp_v_vec_18 e)
  (minus_i64 K (- 3 * hp_cap_k e - hp_cap_s_a e - hp_cap_s_b e - hp_cap_s_c e - hp_cap_s_d e + 2))%Z
  + hp_c_31 e * vidx (hp_v_vec_19 e) (minus_i64 K (- 2 * hp_cap_k e - hp_cap_s_a e - hp_cap_s_b e
  - hp_cap_s_c e - hp_cap_s_d e - 1))%Z + hp_c_32 e * vidx (hp_v_vec_20 e) (minus_i64 K (2
  - hp_cap_h e))%Z + hp_c_33 e * vidx (hp_v_vec_21 e) (minus_i64 K (1 - 3 * hp_cap_k e))%Z +
  hp_c_34 e * vidx (hp_v_vec_22 e) (minus_i64 K (- hp_cap_s_a e - hp_cap_s_b e - hp_cap_s_c e
  - hp_cap_s_d e + 2))%Z + hp_c_9 e * vidx (hp_v_vec_6 e) (minus_i64 K (1 - hp_shiftlength_5 e))%Z.

Lemma hp_h2_hK (e : hp_s6 F) i : hp_h_vec_2_at e i = hp_hK e (i - (hp_maxshift e + hp_vovectorsize e)).
Proof. rewrite Z.sub_add_distr. reflexivity. Qed.
Lemma hp_h3_hK (e : hp_s6 F) i : hp_h_vec_3_at e i = hp_hK e (i + 1).
Proof. reflexivity. Qed.

(** sizes of the vectors; the lengths of the committed vectors are left open, for dishonest provers *)
Record hp_sizes (e : hp_s6 F) : Prop := {
  sz_h : (1 <= hp_cap_h e)%Z; sz_k : (1 <= hp_cap_k e)%Z; sz_a : (0 <= hp_cap_s_a e)%Z; sz_b : (0 <= hp_cap_s_b e)%Z;
  sz_c : (0 <= hp_cap_s_c e)%Z; sz_d : (0 <= hp_cap_s_d e)%Z;
  sz_hs : (hp_cap_h e <= hp_cap_s_a e + hp_cap_s_b e + hp_cap_s_c e + hp_cap_s_d e)%Z;
  sz_u1 : (1 <= length (hp_w_vec_1 e))%nat;
  sz_hv : (1 <= length (hp_h_vec e))%nat }.

Lemma poly_mul_nil v (om : F) i : vidx (vector_poly_mul [] v om) i = 0.
Proof.
  unfold vector_poly_mul. change (strip (vector_reverse_omega [] om)) with (@nil F).
  assert (forall i, coef (strip (pmul [] (strip v))) i = 0) as E.
  { intros k. rewrite coef_strip. cbn. now destruct k. }
  destruct (Z_le_gt_dec i 0); [apply vidx_out; lia|].
  replace i with (Z.of_nat (S (Z.to_nat (i - 1)))) by lia. now rewrite vidx_S.
Qed.
Lemma LP_corrE M u v (om : F) b z : z <> 0 -> (0 <= M)%Z ->
  (- M <= b - 1)%Z -> (b + Z.of_nat (length u) + Z.of_nat (length v) - 3 <= M)%Z ->
  LP M (fun K => vidx (vector_poly_mul u v om) (minus_i64 K b)) z
     (fpowZ z (b + Z.of_nat (length u) - 2) * (peval u (om / z) * peval v z)).
Proof.
  intros. destruct u as [|a u]; [|apply LP_corr'; auto; cbn; lia].
  apply LP_val with (x := 0 * (fpowZ z (1 - 1) * peval [0] z)); [cbn; ring|].
  apply (LP_ext M _ (fun K => 0 * vidx [0] (minus_i64 K 1)) z).
  - intros K. rewrite poly_mul_nil. ring.
  - apply LP_scale, LP_list; auto; cbn in *; lia.
Qed.

Ltac lp_leaf :=
  lazymatch goal with
  | |- LP _ (fun K => power_vidx _ _ (minus_i64 K _)) _ _ => apply LP_powvec
  | |- LP _ (fun K => vidx (vector_poly_mul _ _ _) (minus_i64 K _)) _ _ => apply LP_corrE
  | |- LP _ (fun K => vidx (power_power_mul _ _ _ _) (minus_i64 K _)) _ _ => apply LP_ppm
  | |- LP _ (fun K => vidx (vector_power_mul (vector_reverse_omega _ _) _ _) (minus_i64 K _)) _ _ => apply LP_reverse_pow'
  | |- LP _ (fun K => vidx (vector_power_mul _ _ _) (minus_i64 K _)) _ _ => apply LP_pow
  | |- LP _ (fun K => vidx _ (minus_i64 K _)) _ _ => apply LP_list
  end.
Ltac lp_tree := repeat first [ apply LP_add | apply LP_sub | apply LP_scale ]; lp_leaf.

Ltac hp_unf := unfold hp_hK, hp_v_vec_1, hp_v_vec_2, hp_v_vec_3, hp_v_vec_4, hp_v_vec_5, hp_v_vec_6, hp_v_vec_7, hp_v_vec_8, hp_v_vec_9, hp_v_vec_10, hp_v_vec_11, hp_v_vec_12, hp_v_vec_13, hp_v_vec_14, hp_v_vec_15, hp_v_vec_16, hp_v_vec_17, hp_v_vec_18, hp_v_vec_19, hp_v_vec_20, hp_v_vec_21, hp_v_vec_22, hp_v_vec_2, hp_shiftlength, hp_shiftlength_1, hp_shiftlength_2, hp_shiftlength_3, hp_shiftlength_4, hp_shiftlength_5, hp_shiftlength_6, hp_shiftlength_7, hp_shiftlength_8, hp_ell, hp_c_12, hp_c_13.

Section Alg.
Variable e : hp_s6 F.
Hypothesis SZ : hp_sizes e.
Variable z : F.
Notation Hh := (hp_cap_h e).
Notation Kk := (hp_cap_k e).
Notation Sa := (hp_cap_s_a e).
Notation Sb := (hp_cap_s_b e).
Notation Sc := (hp_cap_s_c e).
Notation Sd := (hp_cap_s_d e).
Notation al := (hp_alpha e).
Notation om := (hp_omega e).
Notation ga := (hp_gamma e).
Variable M : Z.
Hypothesis HM : (5 * Kk + 2 * (Sa + Sb + Sc + Sd) + 1 <= M)%Z.
Hypothesis HMm1 : (3 * Kk + Z.of_nat (length (hp_u_vec e)) + 1 <= M)%Z.
Hypothesis HMm2 : (3 * Kk + Z.of_nat (length (hp_w_vec e)) + 1 <= M)%Z.
Hypothesis HMm3 : (3 * Kk + Z.of_nat (length (hp_v_vec e)) + 1 <= M)%Z.
Hypothesis HMm4 : (3 * Kk + Z.of_nat (length (hp_y_vec e)) + 1 <= M)%Z.
Hypothesis HMu : (Z.of_nat (length (hp_w_vec_1 e)) + Hh <= M)%Z.
Hypothesis HMk : (Z.of_nat (length (hp_w_vec_1 e)) + Kk - 1 <= M)%Z.
Hypothesis HMh : (Z.of_nat (length (hp_h_vec e)) + Hh - 1 <= M)%Z.
Hypothesis HMs : (Z.of_nat (length (hp_s_vec e)) <= M)%Z.
Hypothesis HMr : (Z.of_nat (length (hp_r_vec_tilde e)) <= M)%Z.
Hypothesis HMt : (Z.of_nat (length (hp_t_vec e)) - 2 <= M)%Z.
Hypothesis HMx : (Z.of_nat (length (hp_x_vec e)) <= M)%Z.
Hypothesis Hz : z <> 0.
Hypothesis Hom : om <> 0.
Hypothesis Hga : ga <> 0.
Hypothesis Hz1 : z <> 1.
Hypothesis Hgo : ga * om <> z.
Hypothesis Hoz : om <> z.
Variable q : hp_ctx F.
Hypothesis Hq : hp_ctx_pub q = hp_s1_pub e.
Hypothesis Hqz : hp_q_z q = z.
Hypothesis Hq1 : hp_q_mu q = hp_mu e.
Hypothesis Hq2 : hp_q_nu q = hp_nu e.
Hypothesis Hq5 : hp_q_beta q = hp_beta e.
Hypothesis Hq3 : hp_q_alpha q = hp_alpha e.
Hypothesis Hq4 : hp_q_omega q = hp_omega e.
Hypothesis Hy : hp_q_y q = peval (hp_h_vec e) (om / z).
Hypothesis Hy1 : hp_q_y_1 q = peval (hp_w_vec_1 e) (om / z).

Lemma hp_LP : LP M (hp_hK e) z
  (hp_p_c_35 q * peval (hp_s_vec e) z + hp_p_c_36 q + hp_p_c_37 q * peval (hp_h_vec e) z
   + hp_p_c_38 q * peval (hp_w_vec e) z + hp_p_c_39 q * peval (hp_u_vec e) z
   + hp_p_c_40 q * peval (hp_y_vec e) z + hp_p_c_41 q * peval (hp_w_vec_1 e) z
   + hp_p_c_42 q * peval (hp_v_vec e) z + hp_p_c_43 q * peval (hp_r_vec_tilde e) z
   + hp_p_c_44 q * peval (hp_t_vec e) z).
Proof.
  destruct SZ.
  assert (ga * om <> 0) as Hgo0 by now apply fmul_neq_0.
  eapply LP_val. 2:{ eapply LP_ext; [intros K; hp_unf; reflexivity|].
  assert (power om (-1) = finv om) as -> by (rewrite pw by auto; change (-1)%Z with (- (1))%Z; rewrite fpowZ_opp, fpowZ_1 by auto; field; auto).
  assert (1 / (ga * om) = finv (ga * om)) as -> by (field; auto).
  lp_tree.
  all: try assumption; try apply f1_neq_0; try (now apply finv_neq_0); try lia. 
  all: unfold hp_vovectorsize; try lia.
  }
  unfold hp_p_c_35, hp_p_c_36, hp_p_c_37, hp_p_c_38, hp_p_c_39, hp_p_c_40, hp_p_c_41, hp_p_c_42, hp_p_c_43, hp_p_c_44, hp_p_c_45, hp_p_c_46, hp_p_y_2, hp_vovectorsize, hp_ell.
  rewrite ?Hqz, ?Hq1, ?Hq2, ?Hq3, ?Hq4, ?Hq5, ?Hy, ?Hy1, ?Hq, ?eval_vector_as_poly_peval.
  unfold hp_c, hp_c_1, hp_c_2, hp_c_3, hp_c_4, hp_c_5, hp_c_6, hp_c_7, hp_c_8, hp_c_9, hp_c_10, hp_c_11, hp_c_14, hp_c_15, hp_c_16, hp_c_17, hp_c_18, hp_c_19, hp_c_20, hp_c_21, hp_c_22, hp_c_23, hp_c_24, hp_c_25, hp_c_26, hp_c_27, hp_c_28, hp_c_29, hp_c_30, hp_c_31, hp_c_32, hp_c_33, hp_c_34, hp_vovectorsize.
  assert (om / z <> 0) as Hd by (intros E; apply Hom; transitivity (om / z * z); [field; auto|rewrite E; ring]).
  assert (finv om * z <> 0) as Hfo by (apply fmul_neq_0; auto; now apply finv_neq_0).
  assert (finv om * z <> 1) as Hfo1.
  { intros E. apply Hoz. transitivity (om * (finv om * z)); [rewrite E; ring|field; auto]. }
  assert (finv (ga * om) * z <> 0) as Hfg by (apply fmul_neq_0; auto; now apply finv_neq_0).
  assert (finv (ga * om) * z <> 1) as Hfg1.
  { intros E. apply Hgo. transitivity (ga * om * (finv (ga * om) * z)); [rewrite E; ring|field; auto]. }
  assert (ga * om / z <> 0) as Hgd by (intros E; apply Hgo0; transitivity (ga * om / z * z); [field; auto|rewrite E; ring]).
  rewrite !(pw om), !(pw z), !(pw (om / z)), !(pw (ga * om)), !(pw (ga * om / z)) by auto.
  rewrite !pw_pos. cbn [Pos.to_nat Pos.iter_op Nat.add fpow].
  replace (1 * z) with z by ring.
  change (Pos.to_nat 2) with 2%nat.
  change (Pos.to_nat 3) with 3%nat.
  change (Pos.to_nat 4) with 4%nat.
  change (Pos.to_nat 5) with 5%nat.
  change (Pos.to_nat 6) with 6%nat.
  change (Pos.to_nat 7) with 7%nat.
  change (Pos.to_nat 8) with 8%nat.
  cbn [fpow].
  change (Z.to_nat 0) with 0%nat. rewrite !geo_0.
  rewrite ?(geoZ z), ?(geoZ (finv (ga * om) * z)), ?(geoZ (finv om * z)) by (auto; lia).
  rewrite ?(fpowZ_mul_base (finv (ga * om)) z), ?(fpowZ_mul_base (finv om) z), ?(fpowZ_finv om), ?(fpowZ_finv (ga * om)), ?(fpowZ_div om z), ?(fpowZ_div (ga * om) z), ?(fpowZ_mul_base ga om) by (auto using finv_neq_0).
  fpz.
  assert (forall k, fpowZ z k <> 0) as Pz by (intros; now apply fpowZ_neq_0).
  assert (forall k, fpowZ om k <> 0) as Po by (intros; now apply fpowZ_neq_0).
  assert (forall k, fpowZ ga k <> 0) as Pg by (intros; now apply fpowZ_neq_0).
  pose proof (Pz Hh) as P1; pose proof (Pz Kk) as P2; pose proof (Pz Sa) as P3; pose proof (Pz Sb) as P4; pose proof (Pz Sc) as P5; pose proof (Pz Sd) as P6.
  pose proof (Po Hh) as Q1; pose proof (Po Kk) as Q2; pose proof (Po Sa) as Q3; pose proof (Po Sb) as Q4; pose proof (Po Sc) as Q5; pose proof (Po Sd) as Q6.
  pose proof (Pg Hh) as G1; pose proof (Pg Kk) as G2.
  pose proof (Pz (Z.of_nat (length (hp_h_vec e)))) as P7. pose proof (Pz (Z.of_nat (length (hp_w_vec_1 e)))) as P8.
  pose proof (Pz (Z.of_nat (length (hp_x_vec e)))) as P9. clear Pz Po Pg.
  generalize dependent (fpowZ z Hh). generalize dependent (fpowZ z Kk). generalize dependent (fpowZ z Sa). 
  generalize dependent (fpowZ z Sb). generalize dependent (fpowZ z Sc). generalize dependent (fpowZ z Sd). 
  generalize dependent (fpowZ om Hh). generalize dependent (fpowZ om Kk). generalize dependent (fpowZ om Sa). 
  generalize dependent (fpowZ om Sb). generalize dependent (fpowZ om Sc). generalize dependent (fpowZ om Sd). 
  generalize dependent (fpowZ ga Hh). generalize dependent (fpowZ ga Kk).
  generalize dependent (fpowZ z (Z.of_nat (length (hp_x_vec e)))).
  generalize dependent (fpowZ z (Z.of_nat (length (hp_h_vec e)))).
  generalize dependent (fpowZ z (Z.of_nat (length (hp_w_vec_1 e)))).
  generalize (peval (hp_s_vec e) z), (peval (hp_h_vec e) (om / z)), (peval (hp_h_vec e) z), (peval (hp_w_vec e) z),
    (peval (hp_u_vec e) z), (peval (hp_y_vec e) z), (peval (hp_w_vec_1 e) z), (peval (hp_w_vec_1 e) (om / z)),
    (peval (hp_v_vec e) z), (peval (hp_r_vec_tilde e) z), (peval (hp_t_vec e) z), (peval (hp_x_vec e) (om / z)).
  intros.
  assert (om - z <> 0) as N1 by (intros E; now apply Hoz, fsub_0_eq).
  assert (ga * om - z <> 0) as N2 by (intros E; now apply Hgo, fsub_0_eq).
  assert (1 - z <> 0) as N3 by (intros E; apply Hz1; symmetry; now apply fsub_0_eq).
  field. repeat split; assumption.
Qed.
End Alg.

End HPProofs.

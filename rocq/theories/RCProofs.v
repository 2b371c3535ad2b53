(** RCProofs.v: the product polynomial of the range-check argument, as a Laurent polynomial, and its
    constant term as a sum over positions. *)
From Verif Require Import Base Spec Tools ToolsProofs ToolsProofs2 KZG KZGProofs Snark Laurent Laurent2 PovPEConst RC.
Local Open Scope F_scope.

Section RCProofs.
Context {F : Type} {fo : FieldOps F} {fl : FieldLaws F}.
Add Field Frc : F_th.

(** The coefficient of X^(K-1) of the product polynomial; h_vec_1 and h_vec_2 are its two halves. *)
Definition rc_hK (e : rc_s5 F) (K : Z) : F := rc_alpha e * vidx (rc_v_vec_17 e) (minus_i64 K (1 - rc_shiftlength_9 e))%Z + rc_c e * vidx
  (rc_v_vec_22 e) (minus_i64 K (1 - rc_shiftlength_11 e))%Z + rc_c_10 e * vidx (rc_v_vec_20 e)
  (minus_i64 K (1 - rc_shiftlength_8 e))%Z + rc_c_11 e * vidx (rc_v_vec_21 e) (minus_i64 K (1 -
  rc_shiftlength_10 e))%Z + rc_c_4 e * vidx (rc_v_vec_25 e) (minus_i64 K (2 - rc_nsize e))%Z +
  rc_c_6 e * vidx (rc_v_vec_23 e) (minus_i64 K (2 - Z.max (rc_nsize e) (rc_range e)))%Z + rc_c_7 e
  * vidx (rc_v_vec_23 e) (minus_i64 K (3 - Z.max (rc_nsize e) (rc_range e)))%Z + rc_c_8 e * vidx
  (rc_r_vec_tilde e) (minus_i64 K (2 - rc_n e))%Z + rc_c_9 e * vidx (rc_v_vec_24 e) (minus_i64 K
  0)%Z + vidx (rc_v_vec_15 e) (minus_i64 K (1 - rc_shiftlength_7 e))%Z.

Lemma rc_h1_hK (e : rc_s5 F) i : rc_h_vec_1_at e i = rc_hK e (i - rc_maxshift e - rc_n e).
Proof. reflexivity. Qed.
Lemma rc_h2_hK (e : rc_s5 F) i : rc_h_vec_2_at e i = rc_hK e (i + 1).
Proof. reflexivity. Qed.

(** sizes of the vectors; the lengths of the committed vectors are left open, for dishonest provers *)
Record rc_sizes (e : rc_s5 F) : Prop := {
  rcz_n : (1 <= rc_nsize e)%Z; rcz_r : (1 <= rc_range e)%Z;
  rcz_rv : (1 <= length (rc_r_vec e))%nat; rcz_sv : (1 <= length (rc_s_vec e))%nat; rcz_mv : (1 <= length (rc_m_vec e))%nat }.

Ltac lp_leaf :=
  lazymatch goal with
  | |- LP _ (fun K => vidx (vector_poly_mul _ _ _) (minus_i64 K _)) _ _ => apply LP_corr'
  | |- LP _ (fun K => vidx (power_power_mul _ _ _ _) (minus_i64 K _)) _ _ => apply LP_ppm
  | |- LP _ (fun K => vidx (vector_power_mul (vector_reverse_omega _ _) _ _) (minus_i64 K _)) _ _ => apply LP_reverse_pow'
  | |- LP _ (fun K => vidx (vector_reverse_omega _ _) (minus_i64 K _)) _ _ => apply LP_reverse'
  | |- LP _ (fun K => vidx (vector_power_mul _ _ _) (minus_i64 K _)) _ _ => apply LP_pow
  | |- LP _ (fun K => vidx _ (minus_i64 K _)) _ _ => apply LP_list
  end.
Ltac lp_tree := repeat first [ apply LP_add | apply LP_sub | apply LP_scale ]; lp_leaf.
Ltac rc_unf := unfold rc_hK, rc_v_vec_15, rc_v_vec_17, rc_v_vec_22, rc_v_vec_20, rc_v_vec_21, rc_v_vec_25, rc_v_vec_23, rc_v_vec_24, rc_v_vec_16, rc_v_vec_18, rc_v_vec_19, rc_shiftlength_7, rc_shiftlength_8, rc_shiftlength_9, rc_shiftlength_10, rc_shiftlength_11, rc_c_3.

Section Alg.
Variable e : rc_s5 F.
Hypothesis SZ : rc_sizes e.
Variable z : F.
Notation ns := (rc_nsize e).
Notation rg := (rc_range e).
Notation al := (rc_alpha e).
Notation om := (rc_omega e).
Variable M : Z.
Hypothesis HMn : (rc_n e + 1 <= M)%Z.
Hypothesis HMr : (Z.of_nat (length (rc_r_vec e)) <= M)%Z.
Hypothesis HMs : (Z.of_nat (length (rc_s_vec e)) <= M)%Z.
Hypothesis HMm : (Z.of_nat (length (rc_m_vec e)) <= M)%Z.
Hypothesis HMw : (Z.of_nat (length (rc_w_vec e)) <= M)%Z.
Hypothesis HMt : (Z.of_nat (length (rc_pk_t_vec e)) <= M)%Z.
Hypothesis HMrt : (Z.of_nat (length (rc_r_vec_tilde e)) <= M)%Z.
Hypothesis HMt1 : (Z.of_nat (length (rc_t_vec_1 e)) - 2 <= M)%Z.
Hypothesis Hz : z <> 0.
Hypothesis Hom : om <> 0.
Hypothesis Hz1 : z <> 1.
Hypothesis Hoz : om <> z.
Variable q : rc_ctx F.
Hypothesis Hq : rc_ctx_pub q = rc_s1_pub e.
Hypothesis Hqz : rc_q_z q = z.
Hypothesis Hq1 : rc_q_beta q = rc_beta e.
Hypothesis Hq3 : rc_q_alpha q = rc_alpha e.
Hypothesis Hq4 : rc_q_omega q = rc_omega e.
Hypothesis Hy : rc_q_y q = peval (rc_r_vec e) (om / z).
Hypothesis Hy1 : rc_q_y_1 q = peval (rc_s_vec e) (om / z).
Hypothesis Hy2 : rc_q_y_2 q = peval (rc_m_vec e) (om / z).

Lemma rc_LP : LP M (rc_hK e) z
  (rc_p_c_14 q * peval (rc_w_vec e) z + rc_p_c_15 q + rc_p_c_19 q * peval (rc_pk_t_vec e) z
   + rc_p_c_25 q * peval (rc_r_vec_tilde e) z + rc_p_c_28 q * peval (rc_t_vec_1 e) z).
Proof.
  destruct SZ.
  assert (power om (- 1) = finv om) as Ef by (rewrite pw by auto; change (- 1)%Z with (- (1))%Z; rewrite fpowZ_opp, fpowZ_1 by auto; reflexivity).
  eapply LP_val. 2:{ eapply LP_ext; [intros K; rc_unf; reflexivity|].
  rewrite !Ef. lp_tree.
  all: unfold rc_n in *; try assumption; try apply f1_neq_0; try (now apply finv_neq_0); try lia. }
  unfold rc_p_c_14, rc_p_c_15, rc_p_c_19, rc_p_c_25, rc_p_c_28.
  rewrite ?Hqz, ?Hq1, ?Hq3, ?Hq4, ?Hy, ?Hy1, ?Hy2, ?Hq.
  unfold rc_c, rc_c_1, rc_c_2, rc_c_3, rc_c_4, rc_c_5, rc_c_6, rc_c_7, rc_c_8, rc_c_9, rc_c_10, rc_c_11, rc_n in *.

  assert (om / z <> 0) as Hd by (intros E; apply Hom; transitivity (om / z * z); [field; auto|rewrite E; ring]).
  assert (finv om * z <> 0) as Hfo by (apply fmul_neq_0; auto; now apply finv_neq_0).
  assert (finv om <> 0) as Hfi by now apply finv_neq_0.
  assert (finv om * z <> 1) as Hfo1.
  { intros E. apply Hoz. transitivity (om * (finv om * z)); [rewrite E; ring|field; auto]. }
  rewrite !(pw om), !(pw z), !(pw (om / z)) by auto.
  rewrite !pw_pos. cbn [Pos.to_nat Pos.iter_op Nat.add fpow].
  replace (1 * z) with z by ring.
  change (Pos.to_nat 2) with 2%nat. change (Pos.to_nat 3) with 3%nat.
  cbn [fpow].
  change (Z.to_nat 1) with 1%nat. replace (geo (finv om * z) 1) with (1 : F) by (unfold geo; cbn; ring).
  rewrite ?(geoZ z), ?(geoZ (finv om * z)) by (auto; lia).
  rewrite ?(fpowZ_mul_base (finv om) z), ?(fpowZ_finv om), ?(fpowZ_div om z) by auto.
  fpz.
  assert (forall k, fpowZ z k <> 0) as Pz by (intros; now apply fpowZ_neq_0).
  assert (forall k, fpowZ om k <> 0) as Po by (intros; now apply fpowZ_neq_0).
  set (mx := Z.max ns rg) in *.
  pose proof (Pz ns) as P1; pose proof (Pz rg) as P2; pose proof (Pz mx) as P3.
  pose proof (Po ns) as Q1; pose proof (Po rg) as Q2; pose proof (Po mx) as Q3.
  pose proof (Pz (Z.of_nat (length (rc_r_vec e)))) as P4. pose proof (Pz (Z.of_nat (length (rc_s_vec e)))) as P5.
  pose proof (Pz (Z.of_nat (length (rc_m_vec e)))) as P6.
  clear Pz Po.
  generalize dependent (fpowZ z ns). generalize dependent (fpowZ z rg). generalize dependent (fpowZ z mx).
  generalize dependent (fpowZ om ns). generalize dependent (fpowZ om rg). generalize dependent (fpowZ om mx).
  generalize dependent (fpowZ z (Z.of_nat (length (rc_r_vec e)))).
  generalize dependent (fpowZ z (Z.of_nat (length (rc_s_vec e)))).
  generalize dependent (fpowZ z (Z.of_nat (length (rc_m_vec e)))).
  generalize (peval (rc_r_vec e) (om / z)), (peval (rc_s_vec e) (om / z)), (peval (rc_m_vec e) (om / z)),
    (peval (rc_w_vec e) z), (peval (rc_pk_t_vec e) z), (peval (rc_r_vec_tilde e) z), (peval (rc_t_vec_1 e) z).
  intros.
  assert (om - z <> 0) as N1 by (intros E; now apply Hoz, fsub_0_eq).
  assert (1 - z <> 0) as N3 by (intros E; apply Hz1; symmetry; now apply fsub_0_eq).
  field. repeat split; assumption.
Qed.
End Alg.

Ltac rc_leaf om c :=
  let sh := ct_pow om c in
  lazymatch goal with
  | |- CT _ _ (vidx (power_power_mul _ (Z.to_nat _) _ (Z.to_nat _)) _) _ => apply CT_ppm with (b := sh)
  | _ => ct_leaf om c
  end.
Ltac rc_tree om :=
  repeat first [ apply CT_add | apply CT_sub | apply CT_opp ];
  lazymatch goal with |- CT _ _ (?c * _) _ => apply CT_scale; rc_leaf om c | |- CT _ _ _ _ => rc_leaf om (1 : F) end.
Ltac same_range :=
  match goal with
  | |- context [range_index ?s ?a ?i] => match goal with |- context [range_index s ?b i] =>
      tryif constr_eq a b then fail else replace (range_index (F := F) s b i) with (range_index (F := F) s a i) by (f_equal; lia) end
  end.

Section Const.
Variable e : rc_s5 F.
Hypothesis SZ : rc_sizes e.
Notation ns := (rc_nsize e).
Notation rg := (rc_range e).
Notation nn := (rc_n e).
Notation al := (rc_alpha e).
Notation be := (rc_beta e).
Notation om := (rc_omega e).
Hypothesis Hom : om <> 0.
Notation wv := (vidx (rc_w_vec e)).
Notation mv := (vidx (rc_m_vec e)).
Notation rv := (vidx (rc_r_vec e)).
Notation sv := (vidx (rc_s_vec e)).
Notation tv := (vidx (rc_pk_t_vec e)).
Notation rt := (vidx (rc_r_vec_tilde e)).

(** the constraints at position i, one for every power of alpha *)
Definition rc_k0 (i : Z) : F := rv i * (wv i + be * range_index 1 ns i) - range_index 1 ns i.
Definition rc_k1 (i : Z) : F := sv i * (tv i + be * range_index 1 rg i) - mv i * range_index 1 rg i.
Definition rc_k2 (i : Z) : F := rv i * range_index 1 ns i - sv i * range_index 1 rg i - range_index 1 nn i * (rt i - rt (i - 1)).
Definition rc_k3 (i : Z) : F := delta i nn * rt i.
(** the summand at position i *)
Definition rc_br (i : Z) : F :=
  rc_k0 i + al * rc_k1 i + power al 2 * rc_k2 i + power al 3 * rc_k3 i
  - range_index (nn + 1) (nn + 1) i * vidx (rc_t_vec_1 e) (i - nn + 1).

Variable N : Z.
Hypothesis HN : (nn + 1 <= N)%Z.
Hypothesis HNr : (Z.of_nat (length (rc_r_vec e)) <= N)%Z.
Hypothesis HNs : (Z.of_nat (length (rc_s_vec e)) <= N)%Z.
Hypothesis HNm : (Z.of_nat (length (rc_m_vec e)) <= N)%Z.

Lemma rc_CT : CT om (Z.to_nat N) (rc_hK e 1) rc_br.
Proof.
  destruct SZ. eapply CT_ext.
  2:{ rc_unf. change (power om (-1)) with (power om (- 1)).
  assert (power om (- 1) = finv om) as -> by (rewrite pw by auto; change (- 1)%Z with (- (1))%Z; rewrite fpowZ_opp, fpowZ_1 by auto; reflexivity).
  unfold rc_c, rc_c_1, rc_c_2, rc_c_4, rc_c_5, rc_c_6, rc_c_7, rc_c_8, rc_c_9, rc_c_10, rc_c_11.
  change (Z.max ns rg) with nn.
  rc_tree (rc_omega e).
  all: try assumption; try apply f1_neq_0; unfold rc_n in *; try lia. }
  intros i Hi. cbn beta. rewrite !(pw om) by auto.
  unfold rc_br, rc_k0, rc_k1, rc_k2, rc_k3, minus_i64.
  repeat idx_step. rewrite <- ?range_power_vidx, ?delta_sub, ?range_idem. rewrite !pw_pos; change (Pos.to_nat 2) with 2%nat; change (Pos.to_nat 3) with 3%nat; cbn [fpow].
  repeat same_idx. repeat same_range.
  set (mx := rc_n e) in *.
  fpz.
  assert (forall k, fpowZ om k <> 0) as Po by (intros; now apply fpowZ_neq_0).
  pose proof (Po ns) as P1; pose proof (Po rg) as P2; pose proof (Po mx) as P3. clear Po.
  field. repeat split; assumption.
Qed.
End Const.
End RCProofs.

(** RCComplete.v: what a run of the range-check prover produces; every proof it produces is accepted,
    and it produces one only for exceptional randomizers or challenges. *)
From Verif Require Import Base Spec Tools ToolsProofs ToolsProofs2 KZG KZGProofs Properties_KZG
  Snark Laurent Laurent2 SnarkProofs SnarkPerm PovPEComplete RC RCProofs RCSoundSpec RCSound.
Local Open Scope F_scope.

Section RCComplete.
Context {F G1 G2 GT : Type} {fo : FieldOps F} {fl : FieldLaws F} {pfo : PrimeFieldOps F} {pfl : PrimeFieldLaws F}
        {po : PairingOps F G1 G2 GT} {pl : PairingLaws F G1 G2 GT}.
Add Field Frcc : F_th.

(** lengths of the vectors of an honest run *)
Record rc_hsizes (e : rc_s5 F) : Prop := {
  rhz_ns : (0 <= rc_nsize e)%Z; rhz_rg : (1 <= rc_range e)%Z;
  rhz_t : (Z.of_nat (length (rc_pk_t_vec e)) = rc_range e)%Z;
  rhz_w : (Z.of_nat (length (rc_w_vec e)) = rc_n e + 1)%Z;
  rhz_m : (Z.of_nat (length (rc_m_vec e)) = rc_n e + 1)%Z;
  rhz_r : (Z.of_nat (length (rc_r_vec e)) = rc_n e + 1)%Z;
  rhz_s : (Z.of_nat (length (rc_s_vec e)) = rc_n e + 1)%Z;
  rhz_rt : (Z.of_nat (length (rc_r_vec_tilde e)) = rc_n e + 1)%Z;
  rhz_t1 : (Z.of_nat (length (rc_t_vec_1 e)) = 3)%Z;
  rhz_d : (rc_n e + 1 <= rc_cap_d e)%Z }.

(** the combined polynomial *)
Lemma rc_g_value (e : rc_s5 F) q gv : rc_hsizes e -> rc_g_vec e q = Ok gv -> (3 <= rc_cap_d e)%Z ->
  length gv = Z.to_nat (rc_cap_d e) /\
  forall x, peval gv x = rc_p_c_14 q * peval (rc_w_vec e) x
    + rc_p_c_19 q * peval (rc_pk_t_vec e) x
    + rc_p_c_25 q * peval (rc_r_vec_tilde e) x
    + rc_p_c_28 q * peval (rc_t_vec_1 e) x
    + rc_p_c_29 q * (fpow x (Z.to_nat (rc_cap_d e - rc_n e)) * peval (rc_h_vec_1 e) x)
    + rc_p_c_30 q * peval (rc_h_vec_2 e) x + rc_p_c_15 q.
Proof.
  intros [] HG H3. unfold rc_g_vec in HG. apply add_first_inv in HG. destruct HG as [_ [L HG]].
  split; auto. intros x. rewrite HG. f_equal. unfold rc_g_at, linear_combination. cbn [fold_left fst snd].
  match goal with |- _ = ?rhs => change (EV (rc_cap_d e) x (fun i => ((((((0 + rc_p_c_14 q * vidx (rc_w_vec e) i) + rc_p_c_19 q * vidx (rc_pk_t_vec e) i) + rc_p_c_25 q * vidx (rc_r_vec_tilde e) i) + rc_p_c_28 q * vidx (rc_t_vec_1 e) i) + rc_p_c_29 q * vidx (rc_h_vec_1 e) (- rc_cap_d e + i + rc_maxshift e + rc_n e)%Z) + rc_p_c_30 q * vidx (rc_h_vec_2 e) i)) rhs) end.
  assert (length (rc_h_vec_1 e) = Z.to_nat (rc_n e)) as L1 by apply expression_vector_length.
  assert (length (rc_h_vec_2 e) = Z.to_nat (rc_n e)) as L2 by apply expression_vector_length.
  assert (rc_range e <= rc_n e)%Z as Hrn by (unfold rc_n; lia).
  repeat apply EV_add; try apply EV_scale; try (apply EV_list; lia).
  - unfold EV. rewrite eval_vector_expression_sum.
    rewrite (peval_sumn (rc_w_vec e) x (Z.to_nat (rc_cap_d e))), <- sumn_mul_l by lia. apply sumn_ext.
    intros i _. rewrite vidx_S. ring.
  - apply (EV_shift (rc_cap_d e) x (rc_h_vec_1 e) _ (fun i => (- rc_cap_d e + i + rc_maxshift e + rc_n e)%Z)); [rewrite L1; lia|].
    intros i. unfold rc_maxshift. lia.
Qed.

(** *** The product polynomial of an honest run has a coefficient that is not committed *)
Lemma rc_hK_low (e : rc_s5 F) : rc_hsizes e -> rc_hK e (- rc_n e) = 0.
Proof.
  intros []. assert (rc_range e <= rc_n e)%Z as Hrn by (unfold rc_n; lia). assert (rc_nsize e <= rc_n e)%Z as Hnn by (unfold rc_n; lia).
  unfold rc_hK, rc_shiftlength_7, rc_shiftlength_8, rc_shiftlength_9, rc_shiftlength_10, rc_shiftlength_11, minus_i64.
  change (Z.max (rc_nsize e) (rc_range e)) with (rc_n e).
  rewrite !vidx_out by lia. ring.
Qed.

Lemma vpm_last (v : list F) a n : (1 <= n)%nat -> (1 <= length v)%nat ->
  coef (vector_power_mul v a n) (n + length v - 2) = fpow a (n - 1) * coef v (length v - 1).
Proof.
  intros Hn Hv. rewrite coef_vector_power_mul by lia. unfold conv.
  rewrite (sumn_single _ (n - 1)).
  - rewrite coef_powers. destruct (Nat.ltb_spec (n - 1) n); [|lia]. do 2 f_equal. lia.
  - lia.
  - intros i Hi Hne. rewrite coef_powers. destruct (Nat.ltb_spec i n); [|ring].
    rewrite (coef_over v) by lia. ring.
Qed.

Lemma rc_hK_high (e : rc_s5 F) : rc_hsizes e -> (1 <= rc_nsize e)%Z -> rc_omega e <> 0 ->
  rc_hK e (rc_n e + 2) = rc_alpha e * rc_alpha e * coef (rc_r_vec_tilde e) (Z.to_nat (rc_n e)).
Proof.
  intros [] Hns Hom. assert (rc_range e <= rc_n e)%Z as Hrn by (unfold rc_n; lia). assert (rc_nsize e <= rc_n e)%Z as Hnn by (unfold rc_n; lia).
  set (om := rc_omega e) in *.
  assert (finv om <> 0) as Hfi by now apply finv_neq_0.
  unfold rc_hK. change (Z.max (rc_nsize e) (rc_range e)) with (rc_n e).
  rewrite (vidx_coef (rc_v_vec_17 e) _ (Z.to_nat (2 * rc_n e + 1))) by (unfold minus_i64, rc_shiftlength_9; lia).
  rewrite (vidx_coef (rc_v_vec_15 e) _ (Z.to_nat (2 * rc_n e + 1))) by (unfold minus_i64, rc_shiftlength_7; lia).
  unfold rc_v_vec_17, rc_v_vec_15. rewrite !coef_poly_mul_over by lia.
  rewrite (vidx_out (rc_v_vec_22 e)) by (unfold rc_v_vec_22, rc_v_vec_19; rewrite vector_power_mul_length, reverse_omega_length; unfold minus_i64, rc_shiftlength_11; lia).
  rewrite (vidx_out (rc_v_vec_20 e)) by (unfold rc_v_vec_20, rc_v_vec_16; rewrite vector_power_mul_length, reverse_omega_length; unfold minus_i64, rc_shiftlength_8; lia).
  rewrite (vidx_out (rc_v_vec_21 e)) by (unfold rc_v_vec_21, rc_v_vec_18; rewrite vector_power_mul_length, reverse_omega_length; unfold minus_i64, rc_shiftlength_10; lia).
  rewrite (vidx_out (rc_v_vec_25 e)) by (unfold rc_v_vec_25; rewrite power_power_mul_length; unfold minus_i64; lia).
  rewrite (vidx_out (rc_v_vec_24 e)) by (unfold rc_v_vec_24; rewrite vector_power_mul_length; unfold minus_i64; lia).
  rewrite (vidx_out (rc_r_vec_tilde e)) by (unfold minus_i64; lia).
  rewrite (vidx_out (rc_v_vec_23 e) (minus_i64 (rc_n e + 2) (2 - rc_n e))) by (unfold rc_v_vec_23; rewrite vector_power_mul_length; change (Z.max (rc_nsize e) (rc_range e)) with (rc_n e); unfold minus_i64; lia).
  rewrite (vidx_coef (rc_v_vec_23 e) _ (Z.to_nat (rc_n e) + length (rc_r_vec_tilde e) - 2)) by (unfold minus_i64; lia).
  unfold rc_v_vec_23. change (Z.max (rc_nsize e) (rc_range e)) with (rc_n e). rewrite vpm_last by lia.
  replace (length (rc_r_vec_tilde e) - 1)%nat with (Z.to_nat (rc_n e)) by lia.
  unfold rc_c_7, rc_c_3. change (Z.max (rc_nsize e) (rc_range e)) with (rc_n e).
  rewrite pw_pos. change (Pos.to_nat 2) with 2%nat. fold om. rewrite !pw by auto.
  replace (fpow (fpowZ om (- 1)) (Z.to_nat (rc_n e) - 1)) with (fpowZ om (- (rc_n e - 1))).
  2:{ change (- 1)%Z with (- (1))%Z. rewrite (fpowZ_opp om 1), fpowZ_1 by auto.
      replace (Z.to_nat (rc_n e) - 1)%nat with (Z.to_nat (rc_n e - 1)) by lia. rewrite <- fpowZ_nonneg by lia.
      rewrite fpowZ_finv, fpowZ_opp by auto. reflexivity. }
  rewrite (fpowZ_opp om (rc_n e - 1)) by auto. assert (fpowZ om (rc_n e - 1) <> 0) as P by now apply fpowZ_neq_0.
  cbn [fpow]. field. auto.
Qed.

Lemma ev_snoc (f : Z -> F) n : (0 <= n)%Z -> expression_vector f (n + 1) = expression_vector f n ++ [f (n + 1)%Z].
Proof.
  intros Hn. unfold expression_vector, zrange. replace (Z.to_nat (n + 1)) with (Z.to_nat n + 1)%nat by lia.
  rewrite seq_app, !map_app. cbn [seq map]. do 3 f_equal. lia.
Qed.
Lemma ev_cons (f : Z -> F) n : (0 <= n)%Z -> expression_vector f (n + 1) = f 1%Z :: expression_vector (fun i => f (i + 1)%Z) n.
Proof.
  intros Hn. unfold expression_vector, zrange. replace (Z.to_nat (n + 1)) with (S (Z.to_nat n)) by lia. cbn [seq map].
  f_equal. rewrite <- seq_shift, !map_map. apply map_ext. intros i. f_equal. lia.
Qed.

(** the combined polynomial evaluated at z is the missing term *)
Lemma rc_g_at_z (e : rc_s5 F) z gv : rc_hsizes e -> (1 <= rc_nsize e)%Z -> (3 <= rc_cap_d e)%Z ->
  rc_hK e 1 = 0 -> rc_omega e <> 0 -> z <> 0 -> z <> 1 -> rc_omega e <> z ->
  rc_g_vec e (rc_ctx_of e z) = Ok gv ->
  peval gv z = fpowZ z (rc_n e + 1) * (rc_alpha e * rc_alpha e * coef (rc_r_vec_tilde e) (Z.to_nat (rc_n e))).
Proof.
  intros HZ Hns H3 H1 Hom Hz Hz1 Hoz HG. destruct (rc_g_value e _ gv HZ HG H3) as [_ V]. rewrite V. clear V.
  pose proof (rc_hK_low e HZ) as HL. pose proof (rc_hK_high e HZ Hns Hom) as HH.
  pose proof HZ as [A0 A1 A2 A3 A4 A5 A6 A7 A8 A9].
  assert (rc_range e <= rc_n e)%Z as Hrn by (unfold rc_n; lia).
  set (q := rc_ctx_of e z) in *. set (n := rc_n e) in *.
  assert (LP (n + 1) (rc_hK e) z (rc_p_c_14 q * peval (rc_w_vec e) z + rc_p_c_15 q + rc_p_c_19 q * peval (rc_pk_t_vec e) z
   + rc_p_c_25 q * peval (rc_r_vec_tilde e) z + rc_p_c_28 q * peval (rc_t_vec_1 e) z)) as L.
  { apply rc_LP; auto; try lia; try (fold n; lia); try (split; lia);
    unfold q, rc_ctx_of; cbn [rc_q_y rc_q_y_1 rc_q_y_2]; unfold rc_y, rc_y_1, rc_y_2; rewrite eval_vidx; auto; fold n; lia. }
  apply LP_halves in L; auto; [|lia].
  assert (expression_vector (fun i => rc_hK e (i - (n + 1))) (n + 1) = 0 :: rc_h_vec_1 e) as E1.
  { rewrite ev_cons by lia. f_equal.
    - replace (1 - (n + 1))%Z with (- n)%Z by lia. exact HL.
    - unfold rc_h_vec_1. change (rc_maxshift e + rc_n e)%Z with n. unfold expression_vector. apply map_ext. intros i.
      rewrite rc_h1_hK. f_equal. unfold rc_maxshift. fold n. lia. }
  assert (expression_vector (fun i => rc_hK e (i + 1)) (n + 1) = rc_h_vec_2 e ++ [rc_hK e (n + 2)]) as E2.
  { rewrite ev_snoc by lia. f_equal. do 2 f_equal. lia. }
  rewrite E1, E2, peval_app in L. cbn [peval] in L.
  assert (length (rc_h_vec_2 e) = Z.to_nat n) as L2 by apply expression_vector_length. rewrite L2 in L.
  rewrite <- fpowZ_nonneg in L by lia. rewrite HH in L.
  assert (rc_p_c_30 q = - z) as -> by reflexivity.
  assert (rc_p_c_29 q * fpow z (Z.to_nat (rc_cap_d e - n)) = - (fpowZ z (- (n + 1)) * z)) as E24.
  { change (rc_p_c_29 q) with (- power z (- rc_cap_d e)%Z). rewrite pw by auto. rewrite <- fpowZ_nonneg by lia.
    replace (fpowZ z (- (n + 1)) * z) with (fpowZ z (- n)).
    2:{ replace (- n)%Z with (- (n + 1) + 1)%Z by lia. rewrite (fpowZ_add z (- (n + 1))), fpowZ_1 by auto. reflexivity. }
    replace (- n)%Z with (- rc_cap_d e + (rc_cap_d e - n))%Z by lia.
    rewrite (fpowZ_add z (- rc_cap_d e)) by auto. ring. }
  match goal with |- ?A + ?c * (?f * ?h) + _ + _ = _ => replace (c * (f * h)) with ((c * f) * h) by ring end.
  rewrite E24. rewrite (fpowZ_add z n 1), fpowZ_1 by auto.
  match type of L with ?x = ?y => match goal with |- ?A = ?B => transitivity (B + (y - x)); [ring|rewrite L; ring] end end.
Qed.

Lemma rc_m_of_length a b w t : length (rc_m_of (F:=F) a b w t) = b.
Proof. unfold rc_m_of. now rewrite map_length, seq_length. Qed.

(** *** What a successful run of the prover looks like *)
Record rc_run (H : list (item F G1) -> F) d tau (g : G1) cs (vk : rc_vk G1 G2) (w : list F) (d4 : F) (pf : rc_proof F G1)
  (e : rc_s5 F) (z : F) (gv : list F) (cg : G1) : Prop := {
  rr_pub : rc_s1_pub e = rc_pub_of vk;
  rr_t : rc_pk_t_vec e = rc_tab cs;
  rr_sz : rc_hsizes e;
  rr_d3 : (3 <= rc_cap_d e)%Z;
  rr_w : exists dl k, rc_w_vec e = w ++ repeat 0 k ++ [dl] /\ (length w + k = Z.to_nat (rc_n e))%nat;
  rr_rt : coef (rc_r_vec_tilde e) (Z.to_nat (rc_n e)) = d4;
  rr_al : rc_alpha e = rc_v_ch_alpha H vk (rc_cm_w_vec pf) (rc_cm_m_vec pf) (rc_cm_r_vec pf) (rc_cm_s_vec pf) (rc_cm_r_vec_tilde pf);
  rr_om : rc_omega e = rc_v_ch_omega H vk (rc_cm_w_vec pf) (rc_cm_m_vec pf) (rc_cm_r_vec pf) (rc_cm_s_vec pf) (rc_cm_r_vec_tilde pf) (rc_cm_t_vec_1 pf);
  rr_be : rc_beta e = rc_v_ch_beta H vk (rc_cm_w_vec pf) (rc_cm_m_vec pf);
  rr_z : z = rc_v_ch_z H vk (rc_cm_w_vec pf) (rc_cm_m_vec pf) (rc_cm_r_vec pf) (rc_cm_s_vec pf) (rc_cm_r_vec_tilde pf) (rc_cm_t_vec_1 pf) (rc_cm_h_vec_1 pf) (rc_cm_h_vec_2 pf);
  rr_h1 : rc_hK e 1 = 0;
  rr_div : rc_divisors (rc_ctx_of e z) = Ok tt;
  rr_g : rc_g_vec e (rc_ctx_of e z) = Ok gv;
  rr_gz : peval gv z = 0;
  rr_y : rc_pf_y pf = rc_y e z; rr_y1 : rc_pf_y_1 pf = rc_y_1 e z; rr_y2 : rc_pf_y_2 pf = rc_y_2 e z;
  rr_cw : rc_cm_w_vec pf = vscale (peval (rc_w_vec e) tau) g;
  rr_cm : rc_cm_m_vec pf = vscale (peval (rc_m_vec e) tau) g;
  rr_cr : rc_cm_r_vec pf = vscale (peval (rc_r_vec e) tau) g;
  rr_cs : rc_cm_s_vec pf = vscale (peval (rc_s_vec e) tau) g;
  rr_crt : rc_cm_r_vec_tilde pf = vscale (peval (rc_r_vec_tilde e) tau) g;
  rr_ct : rc_cm_t_vec_1 pf = vscale (peval (rc_t_vec_1 e) tau) g;
  rr_ch1 : rc_cm_h_vec_1 pf = vscale (fpow tau (Z.to_nat (rc_cap_d e - rc_n e)) * peval (rc_h_vec_1 e) tau) g;
  rr_ch2 : rc_cm_h_vec_2 pf = vscale (peval (rc_h_vec_2 e) tau) g;
  rr_cg : cg = rc_v_cm_g vk (rc_ctx_of e z) (rc_cm_w_vec pf) (rc_cm_r_vec_tilde pf) (rc_cm_t_vec_1 pf) (rc_cm_h_vec_1 pf) (rc_cm_h_vec_2 pf);
  rr_cgv : cg = vscale (peval gv tau) g;
  rr_open : let xi := rc_v_ch_rand_xi H vk (rc_cm_w_vec pf) (rc_cm_m_vec pf) (rc_cm_r_vec pf) (rc_cm_s_vec pf) (rc_cm_r_vec_tilde pf) (rc_cm_t_vec_1 pf) (rc_cm_h_vec_1 pf) (rc_cm_h_vec_2 pf) cg (rc_omega e) (rc_y e z) (rc_y_1 e z) (rc_y_2 e z) z in
    let xi2 := rc_v_ch_rand_xi_2 H vk (rc_cm_w_vec pf) (rc_cm_m_vec pf) (rc_cm_r_vec pf) (rc_cm_s_vec pf) (rc_cm_r_vec_tilde pf) (rc_cm_t_vec_1 pf) (rc_cm_h_vec_1 pf) (rc_cm_h_vec_2 pf) cg (rc_omega e) (rc_y e z) (rc_y_1 e z) (rc_y_2 e z) z in
    batch_open (srs (d + 1) tau g) [strip (rc_r_vec e); strip (rc_s_vec e); strip (rc_m_vec e)] [strip gv] (rc_omega e / z) z xi xi2
      = Ok (rc_cap_w pf, rc_cap_w_1 pf) }.

Section Run.
Variable H : list (item F G1) -> F.

Lemma rc_round1_inv n tau (g : G1) pk w dl dl1 s1 cw cm : rc_pk_powers pk = srs n tau g ->
  let e := rc_pub_of (rc_pk_verifier_key pk) in (0 <= rc_n e)%Z ->
  rc_round1 pk w [dl] [dl1] = Ok (s1, (cw, cm)) ->
  rc_s1_pub s1 = e /\ rc_pk_t_vec s1 = rc_pk_t pk /\
  (exists dl k, rc_w_vec s1 = w ++ repeat 0 k ++ [dl] /\ (length w + k = Z.to_nat (rc_n e))%nat) /\
  (Z.of_nat (length (rc_w_vec s1)) = rc_n e + 1)%Z /\ (Z.of_nat (length (rc_m_vec s1)) = rc_n e + 1)%Z /\
  cw = vscale (peval (rc_w_vec s1) tau) g /\ cm = vscale (peval (rc_m_vec s1) tau) g.
Proof.
  intros K e Hn HR. unfold rc_round1 in HR. cbn zeta in HR. rewrite K in HR. fold e in HR.
  apply obind_ok in HR. destruct HR as [wv [E1 HR]].
  apply obind_ok in HR. destruct HR as [cw' [E2 HR]].
  apply obind_ok in HR. destruct HR as [[] [_ HR]].
  apply obind_ok in HR. destruct HR as [mv [E3 HR]].
  apply obind_ok in HR. destruct HR as [cm' [E4 HR]]. injection HR as <- <- <-.
  cbn [rc_s1_pub rc_pk_t_vec rc_w_vec rc_m_vec].
  apply zero_pad_inv in E1. destruct E1 as [k1 [E1 L1]]. apply zero_pad_inv in E3. destruct E3 as [k2 [E3 L3]].
  cbn [concat app] in E1, E3.
  assert (Z.of_nat (length wv) = rc_n e + 1)%Z as Lw by (rewrite E1, !app_length, repeat_length; cbn [length]; lia).
  assert (Z.of_nat (length mv) = rc_n e + 1)%Z as Lm by (rewrite E3, !app_length, repeat_length; cbn [length]; lia).
  apply commit_vector_inv0 in E2; [|lia]. apply commit_vector_inv0 in E4; [|lia].
  repeat split; auto; try tauto. exists dl, k1. auto.
Qed.
Lemma rc_round2_inv n tau (g : G1) pk (e : rc_s2 F) dl dl1 rv sv cr cc : rc_pk_powers pk = srs n tau g -> (0 <= rc_n e)%Z ->
  rc_round2 pk e [dl] [dl1] = Ok (rv, sv, (cr, cc)) ->
  (Z.of_nat (length rv) = rc_n e + 1)%Z /\ (Z.of_nat (length sv) = rc_n e + 1)%Z /\
  cr = vscale (peval rv tau) g /\ cc = vscale (peval sv tau) g.
Proof.
  intros K Hn HR. unfold rc_round2 in HR. rewrite K in HR.
  apply obind_ok in HR. destruct HR as [wv [E1 HR]].
  apply obind_ok in HR. destruct HR as [cw' [E2 HR]].
  apply obind_ok in HR. destruct HR as [[] [_ HR]].
  apply obind_ok in HR. destruct HR as [mv [E3 HR]].
  apply obind_ok in HR. destruct HR as [cm' [E4 HR]]. injection HR as <- <- <- <-.
  apply zero_pad_inv in E1. destruct E1 as [k1 [E1 L1]]. apply zero_pad_inv in E3. destruct E3 as [k2 [E3 L3]].
  cbn [concat app] in E1, E3.
  assert (Z.of_nat (length wv) = rc_n e + 1)%Z as Lw by (rewrite E1, !app_length, repeat_length; cbn [length]; lia).
  assert (Z.of_nat (length mv) = rc_n e + 1)%Z as Lm by (rewrite E3, !app_length, repeat_length; cbn [length]; lia).
  apply commit_vector_inv0 in E2; [|lia]. apply commit_vector_inv0 in E4; [|lia]. tauto.
Qed.
Lemma rc_round3_inv n tau (g : G1) pk (e : rc_s3 F) dl rt cr : rc_pk_powers pk = srs n tau g -> (0 <= rc_n e)%Z ->
  rc_round3 pk e [dl] = Ok (rt, cr) ->
  (Z.of_nat (length rt) = rc_n e + 1)%Z /\ coef rt (Z.to_nat (rc_n e)) = dl /\ cr = vscale (peval rt tau) g.
Proof.
  intros K HK HR. unfold rc_round3 in HR. cbn zeta in HR. rewrite K in HR.
  apply obind_ok in HR. destruct HR as [cr' [E1 HR]]. injection HR as <- <-.
  unfold vector_concat in *. cbn [concat app] in *.
  assert (length (rc_r_acc e) = Z.to_nat (rc_n e)) as La.
  { unfold rc_r_acc. rewrite accumulate_length. unfold rc_r_vec_1. rewrite expression_vector_length. lia. }
  assert (Z.of_nat (length (rc_r_acc e ++ [dl])) = rc_n e + 1)%Z as L by (rewrite app_length; cbn [length]; lia).
  apply commit_vector_inv0 in E1; [|lia]. split; auto. split; [|tauto].
  rewrite coef_app, La, Nat.ltb_irrefl, Nat.sub_diag. reflexivity.
Qed.
Lemma rc_round4_inv n tau (g : G1) pk (e : rc_s4 F) dl tv ct : rc_pk_powers pk = srs n tau g ->
  rc_round4 pk e [dl] = Ok (tv, ct) ->
  (Z.of_nat (length tv) = 3)%Z /\ (3 <= n)%nat /\ ct = vscale (peval tv tau) g.
Proof.
  intros K HR. unfold rc_round4 in HR. cbn zeta in HR. rewrite K in HR.
  apply obind_ok in HR. destruct HR as [ct' [E1 HR]]. injection HR as <- <-.
  unfold vector_concat in *. cbn [concat app] in *. rewrite app_nil_r in *.
  assert (length (dl :: rc_t_vec_1_tail e) = 3%nat) as L.
  { cbn [length]. unfold rc_t_vec_1_tail. rewrite expression_vector_length. reflexivity. }
  apply commit_vector_inv0 in E1; [|rewrite L; unfold rc_maxshift; lia]. rewrite L in *. repeat split; try lia; tauto.
Qed.
Lemma rc_round5_inv n tau (g : G1) pk (e : rc_s5 F) c1 c2 : rc_pk_powers pk = srs n tau g -> (0 <= rc_n e <= rc_cap_d e)%Z ->
  rc_round5 pk e = Ok (c1, c2) ->
  rc_hK e 1 = 0 /\
  c1 = vscale (fpow tau (Z.to_nat (rc_cap_d e - rc_n e)) * peval (rc_h_vec_1 e) tau) g /\
  c2 = vscale (peval (rc_h_vec_2 e) tau) g.
Proof.
  intros K HC HR. unfold rc_round5 in HR. rewrite K in HR.
  apply obind_ok in HR. destruct HR as [[] [E0 HR]].
  apply obind_ok in HR. destruct HR as [c1' [E1 HR]].
  apply obind_ok in HR. destruct HR as [c2' [E2 HR]]. injection HR as <- <-.
  assert (length (rc_h_vec_1 e) = Z.to_nat (rc_n e)) as L1 by apply expression_vector_length.
  assert (length (rc_h_vec_2 e) = Z.to_nat (rc_n e)) as L2 by apply expression_vector_length.
  split.
  { unfold rc_checks_1 in E0. do 13 (apply obind_ok in E0; destruct E0 as [[] [_ E0]]).
    apply obind_ok in E0. destruct E0 as [[] [E0 _]]. unfold rc_check_14 in E0.
    destruct (feqb (rc_assert_14_l e) (rc_assert_14_r e)) eqn:X; [|discriminate].
    apply feqb_eq in X. exact X. }
  apply commit_vector_inv in E1. destruct E1 as [_ [_ [_ ->]]].
  apply commit_vector_inv0 in E2; [|unfold rc_maxshift; lia]. destruct E2 as [_ [_ ->]]. split; auto. do 3 f_equal.
  unfold voffset. rewrite L1. destruct (Nat.ltb_spec (Z.to_nat (rc_cap_d e)) (Z.to_nat (rc_n e))); lia.
Qed.
Lemma rc_round6_inv n tau (g : G1) pk (e : rc_s5 F) z cw crt ct c1 c2 q gv cg : rc_pk_powers pk = srs n tau g ->
  rc_round6 pk e z cw crt ct c1 c2 = Ok (q, gv, cg) ->
  q = rc_ctx_of e z /\ rc_divisors q = Ok tt /\ rc_g_vec e q = Ok gv /\ peval gv z = 0 /\
  cg = rc_p_cm_g (rc_pk_verifier_key pk) q cw crt ct c1 c2 /\ cg = vscale (peval gv tau) g.
Proof.
  intros K HR. unfold rc_round6 in HR. cbn zeta in HR. rewrite K in HR.
  apply obind_ok in HR. destruct HR as [[] [E0 HR]].
  apply obind_ok in HR. destruct HR as [[] [E1 HR]].
  apply obind_ok in HR. destruct HR as [gv' [E2 HR]].
  apply obind_ok in HR. destruct HR as [c [E3 HR]].
  apply obind_ok in HR. destruct HR as [[] [E4 HR]].
  apply obind_ok in HR. destruct HR as [[] [E5 HR]].
  apply obind_ok in HR. destruct HR as [[] [E6 HR]]. injection HR as <- <- <-.
  apply check_poly_eval_inv in E6. rewrite peval_strip in E6.
  destruct (add_first_inv _ _ _ _ E2) as [_ [L _]].
  assert (0 <= rc_cap_d e)%Z as Hc by (apply commit_vector_inv in E3; tauto).
  apply commit_vector_inv0 in E3; [|rewrite L; lia]. destruct E3 as [_ [_ E3]].
  assert (rc_p_cm_g (rc_pk_verifier_key pk) (rc_ctx_of e z) cw crt ct c1 c2 = c) as E.
  { apply veqb_eq. destruct (veqb _ c) eqn:X in E4 |- *; auto. discriminate E4. }
  repeat split; auto. now rewrite E.
Qed.

Lemma rc_prove_inv d tau (g : G1) (h : G2) pp cs pk vk w d0 d1 d2 d3 d4 d5 pf :
  setup d tau g h = Ok pp -> rc_index pp cs = Ok (pk, vk) ->
  rc_prove H pk w d0 d1 d2 d3 d4 d5 = Ok pf ->
  exists e z gv cg, rc_run H d tau g cs vk w d4 pf e z gv cg.
Proof.
  intros Hs Hi Hp. destruct (rc_index_inv _ _ _ _ _ _ _ _ Hs Hi) as [K1 K2 K3 K4 K5 K6 K7 K8 K9].
  subst vk. set (vk := rc_pk_verifier_key pk) in *.
  set (e := rc_pub_of vk) in *.
  assert (rc_n e = Z.of_nat (Nat.max (rc_lookup_size cs) (rc_range_size cs))) as EN.
  { change (Z.max (Z.of_nat (rc_lookup_size (rc_vk_size vk))) (Z.of_nat (rc_range_size (rc_vk_size vk))) = Z.of_nat (Nat.max (rc_lookup_size cs) (rc_range_size cs))).
    rewrite K4. lia. }
  assert (rc_cap_d e = Z.of_nat (d + 1)) as ED by (change (Z.of_nat (rc_vk_degree_bound vk) = Z.of_nat (d + 1)); now rewrite K5).
  unfold rc_prove in Hp. cbn zeta in Hp. fold vk in Hp.
  apply obind_ok in Hp. destruct Hp as [[s1 [cw cm]] [R1 Hp]].
  apply obind_ok in Hp. destruct Hp as [[[rv sv] [cr cc]] [R2 Hp]].
  apply obind_ok in Hp. destruct Hp as [[rt crt] [R3 Hp]].
  apply obind_ok in Hp. destruct Hp as [[t1 ct1] [R4 Hp]].
  apply obind_ok in Hp. destruct Hp as [[ch1 ch2] [R5 Hp]].
  apply obind_ok in Hp. destruct Hp as [[[q gv] cg] [R6 Hp]].
  apply obind_ok in Hp. destruct Hp as [[w1 w2] [R7 Hp]].
  apply (rc_round1_inv _ _ _ _ _ _ _ _ _ _ K2) in R1; fold vk e in R1 |- *; [|lia]. destruct R1 as [P1 [P2 [P3 [P4 [P5 [P6 P7]]]]]].
  destruct s1 as [e' t wv mv]. cbn [rc_s1_pub rc_pk_t_vec rc_w_vec rc_m_vec] in P1, P2, P3, P4, P5, P6, P7. subst e' t.
  apply (rc_round2_inv _ _ _ _ _ _ _ _ _ _ _ K2) in R2; [|change (0 <= rc_n e)%Z; lia]. destruct R2 as [Q1 [Q2 [Q3 Q4]]].
  apply (rc_round3_inv _ _ _ _ _ _ _ _ K2) in R3; [|change (0 <= rc_n e)%Z; lia]. destruct R3 as [T1 [T2 T3]].
  apply (rc_round4_inv _ _ _ _ _ _ _ _ K2) in R4. destruct R4 as [U1 [U2 U3]].
  apply (rc_round5_inv _ _ _ _ _ _ _ K2) in R5; [|change (0 <= rc_n e <= rc_cap_d e)%Z; lia]. destruct R5 as [V1 [V2 V3]].
  apply (rc_round6_inv _ _ _ _ _ _ _ _ _ _ _ _ _ _ K2) in R6. destruct R6 as [X1 [X2 [X3 [X4 [X5 X6]]]]].
  rewrite X1 in R7, Hp. cbn [rc_ctx_of rc_q_y rc_q_y_1 rc_q_y_2] in R7, Hp. rewrite K2 in R7.
  injection Hp as <-. rewrite X1 in X2, X3, X5.
  match type of V1 with rc_hK ?e1 1 = 0 => exists e1 end. match type of X4 with peval gv ?z1 = 0 => exists z1 end. exists gv, cg. split; cbn [rc_cm_w_vec rc_cm_m_vec rc_cm_r_vec rc_cm_s_vec rc_cm_r_vec_tilde rc_cm_t_vec_1 rc_cm_h_vec_1 rc_cm_h_vec_2 rc_pf_y rc_pf_y_1 rc_pf_y_2 rc_cap_w rc_cap_w_1];
    try first [reflexivity | exact X2 | exact X3 | exact X4 | exact X5 | exact X6 | exact R7 | exact P6 | exact P7 | exact Q3 | exact Q4 | exact T3 | exact T2 | exact U3 | exact V1 | exact V2 | exact V3 | exact P3 | exact K6].
  - assert (rc_range e = Z.of_nat (rc_range_size cs)) as ER by (change (Z.of_nat (rc_range_size (rc_vk_size vk)) = Z.of_nat (rc_range_size cs)); now rewrite K4).
    split; try first [exact P4 | exact P5 | exact Q1 | exact Q2 | exact T1 | exact U1].
    + change (0 <= Z.of_nat (rc_lookup_size (rc_vk_size vk)))%Z. lia.
    + change (1 <= rc_range e)%Z. lia.
    + change (Z.of_nat (length (rc_pk_t pk)) = rc_range e). rewrite K6, rc_tab_length. lia.
    + change (rc_n e + 1 <= rc_cap_d e)%Z. lia.
  - change (3 <= rc_cap_d e)%Z. lia.
Qed.

(** *** Every proof is accepted *)
Theorem rc_accepts d tau (g : G1) (h : G2) pp cs pk vk w d0 d1 d2 d3 d4 d5 pf rnd :
  g <> v0 -> h <> v0 ->
  setup d tau g h = Ok pp -> rc_index pp cs = Ok (pk, vk) ->
  rc_prove H pk w d0 d1 d2 d3 d4 d5 = Ok pf -> rc_verify H vk pf rnd = Ok tt.
Proof.
  intros Hg Hh Hs Hi Hp. destruct (rc_prove_inv _ _ _ _ _ _ _ _ _ _ _ _ _ _ _ _ Hs Hi Hp) as [e [z [gv [cg []]]]].
  destruct (rc_index_inv _ _ _ _ _ _ _ _ Hs Hi) as [K1 K2 K3 K4 K5 K6 K7 K8 K9].
  unfold rc_verify. cbn zeta. rewrite <- rr_be0, <- rr_al0, <- rr_om0, <- rr_z0.
  assert (mkRCCtx (rc_pub_of vk) (rc_beta e) (rc_alpha e) (rc_omega e) z (rc_pf_y pf) (rc_pf_y_1 pf) (rc_pf_y_2 pf) = rc_ctx_of e z) as ->
    by (unfold rc_ctx_of; now rewrite rr_y0, rr_y3, rr_y4, rr_pub0).
  rewrite rr_div0. cbn [obind]. rewrite <- rr_cg0, rr_y0, rr_y3, rr_y4.
  pose proof (batch_verifies (d + 1) tau g h _ _ _ _ _ _ _ _ rnd Hg Hh rr_open0 ltac:(lia)) as V.
  rewrite K3.
  match goal with |- (if batch_check _ ?cs ?ds _ _ _ _ ?ys ?zs _ _ _ then _ else _) = _ =>
    match type of V with batch_check _ ?cs' ?ds' _ _ _ _ ?ys' ?zs' _ _ _ = _ =>
      assert (cs = cs') as X1; [|assert (ds = ds') as X2; [|assert (ys = ys') as X3; [|assert (zs = zs') as X4]]] end end.
  - cbn [map]. rewrite !peval_strip, rr_cr0, rr_cs0, rr_cm0. reflexivity.
  - cbn [map]. rewrite !peval_strip. now rewrite rr_cgv0.
  - cbn [map]. rewrite !peval_strip. unfold rc_y, rc_y_1, rc_y_2.
    destruct rr_sz0. rewrite !eval_vidx by lia. reflexivity.
  - cbn [map]. rewrite !peval_strip, rr_gz0. reflexivity.
  - rewrite X1, X2, X3, X4, V. reflexivity.
Qed.

(** *** A proof is produced only if a random scalar happens to be zero *)
Theorem rc_fails d tau (g : G1) (h : G2) pp cs pk vk w d0 d1 d2 d3 d4 d5 pf :
  setup d tau g h = Ok pp -> rc_index pp cs = Ok (pk, vk) -> (1 <= rc_lookup_size cs)%nat ->
  rc_prove H pk w d0 d1 d2 d3 d4 d5 = Ok pf ->
  d4 = 0 \/
  rc_v_ch_alpha H vk (rc_cm_w_vec pf) (rc_cm_m_vec pf) (rc_cm_r_vec pf) (rc_cm_s_vec pf) (rc_cm_r_vec_tilde pf) = 0 \/
  rc_v_ch_omega H vk (rc_cm_w_vec pf) (rc_cm_m_vec pf) (rc_cm_r_vec pf) (rc_cm_s_vec pf) (rc_cm_r_vec_tilde pf) (rc_cm_t_vec_1 pf) = 0.
Proof.
  intros Hs Hi Hns Hp. destruct (rc_prove_inv _ _ _ _ _ _ _ _ _ _ _ _ _ _ _ _ Hs Hi Hp) as [e [z [gv [cg []]]]].
  destruct (rc_index_inv _ _ _ _ _ _ _ _ Hs Hi) as [_ _ _ K4 _ _ _ _ _].
  rewrite <- rr_al0, <- rr_om0.
  destruct (feq_dec (rc_omega e) 0) as [|Ho]; [tauto|]. destruct (feq_dec (rc_alpha e) 0) as [|Ha]; [tauto|]. left.
  destruct (rc_divisors_cases (rc_ctx_of e z)) as [[_ [Hz [Hz1 Hoz]]]|[D _]]; [|rewrite rr_div0 in D; discriminate].
  change (rc_q_z (rc_ctx_of e z)) with z in *. change (rc_q_omega (rc_ctx_of e z)) with (rc_omega e) in *.
  assert (1 <= rc_nsize e)%Z as Hn.
  { change (1 <= rc_nsize (rc_s1_pub e))%Z. rewrite rr_pub0. unfold rc_pub_of. cbn [rc_nsize]. rewrite K4. lia. }
  pose proof (rc_g_at_z e z gv rr_sz0 Hn rr_d4 rr_h2 Ho Hz Hz1 Hoz rr_g0) as E. rewrite rr_gz0, rr_rt0 in E.
  destruct (feq_dec d4 0) as [|N]; auto. exfalso. symmetry in E. revert E.
  repeat apply fmul_neq_0; auto. now apply fpowZ_neq_0.
Qed.

(** *** With more values than table entries, the key commits to a shifted table *)
Theorem rc_long d tau (g : G1) (h : G2) pp cs pk vk w d0 d1 d2 d3 d4 d5 pf : g <> v0 ->
  setup d tau g h = Ok pp -> rc_index pp cs = Ok (pk, vk) ->
  rc_prove H pk w d0 d1 d2 d3 d4 d5 = Ok pf ->
  rc_v_ch_alpha H vk (rc_cm_w_vec pf) (rc_cm_m_vec pf) (rc_cm_r_vec pf) (rc_cm_s_vec pf) (rc_cm_r_vec_tilde pf)
  * rc_pf_y_1 pf * (fpow tau (rc_lookup_size cs - rc_range_size cs) - 1) * peval (rc_tab cs) tau = 0.
Proof.
  intros Hg Hs Hi Hp. destruct (rc_prove_inv _ _ _ _ _ _ _ _ _ _ _ _ _ _ _ _ Hs Hi Hp) as [e [z [gv [cg []]]]].
  destruct (rc_index_inv _ _ _ _ _ _ _ _ Hs Hi) as [_ _ K3 K4 _ _ K7 _ _].
  rewrite <- rr_al0, rr_y3. destruct (rc_g_value e _ gv rr_sz0 rr_g0 rr_d4) as [_ V].
  rewrite rr_cg0 in rr_cgv0. rewrite V in rr_cgv0. clear V. rewrite rr_cw0, rr_crt0, rr_ct0, rr_ch3, rr_ch4 in rr_cgv0.
  unfold rc_v_cm_g in rr_cgv0. rewrite K3, K7 in rr_cgv0. cbn [vk_g vk_for] in rr_cgv0. set (q := rc_ctx_of e z) in *.
  pose proof (lin_comb_vscale g (rc_v_c_15 q)
    [(peval (rc_w_vec e) tau, rc_v_c_14 q); (peval (rc_tpoly cs) tau, rc_v_c_19 q); (peval (rc_r_vec_tilde e) tau, rc_v_c_25 q); (peval (rc_t_vec_1 e) tau, rc_v_c_28 q);
     (fpow tau (Z.to_nat (rc_cap_d e - rc_n e)) * peval (rc_h_vec_1 e) tau, rc_v_c_29 q); (peval (rc_h_vec_2 e) tau, rc_v_c_30 q)]) as E. cbn [map fst snd] in E.
  rewrite E in rr_cgv0. clear E. apply vscale_inj in rr_cgv0; auto. cbn [fsum] in rr_cgv0.
  assert (peval (rc_tpoly cs) tau = fpow tau (rc_lookup_size cs - rc_range_size cs) * peval (rc_tab cs) tau) as ET.
  { unfold rc_tpoly. rewrite peval_app, peval_repeat0, repeat_length. ring. }
  rewrite rr_t0, ET in rr_cgv0.
  assert (rc_p_c_19 q = rc_alpha e * rc_y_1 e z) as E19.
  { unfold rc_p_c_19. change (rc_q_alpha q) with (rc_alpha e). change (rc_q_y_1 q) with (rc_y_1 e z).
    rewrite ?pw_pos. change (Pos.to_nat 2) with 2%nat. cbn [fpow]. ring. }
  change (rc_v_c_14 q) with (rc_p_c_14 q) in rr_cgv0. change (rc_v_c_15 q) with (rc_p_c_15 q) in rr_cgv0. change (rc_v_c_19 q) with (rc_p_c_19 q) in rr_cgv0.
  change (rc_v_c_25 q) with (rc_p_c_25 q) in rr_cgv0. change (rc_v_c_28 q) with (rc_p_c_28 q) in rr_cgv0.
  change (rc_v_c_29 q) with (rc_p_c_29 q) in rr_cgv0. change (rc_v_c_30 q) with (rc_p_c_30 q) in rr_cgv0.
  rewrite <- E19.
  match type of rr_cgv0 with ?x = ?y => transitivity (x - y); [ring|rewrite rr_cgv0; ring] end.
Qed.
End Run.
End RCComplete.

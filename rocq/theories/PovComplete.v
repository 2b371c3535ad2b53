(** PovComplete.v: every proof produced by the POV prover is accepted. *)
From Verif Require Import Base Spec Tools ToolsProofs ToolsProofs2 PermProofs CS KZG KZGProofs Properties_KZG
  Snark Laurent SnarkProofs PovPEComplete Pov PovProofs PovConst.
Local Open Scope F_scope.

Section PovComplete.
Context {F G1 G2 GT : Type} {fo : FieldOps F} {fl : FieldLaws F}
        {po : PairingOps F G1 G2 GT} {pl : PairingLaws F G1 G2 GT}.
Add Field Fpc : F_th.

Section Run.
Variable H : list (item F G1) -> F.
Variable gamma : F.

(** what [index] puts in the keys *)
Lemma pv_index_inv d beta (g : G1) (h : G2) pp cs pk vk : setup d beta g h = Ok pp ->
  pv_index gamma pp cs = Ok (pk, vk) ->
  pv_pk_verifier_key pk = vk /\ pv_pk_powers pk = srs (d + 1) beta g /\ pv_vk_kzg_vk vk = vk_for beta g h /\
  pv_vk_size vk = pov_get_size cs /\ pv_vk_degree_bound vk = (d + 1)%nat /\ pv_pk_d_vec pk = p_consts cs /\
  permutation_vector_from_wires (E:=error) gamma (p_wires cs) (3 * ps_n (pov_get_size cs)) = Ok (pv_pk_sigma_vec pk) /\
  (pv_get_max_degree (pov_get_size cs) < d + 1)%nat /\
  (1 <= length (p_consts cs))%nat /\
  pv_vk_cm_sigma_vec vk = vscale (peval (pv_pk_sigma_vec pk) beta) g /\
  pv_vk_cm_d_vec vk = vscale (peval (p_consts cs) beta) g.
Proof.
  intros Hs Hi. destruct (kzg_vk_setup d beta g h pp Hs) as [Hd [Hp Hv]].
  unfold pv_index in Hi. rewrite Hp, Hv, srs_length in Hi.
  destruct (Nat.ltb_spec (pv_get_max_degree (pov_get_size cs)) (d + 1)) as [Hm|]; [|discriminate].
  cbn [assert_ obind] in Hi. oinv Hi. oinv Hi. oinv Hi. injection Hi as <- <-.
  cbn [pv_pk_verifier_key pv_pk_powers pv_vk_kzg_vk pv_vk_size pv_vk_degree_bound pv_pk_d_vec pv_pk_sigma_vec pv_vk_cm_sigma_vec pv_vk_cm_d_vec].
  replace (Z.to_nat (3 * Z.of_nat (ps_n (pov_get_size cs)))) with (3 * ps_n (pov_get_size cs))%nat in E by lia.
  destruct (pvw_length _ _ _ _ E) as [_ L].
  apply commit_vector_inv0 in E0; [|rewrite L; lia]. destruct E0 as [_ [_ ->]].
  apply commit_vector_inv0 in E1; [|unfold pov_get_size; cbn [ps_n ps_nadd ps_nmul]; lia]. destruct E1 as [L1 [_ ->]].
  repeat split; auto.
Qed.

(** lengths of the vectors of an honest run *)
Record pv_hsizes (e : pv_s4 F) : Prop := {
  hz_w : (Z.of_nat (length (pv_w_vec e)) = 3 * pv_cap_c_total e + 1)%Z;
  hz_r : (Z.of_nat (length (pv_r_vec e)) = 3 * pv_cap_c_total e + 1)%Z;
  hz_t : (Z.of_nat (length (pv_t_vec_1 e)) = 3 * pv_cap_c_total e - pv_cap_c_m e + 3)%Z }.

(** the combined polynomial *)
Lemma pv_g_value (e : pv_s4 F) q gv : pv_sizes e -> pv_hsizes e -> (6 * pv_cap_c_total e - pv_cap_c_m e + 1 <= pv_cap_d e)%Z ->
  pv_g_vec e q = Ok gv ->
  length gv = Z.to_nat (pv_cap_d e) /\
  forall x, peval gv x = pv_p_c_20 q * peval (pv_w_vec e) x
    + pv_p_c_21 q * peval (pv_d_vec e) x + pv_p_c_23 q * peval (pv_sigma_vec e) x
    + pv_p_c_24 q * peval (pv_t_vec_1 e) x
    + pv_p_c_25 q * (fpow x (Z.to_nat (pv_cap_d e - (pv_maxshift e + pv_vovectorsize e))) * peval (pv_h_vec_1 e) x)
    + pv_p_c_26 q * peval (pv_h_vec_2 e) x + pv_p_c_22 q.
Proof.
  intros [Sa Sm SC Sam Sd Sw0 Sr0 Ss Sx St] [Sw Sr St1] Hd HG. unfold pv_g_vec in HG. apply add_first_inv in HG. destruct HG as [_ [L HG]].
  split; auto. intros x. rewrite HG. f_equal. unfold pv_g_at, linear_combination. cbn [fold_left fst snd].
  match goal with |- _ = ?rhs => change (EV (pv_cap_d e) x (fun i => (((((0 + pv_p_c_20 q * vidx (pv_w_vec e) i)
    + pv_p_c_21 q * vidx (pv_d_vec e) i) + pv_p_c_23 q * vidx (pv_sigma_vec e) i)
    + pv_p_c_24 q * vidx (pv_t_vec_1 e) i)
    + pv_p_c_25 q * vidx (pv_h_vec_1 e) (- pv_cap_d e + i + pv_maxshift e + pv_vovectorsize e)%Z)
    + pv_p_c_26 q * vidx (pv_h_vec_2 e) i) rhs) end.
  assert (length (pv_h_vec_1 e) = Z.to_nat (pv_maxshift e + pv_vovectorsize e)) as L1 by apply expression_vector_length.
  assert (length (pv_h_vec_2 e) = Z.to_nat (pv_maxshift e + pv_vovectorsize e)) as L2 by apply expression_vector_length.
  unfold pv_maxshift, pv_vovectorsize in *.
  repeat apply EV_add; try apply EV_scale; try (apply EV_list; lia).
  - unfold EV. rewrite eval_vector_expression_sum.
    rewrite (peval_sumn (pv_w_vec e) x (Z.to_nat (pv_cap_d e))), <- sumn_mul_l by lia. apply sumn_ext.
    intros i _. rewrite vidx_S. ring.
  - apply (EV_shift (pv_cap_d e) x (pv_h_vec_1 e) _
      (fun i => (- pv_cap_d e + i + (- pv_cap_c_m e + 3 * pv_cap_c_total e) + 3 * pv_cap_c_total e)%Z)); [rewrite L1; lia|].
    intros i. lia.
Qed.

(** the commitment to the combined polynomial *)
Lemma pv_cm_g_value beta (g : G1) (h : G2) vk (e : pv_s4 F) q gv cr : pv_sizes e -> pv_hsizes e ->
  (6 * pv_cap_c_total e - pv_cap_c_m e + 1 <= pv_cap_d e)%Z -> pv_g_vec e q = Ok gv ->
  pv_vk_kzg_vk vk = vk_for beta g h ->
  pv_vk_cm_sigma_vec vk = vscale (peval (pv_sigma_vec e) beta) g ->
  pv_vk_cm_d_vec vk = vscale (peval (pv_d_vec e) beta) g ->
  pv_v_cm_g vk q (vscale (peval (pv_w_vec e) beta) g) cr
     (vscale (peval (pv_t_vec_1 e) beta) g)
     (vscale (fpow beta (Z.to_nat (pv_cap_d e - (pv_maxshift e + pv_vovectorsize e))) * peval (pv_h_vec_1 e) beta) g)
     (vscale (peval (pv_h_vec_2 e) beta) g) = vscale (peval gv beta) g.
Proof.
  intros SZ HZ Hd HG K3 K10 K11. destruct (pv_g_value e q gv SZ HZ Hd HG) as [_ V]. rewrite V. clear V.
  unfold pv_v_cm_g. rewrite K3, K10, K11. cbn [vk_g vk_for].
  pose proof (lin_comb_vscale g (pv_v_c_22 q)
    [(peval (pv_w_vec e) beta, pv_v_c_20 q); (peval (pv_d_vec e) beta, pv_v_c_21 q);
     (peval (pv_sigma_vec e) beta, pv_v_c_23 q); (peval (pv_t_vec_1 e) beta, pv_v_c_24 q);
     (fpow beta (Z.to_nat (pv_cap_d e - (pv_maxshift e + pv_vovectorsize e))) * peval (pv_h_vec_1 e) beta, pv_v_c_25 q);
     (peval (pv_h_vec_2 e) beta, pv_v_c_26 q)]) as E. cbn [map fst snd] in E. rewrite E. f_equal.
  change (pv_v_c_20 q) with (pv_p_c_20 q). change (pv_v_c_21 q) with (pv_p_c_21 q).
  change (pv_v_c_22 q) with (pv_p_c_22 q). change (pv_v_c_23 q) with (pv_p_c_23 q).
  change (pv_v_c_24 q) with (pv_p_c_24 q). change (pv_v_c_25 q) with (pv_p_c_25 q).
  change (pv_v_c_26 q) with (pv_p_c_26 q).
  cbn [fsum]. ring.
Qed.

(** what the rounds produce *)
Lemma pv_round1_inv n beta (g : G1) pk x w dl s1 cw :
  pv_pk_powers pk = srs n beta g ->
  pv_round1 gamma pk x w [dl] = Ok (s1, cw) ->
  let C := ps_n (pv_vk_size (pv_pk_verifier_key pk)) in
  exists xv tv wv, s1 = mkPVS1 (pv_pub_of gamma (pv_pk_verifier_key pk) x) (pv_pk_sigma_vec pk) (pv_pk_d_vec pk) xv tv wv /\
    length xv = (3 * C)%nat /\ length tv = (3 * C)%nat /\ length wv = (3 * C + 1)%nat /\
    sparse_vector (E:=error) (fst x) (snd x) (3 * C) = Ok xv /\
    sparse_zero_one_vector (E:=error) (fst x) (3 * C) = Ok tv /\
    cw = vscale (peval wv beta) g.
Proof.
  intros K HR C. unfold pv_round1 in HR. cbn zeta in HR. rewrite K in HR. destruct w as [[a b] c].
  unfold pv_pub_of, pv_vovectorsize in HR. cbn [pv_cap_c_total pv_cap_c_a pv_cap_c_m] in HR. fold C in HR.
  replace (Z.to_nat (3 * Z.of_nat C)) with (3 * C)%nat in HR by lia.
  apply obind_ok in HR. destruct HR as [xv [E1 HR]].
  apply obind_ok in HR. destruct HR as [wv [E4 HR]].
  apply obind_ok in HR. destruct HR as [cw' [E5 HR]].
  apply obind_ok in HR. destruct HR as [tv [E8 HR]].
  injection HR as <- <-. exists xv, tv, wv.
  apply zero_pad_inv in E4. destruct E4 as [k4 [-> L4]].
  apply commit_vector_inv0 in E5; [|rewrite !(app_length (vector_concat _)), !(app_length (repeat _ _)), repeat_length; cbn [concat app length]; lia].
  split; [reflexivity|]. split; [eapply sparse_vector_length; eauto|]. split; [eapply sparse_zero_one_length; eauto|].
  split; [rewrite !(app_length (vector_concat _)), !(app_length (repeat _ _)), repeat_length; cbn [concat app length]; lia|].
  split; [exact E1|]. split; [exact E8|]. tauto.
Qed.
Lemma pv_r_acc_inv (e : pv_s2 F) r : pv_r_acc e = Ok r ->
  (forall i, (1 <= i <= pv_r_len e)%Z -> pv_r_den e i <> 0) /\
  r = accumulate_vector 1 (fun i => pv_r_num e i * finv (pv_r_den e i)) (pv_r_len e) fmul.
Proof.
  unfold pv_r_acc. destruct (existsb _ _) eqn:E; [discriminate|]. intros X. injection X as <-. split; auto.
  intros i Hi Hz. assert (existsb (fun i => is_zero (pv_r_den e i)) (zrange (pv_r_len e)) = true); [|congruence].
  apply existsb_exists. exists i. split; [|rewrite Hz; unfold is_zero; apply feqb_refl].
  unfold zrange. apply in_map_iff. exists (Z.to_nat i). split; [lia|]. apply in_seq. lia.
Qed.
Lemma pv_round2_inv n beta (g : G1) pk (e : pv_s2 F) dl r cr :
  pv_pk_powers pk = srs n beta g -> (0 <= pv_cap_c_total e)%Z ->
  pv_round2 pk e [dl] = Ok (r, cr) ->
  (forall i, (1 <= i <= 3 * pv_cap_c_total e)%Z -> pv_r_den e i <> 0) /\
  r = accumulate_vector 1 (fun i => pv_r_num e i * finv (pv_r_den e i)) (pv_r_len e) fmul ++ [dl] /\
  (Z.of_nat (length r) = 3 * pv_cap_c_total e + 1)%Z /\ cr = vscale (peval r beta) g.
Proof.
  intros K HC HR. unfold pv_round2 in HR. rewrite K in HR.
  apply obind_ok in HR. destruct HR as [r0 [E1 HR]]. apply pv_r_acc_inv in E1. destruct E1 as [D E1].
  apply obind_ok in HR. destruct HR as [r1 [E2 HR]].
  apply obind_ok in HR. destruct HR as [cr' [E3 HR]]. injection HR as <- <-.
  apply zero_pad_inv in E2. destruct E2 as [k [E2 L2]].
  assert (length r0 = Z.to_nat (3 * pv_cap_c_total e)) as L0 by (rewrite E1; apply accumulate_length).
  unfold pv_vovectorsize in *. assert (k = 0%nat) as -> by lia. cbn [repeat app concat] in E2.
  assert (Z.of_nat (length r1) = 3 * pv_cap_c_total e + 1)%Z as L1 by (rewrite E2, app_length; cbn [length]; lia).
  apply commit_vector_inv0 in E3; [|lia]. split; [exact D|]. split; [now rewrite E2, E1|]. split; [auto|tauto].
Qed.
Lemma pv_round3_inv n beta (g : G1) pk (e : pv_s3 F) dl t1 ct :
  pv_pk_powers pk = srs n beta g -> (0 <= pv_cap_c_m e <= pv_cap_c_total e)%Z ->
  pv_round3 pk e [dl] = Ok (t1, ct) ->
  t1 = dl :: pv_t_vec_1_tail e /\
  (Z.of_nat (length t1) = 3 * pv_cap_c_total e - pv_cap_c_m e + 3)%Z /\ ct = vscale (peval t1 beta) g.
Proof.
  intros K HC HR. unfold pv_round3 in HR. rewrite K in HR.
  apply obind_ok in HR. destruct HR as [ct' [E1 HR]]. injection HR as <- <-.
  unfold vector_concat in *. cbn [concat app] in *. rewrite app_nil_r in *.
  assert (Z.of_nat (length (dl :: pv_t_vec_1_tail e)) = 3 * pv_cap_c_total e - pv_cap_c_m e + 3)%Z as L.
  { cbn [length]. unfold pv_t_vec_1_tail. rewrite expression_vector_length. unfold pv_maxshift. lia. }
  apply commit_vector_inv0 in E1; [|rewrite L; unfold pv_maxshift; lia]. tauto.
Qed.
Lemma pv_round4_inv n beta (g : G1) pk (e : pv_s4 F) c1 c2 :
  pv_pk_powers pk = srs n beta g -> (0 <= pv_maxshift e + pv_vovectorsize e <= pv_cap_d e)%Z ->
  pv_round4 pk e = Ok (c1, c2) ->
  c1 = vscale (fpow beta (Z.to_nat (pv_cap_d e - (pv_maxshift e + pv_vovectorsize e))) * peval (pv_h_vec_1 e) beta) g /\
  c2 = vscale (peval (pv_h_vec_2 e) beta) g.
Proof.
  intros K HC HR. unfold pv_round4 in HR. rewrite K in HR.
  apply obind_ok in HR. destruct HR as [c1' [E1 HR]].
  apply obind_ok in HR. destruct HR as [c2' [E2 HR]]. injection HR as <- <-.
  assert (length (pv_h_vec_1 e) = Z.to_nat (pv_maxshift e + pv_vovectorsize e)) as L1 by apply expression_vector_length.
  assert (length (pv_h_vec_2 e) = Z.to_nat (pv_maxshift e + pv_vovectorsize e)) as L2 by apply expression_vector_length.
  apply commit_vector_inv in E1. destruct E1 as [_ [_ [_ ->]]].
  apply commit_vector_inv0 in E2; [|lia]. destruct E2 as [_ [_ ->]]. split; auto. do 3 f_equal.
  unfold voffset. rewrite L1. destruct (Nat.ltb_spec (Z.to_nat (pv_cap_d e)) (Z.to_nat (pv_maxshift e + pv_vovectorsize e))); lia.
Qed.
Lemma pv_round5_inv (e : pv_s4 F) z q gv : pv_round5 e z = Ok (q, gv) ->
  q = pv_ctx_of e z /\ pv_divisors q = Ok tt /\ pv_g_vec e q = Ok gv /\ peval gv z = 0.
Proof.
  intros HR. unfold pv_round5 in HR.
  apply obind_ok in HR. destruct HR as [[] [E0 HR]].
  apply obind_ok in HR. destruct HR as [gv' [E1 HR]].
  apply obind_ok in HR. destruct HR as [[] [E2 HR]]. injection HR as <- <-.
  apply check_poly_eval_inv in E2. rewrite peval_strip in E2. auto.
Qed.

(** *** Every proof is accepted *)
Lemma pv_accepts d beta (g : G1) (h : G2) pp cs pk vk x w d0 d1 d2 pf rnd :
  g <> v0 -> h <> v0 ->
  setup d beta g h = Ok pp -> pv_index gamma pp cs = Ok (pk, vk) ->
  pv_prove H gamma pk x w d0 d1 d2 = Ok pf -> pv_verify H gamma vk x pf rnd = Ok tt.
Proof.
  intros Hg Hh Hs Hi Hp. destruct (pv_index_inv _ _ _ _ _ _ _ _ Hs Hi) as
    [K1 [K2 [K3 [K4 [K5 [K6 [K7 [K8 [K9 [K10 K11]]]]]]]]]].
  destruct (pvw_length _ _ _ _ K7) as [Hga Ls].
  subst vk. set (vk := pv_pk_verifier_key pk) in *.
  unfold pv_prove in Hp. fold vk in Hp.
  apply obind_ok in Hp. destruct Hp as [[s1 cw] [R1 Hp]].
  apply obind_ok in Hp. destruct Hp as [[r cr] [R2 Hp]].
  apply obind_ok in Hp. destruct Hp as [[t1 ct] [R3 Hp]].
  apply obind_ok in Hp. destruct Hp as [[ch1 ch2] [R4 Hp]].
  apply obind_ok in Hp. destruct Hp as [[q gv] [R5 Hp]].
  apply obind_ok in Hp. destruct Hp as [[w1 w2] [R6 Hp]].
  injection Hp as <-.
  apply (pv_round1_inv _ _ _ _ _ _ _ _ _ K2) in R1. cbn zeta in R1.
  destruct R1 as [xv [tv [wv [-> [L1 [L2 [L3 [_ [_ Ecw]]]]]]]]].
  fold vk in L1, L2, L3. rewrite K4 in L1, L2, L3.
  assert (ps_n (pov_get_size cs) = length (p_consts cs) + p_nmul cs + p_nadd cs)%nat as EN by reflexivity.
  apply (pv_round2_inv _ _ _ _ _ _ _ _ K2) in R2; [|cbn; lia]. destruct R2 as [_ [_ [L5 Ecr]]].
  apply (pv_round3_inv _ _ _ _ _ _ _ _ K2) in R3.
  2:{ cbn. fold vk. rewrite K4. change (ps_nmul (pov_get_size cs)) with (p_nmul cs). lia. }
  destruct R3 as [_ [L6 Ect]].
  set (s4 := mkPVS4 _ t1 _) in *.
  assert (pv_cap_c_total s4 = Z.of_nat (ps_n (pov_get_size cs))) as EC by (change (Z.of_nat (ps_n (pv_vk_size vk)) = Z.of_nat (ps_n (pov_get_size cs))); now rewrite K4).
  assert (pv_cap_c_a s4 = Z.of_nat (p_nadd cs)) as ECa by (change (Z.of_nat (ps_nadd (pv_vk_size vk)) = Z.of_nat (p_nadd cs)); now rewrite K4).
  assert (pv_cap_c_m s4 = Z.of_nat (p_nmul cs)) as ECm by (change (Z.of_nat (ps_nmul (pv_vk_size vk)) = Z.of_nat (p_nmul cs)); now rewrite K4).
  assert (pv_cap_d s4 = Z.of_nat (d + 1)) as ED by (change (Z.of_nat (pv_vk_degree_bound vk) = Z.of_nat (d + 1)); now rewrite K5).
  unfold pv_get_max_degree in K8. change (ps_nmul (pov_get_size cs)) with (p_nmul cs) in K8.
  assert (pv_hsizes s4) as HZ.
  { split; rewrite ?EC, ?ECm.
    - change (pv_w_vec s4) with wv. lia.
    - change (pv_r_vec s4) with r. rewrite L5. exact (f_equal (fun c => 3 * c + 1)%Z EC).
    - change (pv_t_vec_1 s4) with t1. rewrite L6. exact (f_equal2 (fun m c => 3 * c - m + 3)%Z ECm EC). }
  assert (pv_sizes s4) as SZ.
  { destruct HZ. split; rewrite ?EC, ?ECa, ?ECm; try lia.
    - cbn [s4 pv_d_vec pv_s2_s1 pv_s3_s2 pv_s4_s3]; try rewrite K6; lia.
    - cbn [s4 pv_sigma_vec pv_s2_s1 pv_s3_s2 pv_s4_s3]; try rewrite K6; lia.
    - cbn [s4 pv_x_vec pv_s2_s1 pv_s3_s2 pv_s4_s3]; try rewrite K6; lia.
    - cbn [s4 pv_t_vec pv_s2_s1 pv_s3_s2 pv_s4_s3]; try rewrite K6; lia. }
  apply (pv_round4_inv _ _ _ _ _ _ _ K2) in R4; [|unfold pv_maxshift, pv_vovectorsize; lia]. destruct R4 as [Ec1 Ec2].
  apply pv_round5_inv in R5. destruct R5 as [Eq [Hdiv [Hgv Hz0]]].
  unfold pv_verify.
  cbn [pv_cm_w_vec pv_cm_r_vec pv_cm_t_vec_1 pv_cm_h_vec_1 pv_cm_h_vec_2 pv_pf_y pv_pf_y_2 pv_cap_w pv_cap_w_1].
  match goal with |- obind (pv_divisors ?q') _ = _ => assert (q' = q) as -> by (rewrite Eq; reflexivity) end.
  rewrite Hdiv. cbn [obind].
  change (pv_v_ch_omega H vk x cw cr ct) with (pv_p_ch_omega H vk x cw cr ct).
  change (pv_v_ch_z H vk x cw cr ct ch1 ch2) with (pv_p_ch_z H vk x cw cr ct ch1 ch2).
  change (pv_v_cm_g vk q cw cr ct ch1 ch2) with (pv_p_cm_g vk q cw cr ct ch1 ch2).
  change (pv_v_ch_rand_xi H vk x cw cr ct ch1 ch2) with (pv_p_ch_rand_xi H vk x cw cr ct ch1 ch2).
  change (pv_v_ch_rand_xi_2 H vk x cw cr ct ch1 ch2) with (pv_p_ch_rand_xi_2 H vk x cw cr ct ch1 ch2).
  rewrite K2 in R6.
  pose proof (batch_verifies (d + 1) beta g h _ _ _ _ _ _ _ _ rnd Hg Hh R6 ltac:(lia)) as V.
  assert (pv_p_cm_g vk q cw cr ct ch1 ch2 = vscale (peval gv beta) g) as Ecg.
  { change (pv_p_cm_g vk q cw cr ct ch1 ch2) with (pv_v_cm_g vk q cw cr ct ch1 ch2).
    rewrite Ecw, Ect, Ec1, Ec2. change wv with (pv_w_vec s4).
    change t1 with (pv_t_vec_1 s4). apply pv_cm_g_value with (h := h); [exact SZ|exact HZ|lia|exact Hgv|exact K3|exact K10|].
    rewrite K11. change (pv_d_vec s4) with (pv_pk_d_vec pk). now rewrite K6. }
  rewrite K3.
  match goal with |- (if batch_check _ ?cs ?ds _ _ _ _ ?ys ?zs _ _ _ then _ else _) = _ =>
    match type of V with batch_check _ ?cs' ?ds' _ _ _ _ ?ys' ?zs' _ _ _ = _ =>
      assert (cs = cs') as X1; [|assert (ds = ds') as X2; [|assert (ys = ys') as X3; [|assert (zs = zs') as X4]]] end end.
  - cbn [map]. rewrite !peval_strip, Ecw, Ecr. reflexivity.
  - cbn [map]. rewrite !peval_strip, Ecg. reflexivity.
  - cbn [map]. rewrite !peval_strip, Eq. cbn [pv_ctx_of pv_q_y pv_q_y_2]. unfold pv_y, pv_y_2.
    destruct HZ. rewrite !eval_vidx by (unfold pv_vovectorsize; lia). reflexivity.
  - cbn [map]. rewrite !peval_strip, Hz0. reflexivity.
  - rewrite X1, X2, X3, X4, V. reflexivity.
Qed.
End Run.
End PovComplete.

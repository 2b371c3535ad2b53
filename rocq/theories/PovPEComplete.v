(** PovPEComplete.v: every proof produced by the prover-efficient POV prover is accepted, and the
    prover succeeds on satisfied instances. *)
From Verif Require Import Base Spec Tools ToolsProofs ToolsProofs2 PermProofs CS KZG KZGProofs Properties_KZG
  Snark Laurent SnarkProofs PovPE PovPEProofs PovPEConst.
Local Open Scope F_scope.

Section PovPEComplete.
Context {F G1 G2 GT : Type} {fo : FieldOps F} {fl : FieldLaws F}
        {po : PairingOps F G1 G2 GT} {pl : PairingLaws F G1 G2 GT}.
Add Field Fpc : F_th.

(** lengths of vectors returned by the helpers *)
Lemma swap_at_length {E} (v r : list F) i j : swap_at (E:=E) v i j = Ok r -> length r = length v.
Proof.
  unfold swap_at. destruct (nth_error v i), (nth_error v j); try discriminate.
  intros H. injection H as <-. now rewrite !upd_length.
Qed.
Lemma fold_out_length {E A} (f : list F -> A -> outcome E (list F)) (l : list A) v r :
  (forall v a r, f v a = Ok r -> length r = length v) ->
  fold_left (fun v a => let! v := v in f v a) l v = Ok r -> exists v0, v = Ok v0 /\ length r = length v0.
Proof.
  intros Hf. revert v. induction l as [|a l IH]; cbn [fold_left]; intros v H; [now exists r|].
  apply IH in H. destruct H as [v1 [H1 L]]. destruct v as [v| |]; try discriminate. cbn [obind] in H1.
  apply Hf in H1. exists v. split; auto. congruence.
Qed.
Lemma pvw_length {E} gamma l n (r : list F) : permutation_vector_from_wires (E:=E) gamma l n = Ok r ->
  gamma <> 0 /\ length r = n.
Proof.
  unfold permutation_vector_from_wires, inverse. destruct (is_zero_spec gamma) as [|Hg]; [discriminate|]. intros H.
  apply (fold_out_length (fun v (ij : nat * nat) => swap_at v (fst ij) (snd ij))) in H;
    [|intros ? [? ?] ?; apply swap_at_length].
  destruct H as [v0 [H L]]. injection H as <-. rewrite accumulate_length in L. split; auto. lia.
Qed.
Lemma assign_length {E} (v r : list F) i a : assign (E:=E) v i a = Ok r -> length r = length v.
Proof. unfold assign. destruct (_ <? _)%nat; [|discriminate]. intros H. injection H as <-. apply upd_length. Qed.
Lemma sparse_vector_length {E} idx vals n (r : list F) : sparse_vector (E:=E) idx vals n = Ok r -> length r = n.
Proof.
  unfold sparse_vector. intros H.
  apply (fold_out_length (fun v (ia : nat * F) => assign v (fst ia) (snd ia))) in H; [|intros ? [? ?] ?; apply assign_length].
  destruct H as [v0 [H L]]. injection H as <-. now rewrite repeat_length in L.
Qed.
Lemma sparse_zero_one_length {E} idx n (r : list F) : sparse_zero_one_vector (E:=E) idx n = Ok r -> length r = n.
Proof. rewrite sparse_zero_one_eq. apply sparse_vector_length. Qed.
Lemma zero_pad_inv {E} (u : list F) n vs r : zero_pad_and_concat (E:=E) u n vs = Ok r ->
  exists k, r = u ++ repeat 0 k ++ concat vs /\ (length u + k = n)%nat.
Proof.
  unfold zero_pad_and_concat, zero_pad. destruct (Nat.ltb_spec n (length u)); [discriminate|]. cbn [obind].
  intros H0. injection H0 as <-. exists (n - length u)%nat. rewrite <- app_assoc. split; auto. lia.
Qed.

Section Run.
Variable H : list (item F G1) -> F.
Variable gamma : F.

(** what [index] puts in the keys *)
Lemma pe_index_inv d beta (g : G1) (h : G2) pp cs pk vk : setup d beta g h = Ok pp ->
  pe_index gamma pp cs = Ok (pk, vk) ->
  pe_pk_verifier_key pk = vk /\ pe_pk_powers pk = srs (d + 1) beta g /\ pe_vk_kzg_vk vk = vk_for beta g h /\
  pe_vk_size vk = pov_get_size cs /\ pe_vk_degree_bound vk = (d + 1)%nat /\ pe_pk_d_vec pk = p_consts cs /\
  permutation_vector_from_wires (E:=error) gamma (p_wires cs) (3 * ps_n (pov_get_size cs)) = Ok (pe_pk_sigma_vec pk) /\
  (pe_get_max_degree (pov_get_size cs) < d + 1)%nat /\
  (1 <= length (p_consts cs))%nat /\
  pe_vk_cm_sigma_vec vk = vscale (peval (pe_pk_sigma_vec pk) beta) g /\
  pe_vk_cm_d_vec vk = vscale (peval (p_consts cs) beta) g.
Proof.
  intros Hs Hi. destruct (kzg_vk_setup d beta g h pp Hs) as [Hd [Hp Hv]].
  unfold pe_index in Hi. rewrite Hp, Hv, srs_length in Hi.
  destruct (Nat.ltb_spec (pe_get_max_degree (pov_get_size cs)) (d + 1)) as [Hm|]; [|discriminate].
  cbn [assert_ obind] in Hi. oinv Hi. oinv Hi. oinv Hi. injection Hi as <- <-.
  cbn [pe_pk_verifier_key pe_pk_powers pe_vk_kzg_vk pe_vk_size pe_vk_degree_bound pe_pk_d_vec pe_pk_sigma_vec pe_vk_cm_sigma_vec pe_vk_cm_d_vec].
  replace (Z.to_nat (3 * Z.of_nat (ps_n (pov_get_size cs)))) with (3 * ps_n (pov_get_size cs))%nat in E by lia.
  destruct (pvw_length _ _ _ _ E) as [_ L].
  apply commit_vector_inv0 in E0; [|rewrite L; lia]. destruct E0 as [_ [_ ->]].
  apply commit_vector_inv0 in E1; [|unfold pov_get_size; cbn [ps_n ps_nadd ps_nmul]; lia]. destruct E1 as [L1 [_ ->]].
  repeat split; auto.
Qed.

(** the combined polynomial *)
Lemma pe_g_value (e : pe_s4 F) q gv : pe_sizes e -> (4 * pe_cap_c_total e + pe_cap_c_m e + 1 <= pe_cap_d e)%Z ->
  pe_g_vec e q = Ok gv ->
  length gv = Z.to_nat (pe_cap_d e) /\
  forall x, peval gv x = pe_p_c_18 q * peval (pe_u_vec e) x + pe_p_c_19 q * peval (pe_v_vec e) x
    + pe_p_c_21 q * peval (pe_d_vec e) x + pe_p_c_22 q * peval (pe_sigma_vec e) x
    + pe_p_c_23 q * peval (pe_t_vec_1 e) x
    + pe_p_c_24 q * (fpow x (Z.to_nat (pe_cap_d e - (pe_maxshift e + pe_n e))) * peval (pe_h_vec_1 e) x)
    + pe_p_c_25 q * peval (pe_h_vec_2 e) x + pe_p_c_20 q.
Proof.
  intros [Sa Sm SC Sd Su Sv Sr Ss Sx St St1] Hd HG. unfold pe_g_vec in HG. apply add_first_inv in HG. destruct HG as [_ [L HG]].
  split; auto. intros x. rewrite HG. f_equal. unfold pe_g_at, linear_combination. cbn [fold_left fst snd].
  match goal with |- _ = ?rhs => change (EV (pe_cap_d e) x (fun i => ((((((0 + pe_p_c_18 q * vidx (pe_u_vec e) i)
    + pe_p_c_19 q * vidx (pe_v_vec e) i) + pe_p_c_21 q * vidx (pe_d_vec e) i) + pe_p_c_22 q * vidx (pe_sigma_vec e) i)
    + pe_p_c_23 q * vidx (pe_t_vec_1 e) i)
    + pe_p_c_24 q * vidx (pe_h_vec_1 e) (- pe_cap_d e + i + pe_maxshift e + pe_n e)%Z)
    + pe_p_c_25 q * vidx (pe_h_vec_2 e) i) rhs) end.
  assert (length (pe_h_vec_1 e) = Z.to_nat (pe_maxshift e + pe_n e)) as L1 by apply expression_vector_length.
  assert (length (pe_h_vec_2 e) = Z.to_nat (pe_maxshift e + pe_n e)) as L2 by apply expression_vector_length.
  unfold pe_maxshift, pe_n in *.
  repeat apply EV_add; try apply EV_scale; try (apply EV_list; lia).
  - unfold EV. rewrite eval_vector_expression_sum.
    rewrite (peval_sumn (pe_u_vec e) x (Z.to_nat (pe_cap_d e))), <- sumn_mul_l by lia. apply sumn_ext.
    intros i _. rewrite vidx_S. ring.
  - apply (EV_shift (pe_cap_d e) x (pe_h_vec_1 e) _
      (fun i => (- pe_cap_d e + i + (pe_cap_c_m e + pe_cap_c_total e) + 3 * pe_cap_c_total e)%Z)); [rewrite L1; lia|].
    intros i. lia.
Qed.

(** the commitment to the combined polynomial *)
Lemma pe_cm_g_value beta (g : G1) (h : G2) vk (e : pe_s4 F) q gv cr : pe_sizes e ->
  (4 * pe_cap_c_total e + pe_cap_c_m e + 1 <= pe_cap_d e)%Z -> pe_g_vec e q = Ok gv ->
  pe_vk_kzg_vk vk = vk_for beta g h ->
  pe_vk_cm_sigma_vec vk = vscale (peval (pe_sigma_vec e) beta) g ->
  pe_vk_cm_d_vec vk = vscale (peval (pe_d_vec e) beta) g ->
  pe_v_cm_g vk q (vscale (peval (pe_u_vec e) beta) g) (vscale (peval (pe_v_vec e) beta) g) cr
     (vscale (peval (pe_t_vec_1 e) beta) g)
     (vscale (fpow beta (Z.to_nat (pe_cap_d e - (pe_maxshift e + pe_n e))) * peval (pe_h_vec_1 e) beta) g)
     (vscale (peval (pe_h_vec_2 e) beta) g) = vscale (peval gv beta) g.
Proof.
  intros SZ Hd HG K3 K10 K11. destruct (pe_g_value e q gv SZ Hd HG) as [_ V]. rewrite V. clear V.
  unfold pe_v_cm_g. rewrite K3, K10, K11. cbn [vk_g vk_for].
  pose proof (lin_comb_vscale g (pe_v_c_20 q)
    [(peval (pe_u_vec e) beta, pe_v_c_18 q); (peval (pe_v_vec e) beta, pe_v_c_19 q); (peval (pe_d_vec e) beta, pe_v_c_21 q);
     (peval (pe_sigma_vec e) beta, pe_v_c_22 q); (peval (pe_t_vec_1 e) beta, pe_v_c_23 q);
     (fpow beta (Z.to_nat (pe_cap_d e - (pe_maxshift e + pe_n e))) * peval (pe_h_vec_1 e) beta, pe_v_c_24 q);
     (peval (pe_h_vec_2 e) beta, pe_v_c_25 q)]) as E. cbn [map fst snd] in E. rewrite E. f_equal.
  change (pe_v_c_18 q) with (pe_p_c_18 q). change (pe_v_c_19 q) with (pe_p_c_19 q).
  change (pe_v_c_20 q) with (pe_p_c_20 q). change (pe_v_c_21 q) with (pe_p_c_21 q).
  change (pe_v_c_22 q) with (pe_p_c_22 q). change (pe_v_c_23 q) with (pe_p_c_23 q).
  change (pe_v_c_24 q) with (pe_p_c_24 q). change (pe_v_c_25 q) with (pe_p_c_25 q).
  cbn [fsum]. ring.
Qed.

(** what the rounds produce *)
Lemma pe_round1_inv n beta (g : G1) pk x w dl dl1 s1 cu cv :
  pe_pk_powers pk = srs n beta g ->
  pe_round1 gamma pk x w [dl] [dl1] = Ok (s1, (cu, cv)) ->
  let C := ps_n (pe_vk_size (pe_pk_verifier_key pk)) in
  exists xv tv uv vv, s1 = mkPES1 (pe_pub_of gamma (pe_pk_verifier_key pk) x) (pe_pk_sigma_vec pk) (pe_pk_d_vec pk) xv tv uv vv /\
    length xv = (3 * C)%nat /\ length tv = (3 * C)%nat /\ length uv = (3 * C + 1)%nat /\ length vv = (3 * C + 1)%nat /\
    sparse_vector (E:=error) (fst x) (snd x) (3 * C) = Ok xv /\
    sparse_zero_one_vector (E:=error) (fst x) (3 * C) = Ok tv /\
    cu = vscale (peval uv beta) g /\ cv = vscale (peval vv beta) g.
Proof.
  intros K HR C. unfold pe_round1 in HR. cbn zeta in HR. rewrite K in HR. destruct w as [[a b] c].
  unfold pe_pub_of, pe_n in HR. cbn [pe_cap_c_total pe_cap_c_a pe_cap_c_m] in HR. fold C in HR.
  replace (Z.to_nat (3 * Z.of_nat C)) with (3 * C)%nat in HR by lia.
  apply obind_ok in HR. destruct HR as [xv [E1 HR]].
  apply obind_ok in HR. destruct HR as [u0 [E2 HR]].
  apply obind_ok in HR. destruct HR as [w0 [E3 HR]].
  apply obind_ok in HR. destruct HR as [uv [E4 HR]].
  apply obind_ok in HR. destruct HR as [cu' [E5 HR]].
  apply obind_ok in HR. destruct HR as [vv [E6 HR]].
  apply obind_ok in HR. destruct HR as [cv' [E7 HR]].
  apply obind_ok in HR. destruct HR as [tv [E8 HR]].
  injection HR as <- <- <-. exists xv, tv, uv, vv.
  apply zero_pad_inv in E4. destruct E4 as [k4 [-> L4]]. apply zero_pad_inv in E6. destruct E6 as [k6 [-> L6]].
  apply commit_vector_inv0 in E5; [|rewrite !app_length, repeat_length; cbn [concat app length]; lia].
  apply commit_vector_inv0 in E7; [|rewrite !app_length, repeat_length; cbn [concat app length]; lia].
  split; [reflexivity|]. split; [eapply sparse_vector_length; eauto|]. split; [eapply sparse_zero_one_length; eauto|].
  split; [rewrite !app_length, repeat_length; cbn [concat app length]; lia|].
  split; [rewrite !app_length, repeat_length; cbn [concat app length]; lia|].
  split; [exact E1|]. split; [exact E8|]. tauto.
Qed.
Lemma pe_r_acc_inv (e : pe_s2 F) r : pe_r_acc e = Ok r ->
  (forall i, (1 <= i <= pe_r_len e)%Z -> pe_r_den e i <> 0) /\
  r = accumulate_vector 1 (fun i => pe_r_num e i * finv (pe_r_den e i)) (pe_r_len e) fmul.
Proof.
  unfold pe_r_acc. destruct (existsb _ _) eqn:E; [discriminate|]. intros X. injection X as <-. split; auto.
  intros i Hi Hz. assert (existsb (fun i => is_zero (pe_r_den e i)) (zrange (pe_r_len e)) = true); [|congruence].
  apply existsb_exists. exists i. split; [|rewrite Hz; unfold is_zero; apply feqb_refl].
  unfold zrange. apply in_map_iff. exists (Z.to_nat i). split; [lia|]. apply in_seq. lia.
Qed.
Lemma pe_round2_inv n beta (g : G1) pk (e : pe_s2 F) dl r cr :
  pe_pk_powers pk = srs n beta g -> (0 <= pe_cap_c_total e)%Z ->
  pe_round2 pk e [dl] = Ok (r, cr) ->
  (forall i, (1 <= i <= 3 * pe_cap_c_total e)%Z -> pe_r_den e i <> 0) /\
  r = accumulate_vector 1 (fun i => pe_r_num e i * finv (pe_r_den e i)) (pe_r_len e) fmul ++ [dl] /\
  (Z.of_nat (length r) = 3 * pe_cap_c_total e + 1)%Z /\ cr = vscale (peval r beta) g.
Proof.
  intros K HC HR. unfold pe_round2 in HR. rewrite K in HR.
  apply obind_ok in HR. destruct HR as [r0 [E1 HR]]. apply pe_r_acc_inv in E1. destruct E1 as [D E1].
  apply obind_ok in HR. destruct HR as [r1 [E2 HR]].
  apply obind_ok in HR. destruct HR as [cr' [E3 HR]]. injection HR as <- <-.
  apply zero_pad_inv in E2. destruct E2 as [k [E2 L2]].
  assert (length r0 = Z.to_nat (3 * pe_cap_c_total e)) as L0 by (rewrite E1; apply accumulate_length).
  unfold pe_n in *. assert (k = 0%nat) as -> by lia. cbn [repeat app concat] in E2.
  assert (Z.of_nat (length r1) = 3 * pe_cap_c_total e + 1)%Z as L1 by (rewrite E2, app_length; cbn [length]; lia).
  apply commit_vector_inv0 in E3; [|lia]. split; [exact D|]. split; [now rewrite E2, E1|]. split; [auto|tauto].
Qed.
Lemma pe_round3_inv n beta (g : G1) pk (e : pe_s3 F) dl t1 ct :
  pe_pk_powers pk = srs n beta g -> (0 <= pe_cap_c_total e)%Z -> (0 <= pe_cap_c_m e)%Z ->
  pe_round3 pk e [dl] = Ok (t1, ct) ->
  t1 = dl :: pe_t_vec_1_tail e /\
  (Z.of_nat (length t1) = pe_cap_c_m e + pe_cap_c_total e + 3)%Z /\ ct = vscale (peval t1 beta) g.
Proof.
  intros K HC Hm HR. unfold pe_round3 in HR. rewrite K in HR.
  apply obind_ok in HR. destruct HR as [ct' [E1 HR]]. injection HR as <- <-.
  unfold vector_concat in *. cbn [concat app] in *. rewrite app_nil_r in *.
  assert (Z.of_nat (length (dl :: pe_t_vec_1_tail e)) = pe_cap_c_m e + pe_cap_c_total e + 3)%Z as L.
  { cbn [length]. unfold pe_t_vec_1_tail. rewrite expression_vector_length. unfold pe_maxshift. lia. }
  apply commit_vector_inv0 in E1; [|rewrite L; unfold pe_maxshift; lia]. tauto.
Qed.
Lemma pe_round4_inv n beta (g : G1) pk (e : pe_s4 F) c1 c2 :
  pe_pk_powers pk = srs n beta g -> (0 <= pe_maxshift e + pe_n e <= pe_cap_d e)%Z ->
  pe_round4 pk e = Ok (c1, c2) ->
  pe_omega e <> 0 /\
  c1 = vscale (fpow beta (Z.to_nat (pe_cap_d e - (pe_maxshift e + pe_n e))) * peval (pe_h_vec_1 e) beta) g /\
  c2 = vscale (peval (pe_h_vec_2 e) beta) g.
Proof.
  intros K HC HR. unfold pe_round4 in HR. rewrite K in HR.
  apply obind_ok in HR. destruct HR as [[] [E0 HR]]. apply nonzero_inv in E0.
  apply obind_ok in HR. destruct HR as [c1' [E1 HR]].
  apply obind_ok in HR. destruct HR as [c2' [E2 HR]]. injection HR as <- <-.
  assert (length (pe_h_vec_1 e) = Z.to_nat (pe_maxshift e + pe_n e)) as L1 by apply expression_vector_length.
  assert (length (pe_h_vec_2 e) = Z.to_nat (pe_maxshift e + pe_n e)) as L2 by apply expression_vector_length.
  split; auto. apply commit_vector_inv in E1. destruct E1 as [_ [_ [_ ->]]].
  apply commit_vector_inv0 in E2; [|lia]. destruct E2 as [_ [_ ->]]. split; auto. do 3 f_equal.
  unfold voffset. rewrite L1. destruct (Nat.ltb_spec (Z.to_nat (pe_cap_d e)) (Z.to_nat (pe_maxshift e + pe_n e))); lia.
Qed.
Lemma pe_round5_inv (e : pe_s4 F) z q gv : pe_round5 e z = Ok (q, gv) ->
  q = pe_ctx_of e z /\ pe_divisors q = Ok tt /\ pe_g_vec e q = Ok gv /\ peval gv z = 0.
Proof.
  intros HR. unfold pe_round5 in HR.
  apply obind_ok in HR. destruct HR as [[] [E0 HR]].
  apply obind_ok in HR. destruct HR as [gv' [E1 HR]].
  apply obind_ok in HR. destruct HR as [[] [E2 HR]]. injection HR as <- <-.
  apply check_poly_eval_inv in E2. rewrite peval_strip in E2. auto.
Qed.

(** *** Every proof is accepted *)
Lemma pe_accepts d beta (g : G1) (h : G2) pp cs pk vk x w d0 d1 d2 d3 pf rnd :
  g <> v0 -> h <> v0 ->
  setup d beta g h = Ok pp -> pe_index gamma pp cs = Ok (pk, vk) ->
  pe_prove H gamma pk x w d0 d1 d2 d3 = Ok pf -> pe_verify H gamma vk x pf rnd = Ok tt.
Proof.
  intros Hg Hh Hs Hi Hp. destruct (pe_index_inv _ _ _ _ _ _ _ _ Hs Hi) as
    [K1 [K2 [K3 [K4 [K5 [K6 [K7 [K8 [K9 [K10 K11]]]]]]]]]].
  destruct (pvw_length _ _ _ _ K7) as [Hga Ls].
  subst vk. set (vk := pe_pk_verifier_key pk) in *.
  unfold pe_prove in Hp. fold vk in Hp.
  apply obind_ok in Hp. destruct Hp as [[s1 [cu cv]] [R1 Hp]].
  apply obind_ok in Hp. destruct Hp as [[r cr] [R2 Hp]].
  apply obind_ok in Hp. destruct Hp as [[t1 ct] [R3 Hp]].
  apply obind_ok in Hp. destruct Hp as [[ch1 ch2] [R4 Hp]].
  apply obind_ok in Hp. destruct Hp as [[q gv] [R5 Hp]].
  apply obind_ok in Hp. destruct Hp as [[w1 w2] [R6 Hp]].
  injection Hp as <-.
  apply (pe_round1_inv _ _ _ _ _ _ _ _ _ _ _ K2) in R1. cbn zeta in R1.
  destruct R1 as [xv [tv [uv [vv [-> [L1 [L2 [L3 [L4 [_ [_ [Ecu Ecv]]]]]]]]]]]].
  fold vk in L1, L2, L3, L4. rewrite K4 in L1, L2, L3, L4. 
  apply (pe_round2_inv _ _ _ _ _ _ _ _ K2) in R2; [|cbn; lia]. destruct R2 as [_ [_ [L5 Ecr]]].
  apply (pe_round3_inv _ _ _ _ _ _ _ _ K2) in R3; [|cbn; lia|cbn; lia]. destruct R3 as [_ [L6 Ect]].
  set (s4 := mkPES4 _ t1 _) in *.
  assert (pe_cap_c_total s4 = Z.of_nat (ps_n (pov_get_size cs))) as EC by (change (Z.of_nat (ps_n (pe_vk_size vk)) = Z.of_nat (ps_n (pov_get_size cs))); now rewrite K4).
  assert (pe_cap_c_a s4 = Z.of_nat (p_nadd cs)) as ECa by (change (Z.of_nat (ps_nadd (pe_vk_size vk)) = Z.of_nat (p_nadd cs)); now rewrite K4).
  assert (pe_cap_c_m s4 = Z.of_nat (p_nmul cs)) as ECm by (change (Z.of_nat (ps_nmul (pe_vk_size vk)) = Z.of_nat (p_nmul cs)); now rewrite K4).
  assert (pe_cap_d s4 = Z.of_nat (d + 1)) as ED by (change (Z.of_nat (pe_vk_degree_bound vk) = Z.of_nat (d + 1)); now rewrite K5).
  assert (ps_n (pov_get_size cs) = length (p_consts cs) + p_nmul cs + p_nadd cs)%nat as EN by reflexivity.
  unfold pe_get_max_degree in K8. change (ps_nmul (pov_get_size cs)) with (p_nmul cs) in K8.
  assert (pe_sizes s4) as SZ.
  { split; rewrite ?EC, ?ECa, ?ECm; try lia.
    - cbn [s4 pe_d_vec pe_s2_s1 pe_s3_s2 pe_s4_s3]; try rewrite K6; lia.
    - cbn [s4 pe_u_vec pe_s2_s1 pe_s3_s2 pe_s4_s3]; try rewrite K6; lia.
    - cbn [s4 pe_v_vec pe_s2_s1 pe_s3_s2 pe_s4_s3]; try rewrite K6; lia.
    - change (pe_r_vec s4) with r. rewrite L5. exact (f_equal (fun c => 3 * c + 1)%Z EC).
    - cbn [s4 pe_sigma_vec pe_s2_s1 pe_s3_s2 pe_s4_s3]; try rewrite K6; lia.
    - cbn [s4 pe_x_vec pe_s2_s1 pe_s3_s2 pe_s4_s3]; try rewrite K6; lia.
    - cbn [s4 pe_t_vec pe_s2_s1 pe_s3_s2 pe_s4_s3]; try rewrite K6; lia.
    - change (pe_t_vec_1 s4) with t1. rewrite L6. exact (f_equal2 (fun m c => m + c + 3)%Z ECm EC). }
  apply (pe_round4_inv _ _ _ _ _ _ _ K2) in R4; [|unfold pe_maxshift, pe_n; lia]. destruct R4 as [Hom [Ec1 Ec2]].
  apply pe_round5_inv in R5. destruct R5 as [Eq [Hdiv [Hgv Hz0]]].
  unfold pe_verify.
  cbn [pe_cm_u_vec pe_cm_v_vec pe_cm_r_vec pe_cm_t_vec_1 pe_cm_h_vec_1 pe_cm_h_vec_2 pe_pf_y pe_pf_y_2 pe_cap_w pe_cap_w_1].
  match goal with |- obind (pe_divisors ?q') _ = _ => assert (q' = q) as -> by (rewrite Eq; reflexivity) end.
  rewrite Hdiv. cbn [obind].
  change (pe_v_ch_omega H vk x cu cv cr ct) with (pe_p_ch_omega H vk x cu cv cr ct).
  change (pe_v_ch_z H vk x cu cv cr ct ch1 ch2) with (pe_p_ch_z H vk x cu cv cr ct ch1 ch2).
  change (pe_v_cm_g vk q cu cv cr ct ch1 ch2) with (pe_p_cm_g vk q cu cv cr ct ch1 ch2).
  change (pe_v_ch_rand_xi H vk x cu cv cr ct ch1 ch2) with (pe_p_ch_rand_xi H vk x cu cv cr ct ch1 ch2).
  change (pe_v_ch_rand_xi_2 H vk x cu cv cr ct ch1 ch2) with (pe_p_ch_rand_xi_2 H vk x cu cv cr ct ch1 ch2).
  rewrite K2 in R6.
  pose proof (batch_verifies (d + 1) beta g h _ _ _ _ _ _ _ _ rnd Hg Hh R6 ltac:(lia)) as V.
  assert (pe_p_cm_g vk q cu cv cr ct ch1 ch2 = vscale (peval gv beta) g) as Ecg.
  { change (pe_p_cm_g vk q cu cv cr ct ch1 ch2) with (pe_v_cm_g vk q cu cv cr ct ch1 ch2).
    rewrite Ecu, Ecv, Ect, Ec1, Ec2. change uv with (pe_u_vec s4). change vv with (pe_v_vec s4).
    change t1 with (pe_t_vec_1 s4). apply pe_cm_g_value with (h := h); [exact SZ|lia|exact Hgv|exact K3|exact K10|].
    rewrite K11. change (pe_d_vec s4) with (pe_pk_d_vec pk). now rewrite K6. }
  rewrite K3.
  match goal with |- (if batch_check _ ?cs ?ds _ _ _ _ ?ys ?zs _ _ _ then _ else _) = _ =>
    match type of V with batch_check _ ?cs' ?ds' _ _ _ _ ?ys' ?zs' _ _ _ = _ =>
      assert (cs = cs') as X1; [|assert (ds = ds') as X2; [|assert (ys = ys') as X3; [|assert (zs = zs') as X4]]] end end.
  - cbn [map]. rewrite !peval_strip, Ecu, Ecr. reflexivity.
  - cbn [map]. rewrite !peval_strip, Ecg. reflexivity.
  - cbn [map]. rewrite !peval_strip, Eq. cbn [pe_ctx_of pe_q_y pe_q_y_2]. unfold pe_y, pe_y_2.
    destruct SZ. rewrite !eval_vidx by (unfold pe_n; lia). reflexivity.
  - cbn [map]. rewrite !peval_strip, Hz0. reflexivity.
  - rewrite X1, X2, X3, X4, V. reflexivity.
Qed.
End Run.
End PovPEComplete.

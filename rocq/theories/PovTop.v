(** PovTop.v: the POV prover succeeds on satisfied circuits, except for unlucky challenges. *)
From Verif Require Import Base Spec Tools ToolsProofs ToolsProofs2 PermProofs CS KZG KZGProofs Properties_KZG
  Snark Laurent SnarkProofs SnarkPerm PovPEComplete Pov PovProofs PovConst PovGood PovComplete.
Local Open Scope F_scope.

Section PovTop.
Context {F G1 G2 GT : Type} {fo : FieldOps F} {fl : FieldLaws F}
        {po : PairingOps F G1 G2 GT} {pl : PairingLaws F G1 G2 GT}.
Add Field Fpt : F_th.

(** the combined polynomial vanishes at z *)
Lemma pv_g_zero (e : pv_s4 F) z gv : pv_sizes e -> pv_hsizes e -> pv_sat e ->
  (exists dl, pv_t_vec_1 e = dl :: pv_t_vec_1_tail e) ->
  (6 * pv_cap_c_total e - pv_cap_c_m e + 1 <= pv_cap_d e)%Z ->
  z <> 0 -> z <> 1 -> pv_gamma e * z <> 1 -> pv_omega e <> z -> pv_omega e <> 0 -> pv_gamma e <> 0 ->
  eval_sparse_zero_one_vector (pv_omega e / z) (pv_x0 e) = peval (pv_t_vec e) (pv_omega e / z) ->
  eval_sparse_vector z (pv_x0 e) (pv_x1 e) = peval (pv_x_vec e) z ->
  pv_g_vec e (pv_ctx_of e z) = Ok gv -> peval gv z = 0.
Proof.
  intros SZ HZ G T1 Hd Hz Hz1 Hgz Hoz Ho Hg Ht Hx HG.
  destruct (pv_g_value e _ gv SZ HZ Hd HG) as [_ V]. rewrite V. clear V.
  pose proof SZ as [Sa Sm SC Sam Sd Sw0 Sr0 Ss Sx St]. pose proof HZ as [Sw Sr St1].
  set (M := (6 * pv_cap_c_total e - pv_cap_c_m e)%Z).
  assert (LP M (pv_hK e) z (pv_p_c_20 (pv_ctx_of e z) * peval (pv_w_vec e) z + pv_p_c_21 (pv_ctx_of e z) * peval (pv_d_vec e) z + pv_p_c_22 (pv_ctx_of e z)
   + pv_p_c_23 (pv_ctx_of e z) * peval (pv_sigma_vec e) z + pv_p_c_24 (pv_ctx_of e z) * peval (pv_t_vec_1 e) z)) as L.
  { apply pv_LP; auto; try lia; cbn [pv_q_y pv_q_y_2 pv_ctx_of]; unfold pv_y, pv_y_2; rewrite eval_vidx; auto; unfold pv_vovectorsize; lia. }
  apply LP_halves in L; auto; [|lia|].
  2:{ refine (CT_0 _ _ _ _ _ (pv_CT e SZ Ho Hg (M + 1) _ _ _)); try lia.
      intros i Hi. apply (pv_br_0 e SZ G T1). lia. }
  assert (pv_maxshift e + pv_vovectorsize e = M)%Z as EM by (unfold pv_maxshift, pv_vovectorsize; lia).
  assert (pv_h_vec_1 e = expression_vector (fun i => pv_hK e (i - M)) M) as E1.
  { unfold pv_h_vec_1. rewrite EM. unfold expression_vector. apply map_ext. intros i. rewrite pv_h1_hK, EM. reflexivity. }
  assert (pv_h_vec_2 e = expression_vector (fun i => pv_hK e (i + 1)) M) as E2.
  { unfold pv_h_vec_2. rewrite EM. unfold expression_vector. apply map_ext. intros i. now rewrite pv_h2_hK. }
  rewrite <- E1, <- E2 in L. rewrite EM.
  set (q := pv_ctx_of e z) in *. assert (pv_p_c_26 q = - z) as -> by reflexivity.
  assert (pv_p_c_25 q * fpow z (Z.to_nat (pv_cap_d e - M)) = - fpowZ z (- M)) as E24.
  { change (pv_p_c_25 q) with (- power z (- pv_cap_d e)%Z). rewrite pw by auto. rewrite <- fpowZ_nonneg by lia.
    replace (- M)%Z with (- pv_cap_d e + (pv_cap_d e - M))%Z by lia.
    rewrite (fpowZ_add z (- pv_cap_d e)) by auto. ring. }
  match goal with |- ?A + ?c * (?f * ?h) + _ + _ = 0 => replace (c * (f * h)) with ((c * f) * h) by ring end.
  rewrite E24.
  match goal with |- ?A = 0 => match type of L with ?x = ?y => transitivity (y - x); [ring|rewrite L; ring] end end.
Qed.

Lemma pv_divisors_cases (q : pv_ctx F) :
  (pv_divisors q = Ok tt /\ pv_q_z q <> 0 /\ pv_q_z q <> 1 /\ pv_gamma q * pv_q_z q <> 1 /\ pv_q_omega q <> pv_q_z q) \/
  (pv_divisors q = Panic /\ (pv_q_z q = 0 \/ pv_q_z q = 1 \/ pv_gamma q * pv_q_z q = 1 \/ pv_q_omega q = pv_q_z q)).
Proof.
  unfold pv_divisors. generalize (pv_q_z q), (pv_q_omega q), (pv_gamma q). intros z om ga.
  destruct (feq_dec z 0) as [->|Hz]; [right; rewrite nonzero_panic; auto|].
  destruct (feq_dec om z) as [->|Ho].
  { right. split; auto. rewrite nonzero_ok by auto. cbn [obind].
    replace (z * (z - 1 * z)) with (0 : F) by ring. now rewrite nonzero_panic. }
  assert (om - 1 * z <> 0) as H1 by (intros E; apply Ho, fsub_0_eq; rewrite <- E; ring).
  rewrite (nonzero_ok z), (nonzero_ok (z * _)), (nonzero_ok (om - 1 * z)) by auto using fmul_neq_0. cbn [obind].
  destruct (feq_dec z 1) as [->|Hz1].
  { right. replace (1 * (1 - 1) * (ga * 1 - 1)) with (0 : F) by ring. rewrite nonzero_panic. auto. }
  destruct (feq_dec (ga * z) 1) as [E|Hg].
  { right. rewrite E. replace (z * (1 - z) * (1 - 1)) with (0 : F) by ring. rewrite nonzero_panic. auto. }
  left. rewrite nonzero_ok; [auto|]. repeat apply fmul_neq_0; auto.
  - intros E. apply Hz1. symmetry. now apply fsub_0_eq.
  - intros E. now apply Hg, fsub_0_eq.
Qed.
Section Run.
Variable H : list (item F G1) -> F.
Variable gamma : F.

(** The events in which the prover may fail on a satisfied circuit: a denominator of the running
    product vanishes, a challenge is one of finitely many values, or a polynomial to be opened is
    constant (ark-poly cannot divide a constant polynomial). *)
Definition pv_unlucky (pk : pv_pk F G1 G2) (x : POVInstance (F:=F)) (w : POVWitness (F:=F)) (d0 d1 d2 : F) : Prop :=
  let vk := pv_pk_verifier_key pk in
  exists s1 cw, pv_round1 gamma pk x w [d0] = Ok (s1, cw) /\
  let zeta := pv_p_ch_zeta H vk x cw in
  let zeta_1 := pv_p_ch_zeta_1 H vk x cw in
  let s2 := mkPVS2 s1 zeta zeta_1 in
  ((exists i, (i < 3 * ps_n (pv_vk_size vk))%nat /\
     coef (fst (fst w) ++ snd (fst w) ++ snd w) i + coef (pv_pk_sigma_vec pk) i * zeta + zeta_1 = 0) \/
   exists r cr, pv_round2 pk s2 [d1] = Ok (r, cr) /\
   let s3 := mkPVS3 s2 r (pv_p_ch_alpha H vk x cw cr) in
   exists t1 ct, pv_round3 pk s3 [d2] = Ok (t1, ct) /\
   let omega := pv_p_ch_omega H vk x cw cr ct in
   let s4 := mkPVS4 s3 t1 omega in
   (omega = 0 \/
    exists ch1 ch2, pv_round4 pk s4 = Ok (ch1, ch2) /\
    let z := pv_p_ch_z H vk x cw cr ct ch1 ch2 in
    (z = 0 \/ z = 1 \/ gamma * z = 1 \/ omega = z \/
     (forall i, (1 <= i)%nat -> coef (pv_w_vec s1) i = 0) \/
     exists gv, pv_g_vec s4 (pv_ctx_of s4 z) = Ok gv /\ forall i, coef gv i = 0))).

Theorem pv_complete d beta (g : G1) (h : G2) pp cs pk vk pos vals a b c d0 d1 d2 :
  g <> v0 -> h <> v0 ->
  setup d beta g h = Ok pp -> pv_index gamma pp cs = Ok (pk, vk) ->
  length a = ps_n (pov_get_size cs) -> length b = ps_n (pov_get_size cs) -> length c = ps_n (pov_get_size cs) ->
  pov_holds (p_consts cs) (p_wires cs) (p_nmul cs) (p_nadd cs) pos vals a b c ->
  NoDup pos -> length pos = length vals ->
  (exists pf, pv_prove H gamma pk (pos, vals) (a, b, c) d0 d1 d2 = Ok pf /\
     forall rnd, pv_verify H gamma vk (pos, vals) pf rnd = Ok tt) \/
  pv_unlucky pk (pos, vals) (a, b, c) d0 d1 d2.
Proof.
  intros Hg Hh Hs Hi La Lb Lc Hsat Hnd Hlen.
  enough ((exists pf, pv_prove H gamma pk (pos, vals) (a, b, c) d0 d1 d2 = Ok pf) \/
     pv_unlucky pk (pos, vals) (a, b, c) d0 d1 d2) as [[pf P]|P].
  { left. exists pf. split; auto. intros rnd. eapply (pv_accepts H gamma d beta g h); eauto. }
  { now right. }
  destruct (pv_index_inv gamma _ _ _ _ _ _ _ _ Hs Hi) as
    [K1 [K2 [K3 [K4 [K5 [K6 [K7 [K8 [K9 [K10 K11]]]]]]]]]].
  destruct (pvw_length _ _ _ _ K7) as [Hga Ls].
  subst vk. set (vk := pv_pk_verifier_key pk) in *.
  set (n := ps_n (pov_get_size cs)) in *.
  assert (n = p_nmul cs + p_nadd cs + length (p_consts cs))%nat as EN by (unfold n, pov_get_size; cbn [ps_n]; lia).
  unfold pv_get_max_degree in K8. change (ps_nmul (pov_get_size cs)) with (p_nmul cs) in K8. fold n in K8.
  assert (forall p, In p pos -> (p < 3 * n)%nat) as Hpos.
  { intros p Hp. apply In_nth with (d := 0%nat) in Hp. destruct Hp as [j [Hj <-]].
    destruct Hsat as [_ [_ [_ [_ S5]]]]. destruct (S5 j) as [S6 _]; [lia|lia|]. rewrite !app_length in S6. lia. }
  destruct (sparse_vector_ok (E:=error) pos vals (3 * n) Hnd) as [xv [E1 [L1 X1]]]; [intros i Hip; apply Hpos in Hip; lia|].
  destruct (sparse_vector_ok (E:=error) pos (map (fun _ => 1) pos) (3 * n) Hnd) as [tv [E2 [L2 X2]]]; [intros i Hip; apply Hpos in Hip; lia|].
  set (wv := (a ++ b ++ c) ++ [d0]).
  assert (length wv = 3 * n + 1)%nat as L3.
  { unfold wv. rewrite !app_length. cbn [length]. lia. }
  set (e0 := pv_pub_of gamma vk (pos, vals)).
  assert (pv_cap_c_total e0 = Z.of_nat n) as EC by (cbn; now rewrite K4).
  assert (pv_cap_c_a e0 = Z.of_nat (p_nadd cs)) as ECa by (cbn; now rewrite K4).
  assert (pv_cap_c_m e0 = Z.of_nat (p_nmul cs)) as ECm by (cbn; now rewrite K4).
  assert (pv_cap_d e0 = Z.of_nat (d + 1)) as ED by (cbn; now rewrite K5).
  set (s1 := mkPVS1 e0 (pv_pk_sigma_vec pk) (pv_pk_d_vec pk) xv tv wv).
  set (cw := vscale (peval wv beta) g).
  assert (pv_round1 gamma pk (pos, vals) (a, b, c) [d0] = Ok (s1, cw)) as R1.
  { unfold pv_round1. cbn zeta. fold vk. fold e0. rewrite K2. unfold pv_vovectorsize. rewrite EC. cbn [fst snd].
    replace (Z.to_nat (3 * Z.of_nat n)) with (3 * n)%nat by lia.
    rewrite E1. cbn [obind]. unfold vector_concat, zero_pad_and_concat, zero_pad. cbn [concat]. rewrite app_nil_r.
    assert (length (a ++ b ++ c) = 3 * n)%nat as Labc by (rewrite !app_length; lia). rewrite Labc.
    destruct (Nat.ltb_spec (3 * n) (3 * n)); [lia|]. cbn [obind]. rewrite Nat.sub_diag. cbn [repeat]. rewrite app_nil_r.
    cbn [app]. fold wv.
    rewrite (commit_vector_ok0 (d + 1) beta g wv) by lia. cbn [obind].
    rewrite sparse_zero_one_eq, E2. reflexivity. }
  unfold pv_prove. fold vk. rewrite R1. cbn [obind].
  unfold pv_unlucky. fold vk.
  set (s2 := mkPVS2 s1 _ _).
  assert (forall i, (1 <= i <= 3 * Z.of_nat n)%Z -> pv_r_den s2 i =
    coef (a ++ b ++ c) (Z.to_nat (i - 1)) + coef (pv_pk_sigma_vec pk) (Z.to_nat (i - 1)) * pv_zeta s2 + pv_zeta_1 s2) as Hden.
  { intros i Hi'.
    apply (pgood_den (mkPVS4 (mkPVS3 s2 [] 0) [] 0) (p_nmul cs) (p_nadd cs) (p_consts cs) a b c pos vals d0);
      rewrite <- ?EN; auto; try lia. }
  destruct (existsb (fun i => is_zero (pv_r_den s2 i)) (zrange (pv_r_len s2))) eqn:Eb.
  { right. exists s1, cw. split; auto. left. apply existsb_exists in Eb. destruct Eb as [i [Hin Hz]].
      unfold zrange in Hin. apply in_map_iff in Hin. destruct Hin as [j [<- Hj]]. apply in_seq in Hj.
      change (pv_r_len s2) with (3 * pv_cap_c_total e0)%Z in Hj. rewrite EC in Hj.
      destruct (is_zero_spec (pv_r_den s2 (Z.of_nat j))) as [Hz0|]; [|discriminate].
      rewrite Hden in Hz0 by lia. exists (Z.to_nat (Z.of_nat j - 1)). split; [|exact Hz0]. fold vk. rewrite K4. fold n. lia. }
  assert (forall i, (1 <= i <= 3 * pv_cap_c_total e0)%Z -> pv_r_den s2 i <> 0) as Hd0.
  { intros i Hi'. apply (pv_r_acc_inv s2 (accumulate_vector 1 (fun i => pv_r_num s2 i * finv (pv_r_den s2 i)) (pv_r_len s2) fmul)); auto.
    unfold pv_r_acc. now rewrite Eb. }
  set (r := accumulate_vector 1 (fun i => pv_r_num s2 i * finv (pv_r_den s2 i)) (pv_r_len s2) fmul ++ [d1]).
  assert (length r = 3 * n + 1)%nat as L5.
  { unfold r. rewrite app_length, accumulate_length. change (pv_r_len s2) with (3 * pv_cap_c_total e0)%Z. rewrite EC. cbn [length]. lia. }
  set (cr := vscale (peval r beta) g).
  assert (pv_round2 pk s2 [d1] = Ok (r, cr)) as R2.
  { unfold pv_round2, pv_r_acc. rewrite Eb, K2. cbn [obind]. unfold zero_pad_and_concat, zero_pad. rewrite accumulate_length.
    change (pv_vovectorsize s2) with (3 * pv_cap_c_total e0)%Z. change (pv_r_len s2) with (3 * pv_cap_c_total e0)%Z.
    destruct (Nat.ltb_spec (Z.to_nat (3 * pv_cap_c_total e0)) (Z.to_nat (3 * pv_cap_c_total e0))); [lia|]. cbn [obind].
    rewrite Nat.sub_diag. cbn [repeat concat app]. rewrite app_nil_r. change (3 * pv_cap_c_total e0)%Z with (pv_r_len s2) at 1. fold r.
    rewrite (commit_vector_ok0 (d + 1) beta g r) by lia. reflexivity. }
  rewrite R2. cbn [obind].
  set (s3 := mkPVS3 s2 r _).
  set (t1 := d2 :: pv_t_vec_1_tail s3).
  assert (Z.of_nat (length t1) = 3 * Z.of_nat n - Z.of_nat (p_nmul cs) + 3)%Z as L6.
  { unfold t1. cbn [length]. unfold pv_t_vec_1_tail. rewrite expression_vector_length.
    change (pv_maxshift s3) with (- pv_cap_c_m e0 + 3 * pv_cap_c_total e0)%Z. lia. }
  set (ct := vscale (peval t1 beta) g).
  assert (pv_round3 pk s3 [d2] = Ok (t1, ct)) as R3.
  { unfold pv_round3, vector_concat. cbn [concat app]. rewrite app_nil_r. fold t1. rewrite K2.
    change (pv_maxshift s3) with (- pv_cap_c_m e0 + 3 * pv_cap_c_total e0)%Z.
    rewrite (commit_vector_ok0 (d + 1) beta g t1) by lia. reflexivity. }
  rewrite R3. cbn [obind].
  set (om := pv_p_ch_omega H vk (pos, vals) cw cr ct).
  set (s4 := mkPVS4 s3 t1 om).
  destruct (feq_dec om 0) as [Eo|Ho].
  { right. exists s1, cw. split; auto. right. exists r, cr. split; auto. exists t1, ct. split; auto. }
  assert (pv_cap_c_total s4 = Z.of_nat n) as EC4 by exact EC.
  assert (pv_cap_c_a s4 = Z.of_nat (p_nadd cs)) as ECa4 by exact ECa.
  assert (pv_cap_c_m s4 = Z.of_nat (p_nmul cs)) as ECm4 by exact ECm.
  assert (pv_cap_d s4 = Z.of_nat (d + 1)) as ED4 by exact ED.
  assert (pv_hsizes s4) as HZ.
  { split; rewrite ?EC4, ?ECa4, ?ECm4; try lia.
    - change (pv_w_vec s4) with wv. lia.
    - change (pv_r_vec s4) with r. lia.
    - change (pv_t_vec_1 s4) with t1. lia. }
  assert (pv_sizes s4) as SZ.
  { destruct HZ. split; rewrite ?EC4, ?ECa4, ?ECm4; try lia.
    - change (pv_d_vec s4) with (pv_pk_d_vec pk). rewrite K6. lia.
    - change (pv_sigma_vec s4) with (pv_pk_sigma_vec pk). fold n in Ls. lia.
    - change (pv_x_vec s4) with xv. lia.
    - change (pv_t_vec s4) with tv. lia. }
  assert (pv_sat s4) as GD.
  { apply (sat_pv_sat s4 (p_nmul cs) (p_nadd cs) (p_consts cs) a b c (p_wires cs) pos vals
      d0 d1); rewrite <- ?EN; auto; try lia. }
  set (M := (6 * Z.of_nat n - Z.of_nat (p_nmul cs))%Z).
  assert (pv_maxshift s4 + pv_vovectorsize s4 = M)%Z as EM by (unfold pv_maxshift, pv_vovectorsize; lia).
  assert (length (pv_h_vec_1 s4) = Z.to_nat M) as LH1 by (rewrite <- EM; apply expression_vector_length).
  assert (length (pv_h_vec_2 s4) = Z.to_nat M) as LH2 by (rewrite <- EM; apply expression_vector_length).
  assert (exists ch1 ch2, pv_round4 pk s4 = Ok (ch1, ch2)) as [ch1 [ch2 R4]].
  { unfold pv_round4. rewrite K2, ED4.
    rewrite (commit_vector_ok (d + 1) beta g (pv_h_vec_1 s4)); [|lia|lia|].
    2:{ unfold voffset. rewrite LH1. destruct (Nat.ltb_spec (Z.to_nat (Z.of_nat (d + 1))) (Z.to_nat M)); lia. }
    cbn [obind]. rewrite EM. rewrite (commit_vector_ok0 (d + 1) beta g (pv_h_vec_2 s4)) by lia. cbn [obind]. eauto. }
  rewrite R4. cbn [obind].
  set (z := pv_p_ch_z H vk (pos, vals) cw cr ct ch1 ch2).
  set (q := pv_ctx_of s4 z).
  destruct (pv_divisors_cases q) as [[D1 [Hz [Hz1 [Hgz Hoz]]]]|[D1 D2]].
  2:{ right. exists s1, cw. split; auto. right. exists r, cr. split; auto. exists t1, ct. split; auto.
      right. exists ch1, ch2. split; auto. cbn zeta. destruct D2 as [D2|[D2|[D2|D2]]]; auto. }
  change (pv_q_z q) with z in *. change (pv_q_omega q) with om in *. change (pv_gamma q) with gamma in *.
  destruct (add_first_ok (pv_g_at s4 q) (pv_cap_d s4) (pv_p_c_22 q)) as [gv [EG [LG VG]]]; [lia|].
  assert (om / z <> 0) as Hoz0.
  { intros E. apply Ho. transitivity (om / z * z); [field; auto|rewrite E; ring]. }
  assert (peval gv z = 0) as G0.
  { apply (pv_g_zero s4 z gv SZ HZ GD); auto; try lia.
    - exists d2. reflexivity.
    - change (pv_omega s4) with om. change (pv_x0 s4) with pos. change (pv_t_vec s4) with tv.
      rewrite eval_sparse_zero_one_eq.
      destruct (eval_sparse_vector_ok (E:=error) (om / z) pos (map (fun _ => 1) pos) (3 * n) Hoz0 Hnd) as [tv' [Et' ->]].
      { intros i Hip. apply Hpos in Hip. lia. }
      rewrite E2 in Et'. injection Et' as <-. reflexivity.
    - change (pv_x0 s4) with pos. change (pv_x1 s4) with vals. change (pv_x_vec s4) with xv.
      destruct (eval_sparse_vector_ok (E:=error) z pos vals (3 * n) Hz Hnd) as [xv' [Ex' ->]].
      { intros i Hip. apply Hpos in Hip. lia. }
      rewrite E1 in Ex'. injection Ex' as <-. reflexivity. }
  assert (pv_round5 s4 z = Ok (q, gv)) as R5.
  { unfold pv_round5. fold q. rewrite D1. cbn [obind]. unfold pv_g_vec. rewrite EG. cbn [obind].
    rewrite check_poly_eval_ok by (now rewrite peval_strip). reflexivity. }
  rewrite R5. cbn [obind].
  change (pv_w_vec s4) with wv. rewrite K2.
  assert (2 <= length (strip r))%nat as Lr.
  { destruct (Nat.le_gt_cases 2 (length (strip r))) as [|Q]; auto. exfalso.
    assert (length (strip r) <= 1)%nat as Q1 by lia. rewrite strip_const in Q1.
    destruct GD as [_ _ _ _ _ G5]. specialize (G5 (3 * Z.of_nat n)%Z). unfold pv_k5 in G5.
    change (pv_r_vec s4) with r in G5. rewrite EC4 in G5.
    rewrite vidx_in in G5 by lia. rewrite Q1 in G5 by lia. unfold delta in G5. rewrite Z.eqb_refl in G5.
    apply (f1_neq_0 (F:=F)). transitivity (- (1 * (0 - 1)) : F); [ring|]. rewrite G5 by lia. ring. }
  destruct (le_dec (length (strip wv)) 1) as [Q|Qu].
  { right. exists s1, cw. split; auto. right. exists r, cr. split; auto. exists t1, ct. split; auto.
      right. exists ch1, ch2. split; auto. cbn zeta. do 4 right. left. change (pv_w_vec s1) with wv. now apply strip_const. }
  destruct (le_dec (length (strip gv)) 1) as [Q|Qg].
  { right. exists s1, cw. split; auto. right. exists r, cr. split; auto. exists t1, ct. split; auto.
      right. exists ch1, ch2. split; auto. cbn zeta. do 5 right. exists gv. split; auto. now apply (strip_const_root gv z). }
  left.
  match goal with |- exists pf, obind (batch_open ?P ?fs ?gs ?z1 ?z2 ?x1 ?x2) _ = _ =>
    destruct (batch_complete (d + 1) beta g h fs gs z1 z2 x1 x2 0) as [w1 [w2 [EW _]]] end; auto; [lia| |rewrite EW; cbn [obind]; eauto].
  intros f Hf. pose proof (strip_length wv). pose proof (strip_length r). pose proof (strip_length gv).
  cbn [app In] in Hf. destruct Hf as [<-|[<-|[<-|[]]]]; lia.
Qed.

Lemma pv_index_ok d beta (g : G1) (h : G2) pp cs :
  setup d beta g h = Ok pp -> gamma <> 0 -> pairs_below (3 * ps_n (pov_get_size cs)) (p_wires cs) ->
  (1 <= length (p_consts cs))%nat -> (6 * ps_n (pov_get_size cs) - p_nmul cs <= d)%nat ->
  exists pk vk, pv_index gamma pp cs = Ok (pk, vk).
Proof.
  intros Hs Hga Hb Hc Hd. destruct (kzg_vk_setup d beta g h pp Hs) as [Hd' [Hp Hv]].
  unfold pv_index. rewrite Hp, Hv, srs_length. unfold pv_get_max_degree.
  change (ps_nmul (pov_get_size cs)) with (p_nmul cs). change (ps_nadd (pov_get_size cs)) with (p_nadd cs).
  set (n := ps_n (pov_get_size cs)) in *.
  assert (n = length (p_consts cs) + p_nmul cs + p_nadd cs)%nat as EN by reflexivity.
  destruct (Nat.ltb_spec (Z.to_nat (- Z.of_nat (p_nmul cs) + 6 * Z.of_nat n)) (d + 1)); [|lia]. cbn [assert_ obind].
  replace (Z.to_nat (3 * Z.of_nat n)) with (3 * n)%nat by lia.
  rewrite pvw_ok by auto. cbn [obind].
  assert (length (map (fpow gamma) (idx (p_wires cs) (3 * n))) = 3 * n)%nat as L by now rewrite map_length, idx_length.
  rewrite commit_vector_ok0 by lia. cbn [obind].
  rewrite commit_vector_ok0 by lia. cbn [obind]. eauto.
Qed.
Lemma pv_index_no_consts d beta (g : G1) (h : G2) pp cs :
  setup d beta g h = Ok pp -> p_consts cs = [] -> pv_index gamma pp cs = Panic.
Proof.
  intros Hs Hc. destruct (kzg_vk_setup d beta g h pp Hs) as [Hd' [Hp Hv]].
  unfold pv_index. rewrite Hp, Hv, srs_length. cbn zeta. destruct (_ <? _)%nat; [|reflexivity]. cbn [assert_ obind].
  set (n := ps_n (pov_get_size cs)).
  destruct (pvw_cases (E:=error) gamma (p_wires cs) (Z.to_nat (3 * Z.of_nat n))) as [[sv ->]| ->]; cbn [obind]; [|reflexivity].
  destruct (commit_vector (srs (d + 1) beta g) sv _) as [c1|er|] eqn:E1; cbn [obind]; [| |reflexivity].
  - rewrite Hc. unfold commit_vector at 1. destruct (_ <? 0)%Z; [reflexivity|].
    rewrite c29_vector_commitment_empty. reflexivity.
  - exfalso. unfold commit_vector, unwrap in E1. destruct (_ <? 0)%Z; [discriminate|]. destruct (vector_to_commitment _ _ _); discriminate.
Qed.
End Run.
End PovTop.

(** PovPETop.v: the prover-efficient POV prover succeeds on satisfied circuits, except for unlucky
    challenges. *)
From Verif Require Import Base Spec Tools ToolsProofs ToolsProofs2 PermProofs CS KZG KZGProofs Properties_KZG
  Snark Laurent SnarkProofs SnarkPerm PovPE PovPEProofs PovPEConst PovPEGood PovPEComplete.
Local Open Scope F_scope.

Section PovPETop.
Context {F G1 G2 GT : Type} {fo : FieldOps F} {fl : FieldLaws F}
        {po : PairingOps F G1 G2 GT} {pl : PairingLaws F G1 G2 GT}.
Add Field Fpt : F_th.

(** the combined polynomial vanishes at z *)
Lemma pe_g_zero (e : pe_s4 F) z gv : pe_sizes e -> pe_good e ->
  (4 * pe_cap_c_total e + pe_cap_c_m e + 1 <= pe_cap_d e)%Z ->
  z <> 0 -> z <> 1 -> pe_gamma e * z <> 1 -> pe_omega e <> z -> pe_omega e <> 0 -> pe_gamma e <> 0 ->
  eval_sparse_zero_one_vector (pe_omega e / z) (pe_x0 e) = peval (pe_t_vec e) (pe_omega e / z) ->
  eval_sparse_vector z (pe_x0 e) (pe_x1 e) = peval (pe_x_vec e) z ->
  pe_g_vec e (pe_ctx_of e z) = Ok gv -> peval gv z = 0.
Proof.
  intros SZ G Hd Hz Hz1 Hgz Hoz Ho Hg Ht Hx HG.
  destruct (pe_g_value e _ gv SZ Hd HG) as [_ V]. rewrite V. clear V.
  pose proof (pe_LP e SZ z Hz Ho Hg Hz1 Hgz Hoz Ht Hx) as L.
  destruct SZ as [Sa Sm SC Sd Su Sv Sr Ss Sx St St1].
  apply LP_halves in L; auto; [|lia|now apply pe_hK_1; [split; auto|..]].
  assert (pe_maxshift e + pe_n e = 4 * pe_cap_c_total e + pe_cap_c_m e)%Z as EM by (unfold pe_maxshift, pe_n; lia).
  assert (pe_h_vec_1 e = expression_vector (fun i => pe_hK e (i - (4 * pe_cap_c_total e + pe_cap_c_m e))) (4 * pe_cap_c_total e + pe_cap_c_m e)) as E1.
  { unfold pe_h_vec_1. rewrite EM. unfold expression_vector. apply map_ext. intros i. rewrite pe_h1_hK, EM. reflexivity. }
  assert (pe_h_vec_2 e = expression_vector (fun i => pe_hK e (i + 1)) (4 * pe_cap_c_total e + pe_cap_c_m e)) as E2.
  { unfold pe_h_vec_2. rewrite EM. unfold expression_vector. apply map_ext. intros i. now rewrite pe_h2_hK. }
  rewrite <- E1, <- E2 in L. rewrite EM.
  set (q := pe_ctx_of e z) in *. assert (pe_p_c_25 q = - z) as -> by reflexivity.
  assert (pe_p_c_24 q * fpow z (Z.to_nat (pe_cap_d e - (4 * pe_cap_c_total e + pe_cap_c_m e)))
    = - fpowZ z (- (4 * pe_cap_c_total e + pe_cap_c_m e))) as E24.
  { change (pe_p_c_24 q) with (- power z (- pe_cap_d e)%Z). rewrite pw by auto. rewrite <- fpowZ_nonneg by lia.
    replace (- (4 * pe_cap_c_total e + pe_cap_c_m e))%Z with (- pe_cap_d e + (pe_cap_d e - (4 * pe_cap_c_total e + pe_cap_c_m e)))%Z by lia.
    rewrite (fpowZ_add z (- pe_cap_d e)) by auto. ring. }
  match goal with |- ?A + ?c * (?f * ?h) + _ + _ = 0 => replace (c * (f * h)) with ((c * f) * h) by ring end.
  rewrite E24.
  match goal with |- ?A = 0 => match type of L with ?x = ?y => transitivity (y - x); [ring|rewrite L; ring] end end.
Qed.

Lemma pe_divisors_cases (q : pe_ctx F) :
  (pe_divisors q = Ok tt /\ pe_q_z q <> 0 /\ pe_q_z q <> 1 /\ pe_gamma q * pe_q_z q <> 1 /\ pe_q_omega q <> pe_q_z q) \/
  (pe_divisors q = Panic /\ (pe_q_z q = 0 \/ pe_q_z q = 1 \/ pe_gamma q * pe_q_z q = 1 \/ pe_q_omega q = pe_q_z q)).
Proof.
  unfold pe_divisors. generalize (pe_q_z q), (pe_q_omega q), (pe_gamma q). intros z om ga.
  destruct (feq_dec z 0) as [->|Hz]; [right; rewrite nonzero_panic; auto|].
  destruct (feq_dec om z) as [->|Ho].
  { right. split; auto. rewrite nonzero_ok by auto. cbn [obind].
    replace (z * (z - 1 * z)) with (0 : F) by ring. now rewrite nonzero_panic. }
  assert (om - 1 * z <> 0) as H1 by (intros E; apply Ho, fsub_0_eq; rewrite <- E; ring).
  rewrite (nonzero_ok z), (nonzero_ok (z * _)), (nonzero_ok (om - 1 * z)) by auto using fmul_neq_0. cbn [obind].
  destruct (feq_dec z 1) as [->|Hz1].
  { right. replace (1 * (1 - 1) * (ga * 1 - 1)) with (0 : F) by ring. rewrite nonzero_panic. auto. }
  destruct (feq_dec (ga * z) 1) as [E|Hg].
  { right. rewrite E. replace (z * (1 - z) * (1 - 1)) with (0 : F) by ring. rewrite nonzero_panic. auto. }
  left. rewrite nonzero_ok; [auto|]. repeat apply fmul_neq_0; auto.
  - intros E. apply Hz1. symmetry. now apply fsub_0_eq.
  - intros E. now apply Hg, fsub_0_eq.
Qed.
Section Run.
Variable H : list (item F G1) -> F.
Variable gamma : F.

(** The events in which the prover aborts on a satisfied circuit: a denominator of the running
    product vanishes, a challenge is one of finitely many values, or a polynomial to be opened is
    constant (ark-poly cannot divide a constant polynomial). *)
Definition pe_unlucky (pk : pe_pk F G1 G2) (x : POVInstance (F:=F)) (w : POVWitness (F:=F)) (d0 d1 d2 d3 : F) : Prop :=
  let vk := pe_pk_verifier_key pk in
  exists s1 cu cv, pe_round1 gamma pk x w [d0] [d1] = Ok (s1, (cu, cv)) /\
  let zeta := pe_p_ch_zeta H vk x cu cv in
  let zeta_1 := pe_p_ch_zeta_1 H vk x cu cv in
  let s2 := mkPES2 s1 zeta zeta_1 in
  ((exists i, (i < 3 * ps_n (pe_vk_size vk))%nat /\
     coef (fst (fst w) ++ snd (fst w) ++ snd w) i + coef (pe_pk_sigma_vec pk) i * zeta + zeta_1 = 0) \/
   exists r cr, pe_round2 pk s2 [d2] = Ok (r, cr) /\
   let s3 := mkPES3 s2 r (pe_p_ch_alpha H vk x cu cv cr) in
   exists t1 ct, pe_round3 pk s3 [d3] = Ok (t1, ct) /\
   let omega := pe_p_ch_omega H vk x cu cv cr ct in
   let s4 := mkPES4 s3 t1 omega in
   (omega = 0 \/
    exists ch1 ch2, pe_round4 pk s4 = Ok (ch1, ch2) /\
    let z := pe_p_ch_z H vk x cu cv cr ct ch1 ch2 in
    (z = 0 \/ z = 1 \/ gamma * z = 1 \/ omega = z \/
     (forall i, (1 <= i)%nat -> coef (pe_u_vec s1) i = 0) \/
     exists gv, pe_g_vec s4 (pe_ctx_of s4 z) = Ok gv /\ forall i, coef gv i = 0))).

Theorem pe_complete d beta (g : G1) (h : G2) pp cs pk vk pos vals a b c d0 d1 d2 d3 :
  g <> v0 -> h <> v0 ->
  setup d beta g h = Ok pp -> pe_index gamma pp cs = Ok (pk, vk) ->
  length a = ps_n (pov_get_size cs) -> length b = ps_n (pov_get_size cs) -> length c = ps_n (pov_get_size cs) ->
  pov_holds (p_consts cs) (p_wires cs) (p_nmul cs) (p_nadd cs) pos vals a b c ->
  NoDup pos -> length pos = length vals ->
  (forall p, In p pos -> (p < 2 * ps_n (pov_get_size cs) + p_nmul cs + p_nadd cs)%nat) ->
  (exists pf, pe_prove H gamma pk (pos, vals) (a, b, c) d0 d1 d2 d3 = Ok pf /\
     forall rnd, pe_verify H gamma vk (pos, vals) pf rnd = Ok tt) \/
  (pe_prove H gamma pk (pos, vals) (a, b, c) d0 d1 d2 d3 = Panic /\ pe_unlucky pk (pos, vals) (a, b, c) d0 d1 d2 d3).
Proof.
  intros Hg Hh Hs Hi La Lb Lc Hsat Hnd Hlen Hpos.
  enough ((exists pf, pe_prove H gamma pk (pos, vals) (a, b, c) d0 d1 d2 d3 = Ok pf) \/
     (pe_prove H gamma pk (pos, vals) (a, b, c) d0 d1 d2 d3 = Panic /\ pe_unlucky pk (pos, vals) (a, b, c) d0 d1 d2 d3)) as [[pf P]|P].
  { left. exists pf. split; auto. intros rnd. eapply (pe_accepts H gamma d beta g h); eauto. }
  { now right. }
  destruct (pe_index_inv gamma _ _ _ _ _ _ _ _ Hs Hi) as
    [K1 [K2 [K3 [K4 [K5 [K6 [K7 [K8 [K9 [K10 K11]]]]]]]]]].
  destruct (pvw_length _ _ _ _ K7) as [Hga Ls].
  subst vk. set (vk := pe_pk_verifier_key pk) in *.
  set (n := ps_n (pov_get_size cs)) in *.
  assert (n = p_nmul cs + p_nadd cs + length (p_consts cs))%nat as EN by (unfold n, pov_get_size; cbn [ps_n]; lia).
  unfold pe_get_max_degree in K8. change (ps_nmul (pov_get_size cs)) with (p_nmul cs) in K8. fold n in K8.
  destruct (sparse_vector_ok (E:=error) pos vals (3 * n) Hnd) as [xv [E1 [L1 X1]]]; [intros i Hip; apply Hpos in Hip; lia|].
  destruct (sparse_vector_ok (E:=error) pos (map (fun _ => 1) pos) (3 * n) Hnd) as [tv [E2 [L2 X2]]]; [intros i Hip; apply Hpos in Hip; lia|].
  set (uv := (firstn (n - 0) (skipn 0 a) ++ firstn (p_nmul cs - 0) (skipn 0 b)) ++ repeat 0 (3 * n - (n + p_nmul cs)) ++ [d0]).
  set (vv := (firstn (n - p_nmul cs) (skipn (p_nmul cs) b) ++ firstn (p_nadd cs + p_nmul cs - 0) (skipn 0 c)) ++ repeat 0 (3 * n - (n + p_nadd cs)) ++ [d1]).
  assert (length uv = 3 * n + 1)%nat as L3.
  { unfold uv. rewrite !app_length, !slice_length, repeat_length by lia. cbn [length]. lia. }
  assert (length vv = 3 * n + 1)%nat as L4.
  { unfold vv. rewrite !app_length, !slice_length, repeat_length by lia. cbn [length]. lia. }
  set (e0 := pe_pub_of gamma vk (pos, vals)).
  assert (pe_cap_c_total e0 = Z.of_nat n) as EC by (cbn; now rewrite K4).
  assert (pe_cap_c_a e0 = Z.of_nat (p_nadd cs)) as ECa by (cbn; now rewrite K4).
  assert (pe_cap_c_m e0 = Z.of_nat (p_nmul cs)) as ECm by (cbn; now rewrite K4).
  assert (pe_cap_d e0 = Z.of_nat (d + 1)) as ED by (cbn; now rewrite K5).
  set (s1 := mkPES1 e0 (pe_pk_sigma_vec pk) (pe_pk_d_vec pk) xv tv uv vv).
  set (cu := vscale (peval uv beta) g). set (cv := vscale (peval vv beta) g).
  assert (pe_round1 gamma pk (pos, vals) (a, b, c) [d0] [d1] = Ok (s1, (cu, cv))) as R1.
  { unfold pe_round1. cbn zeta. fold vk. fold e0. rewrite K2. unfold pe_n. rewrite EC, ECa, ECm. cbn [fst snd].
    replace (Z.to_nat (3 * Z.of_nat n)) with (3 * n)%nat by lia.
    replace (Z.to_nat (Z.of_nat (p_nadd cs) + Z.of_nat (p_nmul cs))) with (p_nadd cs + p_nmul cs)%nat by lia.
    rewrite !Nat2Z.id. rewrite E1. cbn [obind]. unfold concat_subvec.
    destruct (Nat.ltb_spec n 0); [lia|]. destruct (Nat.ltb_spec (p_nmul cs) 0); [lia|]. cbn [obind].
    destruct (Nat.ltb_spec n (p_nmul cs)); [lia|]. destruct (Nat.ltb_spec (p_nadd cs + p_nmul cs) 0); [lia|]. cbn [obind].
    unfold zero_pad_and_concat, zero_pad. rewrite !app_length, !slice_length by lia.
    destruct (Nat.ltb_spec (3 * n) (n - 0 + (p_nmul cs - 0))); [lia|]. cbn [obind].
    replace (3 * n - (n - 0 + (p_nmul cs - 0)))%nat with (3 * n - (n + p_nmul cs))%nat by lia.
    rewrite <- (app_assoc _ (repeat 0 _)). cbn [concat app]. fold uv.
    rewrite (commit_vector_ok0 (d + 1) beta g uv) by lia. cbn [obind].
    destruct (Nat.ltb_spec (3 * n) (n - p_nmul cs + (p_nadd cs + p_nmul cs - 0))); [lia|]. cbn [obind].
    replace (3 * n - (n - p_nmul cs + (p_nadd cs + p_nmul cs - 0)))%nat with (3 * n - (n + p_nadd cs))%nat by lia.
    rewrite <- (app_assoc _ (repeat 0 (3 * n - (n + p_nadd cs)))). fold vv.
    rewrite (commit_vector_ok0 (d + 1) beta g vv) by lia. cbn [obind].
    rewrite sparse_zero_one_eq, E2. reflexivity. }
  unfold pe_prove. fold vk. rewrite R1. cbn [obind].
  unfold pe_unlucky. fold vk.
  set (s2 := mkPES2 s1 _ _).
  assert (forall i, (1 <= i <= 3 * Z.of_nat n)%Z -> pe_r_den s2 i =
    coef (a ++ b ++ c) (Z.to_nat (i - 1)) + coef (pe_pk_sigma_vec pk) (Z.to_nat (i - 1)) * pe_zeta s2 + pe_zeta_1 s2) as Hden.
  { intros i Hi'.
    apply (good_den (mkPES4 (mkPES3 s2 [] 0) [] 0) (p_nmul cs) (p_nadd cs) (p_consts cs) a b c (p_wires cs) pos vals
      d0 d1 (3 * n - (n + p_nmul cs)) (3 * n - (n + p_nadd cs))); rewrite <- ?EN; auto; try lia. }
  destruct (existsb (fun i => is_zero (pe_r_den s2 i)) (zrange (pe_r_len s2))) eqn:Eb.
  { right. split.
    - unfold pe_round2, pe_r_acc. now rewrite Eb.
    - exists s1, cu, cv. split; auto. left. apply existsb_exists in Eb. destruct Eb as [i [Hin Hz]].
      unfold zrange in Hin. apply in_map_iff in Hin. destruct Hin as [j [<- Hj]]. apply in_seq in Hj.
      change (pe_r_len s2) with (3 * pe_cap_c_total e0)%Z in Hj. rewrite EC in Hj.
      destruct (is_zero_spec (pe_r_den s2 (Z.of_nat j))) as [Hz0|]; [|discriminate].
      rewrite Hden in Hz0 by lia. exists (Z.to_nat (Z.of_nat j - 1)). split; [|exact Hz0]. fold vk. rewrite K4. fold n. lia. }
  assert (forall i, (1 <= i <= 3 * pe_cap_c_total e0)%Z -> pe_r_den s2 i <> 0) as Hd0.
  { intros i Hi'. apply (pe_r_acc_inv s2 (accumulate_vector 1 (fun i => pe_r_num s2 i * finv (pe_r_den s2 i)) (pe_r_len s2) fmul)); auto.
    unfold pe_r_acc. now rewrite Eb. }
  set (r := accumulate_vector 1 (fun i => pe_r_num s2 i * finv (pe_r_den s2 i)) (pe_r_len s2) fmul ++ [d2]).
  assert (length r = 3 * n + 1)%nat as L5.
  { unfold r. rewrite app_length, accumulate_length. change (pe_r_len s2) with (3 * pe_cap_c_total e0)%Z. rewrite EC. cbn [length]. lia. }
  set (cr := vscale (peval r beta) g).
  assert (pe_round2 pk s2 [d2] = Ok (r, cr)) as R2.
  { unfold pe_round2, pe_r_acc. rewrite Eb, K2. cbn [obind]. unfold zero_pad_and_concat, zero_pad. rewrite accumulate_length.
    change (pe_n s2) with (3 * pe_cap_c_total e0)%Z. change (pe_r_len s2) with (3 * pe_cap_c_total e0)%Z.
    destruct (Nat.ltb_spec (Z.to_nat (3 * pe_cap_c_total e0)) (Z.to_nat (3 * pe_cap_c_total e0))); [lia|]. cbn [obind].
    rewrite Nat.sub_diag. cbn [repeat concat app]. rewrite app_nil_r. change (3 * pe_cap_c_total e0)%Z with (pe_r_len s2) at 1. fold r.
    rewrite (commit_vector_ok0 (d + 1) beta g r) by lia. reflexivity. }
  rewrite R2. cbn [obind].
  set (s3 := mkPES3 s2 r _).
  set (t1 := d3 :: pe_t_vec_1_tail s3).
  assert (Z.of_nat (length t1) = Z.of_nat (p_nmul cs) + Z.of_nat n + 3)%Z as L6.
  { unfold t1. cbn [length]. unfold pe_t_vec_1_tail. rewrite expression_vector_length.
    change (pe_maxshift s3) with (pe_cap_c_m e0 + pe_cap_c_total e0)%Z. lia. }
  set (ct := vscale (peval t1 beta) g).
  assert (pe_round3 pk s3 [d3] = Ok (t1, ct)) as R3.
  { unfold pe_round3, vector_concat. cbn [concat app]. rewrite app_nil_r. fold t1. rewrite K2.
    change (pe_maxshift s3) with (pe_cap_c_m e0 + pe_cap_c_total e0)%Z.
    rewrite (commit_vector_ok0 (d + 1) beta g t1) by lia. reflexivity. }
  rewrite R3. cbn [obind].
  set (om := pe_p_ch_omega H vk (pos, vals) cu cv cr ct).
  set (s4 := mkPES4 s3 t1 om).
  destruct (feq_dec om 0) as [Eo|Ho].
  { right. split.
    - unfold pe_round4. cbn [pe_omega s4]. now rewrite Eo, nonzero_panic.
    - exists s1, cu, cv. split; auto. right. exists r, cr. split; auto. exists t1, ct. split; auto. }
  assert (pe_cap_c_total s4 = Z.of_nat n) as EC4 by exact EC.
  assert (pe_cap_c_a s4 = Z.of_nat (p_nadd cs)) as ECa4 by exact ECa.
  assert (pe_cap_c_m s4 = Z.of_nat (p_nmul cs)) as ECm4 by exact ECm.
  assert (pe_cap_d s4 = Z.of_nat (d + 1)) as ED4 by exact ED.
  assert (pe_sizes s4) as SZ.
  { split; rewrite ?EC4, ?ECa4, ?ECm4; try lia.
    - change (pe_d_vec s4) with (pe_pk_d_vec pk). rewrite K6. lia.
    - change (pe_u_vec s4) with uv. lia.
    - change (pe_v_vec s4) with vv. lia.
    - change (pe_r_vec s4) with r. lia.
    - change (pe_sigma_vec s4) with (pe_pk_sigma_vec pk). fold n in Ls. lia.
    - change (pe_x_vec s4) with xv. lia.
    - change (pe_t_vec s4) with tv. lia.
    - change (pe_t_vec_1 s4) with t1. lia. }
  assert (pe_good s4) as GD.
  { apply (sat_pe_good s4 (p_nmul cs) (p_nadd cs) (p_consts cs) a b c (p_wires cs) pos vals
      d0 d1 d2 d3 (3 * n - (n + p_nmul cs)) (3 * n - (n + p_nadd cs))); rewrite <- ?EN; auto; try lia. }
  set (M := (4 * Z.of_nat n + Z.of_nat (p_nmul cs))%Z).
  assert (pe_maxshift s4 + pe_n s4 = M)%Z as EM by (unfold pe_maxshift, pe_n; lia).
  assert (length (pe_h_vec_1 s4) = Z.to_nat M) as LH1 by (rewrite <- EM; apply expression_vector_length).
  assert (length (pe_h_vec_2 s4) = Z.to_nat M) as LH2 by (rewrite <- EM; apply expression_vector_length).
  assert (exists ch1 ch2, pe_round4 pk s4 = Ok (ch1, ch2)) as [ch1 [ch2 R4]].
  { unfold pe_round4. cbn [pe_omega s4]. rewrite nonzero_ok by auto. cbn [obind]. rewrite K2, ED4.
    rewrite (commit_vector_ok (d + 1) beta g (pe_h_vec_1 s4)); [|lia|lia|].
    2:{ unfold voffset. rewrite LH1. destruct (Nat.ltb_spec (Z.to_nat (Z.of_nat (d + 1))) (Z.to_nat M)); lia. }
    cbn [obind]. rewrite EM. rewrite (commit_vector_ok0 (d + 1) beta g (pe_h_vec_2 s4)) by lia. cbn [obind]. eauto. }
  rewrite R4. cbn [obind].
  set (z := pe_p_ch_z H vk (pos, vals) cu cv cr ct ch1 ch2).
  set (q := pe_ctx_of s4 z).
  destruct (pe_divisors_cases q) as [[D1 [Hz [Hz1 [Hgz Hoz]]]]|[D1 D2]].
  2:{ right. split; [unfold pe_round5; fold q; now rewrite D1|].
      exists s1, cu, cv. split; auto. right. exists r, cr. split; auto. exists t1, ct. split; auto.
      right. exists ch1, ch2. split; auto. cbn zeta. destruct D2 as [D2|[D2|[D2|D2]]]; auto. }
  change (pe_q_z q) with z in *. change (pe_q_omega q) with om in *. change (pe_gamma q) with gamma in *.
  destruct (add_first_ok (pe_g_at s4 q) (pe_cap_d s4) (pe_p_c_20 q)) as [gv [EG [LG VG]]]; [lia|].
  assert (om / z <> 0) as Hoz0.
  { intros E. apply Ho. transitivity (om / z * z); [field; auto|rewrite E; ring]. }
  assert (peval gv z = 0) as G0.
  { apply (pe_g_zero s4 z gv SZ GD); auto; try lia.
    - change (pe_omega s4) with om. change (pe_x0 s4) with pos. change (pe_t_vec s4) with tv.
      rewrite eval_sparse_zero_one_eq.
      destruct (eval_sparse_vector_ok (E:=error) (om / z) pos (map (fun _ => 1) pos) (3 * n) Hoz0 Hnd) as [tv' [Et' ->]].
      { intros i Hip. apply Hpos in Hip. lia. }
      rewrite E2 in Et'. injection Et' as <-. reflexivity.
    - change (pe_x0 s4) with pos. change (pe_x1 s4) with vals. change (pe_x_vec s4) with xv.
      destruct (eval_sparse_vector_ok (E:=error) z pos vals (3 * n) Hz Hnd) as [xv' [Ex' ->]].
      { intros i Hip. apply Hpos in Hip. lia. }
      rewrite E1 in Ex'. injection Ex' as <-. reflexivity. }
  assert (pe_round5 s4 z = Ok (q, gv)) as R5.
  { unfold pe_round5. fold q. rewrite D1. cbn [obind]. unfold pe_g_vec. rewrite EG. cbn [obind].
    rewrite check_poly_eval_ok by (now rewrite peval_strip). reflexivity. }
  rewrite R5. cbn [obind].
  change (pe_u_vec s4) with uv. rewrite K2.
  assert (2 <= length (strip r))%nat as Lr.
  { destruct (Nat.le_gt_cases 2 (length (strip r))) as [|Q]; auto. exfalso.
    assert (length (strip r) <= 1)%nat as Q1 by lia. rewrite strip_const in Q1.
    destruct GD as [_ _ _ _ G5 _]. change (pe_r_vec s4) with r in G5. rewrite EC4 in G5.
    rewrite vidx_in in G5 by lia. rewrite Q1 in G5 by lia. symmetry in G5. now apply f1_neq_0 in G5. }
  destruct (le_dec (length (strip uv)) 1) as [Q|Qu].
  { right. split.
    - rewrite batch_open_panic; [reflexivity|lia| |exists (strip uv); split; [now left|exact Q]].
      intros f Hf. pose proof (strip_length uv). pose proof (strip_length r). pose proof (strip_length gv).
      cbn [app In] in Hf. destruct Hf as [<-|[<-|[<-|[]]]]; lia.
    - exists s1, cu, cv. split; auto. right. exists r, cr. split; auto. exists t1, ct. split; auto.
      right. exists ch1, ch2. split; auto. cbn zeta. do 4 right. left. change (pe_u_vec s1) with uv. now apply strip_const. }
  destruct (le_dec (length (strip gv)) 1) as [Q|Qg].
  { right. split.
    - rewrite batch_open_panic; [reflexivity|lia| |exists (strip gv); split; [cbn [app In]; tauto|exact Q]].
      intros f Hf. pose proof (strip_length uv). pose proof (strip_length r). pose proof (strip_length gv).
      cbn [app In] in Hf. destruct Hf as [<-|[<-|[<-|[]]]]; lia.
    - exists s1, cu, cv. split; auto. right. exists r, cr. split; auto. exists t1, ct. split; auto.
      right. exists ch1, ch2. split; auto. cbn zeta. do 5 right. exists gv. split; auto. now apply (strip_const_root gv z). }
  left.
  match goal with |- exists pf, obind (batch_open ?P ?fs ?gs ?z1 ?z2 ?x1 ?x2) _ = _ =>
    destruct (batch_complete (d + 1) beta g h fs gs z1 z2 x1 x2 0) as [w1 [w2 [EW _]]] end; auto; [lia| |rewrite EW; cbn [obind]; eauto].
  intros f Hf. pose proof (strip_length uv). pose proof (strip_length r). pose proof (strip_length gv).
  cbn [app In] in Hf. destruct Hf as [<-|[<-|[<-|[]]]]; lia.
Qed.

Lemma pe_index_ok d beta (g : G1) (h : G2) pp cs :
  setup d beta g h = Ok pp -> gamma <> 0 -> pairs_below (3 * ps_n (pov_get_size cs)) (p_wires cs) ->
  (1 <= length (p_consts cs))%nat -> (p_nmul cs + 4 * ps_n (pov_get_size cs) <= d)%nat ->
  exists pk vk, pe_index gamma pp cs = Ok (pk, vk).
Proof.
  intros Hs Hga Hb Hc Hd. destruct (kzg_vk_setup d beta g h pp Hs) as [Hd' [Hp Hv]].
  unfold pe_index. rewrite Hp, Hv, srs_length. unfold pe_get_max_degree.
  change (ps_nmul (pov_get_size cs)) with (p_nmul cs). change (ps_nadd (pov_get_size cs)) with (p_nadd cs).
  set (n := ps_n (pov_get_size cs)) in *.
  assert (n = length (p_consts cs) + p_nmul cs + p_nadd cs)%nat as EN by reflexivity.
  destruct (Nat.ltb_spec (p_nmul cs + 4 * n) (d + 1)); [|lia]. cbn [assert_ obind].
  replace (Z.to_nat (3 * Z.of_nat n)) with (3 * n)%nat by lia.
  rewrite pvw_ok by auto. cbn [obind].
  assert (length (map (fpow gamma) (idx (p_wires cs) (3 * n))) = 3 * n)%nat as L by now rewrite map_length, idx_length.
  rewrite commit_vector_ok0 by lia. cbn [obind].
  rewrite commit_vector_ok0 by lia. cbn [obind]. eauto.
Qed.
Lemma pe_index_no_consts d beta (g : G1) (h : G2) pp cs :
  setup d beta g h = Ok pp -> p_consts cs = [] -> pe_index gamma pp cs = Panic.
Proof.
  intros Hs Hc. destruct (kzg_vk_setup d beta g h pp Hs) as [Hd' [Hp Hv]].
  unfold pe_index. rewrite Hp, Hv, srs_length. cbn zeta. destruct (_ <? _)%nat; [|reflexivity]. cbn [assert_ obind].
  set (n := ps_n (pov_get_size cs)).
  destruct (pvw_cases (E:=error) gamma (p_wires cs) (Z.to_nat (3 * Z.of_nat n))) as [[sv ->]| ->]; cbn [obind]; [|reflexivity].
  destruct (commit_vector (srs (d + 1) beta g) sv _) as [c1|er|] eqn:E1; cbn [obind]; [| |reflexivity].
  - rewrite Hc. unfold commit_vector at 1. destruct (_ <? 0)%Z; [reflexivity|].
    rewrite c29_vector_commitment_empty. reflexivity.
  - exfalso. unfold commit_vector, unwrap in E1. destruct (_ <? 0)%Z; [discriminate|]. destruct (vector_to_commitment _ _ _); discriminate.
Qed.
End Run.
End PovPETop.

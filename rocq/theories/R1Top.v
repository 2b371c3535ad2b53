(** R1Top.v: the R1CS prover succeeds on satisfied systems, except for unlucky challenges. *)
From Verif Require Import Base Spec Tools ToolsProofs MatProofs ToolsProofs2 CS CSProofs KZG KZGProofs Properties_KZG
  Snark Laurent SnarkProofs SnarkPerm PovPEComplete SparseSum R1 R1Proofs R1Const R1Good R1Complete.
Local Open Scope F_scope.

Section R1Top.
Context {F G1 G2 GT : Type} {fo : FieldOps F} {fl : FieldLaws F}
        {po : PairingOps F G1 G2 GT} {pl : PairingLaws F G1 G2 GT}.
Add Field Frt : F_th.

(** the combined polynomial vanishes at z *)
Lemma r1_g_zero (e : r1_s6 F) z gv : r1_sizes e -> r1_hsizes e -> r1_sat e ->
  (Z.of_nat (length (r1_x_vec e)) <= r1_cap_k e)%Z -> (4 * r1_cap_h e <= r1_vovectorsize e + 1)%Z ->
  (exists dl, r1_t_vec e = dl :: r1_t_vec_tail e) ->
  z <> 0 -> z <> 1 -> r1_gamma e * r1_omega e <> z -> r1_omega e <> z -> r1_omega e <> 0 -> r1_gamma e <> 0 ->
  r1_g_vec e (r1_ctx_of e z) = Ok gv -> peval gv z = 0.
Proof.
  intros SZ HZ G Hx H4 T1 Hz Hz1 Hgo Hoz Ho Hg HG.
  destruct (r1_g_value e _ gv HZ HG) as [_ V]. rewrite V. clear V.
  pose proof SZ as [A1 A2 A3 A4 A5 A6 A7 A8 A9 A10 A11 A12 A13]. pose proof HZ as [B1 B2 B3 B4 B5 B6 B7 B8 B9 B10 B11 B12 B13].
  set (M := (2 * r1_vovectorsize e - r1_cap_h e)%Z).
  assert (LP M (r1_hK e) z (r1_p_c_35 (r1_ctx_of e z) * peval (r1_s_vec e) z + r1_p_c_36 (r1_ctx_of e z) + r1_p_c_37 (r1_ctx_of e z) * peval (r1_h_vec e) z
   + r1_p_c_38 (r1_ctx_of e z) * peval (r1_w_vec e) z + r1_p_c_39 (r1_ctx_of e z) * peval (r1_u_vec e) z
   + r1_p_c_40 (r1_ctx_of e z) * peval (r1_y_vec e) z + r1_p_c_41 (r1_ctx_of e z) * peval (r1_u_vec_1 e) z
   + r1_p_c_42 (r1_ctx_of e z) * peval (r1_v_vec e) z + r1_p_c_43 (r1_ctx_of e z) * peval (r1_r_vec_tilde e) z
   + r1_p_c_44 (r1_ctx_of e z) * peval (r1_t_vec e) z)) as L.
  { unfold r1_maxshift, r1_vovectorsize in *.
    apply r1_LP; auto; try lia; cbn [r1_q_y r1_q_y_1 r1_ctx_of]; unfold r1_y, r1_y_1; rewrite eval_vidx; auto; unfold r1_vovectorsize; lia. }
  apply LP_halves in L; auto; [| unfold M, r1_vovectorsize in *; lia|].
  2:{ refine (CT_0 _ _ _ _ _ (r1_CT e SZ Ho Hg (M + 1) _ _ _)); unfold M, r1_vovectorsize in *; try lia.
      intros i Hi. apply (r1_br_0 e SZ G T1). lia. }
  assert (r1_maxshift e + r1_vovectorsize e = M)%Z as EM by (unfold M, r1_maxshift, r1_vovectorsize; lia).
  assert (r1_h_vec_2 e = expression_vector (fun i => r1_hK e (i - M)) M) as E1.
  { unfold r1_h_vec_2. rewrite EM. unfold expression_vector. apply map_ext. intros i. rewrite r1_h2_hK, EM. reflexivity. }
  assert (r1_h_vec_3 e = expression_vector (fun i => r1_hK e (i + 1)) M) as E2.
  { unfold r1_h_vec_3. rewrite EM. unfold expression_vector. apply map_ext. intros i. now rewrite r1_h3_hK. }
  rewrite <- E1, <- E2 in L. rewrite EM.
  set (q := r1_ctx_of e z) in *. assert (r1_p_c_46 q = - z) as -> by reflexivity.
  assert (r1_p_c_45 q * fpow z (Z.to_nat (r1_cap_d e - M)) = - fpowZ z (- M)) as E24.
  { change (r1_p_c_45 q) with (- power z (- r1_cap_d e)%Z). rewrite pw by auto. rewrite <- fpowZ_nonneg by lia.
    replace (- M)%Z with (- r1_cap_d e + (r1_cap_d e - M))%Z by lia.
    rewrite (fpowZ_add z (- r1_cap_d e)) by auto. ring. }
  match goal with |- ?A + ?c * (?f * ?h) + _ + _ = 0 => replace (c * (f * h)) with ((c * f) * h) by ring end.
  rewrite E24.
  match goal with |- ?A = 0 => match type of L with ?x = ?y => transitivity (y - x); [ring|rewrite L; ring] end end.
Qed.

Lemma r1_divisors_cases (q : r1_ctx F) :
  (r1_divisors q = Ok tt /\ r1_q_z q <> 0 /\ r1_q_z q <> 1 /\ r1_gamma q * r1_q_omega q <> r1_q_z q /\ r1_q_omega q <> r1_q_z q) \/
  (r1_divisors q = Panic /\ (r1_q_z q = 0 \/ r1_q_z q = 1 \/ r1_gamma q * r1_q_omega q = r1_q_z q \/ r1_q_omega q = r1_q_z q)).
Proof.
  unfold r1_divisors. generalize (r1_q_z q), (r1_q_omega q), (r1_gamma q). intros z om ga.
  destruct (feq_dec z 0) as [->|Hz]; [right; rewrite nonzero_panic; auto|].
  rewrite (nonzero_ok z) by auto. cbn [obind].
  destruct (feq_dec om z) as [->|Ho].
  { right. split; auto. replace ((z - 1 * z) * (ga * z - 1 * z)) with (0 : F) by ring. now rewrite nonzero_panic. }
  destruct (feq_dec (ga * om) z) as [E|Hg].
  { right. split; auto. rewrite E. replace ((om - 1 * z) * (z - 1 * z)) with (0 : F) by ring. now rewrite nonzero_panic. }
  assert (om - 1 * z <> 0) as H1 by (intros E; apply Ho, fsub_0_eq; rewrite <- E; ring).
  assert (ga * om - 1 * z <> 0) as H2 by (intros E; apply Hg, fsub_0_eq; rewrite <- E; ring).
  rewrite (nonzero_ok ((om - 1 * z) * (ga * om - 1 * z))), (nonzero_ok (om - 1 * z)) by auto using fmul_neq_0. cbn [obind].
  destruct (feq_dec z 1) as [->|Hz1].
  { right. split; auto. replace ((om - 1 * 1) * (1 - 1)) with (0 : F) by ring. now rewrite nonzero_panic. }
  left. split; auto. rewrite nonzero_ok; [reflexivity|]. apply fmul_neq_0; auto.
  intros E. apply Hz1. symmetry. now apply fsub_0_eq.
Qed.

(** the stacked matrix of a well shaped system *)
Lemma r1_stack_shape (cs : R1CS F) : r1_lengths cs -> r1cs_shape cs ->
  in_shape (entries_of (fst (fst (r1_stack cs))) (snd (fst (r1_stack cs))) (snd (r1_stack cs))) (3 * r_nrows cs) (r_ncols cs).
Proof.
  intros [A [B [C [D [X Y]]]]] [SA [SB SC]]. unfold r1_stack, concat_matrix_vertically. cbn [fst snd].
  rewrite !entries_of_app by (rewrite ?map_length; lia). rewrite !entries_of_map_rows.
  intros r c x Hin. apply in_app_or in Hin. destruct Hin as [Hin|Hin].
  { destruct (SA r c x Hin). lia. }
  apply in_app_or in Hin. destruct Hin as [Hin|Hin]; apply in_map_iff in Hin; destruct Hin as [[[r' c'] x'] [E Hin]]; injection E as <- <- <-.
  - destruct (SB r' c' x' Hin). lia.
  - destruct (SC r' c' x' Hin). lia.
Qed.
Lemma r1_stack_rows (cs : R1CS F) v r : r1_lengths cs -> r1cs_shape cs -> (r < r_nrows cs)%nat ->
  let M := entries_of (fst (fst (r1_stack cs))) (snd (fst (r1_stack cs))) (snd (r1_stack cs)) in
  mat_vec M (r_ncols cs) v r = mat_vec (entries_of (r_arows cs) (r_acols cs) (r_avals cs)) (r_ncols cs) v r /\
  mat_vec M (r_ncols cs) v (r + r_nrows cs) = mat_vec (entries_of (r_brows cs) (r_bcols cs) (r_bvals cs)) (r_ncols cs) v r /\
  mat_vec M (r_ncols cs) v (r + 2 * r_nrows cs) = mat_vec (entries_of (r_crows cs) (r_ccols cs) (r_cvals cs)) (r_ncols cs) v r.
Proof.
  intros [A [B [C [D [X Y]]]]] [SA [SB SC]] Hr M.
  assert (forall r' c, mat_at M r' c = if (r' <? r_nrows cs)%nat then mat_at (entries_of (r_arows cs) (r_acols cs) (r_avals cs)) r' c
    else if (r' <? 2 * r_nrows cs)%nat then mat_at (entries_of (r_brows cs) (r_bcols cs) (r_bvals cs)) (r' - r_nrows cs) c
    else mat_at (entries_of (r_crows cs) (r_ccols cs) (r_cvals cs)) (r' - 2 * r_nrows cs) c) as HM.
  { intros r' c. pose proof (vertical_at (r_nrows cs) (r_ncols cs) (r_arows cs) (r_brows cs) (r_crows cs) (r_acols cs) (r_bcols cs) (r_ccols cs)
      (r_avals cs) (r_bvals cs) (r_cvals cs) r' c) as V. apply V; auto; lia. }
  unfold mat_vec. split; [|split]; apply sumn_ext; intros c Hc; rewrite HM;
    repeat match goal with |- context [(?x <? ?y)%nat] => destruct (Nat.ltb_spec x y); try lia end; auto.
  - now replace (r + r_nrows cs - r_nrows cs)%nat with r by lia.
  - now replace (r + 2 * r_nrows cs - 2 * r_nrows cs)%nat with r by lia.
Qed.

Section Run.
Variable H : list (item F G1) -> F.
Variable gamma : F.

(** The events in which the prover may fail on a satisfied system: a challenge is one of finitely
    many values, or the combined polynomial is zero (ark-poly cannot divide a constant polynomial). *)
Definition r1_unlucky (pk : r1_pk F G1 G2) (x w : list F) (d0 d1 d2 : F) : Prop :=
  let vk := r1_pk_verifier_key pk in
  exists s1 cu, r1_round1 gamma pk x w [d0] = Ok (s1, cu) /\
  let mu := r1_p_ch_mu H vk x cu in
  ((exists i, (i < 3 * rs_nrows (r1_vk_size vk))%nat /\ mu = fpow gamma i) \/
   let s2 := mkR1S2 s1 mu in
   exists sv cms, r1_round2 pk s2 = Ok (sv, cms) /\
   let nu := r1_p_ch_nu H vk x cu cms in
   ((exists i, (i < rs_ncols (r1_vk_size vk))%nat /\ nu = fpow gamma i) \/
    let s3 := mkR1S3 s2 sv nu in
    exists hv cmh, r1_round3 pk s3 = Ok (hv, cmh) /\
    let s4 := mkR1S4 s3 hv (r1_p_ch_beta H vk x cu cms cmh) in
    exists rt cr, r1_round4 pk s4 [d1] = Ok (rt, cr) /\
    let s5 := mkR1S5 s4 rt (r1_p_ch_alpha H vk x cu cms cmh cr) in
    exists tv ct, r1_round5 pk s5 [d2] = Ok (tv, ct) /\
    let omega := r1_p_ch_omega H vk x cu cms cmh cr ct in
    let s6 := mkR1S6 s5 tv omega in
    (omega = 0 \/
     exists ch2 ch3, r1_round6 pk s6 = Ok (ch2, ch3) /\
     let z := r1_p_ch_z H vk x cu cms cmh cr ct ch2 ch3 in
     (z = 0 \/ z = 1 \/ gamma * omega = z \/ omega = z \/
      exists gv, r1_g_vec s6 (r1_ctx_of s6 z) = Ok gv /\ forall i, coef gv i = 0)))).

Theorem r1_complete d beta (g : G1) (h : G2) pp cs pk vk x w d0 d1 d2 :
  g <> v0 -> h <> v0 -> gamma <> 0 ->
  setup d beta g h = Ok pp -> r1_index gamma pp cs = Ok (pk, vk) ->
  (1 <= r_nrows cs)%nat -> (3 * r_nrows cs <= r1_nnz cs)%nat ->
  (4 * r_nrows cs <= r_ncols cs + r1_nnz cs + 1)%nat -> r1cs_shape cs ->
  (r_input_size cs + 1 <= r_ncols cs)%nat -> (1 + length x + length w = r_ncols cs)%nat ->
  (forall i, (length x <= i < r_input_size cs)%nat -> coef (x ++ w) i = 0) ->
  r1cs_holds (entries_of (r_arows cs) (r_acols cs) (r_avals cs)) (entries_of (r_brows cs) (r_bcols cs) (r_bvals cs))
             (entries_of (r_crows cs) (r_ccols cs) (r_cvals cs)) (r_nrows cs) (r_ncols cs) (1 :: x ++ w) ->
  (exists pf, r1_prove H gamma pk x w d0 d1 d2 = Ok pf /\
     forall rnd, r1_verify H gamma vk x pf rnd = Ok tt) \/
  r1_unlucky pk x w d0 d1 d2.
Proof.
  intros Hg Hh Hga Hs Hi Hr1 H3 H4 Hsh Lx Lk Hxw Hsat.
  enough ((exists pf, r1_prove H gamma pk x w d0 d1 d2 = Ok pf) \/ r1_unlucky pk x w d0 d1 d2) as [[pf P]|P].
  { left. exists pf. split; auto. intros rnd. eapply (r1_accepts H gamma d beta g h); eauto. }
  { now right. }
  destruct (r1_index_inv gamma _ _ _ _ _ _ _ _ Hs Hi) as
    [K1 K2 K3 K4 K5 KL K6 Ku Kw Kv Ky K8 K9 Cu Cw Cv Cy].
  destruct (r1_stack_len cs KL) as [LR [LC LV]].
  pose proof (r1_stack_shape cs KL Hsh) as MS.
  pose proof (fun r Hr => r1_stack_rows cs (1 :: x ++ w) r KL Hsh Hr) as MR. cbn zeta in MR.
  subst vk. set (vk := r1_pk_verifier_key pk) in *.
  set (rows := fst (fst (r1_stack cs))) in *. set (cols := snd (fst (r1_stack cs))) in *. set (vals := snd (r1_stack cs)) in *.
  set (M := entries_of rows cols vals) in *. set (zv := 1 :: x ++ w) in *.
  assert (length zv = r_ncols cs) as Lz by (unfold zv; cbn [length]; rewrite app_length; lia).
  assert (length (r1_pk_u_vec pk) = r1_nnz cs) as Lu by (rewrite Ku; now rewrite power_vector_length).
  assert (length (r1_pk_w_vec pk) = r1_nnz cs) as Lw by (rewrite Kw; now rewrite power_vector_length).
  assert (length (r1_pk_y_vec pk) = r1_nnz cs) as Ly by (rewrite Ky, hadamard_length, Lu, Lw; lia).
  set (nr := r_nrows cs) in *. set (nc := r_ncols cs) in *. set (nz := r1_nnz cs) in *.
  set (e0 := r1_pub_of gamma vk x).
  assert (r1_cap_h e0 = Z.of_nat nr) as EH by (cbn; now rewrite K4).
  assert (r1_cap_k e0 = Z.of_nat nc) as EK by (cbn; now rewrite K4).
  assert (r1_cap_s_a e0 = Z.of_nat (length (r_arows cs))) as ESa by (cbn; now rewrite K4).
  assert (r1_cap_s_b e0 = Z.of_nat (length (r_brows cs))) as ESb by (cbn; now rewrite K4).
  assert (r1_cap_s_c e0 = Z.of_nat (length (r_crows cs))) as ESc by (cbn; now rewrite K4).
  assert (r1_ell e0 = Z.of_nat (r_input_size cs)) as EL by (cbn; now rewrite K4).
  assert (r1_cap_d e0 = Z.of_nat (d + 1)) as ED by (cbn; now rewrite K5).
  assert (nz = length (r_arows cs) + length (r_brows cs) + length (r_crows cs))%nat as EN by reflexivity.
  assert (r1_vovectorsize e0 = Z.of_nat (nc + nz)) as EV by (unfold r1_vovectorsize; lia).
  assert (r1_ell_1 e0 = Z.of_nat nz) as EL1 by (unfold r1_ell_1; lia).
  assert (r1_maxshift e0 = Z.of_nat (nc + nz) - Z.of_nat nr)%Z as EMS by (unfold r1_maxshift; lia).
  (* round 1 *)
  set (mz := map (mat_vec M nc zv) (seq 0 (3 * nr))).
  assert (length mz = 3 * nr)%nat as Lmz by (unfold mz; now rewrite map_length, seq_length).
  set (u1 := (mz ++ zv ++ repeat 0 (nz - 3 * nr)) ++ [d0]).
  assert (length u1 = nc + nz + 1)%nat as L1.
  { unfold u1. rewrite !app_length, Lmz, Lz, repeat_length. cbn [length]. lia. }
  set (s1 := mkR1S1 e0 (r1_pk_u_vec pk) (r1_pk_w_vec pk) (r1_pk_v_vec pk) (r1_pk_y_vec pk) u1).
  set (cu := vscale (peval u1 beta) g).
  assert (r1_round1 gamma pk x w [d0] = Ok (s1, cu)) as R1.
  { unfold r1_round1. cbn zeta. fold vk. fold e0. rewrite K2, K6. rewrite (surjective_pairing (r1_stack cs)), (surjective_pairing (fst (r1_stack cs))).
    fold rows cols vals. change ([1] ++ x ++ w) with zv. rewrite EH, EK, EV.
    assert (sparse_mvp (E:=error) (3 * Z.of_nat nr) (Z.of_nat nc) rows cols vals zv = Ok mz) as ->.
    { apply sparse_mvp_iff. replace (Z.to_nat (3 * Z.of_nat nr)) with (3 * nr)%nat by lia. rewrite Nat2Z.id.
      split; [lia|]. split; [lia|]. split; [lia|]. split; [exact MS|reflexivity]. }
    cbn [obind]. unfold vector_concat, zero_pad_and_concat, zero_pad. cbn [concat]. rewrite app_nil_r, app_length, Lmz, Lz, Nat2Z.id.
    destruct (Nat.ltb_spec (nc + nz) (3 * nr + nc)); [lia|]. cbn [obind].
    replace (nc + nz - (3 * nr + nc))%nat with (nz - 3 * nr)%nat by lia. rewrite app_nil_r, <- (app_assoc mz). fold u1.
    rewrite (commit_vector_ok0 (d + 1) beta g u1) by lia. reflexivity. }
  unfold r1_prove. cbn zeta. fold vk. rewrite R1. cbn [obind].
  unfold r1_unlucky. fold vk. cbn zeta.
  set (mu := r1_p_ch_mu H vk x cu). set (s2 := mkR1S2 s1 mu).
  assert ((exists i, (i < 3 * nr)%nat /\ mu = fpow gamma i) \/ forall i, (i < 3 * nr)%nat -> mu <> fpow gamma i) as [Emu|Nmu].
  { clear - fl. generalize (3 * nr)%nat. intros n. induction n as [|n IH]; [right; intros; lia|].
    destruct IH as [[i [Hi E]]|IH]; [left; exists i; split; [lia|auto]|].
    destruct (feq_dec (F:=F) mu (fpow gamma n)) as [E|E]; [left; exists n; split; [lia|auto]|].
    right. intros i Hi. destruct (Nat.eq_dec i n) as [->|]; auto. apply IH. lia. }
  { right. exists s1, cu. split; auto. left. rewrite K4. exact Emu. }
  (* round 2 *)
  assert (length (r1_r_vec s2) = 3 * nr)%nat as Lrv.
  { unfold r1_r_vec. rewrite expression_vector_inverse_length. change (r1_cap_h s2) with (r1_cap_h e0). rewrite EH. lia. }
  set (cv := map (mat_vec (transpose M) (3 * nr) (r1_r_vec s2)) (seq 0 nc)).
  set (sv := concat_neg_vector (r1_r_vec s2) cv).
  assert (length sv = 3 * nr + nc)%nat as L2.
  { unfold sv, concat_neg_vector, cv. now rewrite app_length, !map_length, seq_length, Lrv. }
  set (cms := vscale (peval sv beta) g).
  assert (r1_round2 pk s2 = Ok (sv, cms)) as R2.
  { unfold r1_round2. rewrite K2, K6. change (r1_cap_h s2) with (r1_cap_h e0). change (r1_cap_k s2) with (r1_cap_k e0). rewrite EH, EK.
    assert (left_sparse_mvp (E:=error) (r1_stack cs) (r1_r_vec s2) (3 * Z.of_nat nr) (Z.of_nat nc) = Ok cv) as ->.
    { rewrite (surjective_pairing (r1_stack cs)), (surjective_pairing (fst (r1_stack cs))). fold rows cols vals.
      apply left_sparse_mvp_iff. replace (Z.to_nat (3 * Z.of_nat nr)) with (3 * nr)%nat by lia. rewrite Nat2Z.id.
      split; [lia|]. split; [lia|]. split; [lia|]. split; [|reflexivity].
      intros r c y Hin. apply in_map_iff in Hin. destruct Hin as [[[r' c'] y'] [E Hin]]. injection E as <- <- <-. destruct (MS r' c' y' Hin). auto. }
    cbn [obind]. fold sv. rewrite (commit_vector_ok0 (d + 1) beta g sv) by lia. reflexivity. }
  rewrite R2. cbn [obind].
  set (nu := r1_p_ch_nu H vk x cu cms). set (s3 := mkR1S3 s2 sv nu).
  assert ((exists i, (i < nc)%nat /\ nu = fpow gamma i) \/ forall i, (i < nc)%nat -> nu <> fpow gamma i) as [Enu|Nnu].
  { clear - fl. generalize nc. intros n. induction n as [|n IH]; [right; intros; lia|].
    destruct IH as [[i [Hi E]]|IH]; [left; exists i; split; [lia|auto]|].
    destruct (feq_dec (F:=F) nu (fpow gamma n)) as [E|E]; [left; exists n; split; [lia|auto]|].
    right. intros i Hi. destruct (Nat.eq_dec i n) as [->|]; auto. apply IH. lia. }
  { right. exists s1, cu. split; auto. right. exists sv, cms. split; auto. left. rewrite K4. exact Enu. }
  (* round 3 *)
  set (hv := r1_h_val s3).
  assert (length hv = nc + nz)%nat as L3.
  { unfold hv, r1_h_val, concat_uwinverse_vector. rewrite app_length, uwinverse_length. unfold r1_rnu_vec.
    rewrite expression_vector_inverse_length. change (r1_cap_k s3) with (r1_cap_k e0).
    change (r1_u_vec s3) with (r1_pk_u_vec pk). change (r1_w_vec s3) with (r1_pk_w_vec pk). rewrite EK, Lu, Lw. lia. }
  set (cmh := vscale (peval hv beta) g).
  assert (r1_round3 pk s3 = Ok (hv, cmh)) as R3.
  { unfold r1_round3. fold hv. rewrite K2. change (r1_cap_k s3) with (r1_cap_k e0). change (r1_ell_1 s3) with (r1_ell_1 e0). rewrite EK, EL1.
    rewrite (commit_vector_ok0 (d + 1) beta g hv) by lia. reflexivity. }
  rewrite R3. cbn [obind].
  set (s4 := mkR1S4 s3 hv _).
  (* round 4 *)
  set (rt := r1_r_acc s4 ++ [d1]).
  assert (length rt = nc + nz + 1)%nat as L4.
  { unfold rt, r1_r_acc. rewrite app_length, accumulate_length. unfold r1_r_vec_1. rewrite expression_vector_length.
    change (r1_vovectorsize s4) with (r1_vovectorsize e0). rewrite EV. cbn [length]. lia. }
  set (cr := vscale (peval rt beta) g).
  assert (r1_round4 pk s4 [d1] = Ok (rt, cr)) as R4.
  { unfold r1_round4, vector_concat. cbn [concat app]. fold rt. rewrite K2. change (r1_vovectorsize s4) with (r1_vovectorsize e0). rewrite EV.
    rewrite (commit_vector_ok0 (d + 1) beta g rt) by lia. reflexivity. }
  rewrite R4. cbn [obind].
  set (s5 := mkR1S5 s4 rt _).
  (* round 5 *)
  set (tv := d2 :: r1_t_vec_tail s5).
  assert (Z.of_nat (length tv) = Z.of_nat (nc + nz) - Z.of_nat nr + 3)%Z as L5.
  { unfold tv. cbn [length]. unfold r1_t_vec_tail. rewrite expression_vector_length.
    change (r1_maxshift s5) with (r1_maxshift e0). lia. }
  set (ct := vscale (peval tv beta) g).
  assert (r1_round5 pk s5 [d2] = Ok (tv, ct)) as R5.
  { unfold r1_round5, vector_concat. cbn [concat app]. rewrite app_nil_r. fold tv. rewrite K2.
    change (r1_maxshift s5) with (r1_maxshift e0).
    rewrite (commit_vector_ok0 (d + 1) beta g tv) by lia. reflexivity. }
  rewrite R5. cbn [obind].
  set (om := r1_p_ch_omega H vk x cu cms cmh cr ct).
  set (s6 := mkR1S6 s5 tv om).
  destruct (feq_dec om 0) as [Eo|Ho].
  { right. exists s1, cu. split; auto. right. exists sv, cms. split; auto. right. exists hv, cmh. split; auto.
    exists rt, cr. split; auto. exists tv, ct. split; auto. }
  assert (r1_cap_h s6 = Z.of_nat nr) as EH6 by exact EH.
  assert (r1_cap_k s6 = Z.of_nat nc) as EK6 by exact EK.
  assert (r1_cap_s_a s6 = Z.of_nat (length (r_arows cs))) as ESa6 by exact ESa.
  assert (r1_cap_s_b s6 = Z.of_nat (length (r_brows cs))) as ESb6 by exact ESb.
  assert (r1_cap_s_c s6 = Z.of_nat (length (r_crows cs))) as ESc6 by exact ESc.
  assert (r1_ell s6 = Z.of_nat (r_input_size cs)) as EL6 by exact EL.
  assert (r1_cap_d s6 = Z.of_nat (d + 1)) as ED6 by exact ED.
  assert (r1_vovectorsize s6 = Z.of_nat (nc + nz)) as EV6 by exact EV.
  assert (r1_maxshift s6 = Z.of_nat (nc + nz) - Z.of_nat nr)%Z as EMS6 by exact EMS.
  assert (length (r1_pk_v_vec pk) = nz) as Lvv by (rewrite Kv; exact LV).
  assert (r1_hsizes s6) as HZ.
  { split; rewrite ?EV6, ?EMS6, ?EH6, ?EK6, ?ESa6, ?ESb6, ?ESc6, ?ED6; try lia.
    - change (r1_u_vec s6) with (r1_pk_u_vec pk). lia.
    - change (r1_w_vec s6) with (r1_pk_w_vec pk). lia.
    - change (r1_v_vec s6) with (r1_pk_v_vec pk). lia.
    - change (r1_y_vec s6) with (r1_pk_y_vec pk). lia.
    - change (r1_u_vec_1 s6) with u1. lia.
    - change (r1_s_vec s6) with sv. lia.
    - change (r1_h_vec s6) with hv. lia.
    - change (r1_r_vec_tilde s6) with rt. lia.
    - change (r1_t_vec s6) with tv. lia. }
  assert (r1_sizes s6) as SZ.
  { destruct HZ. rewrite ?EV6, ?EMS6 in *. split; rewrite ?EL6, ?EK6, ?ESa6, ?ESb6, ?ESc6 in *; lia. }
  assert (r1_sat s6) as GD.
  { apply (sat_r1_sat s6 nr nc (length (r_arows cs)) (length (r_brows cs)) (length (r_crows cs)) (r_input_size cs) rows cols vals zv d0 d1);
      auto; try lia.
    - intros i Hi'. unfold zv. destruct i as [|i]; [reflexivity|].
      change (coef (1 :: x ++ w) (S i)) with (coef (x ++ w) i). change (r1_x_vec s6) with x. change (coef (1 :: x) (S i)) with (coef x i).
      destruct (Nat.lt_ge_cases i (length x)) as [Hix|Hix].
      { rewrite coef_app. destruct (Nat.ltb_spec i (length x)); [reflexivity|lia]. }
      rewrite Hxw by lia. unfold coef. now rewrite nth_overflow by lia.
    - intros r Hr. destruct (MR r Hr) as [X1 [X2 X3]]. fold M. rewrite X1, X2, X3. now apply Hsat. }
  set (N := (2 * Z.of_nat (nc + nz) - Z.of_nat nr)%Z).
  assert (r1_maxshift s6 + r1_vovectorsize s6 = N)%Z as EM by (rewrite EMS6, EV6; lia).
  assert (length (r1_h_vec_2 s6) = Z.to_nat N) as LH1 by (rewrite <- EM; apply expression_vector_length).
  assert (length (r1_h_vec_3 s6) = Z.to_nat N) as LH2 by (rewrite <- EM; apply expression_vector_length).
  assert (exists ch2 ch3, r1_round6 pk s6 = Ok (ch2, ch3)) as [ch2 [ch3 R6]].
  { unfold r1_round6. rewrite K2, ED6. change (r1_gamma s6) with gamma. change (r1_omega s6) with om.
    rewrite nonzero_ok by now apply fmul_neq_0. cbn [obind].
    rewrite (commit_vector_ok (d + 1) beta g (r1_h_vec_2 s6)); [|lia|lia|].
    2:{ unfold voffset. rewrite LH1. destruct (Nat.ltb_spec (Z.to_nat (Z.of_nat (d + 1))) (Z.to_nat N)); lia. }
    cbn [obind]. rewrite EM. rewrite (commit_vector_ok0 (d + 1) beta g (r1_h_vec_3 s6)) by lia. cbn [obind]. eauto. }
  rewrite R6. cbn [obind].
  set (z := r1_p_ch_z H vk x cu cms cmh cr ct ch2 ch3).
  set (q := r1_ctx_of s6 z).
  destruct (r1_divisors_cases q) as [[D1 [Hz [Hz1 [Hgo Hoz]]]]|[D1 D2]].
  2:{ right. exists s1, cu. split; auto. right. exists sv, cms. split; auto. right. exists hv, cmh. split; auto.
      exists rt, cr. split; auto. exists tv, ct. split; auto.
      right. exists ch2, ch3. split; auto. fold z. destruct D2 as [D2|[D2|[D2|D2]]]; auto. }
  change (r1_q_z q) with z in *. change (r1_q_omega q) with om in *. change (r1_gamma q) with gamma in *.
  destruct (add_first_ok (r1_g_at s6 q) (r1_cap_d s6) (r1_p_c_36 q)) as [gv [EG [LG VG]]]; [lia|].
  assert (peval gv z = 0) as G0.
  { apply (r1_g_zero s6 z gv SZ HZ GD); auto; [change (r1_x_vec s6) with x; lia|lia|]. exists d2. reflexivity. }
  assert (r1_round7 s6 z = Ok (q, gv)) as R7.
  { unfold r1_round7. fold q. rewrite D1. cbn [obind]. unfold r1_g_vec. rewrite EG. cbn [obind].
    rewrite check_poly_eval_ok by (now rewrite peval_strip). reflexivity. }
  rewrite R7. cbn [obind].
  change (r1_u_vec_1 s6) with u1. rewrite K2.
  assert (2 <= length (strip u1))%nat as Lu1.
  { destruct (Nat.le_gt_cases 2 (length (strip u1))) as [|Q]; auto. exfalso.
    assert (length (strip u1) <= 1)%nat as Q1 by lia. rewrite strip_const in Q1.
    specialize (Q1 (3 * nr)%nat). unfold u1 in Q1. rewrite !coef_app, !app_length, Lmz, Lz, repeat_length in Q1.
    destruct (Nat.ltb_spec (3 * nr) (3 * nr + (nc + (nz - 3 * nr)))); [|lia].
    destruct (Nat.ltb_spec (3 * nr) (3 * nr)); [lia|]. rewrite Nat.sub_diag in Q1.
    destruct (Nat.ltb_spec 0 nc); [|lia]. apply (f1_neq_0 (F:=F)). apply Q1. lia. }
  assert (2 <= length (strip hv))%nat as Lhv.
  { destruct (Nat.le_gt_cases 2 (length (strip hv))) as [|Q]; auto. exfalso.
    assert (length (strip hv) <= 1)%nat as Q1 by lia. rewrite strip_const in Q1.
    destruct GD as [_ _ _ G4 _ _ _ _]. specialize (G4 (Z.of_nat nc + 1)%Z). rewrite EK6, ESa6, ESb6, ESc6 in G4.
    unfold r1_k4 in G4. change (r1_h_vec s6) with hv in G4.
    rewrite EK6, ESa6, ESb6, ESc6, (vidx_coef hv _ nc), Q1 in G4 by lia.
    rewrite !PovPEConst.range_in in G4 by lia. apply (f1_neq_0 (F:=F)).
    match type of G4 with _ -> ?a = 0 => transitivity (- a); [ring|rewrite G4 by lia; ring] end. }
  destruct (le_dec (length (strip gv)) 1) as [Q|Qg].
  { right. exists s1, cu. split; auto. right. exists sv, cms. split; auto. right. exists hv, cmh. split; auto.
      exists rt, cr. split; auto. exists tv, ct. split; auto.
      right. exists ch2, ch3. split; auto. fold z. do 4 right. exists gv. split; auto. now apply (strip_const_root gv z). }
  left.
  match goal with |- exists pf, obind (batch_open ?P ?fs ?gs ?z1 ?z2 ?x1 ?x2) _ = _ =>
    destruct (batch_complete (d + 1) beta g h fs gs z1 z2 x1 x2 0) as [w1 [w2 [EW _]]] end; auto; [lia| |rewrite EW; cbn [obind]; eauto].
  intros f Hf. pose proof (strip_length u1). pose proof (strip_length hv). pose proof (strip_length gv).
  cbn [app In] in Hf. destruct Hf as [<-|[<-|[<-|[]]]]; lia.
Qed.

Lemma r1_index_ok d beta (g : G1) (h : G2) pp cs :
  setup d beta g h = Ok pp -> r1_lengths cs -> (1 <= r1_nnz cs)%nat ->
  (r_nrows cs <= 2 * r_ncols cs + 2 * r1_nnz cs)%nat -> (2 * r_ncols cs + 2 * r1_nnz cs - r_nrows cs <= d)%nat ->
  (r1_nnz cs <= d + 1)%nat ->
  exists pk vk, r1_index gamma pp cs = Ok (pk, vk).
Proof.
  intros Hs HL Hn Hpos Hd Hnd. destruct (kzg_vk_setup d beta g h pp Hs) as [Hd' [Hp Hv]].
  destruct (r1_stack_len cs HL) as [LR [LC LV]].
  unfold r1_index. rewrite Hp, Hv, srs_length, r1_get_size_ok by auto. cbn [obind]. unfold r1_get_max_degree.
  cbn [rs_nrows rs_ncols rs_adensity rs_bdensity rs_cdensity r1_size_of].
  assert (r1_nnz cs = length (r_arows cs) + length (r_brows cs) + length (r_crows cs))%nat as EN by reflexivity.
  match goal with |- context [(?a <? 0)%Z] => destruct (Z.ltb_spec a 0)%Z; [lia|] end.
  match goal with |- context [(?a <? ?b)%nat] => destruct (Nat.ltb_spec a b); [|lia] end. cbn [assert_ obind].
  fold (r1_stack cs).
  assert (forall v : list F, length v = r1_nnz cs -> commit_vector (srs (d + 1) beta g) v
    (Z.of_nat (length (r_arows cs)) + Z.of_nat (length (r_brows cs)) + Z.of_nat (length (r_crows cs))) = Ok (vscale (peval v beta) g)) as Hc.
  { intros v L. apply commit_vector_ok0; lia. }
  rewrite !Hc; rewrite ?hadamard_length, ?power_vector_length, ?LR, ?LC; auto; try lia. cbn [obind]. eauto.
Qed.
(** fewer than three matrix entries per row on average: no assignment can be proved *)
Lemma r1_sparse_panic d beta (g : G1) (h : G2) pp cs pk vk x w d0 d1 d2 :
  setup d beta g h = Ok pp -> r1_index gamma pp cs = Ok (pk, vk) ->
  (r1_nnz cs < 3 * r_nrows cs)%nat -> r1_prove H gamma pk x w d0 d1 d2 = Panic.
Proof.
  intros Hs Hi Hn. destruct (r1_index_inv gamma _ _ _ _ _ _ _ _ Hs Hi) as
    [K1 K2 K3 K4 K5 KL K6 Ku Kw Kv Ky K8 K9 Cu Cw Cv Cy].
  unfold r1_prove. cbn zeta. unfold r1_round1. cbn zeta. rewrite K1, K6.
  rewrite (surjective_pairing (r1_stack cs)), (surjective_pairing (fst (r1_stack cs))).
  match goal with |- context [sparse_mvp ?a ?b ?r ?c ?v ?z] => destruct (sparse_mvp (E:=error) a b r c v z) as [mz|er|] eqn:E end;
    [|exfalso; eapply sparse_mvp_no_err; eauto|reflexivity].
  apply sparse_mvp_iff in E. destruct E as [Hh [Hk [Lz [_ E]]]].
  cbn [r1_pub_of r1_cap_h r1_cap_k] in *. rewrite K4 in *. cbn [rs_nrows rs_ncols r1_size_of] in *.
  cbn [obind]. unfold zero_pad_and_concat, zero_pad, vector_concat. cbn [concat]. rewrite app_nil_r, app_length.
  assert (length mz = 3 * r_nrows cs)%nat as Lm by (rewrite E, map_length, seq_length; lia). rewrite Lm.
  match goal with |- context [(?a <? ?b)%nat] => destruct (Nat.ltb_spec a b) as [|Hc] end; [reflexivity|]. exfalso.
  unfold r1_vovectorsize in Hc. cbn [r1_pub_of r1_cap_k r1_cap_s_a r1_cap_s_b r1_cap_s_c] in Hc. rewrite K4 in Hc.
  cbn [rs_ncols rs_adensity rs_bdensity rs_cdensity r1_size_of] in Hc. unfold r1_nnz in Hn. lia.
Qed.
(** an assignment of the wrong length panics *)
Lemma r1_length_panic d beta (g : G1) (h : G2) pp cs pk vk x w d0 d1 d2 :
  setup d beta g h = Ok pp -> r1_index gamma pp cs = Ok (pk, vk) ->
  (1 + length x + length w <> r_ncols cs)%nat -> r1_prove H gamma pk x w d0 d1 d2 = Panic.
Proof.
  intros Hs Hi Hn. destruct (r1_index_inv gamma _ _ _ _ _ _ _ _ Hs Hi) as
    [K1 K2 K3 K4 K5 KL K6 Ku Kw Kv Ky K8 K9 Cu Cw Cv Cy].
  unfold r1_prove. cbn zeta. unfold r1_round1. cbn zeta. rewrite K1, K6.
  rewrite (surjective_pairing (r1_stack cs)), (surjective_pairing (fst (r1_stack cs))).
  match goal with |- context [sparse_mvp ?a ?b ?r ?c ?v ?z] => destruct (sparse_mvp (E:=error) a b r c v z) as [mz|er|] eqn:E end;
    [|exfalso; eapply sparse_mvp_no_err; eauto|reflexivity].
  exfalso. apply sparse_mvp_iff in E. destruct E as [Hh [Hk [Lz [_ E]]]].
  cbn [r1_pub_of r1_cap_h r1_cap_k] in *. rewrite K4 in *. cbn [rs_nrows rs_ncols r1_size_of] in *.
  cbn [length app] in Lz. rewrite app_length in Lz. lia.
Qed.
End Run.
End R1Top.

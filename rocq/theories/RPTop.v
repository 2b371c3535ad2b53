(** RPTop.v: the prover-efficient R1CS prover succeeds on satisfied systems, except for unlucky challenges. *)
From Verif Require Import Base Spec Tools ToolsProofs MatProofs ToolsProofs2 CS CSProofs KZG KZGProofs Properties_KZG
  Snark Laurent SnarkProofs SnarkPerm PovPEConst PovPEComplete SparseSum R1Complete RP RPProofs RPConst RPGood RPComplete.
Local Open Scope F_scope.

Section RPTop.
Context {F G1 G2 GT : Type} {fo : FieldOps F} {fl : FieldLaws F}
        {po : PairingOps F G1 G2 GT} {pl : PairingLaws F G1 G2 GT}.
Add Field Frt : F_th.

(** the combined polynomial vanishes at z *)
Lemma rp_g_zero (e : rp_s6 F) z gv : rp_sizes e -> rp_hsizes e -> rp_sat e ->
  (Z.of_nat (length (rp_x_vec e)) <= 2 * rp_cap_h e + rp_n e)%Z -> (rp_ell e + 1 <= 2 * rp_cap_h e)%Z ->
  (exists dl, rp_t_vec_1 e = dl :: rp_t_vec_1_tail e) ->
  z <> 0 -> z <> 1 -> rp_gamma e * rp_omega e <> z -> rp_omega e <> z -> rp_omega e <> 0 -> rp_gamma e <> 0 ->
  rp_g_vec e (rp_ctx_of e z) = Ok gv -> peval gv z = 0.
Proof.
  intros SZ HZ G Hx Hl T1 Hz Hz1 Hgo Hoz Ho Hg HG.
  destruct (rp_g_value e _ gv HZ HG) as [_ V]. rewrite V. clear V.
  pose proof SZ as [A1 A2 A3 A4 A5 A6 A7 A8 A9 A10 A11 A12 A13 A14 A15].
  pose proof HZ as [B1 B2 B3 B4 B5 B6 B7 B8 B9 B10 B11 B12 B13 B14 B15 B16 B17].
  unfold rp_n, rp_maxshift in *.
  set (M := (2 * rp_cap_h e + (rp_cap_s_a e + rp_cap_s_b e + rp_cap_s_c e))%Z).
  assert (LP M (rp_hK e) z (rp_p_c_36 (rp_ctx_of e z) * peval (rp_r_vec e) z + rp_p_c_37 (rp_ctx_of e z) + rp_p_c_38 (rp_ctx_of e z) * peval (rp_rnu_vec e) z
   + rp_p_c_39 (rp_ctx_of e z) * peval (rp_c_vec e) z + rp_p_c_40 (rp_ctx_of e z) * peval (rp_w_vec e) z
   + rp_p_c_41 (rp_ctx_of e z) * peval (rp_u_vec e) z + rp_p_c_42 (rp_ctx_of e z) * peval (rp_y_vec e) z
   + rp_p_c_43 (rp_ctx_of e z) * peval (rp_y_vec_1 e) z + rp_p_c_44 (rp_ctx_of e z) * peval (rp_wit_vec e) z
   + rp_p_c_45 (rp_ctx_of e z) * peval (rp_v_vec e) z + rp_p_c_46 (rp_ctx_of e z) * peval (rp_r_vec_tilde e) z
   + rp_p_c_47 (rp_ctx_of e z) * peval (rp_t_vec_1 e) z)) as L.
  { unfold M.
    apply rp_LP; auto; try lia; cbn [rp_q_y rp_q_y_1 rp_q_y_2 rp_ctx_of]; unfold rp_y, rp_y_1, rp_y_2; rewrite eval_vidx; auto; unfold rp_n, rp_ell_1; lia. }
  apply LP_halves in L; auto; [| unfold M in *; lia|].
  2:{ refine (CT_0 _ _ _ _ _ (rp_CT e SZ Ho Hg (M + 1) _ _ _ _)); unfold M in *; try lia.
      intros i Hi. apply (rp_br_0 e SZ G T1). lia. }
  assert (rp_maxshift e + rp_n e = M)%Z as EM by (unfold M, rp_maxshift, rp_n; lia).
  assert (rp_h_vec_1 e = expression_vector (fun i => rp_hK e (i - M)) M) as E1.
  { unfold rp_h_vec_1. rewrite EM. unfold expression_vector. apply map_ext. intros i. rewrite rp_h1_hK, EM. reflexivity. }
  assert (rp_h_vec_2 e = expression_vector (fun i => rp_hK e (i + 1)) M) as E2.
  { unfold rp_h_vec_2. rewrite EM. unfold expression_vector. apply map_ext. intros i. now rewrite rp_h2_hK. }
  rewrite <- E1, <- E2 in L. fold M.
  set (q := rp_ctx_of e z) in *. assert (rp_p_c_49 q = - z) as -> by reflexivity.
  assert (rp_p_c_48 q * fpow z (Z.to_nat (rp_cap_d e - M)) = - fpowZ z (- M)) as E24.
  { change (rp_p_c_48 q) with (- power z (- rp_cap_d e)%Z). rewrite pw by auto. rewrite <- fpowZ_nonneg by lia.
    replace (- M)%Z with (- rp_cap_d e + (rp_cap_d e - M))%Z by lia.
    rewrite (fpowZ_add z (- rp_cap_d e)) by auto. ring. }
  match goal with |- ?A + ?c * (?f * ?h) + _ + _ = 0 => replace (c * (f * h)) with ((c * f) * h) by ring end.
  rewrite E24.
  match goal with |- ?A = 0 => match type of L with ?x = ?y => transitivity (y - x); [ring|rewrite L; ring] end end.
Qed.

Lemma rp_divisors_cases (q : rp_ctx F) :
  (rp_divisors q = Ok tt /\ rp_q_z q <> 0 /\ rp_q_z q <> 1 /\ rp_gamma q * rp_q_omega q <> rp_q_z q /\ rp_q_omega q <> rp_q_z q) \/
  (rp_divisors q = Panic /\ (rp_q_z q = 0 \/ rp_q_z q = 1 \/ rp_gamma q * rp_q_omega q = rp_q_z q \/ rp_q_omega q = rp_q_z q)).
Proof.
  unfold rp_divisors. generalize (rp_q_z q), (rp_q_omega q), (rp_gamma q). intros z om ga.
  destruct (feq_dec z 0) as [->|Hz]; [right; rewrite nonzero_panic; auto|].
  rewrite (nonzero_ok z) by auto. cbn [obind].
  destruct (feq_dec om z) as [->|Ho].
  { right. split; auto. replace ((z - 1 * z) * (ga * z - 1 * z)) with (0 : F) by ring. now rewrite nonzero_panic. }
  destruct (feq_dec (ga * om) z) as [E|Hg].
  { right. split; auto. rewrite E. replace ((om - 1 * z) * (z - 1 * z)) with (0 : F) by ring. now rewrite nonzero_panic. }
  assert (om - 1 * z <> 0) as H1 by (intros E; apply Ho, fsub_0_eq; rewrite <- E; ring).
  assert (ga * om - 1 * z <> 0) as H2 by (intros E; apply Hg, fsub_0_eq; rewrite <- E; ring).
  assert (- om + 1 * z <> 0) as H3 by (intros E; apply H1; transitivity (- (- om + 1 * z)); [ring|rewrite E; ring]).
  rewrite !(nonzero_ok ((om - 1 * z) * (ga * om - 1 * z))), (nonzero_ok (om - 1 * z)), (nonzero_ok (- om + 1 * z)) by auto using fmul_neq_0. cbn [obind].
  destruct (feq_dec z 1) as [->|Hz1].
  { right. split; auto. replace ((om - 1 * 1) * (1 - 1)) with (0 : F) by ring. now rewrite nonzero_panic. }
  left. split; auto. rewrite nonzero_ok; [reflexivity|]. apply fmul_neq_0; auto.
  intros E. apply Hz1. symmetry. now apply fsub_0_eq.
Qed.

(** the stacked matrix of a well shaped system *)
Lemma rp_stack_shape (cs : R1CS F) : r1_lengths cs -> r1cs_shape cs ->
  in_shape (entries_of (fst (fst (rp_stack cs))) (snd (fst (rp_stack cs))) (snd (rp_stack cs))) (3 * r_nrows cs) (r_ncols cs).
Proof.
  intros [A [B [C [D [X Y]]]]] [SA [SB SC]]. unfold rp_stack, concat_matrix_vertically. cbn [fst snd].
  rewrite !entries_of_app by (rewrite ?map_length; lia). rewrite !entries_of_map_rows.
  intros r c x Hin. apply in_app_or in Hin. destruct Hin as [Hin|Hin].
  { destruct (SA r c x Hin). lia. }
  apply in_app_or in Hin. destruct Hin as [Hin|Hin]; apply in_map_iff in Hin; destruct Hin as [[[r' c'] x'] [E Hin]]; injection E as <- <- <-.
  - destruct (SC r' c' x' Hin). lia.
  - destruct (SB r' c' x' Hin). lia.
Qed.
Lemma rp_stack_rows (cs : R1CS F) v r : r1_lengths cs -> r1cs_shape cs -> (r < r_nrows cs)%nat ->
  let M := entries_of (fst (fst (rp_stack cs))) (snd (fst (rp_stack cs))) (snd (rp_stack cs)) in
  mat_vec M (r_ncols cs) v r = mat_vec (entries_of (r_arows cs) (r_acols cs) (r_avals cs)) (r_ncols cs) v r /\
  mat_vec M (r_ncols cs) v (r + r_nrows cs) = mat_vec (entries_of (r_crows cs) (r_ccols cs) (r_cvals cs)) (r_ncols cs) v r /\
  mat_vec M (r_ncols cs) v (r + 2 * r_nrows cs) = mat_vec (entries_of (r_brows cs) (r_bcols cs) (r_bvals cs)) (r_ncols cs) v r.
Proof.
  intros [A [B [C [D [X Y]]]]] [SA [SB SC]] Hr M.
  assert (forall r' c, mat_at M r' c = if (r' <? r_nrows cs)%nat then mat_at (entries_of (r_arows cs) (r_acols cs) (r_avals cs)) r' c
    else if (r' <? 2 * r_nrows cs)%nat then mat_at (entries_of (r_crows cs) (r_ccols cs) (r_cvals cs)) (r' - r_nrows cs) c
    else mat_at (entries_of (r_brows cs) (r_bcols cs) (r_bvals cs)) (r' - 2 * r_nrows cs) c) as HM.
  { intros r' c. pose proof (vertical_at (r_nrows cs) (r_ncols cs) (r_arows cs) (r_crows cs) (r_brows cs) (r_acols cs) (r_ccols cs) (r_bcols cs)
      (r_avals cs) (r_cvals cs) (r_bvals cs) r' c) as V. apply V; auto; lia. }
  unfold mat_vec. split; [|split]; apply sumn_ext; intros c Hc; rewrite HM;
    repeat match goal with |- context [(?x <? ?y)%nat] => destruct (Nat.ltb_spec x y); try lia end; auto.
  - now replace (r + r_nrows cs - r_nrows cs)%nat with r by lia.
  - now replace (r + 2 * r_nrows cs - 2 * r_nrows cs)%nat with r by lia.
Qed.

Section Run.
Variable H : list (item F G1) -> F.
Variable gamma : F.

(** the vector is a constant polynomial: only its first entry may be nonzero *)
Definition constant_vec (v : list F) : Prop := forall i, (1 <= i)%nat -> coef v i = 0.

(** The events in which the prover may fail on a satisfied system: a challenge is one of finitely
    many values, or one of the opened polynomials is constant (ark-poly cannot divide those). *)
Definition rp_unlucky (pk : rp_pk F G1 G2) (x w : list F) (d0 d1 d2 d3 : F) : Prop :=
  let vk := rp_pk_verifier_key pk in
  exists s1 cy cw, rp_round1 gamma pk x w [d0] [d1] = Ok (s1, cy, cw) /\
  let mu := rp_p_ch_mu H vk x cy cw in
  (constant_vec (rp_y_vec_1 s1) \/
   (exists i, (i < 3 * rs_nrows (rp_vk_size vk))%nat /\ mu = fpow gamma i) \/
   let s2 := mkRPS2 s1 mu in
   exists rv cv crv ccv, rp_round2 pk s2 = Ok (rv, cv, crv, ccv) /\
   let nu := rp_p_ch_nu H vk x cy cw crv ccv in
   (constant_vec cv \/
    (exists i, (i < rs_ncols (rp_vk_size vk))%nat /\ nu = fpow gamma i) \/
    let s3 := mkRPS3 s2 rv cv nu in
    exists nv tv cnu ctv, rp_round3 pk s3 = Ok (nv, tv, cnu, ctv) /\
    let s4 := mkRPS4 s3 nv tv (rp_p_ch_beta H vk x cy cw crv ccv cnu ctv) in
    exists rt crt, rp_round4 pk s4 [d2] = Ok (rt, crt) /\
    let s5 := mkRPS5 s4 rt (rp_p_ch_alpha H vk x cy cw crv ccv cnu ctv crt) in
    exists t1 ct1, rp_round5 pk s5 [d3] = Ok (t1, ct1) /\
    let omega := rp_p_ch_omega H vk x cy cw crv ccv cnu ctv crt ct1 in
    let s6 := mkRPS6 s5 t1 omega in
    (omega = 0 \/
     exists ch1 ch2, rp_round6 pk s6 = Ok (ch1, ch2) /\
     let z := rp_p_ch_z H vk x cy cw crv ccv cnu ctv crt ct1 ch1 ch2 in
     (z = 0 \/ z = 1 \/ gamma * omega = z \/ omega = z \/
      exists gv, rp_g_vec s6 (rp_ctx_of s6 z) = Ok gv /\ forall i, coef gv i = 0)))).

Lemma strip_cases (v : list F) : (2 <= length (strip v))%nat \/ constant_vec v.
Proof.
  destruct (Nat.le_gt_cases 2 (length (strip v))) as [|Q]; [now left|]. right.
  assert (length (strip v) <= 1)%nat as Q1 by lia. rewrite strip_const in Q1. intros i Hi. apply Q1. lia.
Qed.
Lemma power_cases (mu : F) n :
  (exists i, (i < n)%nat /\ mu = fpow gamma i) \/ forall i, (i < n)%nat -> mu <> fpow gamma i.
Proof.
  induction n as [|n IH]; [right; intros; lia|].
  destruct IH as [[i [Hi E]]|IH]; [left; exists i; split; [lia|auto]|].
  destruct (feq_dec (F:=F) mu (fpow gamma n)) as [E|E]; [left; exists n; split; [lia|auto]|].
  right. intros i Hi. destruct (Nat.eq_dec i n) as [->|]; auto. apply IH. lia.
Qed.

Theorem rp_complete d beta (g : G1) (h : G2) pp cs pk vk x w d0 d1 d2 d3 :
  g <> v0 -> h <> v0 -> gamma <> 0 ->
  setup d beta g h = Ok pp -> rp_index gamma pp cs = Ok (pk, vk) ->
  (1 <= r_nrows cs)%nat -> (3 * r_nrows cs <= r1_nnz cs)%nat -> (r_ncols cs <= r1_nnz cs)%nat ->
  (r_input_size cs + 1 <= 2 * r_nrows cs)%nat -> r1cs_shape cs ->
  (r_input_size cs + 1 <= r_ncols cs)%nat -> (1 + length x + length w = r_ncols cs)%nat ->
  (length x = r_input_size cs \/ forall i, coef w i = 0) ->
  r1cs_holds (entries_of (r_arows cs) (r_acols cs) (r_avals cs)) (entries_of (r_brows cs) (r_bcols cs) (r_bvals cs))
             (entries_of (r_crows cs) (r_ccols cs) (r_cvals cs)) (r_nrows cs) (r_ncols cs) (1 :: x ++ w) ->
  (exists pf, rp_prove H gamma pk x w d0 d1 d2 d3 = Ok pf /\
     forall rnd, rp_verify H gamma vk x pf rnd = Ok tt) \/
  rp_unlucky pk x w d0 d1 d2 d3.
Proof.
  intros Hg Hh Hga Hs Hi Hr1 H3 Hkn Hl2 Hsh Hlk Lk Lx Hsat.
  enough ((exists pf, rp_prove H gamma pk x w d0 d1 d2 d3 = Ok pf) \/ rp_unlucky pk x w d0 d1 d2 d3) as [[pf P]|P].
  { left. exists pf. split; auto. intros rnd. eapply (rp_accepts H gamma d beta g h); eauto. }
  { now right. }
  destruct (rp_index_inv gamma _ _ _ _ _ _ _ _ Hs Hi) as
    [K1 K2 K3 K4 K5 KL K6 Ku Kw Kv Ky K8 K9 Cu Cw Cv Cy].
  destruct (rp_stack_len cs KL) as [LR [LC LV]].
  pose proof (rp_stack_shape cs KL Hsh) as MS.
  pose proof (fun r Hr => rp_stack_rows cs (1 :: x ++ w) r KL Hsh Hr) as MR. cbn zeta in MR.
  subst vk. set (vk := rp_pk_verifier_key pk) in *.
  set (rows := fst (fst (rp_stack cs))) in *. set (cols := snd (fst (rp_stack cs))) in *. set (vals := snd (rp_stack cs)) in *.
  set (M := entries_of rows cols vals) in *. set (zv := 1 :: x ++ w) in *.
  assert (length zv = r_ncols cs) as Lz by (unfold zv; cbn [length]; rewrite app_length; lia).
  assert (length (rp_pk_u_vec pk) = r1_nnz cs) as Lu by (rewrite Ku; now rewrite power_vector_length).
  assert (length (rp_pk_w_vec pk) = r1_nnz cs) as Lw by (rewrite Kw; now rewrite power_vector_length).
  assert (length (rp_pk_y_vec pk) = r1_nnz cs) as Ly by (rewrite Ky, hadamard_length, Lu, Lw; lia).
  set (nr := r_nrows cs) in *. set (nc := r_ncols cs) in *. set (nz := r1_nnz cs) in *.
  set (e0 := rp_pub_of gamma vk x).
  assert (rp_cap_h e0 = Z.of_nat nr) as EH by (cbn; now rewrite K4).
  assert (rp_cap_k e0 = Z.of_nat nc) as EK by (cbn; now rewrite K4).
  assert (rp_cap_s_a e0 = Z.of_nat (length (r_arows cs))) as ESa by (cbn; now rewrite K4).
  assert (rp_cap_s_b e0 = Z.of_nat (length (r_brows cs))) as ESb by (cbn; now rewrite K4).
  assert (rp_cap_s_c e0 = Z.of_nat (length (r_crows cs))) as ESc by (cbn; now rewrite K4).
  assert (rp_ell e0 = Z.of_nat (r_input_size cs)) as EL by (cbn; now rewrite K4).
  assert (rp_cap_d e0 = Z.of_nat (d + 1)) as ED by (cbn; now rewrite K5).
  assert (nz = length (r_arows cs) + length (r_brows cs) + length (r_crows cs))%nat as EN by reflexivity.
  assert (rp_n e0 = Z.of_nat nz) as EV by (unfold rp_n; lia).
  assert (rp_ell_1 e0 = Z.of_nat nz) as EL1 by (unfold rp_ell_1; lia).
  assert (rp_maxshift e0 = 2 * Z.of_nat nr)%Z as EMS by (unfold rp_maxshift; lia).
  (* round 1 *)
  set (mz := map (mat_vec M nc zv) (seq 0 (3 * nr))).
  assert (length mz = 3 * nr)%nat as Lmz by (unfold mz; now rewrite map_length, seq_length).
  set (y1 := mz ++ repeat 0 (nz - 3 * nr) ++ [d0]).
  assert (length y1 = nz + 1)%nat as L1.
  { unfold y1. rewrite !app_length, Lmz, repeat_length. cbn [length]. lia. }
  set (wv := w ++ repeat 0 (nz - length w) ++ [d1]).
  assert (length wv = nz + 1)%nat as L1'.
  { unfold wv. rewrite !app_length, repeat_length. cbn [length]. lia. }
  set (s1 := mkRPS1 e0 (rp_pk_u_vec pk) (rp_pk_w_vec pk) (rp_pk_v_vec pk) (rp_pk_y_vec pk) y1 wv).
  set (cy := vscale (peval y1 beta) g). set (cw := vscale (peval wv beta) g).
  assert (rp_round1 gamma pk x w [d0] [d1] = Ok (s1, cy, cw)) as R1.
  { unfold rp_round1. cbn zeta. fold vk. fold e0. rewrite K2, K6. rewrite (surjective_pairing (rp_stack cs)), (surjective_pairing (fst (rp_stack cs))).
    fold rows cols vals. change ([1] ++ x ++ w) with zv. rewrite EH, EK, EV.
    assert (sparse_mvp (E:=error) (3 * Z.of_nat nr) (Z.of_nat nc) rows cols vals zv = Ok mz) as ->.
    { apply sparse_mvp_iff. replace (Z.to_nat (3 * Z.of_nat nr)) with (3 * nr)%nat by lia. rewrite Nat2Z.id.
      split; [lia|]. split; [lia|]. split; [lia|]. split; [exact MS|reflexivity]. }
    cbn [obind]. unfold zero_pad_and_concat, zero_pad, vector_concat. cbn [concat]. rewrite Lmz, Nat2Z.id.
    destruct (Nat.ltb_spec nz (3 * nr)); [lia|]. cbn [obind]. destruct (Nat.ltb_spec nz (length w)); [lia|]. cbn [obind].
    rewrite !app_nil_r, <- !(app_assoc). fold y1 wv.
    rewrite (commit_vector_ok0 (d + 1) beta g y1) by lia. cbn [obind].
    rewrite (commit_vector_ok0 (d + 1) beta g wv) by lia. reflexivity. }
  unfold rp_prove. cbn zeta. fold vk. rewrite R1. cbn [obind].
  unfold rp_unlucky. fold vk. cbn zeta.
  set (mu := rp_p_ch_mu H vk x cy cw). set (s2 := mkRPS2 s1 mu).
  destruct (strip_cases y1) as [Ly1|Ly1]; [|right; exists s1, cy, cw; split; auto].
  destruct (power_cases mu (3 * nr)) as [Emu|Nmu].
  { right. exists s1, cy, cw. split; auto. right. left. rewrite K4. exact Emu. }
  (* round 2 *)
  assert (length (rp_r_val s2) = 3 * nr)%nat as Lrv.
  { unfold rp_r_val. rewrite expression_vector_inverse_length. change (rp_cap_h s2) with (rp_cap_h e0). rewrite EH. lia. }
  set (rv := rp_r_val s2) in *.
  set (cv := map (mat_vec (transpose M) (3 * nr) rv) (seq 0 nc)).
  assert (length cv = nc)%nat as Lcv by (unfold cv; now rewrite map_length, seq_length).
  set (crv := vscale (peval rv beta) g). set (ccv := vscale (peval cv beta) g).
  assert (rp_round2 pk s2 = Ok (rv, cv, crv, ccv)) as R2.
  { unfold rp_round2. rewrite K2, K6. change (rp_cap_h s2) with (rp_cap_h e0). change (rp_cap_k s2) with (rp_cap_k e0). rewrite EH, EK. fold rv.
    assert (left_sparse_mvp (E:=error) (rp_stack cs) rv (3 * Z.of_nat nr) (Z.of_nat nc) = Ok cv) as ->.
    { rewrite (surjective_pairing (rp_stack cs)), (surjective_pairing (fst (rp_stack cs))). fold rows cols vals.
      apply left_sparse_mvp_iff. replace (Z.to_nat (3 * Z.of_nat nr)) with (3 * nr)%nat by lia. rewrite Nat2Z.id.
      split; [lia|]. split; [lia|]. split; [lia|]. split; [|reflexivity].
      intros r c y Hin. apply in_map_iff in Hin. destruct Hin as [[[r' c'] y'] [E Hin]]. injection E as <- <- <-. destruct (MS r' c' y' Hin). auto. }
    cbn [obind]. rewrite (commit_vector_ok0 (d + 1) beta g rv) by lia. cbn [obind].
    rewrite (commit_vector_ok0 (d + 1) beta g cv) by lia. reflexivity. }
  rewrite R2. cbn [obind].
  set (nu := rp_p_ch_nu H vk x cy cw crv ccv). set (s3 := mkRPS3 s2 rv cv nu).
  destruct (strip_cases cv) as [Lc1|Lc1].
  2:{ right. exists s1, cy, cw. split; auto. right. right. exists rv, cv, crv, ccv. split; auto. }
  destruct (power_cases nu nc) as [Enu|Nnu].
  { right. exists s1, cy, cw. split; auto. right. right. exists rv, cv, crv, ccv. split; auto. right. left. rewrite K4. exact Enu. }
  (* round 3 *)
  set (nv := rp_rnu_val s3). set (tv := rp_t_val s3).
  assert (length nv = nc)%nat as Lnv.
  { unfold nv, rp_rnu_val. rewrite expression_vector_inverse_length. change (rp_cap_k s3) with (rp_cap_k e0). rewrite EK. lia. }
  assert (length tv = nz)%nat as Ltv.
  { unfold tv, rp_t_val. rewrite uwinverse_length. change (rp_u_vec s3) with (rp_pk_u_vec pk). change (rp_w_vec s3) with (rp_pk_w_vec pk).
    rewrite Lu, Lw. lia. }
  set (cnu := vscale (peval nv beta) g). set (ctv := vscale (peval tv beta) g).
  assert (rp_round3 pk s3 = Ok (nv, tv, cnu, ctv)) as R3.
  { unfold rp_round3. fold nv tv. rewrite K2. change (rp_cap_k s3) with (rp_cap_k e0). change (rp_ell_1 s3) with (rp_ell_1 e0). rewrite EK, EL1.
    rewrite (commit_vector_ok0 (d + 1) beta g nv) by lia. cbn [obind]. rewrite (commit_vector_ok0 (d + 1) beta g tv) by lia. reflexivity. }
  rewrite R3. cbn [obind].
  set (s4 := mkRPS4 s3 nv tv _).
  (* round 4 *)
  set (rt := rp_r_acc s4 ++ [d2]).
  assert (length rt = nz + 1)%nat as L4.
  { unfold rt, rp_r_acc. rewrite app_length, accumulate_length. unfold rp_r_vec_1. rewrite expression_vector_length.
    change (rp_n s4) with (rp_n e0). rewrite EV. cbn [length]. lia. }
  set (crt := vscale (peval rt beta) g).
  assert (rp_round4 pk s4 [d2] = Ok (rt, crt)) as R4.
  { unfold rp_round4, vector_concat. cbn [concat app]. fold rt. rewrite K2. change (rp_n s4) with (rp_n e0). rewrite EV.
    rewrite (commit_vector_ok0 (d + 1) beta g rt) by lia. reflexivity. }
  rewrite R4. cbn [obind].
  set (s5 := mkRPS5 s4 rt _).
  (* round 5 *)
  set (t1 := d3 :: rp_t_vec_1_tail s5).
  assert (Z.of_nat (length t1) = 2 * Z.of_nat nr + 3)%Z as L5.
  { unfold t1. cbn [length]. unfold rp_t_vec_1_tail. rewrite expression_vector_length.
    change (rp_maxshift s5) with (rp_maxshift e0). lia. }
  set (ct1 := vscale (peval t1 beta) g).
  assert (rp_round5 pk s5 [d3] = Ok (t1, ct1)) as R5.
  { unfold rp_round5, vector_concat. cbn [concat app]. rewrite app_nil_r. fold t1. rewrite K2.
    change (rp_maxshift s5) with (rp_maxshift e0).
    rewrite (commit_vector_ok0 (d + 1) beta g t1) by lia. reflexivity. }
  rewrite R5. cbn [obind].
  set (om := rp_p_ch_omega H vk x cy cw crv ccv cnu ctv crt ct1).
  set (s6 := mkRPS6 s5 t1 om).
  destruct (feq_dec om 0) as [Eo|Ho].
  { right. exists s1, cy, cw. split; auto. right. right. exists rv, cv, crv, ccv. split; auto. right. right. exists nv, tv, cnu, ctv. split; auto.
    exists rt, crt. split; auto. exists t1, ct1. split; auto. }
  assert (rp_cap_h s6 = Z.of_nat nr) as EH6 by exact EH.
  assert (rp_cap_k s6 = Z.of_nat nc) as EK6 by exact EK.
  assert (rp_cap_s_a s6 = Z.of_nat (length (r_arows cs))) as ESa6 by exact ESa.
  assert (rp_cap_s_b s6 = Z.of_nat (length (r_brows cs))) as ESb6 by exact ESb.
  assert (rp_cap_s_c s6 = Z.of_nat (length (r_crows cs))) as ESc6 by exact ESc.
  assert (rp_ell s6 = Z.of_nat (r_input_size cs)) as EL6 by exact EL.
  assert (rp_cap_d s6 = Z.of_nat (d + 1)) as ED6 by exact ED.
  assert (rp_n s6 = Z.of_nat nz) as EV6 by exact EV.
  assert (rp_maxshift s6 = 2 * Z.of_nat nr)%Z as EMS6 by exact EMS.
  assert (length (rp_pk_v_vec pk) = nz) as Lvv by (rewrite Kv; exact LV).
  assert (rp_hsizes s6) as HZ.
  { split; rewrite ?EV6, ?EMS6, ?EH6, ?EK6, ?ESa6, ?ESb6, ?ESc6, ?ED6; try lia.
    - change (rp_u_vec s6) with (rp_pk_u_vec pk). lia.
    - change (rp_w_vec s6) with (rp_pk_w_vec pk). lia.
    - change (rp_v_vec s6) with (rp_pk_v_vec pk). lia.
    - change (rp_y_vec s6) with (rp_pk_y_vec pk). lia.
    - change (rp_y_vec_1 s6) with y1. lia.
    - change (rp_wit_vec s6) with wv. lia.
    - change (rp_r_vec s6) with rv. lia.
    - change (rp_c_vec s6) with cv. lia.
    - change (rp_rnu_vec s6) with nv. lia.
    - change (rp_t_vec s6) with tv. lia.
    - change (rp_r_vec_tilde s6) with rt. lia.
    - change (rp_t_vec_1 s6) with t1. lia. }
  assert (rp_sizes s6) as SZ.
  { destruct HZ. rewrite ?EV6, ?EMS6 in *. split; rewrite ?EL6, ?EK6, ?ESa6, ?ESb6, ?ESc6 in *; lia. }
  assert (rp_sat s6) as GD.
  { apply (sat_rp_sat s6 nr nc (length (r_arows cs)) (length (r_brows cs)) (length (r_crows cs)) rows cols vals zv d0 d2);
      auto; try lia.
    - intros i Hi'. unfold rp_z. change (rp_x_vec s6) with x. change (rp_wit_vec s6) with wv. rewrite EL6.
      destruct i as [|i].
      { change (Z.of_nat 1 - 1)%Z with 0%Z. rewrite vidx_out by lia. rewrite vidx_out by lia. change (delta (Z.of_nat 1) 1 : F) with (1 : F).
        unfold zv. change (coef (1 :: x ++ w) 0) with (1 : F). ring. }
      replace (Z.of_nat (S (S i)) - 1)%Z with (Z.of_nat (S i)) by lia. rewrite vidx_S, delta_neq by lia.
      change (coef zv (S i)) with (coef (x ++ w) i). rewrite coef_app.
      destruct Lx as [Lx|Lx].
      { destruct (Nat.ltb_spec i (length x)) as [Hix|Hix].
        { rewrite vidx_out by lia. ring. }
        rewrite (vidx_coef wv _ (i - length x)) by lia. unfold coef at 1. rewrite nth_overflow by lia.
        unfold wv. rewrite coef_app. destruct (Nat.ltb_spec (i - length x) (length w)); [ring|lia]. }
      assert (vidx wv (Z.of_nat (S (S i)) - Z.of_nat (r_input_size cs) - 1) = 0) as ->.
      { destruct (Nat.le_gt_cases (r_input_size cs) i) as [Hix|Hix]; [|rewrite vidx_out by lia; reflexivity].
        rewrite (vidx_coef wv _ (i - r_input_size cs)) by lia. unfold wv. rewrite !coef_app, repeat_length, coef_repeat_0, Lx.
        destruct (Nat.ltb_spec (i - r_input_size cs) (length w)); auto.
        destruct (Nat.ltb_spec (i - r_input_size cs - length w) (nz - length w)); [reflexivity|lia]. }
      destruct (Nat.ltb_spec i (length x)) as [Hix|Hix]; [ring|]. rewrite Lx. unfold coef. rewrite nth_overflow by lia. ring.
    - intros r Hr. destruct (MR r Hr) as [X1 [X2 X3]]. fold M. rewrite X1, X2, X3. now apply Hsat. }
  set (N := (2 * Z.of_nat nr + Z.of_nat nz)%Z).
  assert (rp_maxshift s6 + rp_n s6 = N)%Z as EM by (rewrite EMS6, EV6; lia).
  assert (length (rp_h_vec_1 s6) = Z.to_nat N) as LH1 by (rewrite <- EM; apply expression_vector_length).
  assert (length (rp_h_vec_2 s6) = Z.to_nat N) as LH2 by (rewrite <- EM; apply expression_vector_length).
  assert (exists ch1 ch2, rp_round6 pk s6 = Ok (ch1, ch2)) as [ch1 [ch2 R6]].
  { unfold rp_round6. rewrite K2, ED6. change (rp_gamma s6) with gamma. change (rp_omega s6) with om.
    rewrite (nonzero_ok om), (nonzero_ok (gamma * om)) by auto using fmul_neq_0. cbn [obind].
    rewrite EK6, EV6. destruct (Z.leb_spec (Z.of_nat nc) (Z.of_nat nz)); [|lia]. cbn [assert_ obind].
    rewrite (commit_vector_ok (d + 1) beta g (rp_h_vec_1 s6)); [|lia|lia|].
    2:{ unfold voffset. rewrite LH1. destruct (Nat.ltb_spec (Z.to_nat (Z.of_nat (d + 1))) (Z.to_nat N)); lia. }
    cbn [obind]. rewrite EMS6. rewrite (commit_vector_ok0 (d + 1) beta g (rp_h_vec_2 s6)) by lia. cbn [obind]. eauto. }
  rewrite R6. cbn [obind].
  set (z := rp_p_ch_z H vk x cy cw crv ccv cnu ctv crt ct1 ch1 ch2).
  set (q := rp_ctx_of s6 z).
  destruct (rp_divisors_cases q) as [[D1 [Hz [Hz1 [Hgo Hoz]]]]|[D1 D2]].
  2:{ right. exists s1, cy, cw. split; auto. right. right. exists rv, cv, crv, ccv. split; auto. right. right. exists nv, tv, cnu, ctv. split; auto.
      exists rt, crt. split; auto. exists t1, ct1. split; auto.
      right. exists ch1, ch2. split; auto. fold z. destruct D2 as [D2|[D2|[D2|D2]]]; auto. }
  change (rp_q_z q) with z in *. change (rp_q_omega q) with om in *. change (rp_gamma q) with gamma in *.
  destruct (add_first_ok (rp_g_at s6 q) (rp_cap_d s6) (rp_p_c_37 q)) as [gv [EG [LG VG]]]; [lia|].
  assert (peval gv z = 0) as G0.
  { apply (rp_g_zero s6 z gv SZ HZ GD); auto; [change (rp_x_vec s6) with x; lia|lia|]. exists d3. reflexivity. }
  assert (rp_round7 s6 z = Ok (q, gv)) as R7.
  { unfold rp_round7. fold q. rewrite D1. cbn [obind]. unfold rp_g_vec. rewrite EG. cbn [obind].
    rewrite check_poly_eval_ok by (now rewrite peval_strip). reflexivity. }
  rewrite R7. cbn [obind].
  change (rp_y_vec_1 s6) with y1. rewrite K2.
  assert (2 <= length (strip tv))%nat as Lt1.
  { destruct (strip_cases tv) as [|Q1]; auto. exfalso.
    specialize (Q1 1%nat). destruct GD as [_ _ _ _ _ G6 _ _ _ _]. specialize (G6 2%Z). rewrite ESa6, ESb6, ESc6 in G6.
    unfold rp_k6 in G6. change (rp_t_vec s6) with tv in G6.
    rewrite ESa6, ESb6, ESc6, (vidx_coef tv _ 1), Q1 in G6 by lia.
    rewrite !PovPEConst.range_in in G6 by lia. apply (f1_neq_0 (F:=F)).
    match type of G6 with _ -> ?a = 0 => transitivity (- a); [ring|rewrite G6 by lia; ring] end. }
  destruct (le_dec (length (strip gv)) 1) as [Q|Qg].
  { right. exists s1, cy, cw. split; auto. right. right. exists rv, cv, crv, ccv. split; auto. right. right. exists nv, tv, cnu, ctv. split; auto.
    exists rt, crt. split; auto. exists t1, ct1. split; auto.
    right. exists ch1, ch2. split; auto. fold z. do 4 right. exists gv. split; auto. now apply (strip_const_root gv z). }
  left.
  match goal with |- exists pf, obind (batch_open ?P ?fs ?gs ?z1 ?z2 ?x1 ?x2) _ = _ =>
    destruct (batch_complete (d + 1) beta g h fs gs z1 z2 x1 x2 0) as [w1 [w2 [EW _]]] end; auto; [lia| |rewrite EW; cbn [obind]; eauto].
  intros f Hf. pose proof (strip_length y1). pose proof (strip_length tv). pose proof (strip_length cv). pose proof (strip_length gv).
  cbn [app In] in Hf. destruct Hf as [<-|[<-|[<-|[<-|[]]]]]; lia.
Qed.

Lemma rp_index_ok d beta (g : G1) (h : G2) pp cs :
  setup d beta g h = Ok pp -> r1_lengths cs -> (1 <= r1_nnz cs)%nat ->
  (2 * r_nrows cs + r1_nnz cs <= d)%nat ->
  exists pk vk, rp_index gamma pp cs = Ok (pk, vk).
Proof.
  intros Hs HL Hn Hd. destruct (kzg_vk_setup d beta g h pp Hs) as [Hd' [Hp Hv]].
  destruct (rp_stack_len cs HL) as [LR [LC LV]].
  unfold rp_index. rewrite Hp, Hv, srs_length, r1_get_size_ok by auto. cbn [obind]. unfold rp_get_max_degree.
  cbn [rs_nrows rs_ncols rs_adensity rs_bdensity rs_cdensity r1_size_of].
  assert (r1_nnz cs = length (r_arows cs) + length (r_brows cs) + length (r_crows cs))%nat as EN by reflexivity.
  match goal with |- context [(?a <? ?b)%nat] => destruct (Nat.ltb_spec a b); [|lia] end. cbn [assert_ obind].
  fold (rp_stack cs).
  assert (forall v : list F, length v = r1_nnz cs -> commit_vector (srs (d + 1) beta g) v
    (Z.of_nat (length (r_arows cs)) + Z.of_nat (length (r_brows cs)) + Z.of_nat (length (r_crows cs))) = Ok (vscale (peval v beta) g)) as Hc.
  { intros v L. apply commit_vector_ok0; lia. }
  rewrite !Hc; rewrite ?hadamard_length, ?power_vector_length, ?LR, ?LC; auto; try lia. cbn [obind]. eauto.
Qed.
(** fewer than three matrix entries per row on average, or an assignment of the wrong length: the prover panics *)
Lemma rp_sparse_panic d beta (g : G1) (h : G2) pp cs pk vk x w d0 d1 d2 d3 :
  setup d beta g h = Ok pp -> rp_index gamma pp cs = Ok (pk, vk) ->
  (r1_nnz cs < 3 * r_nrows cs)%nat -> rp_prove H gamma pk x w d0 d1 d2 d3 = Panic.
Proof.
  intros Hs Hi Hn. destruct (rp_index_inv gamma _ _ _ _ _ _ _ _ Hs Hi) as
    [K1 K2 K3 K4 K5 KL K6 Ku Kw Kv Ky K8 K9 Cu Cw Cv Cy].
  unfold rp_prove. cbn zeta. unfold rp_round1. cbn zeta. rewrite K1, K6.
  rewrite (surjective_pairing (rp_stack cs)), (surjective_pairing (fst (rp_stack cs))).
  match goal with |- context [sparse_mvp ?a ?b ?r ?c ?v ?z] => destruct (sparse_mvp (E:=error) a b r c v z) as [mz|er|] eqn:E end;
    [|exfalso; eapply sparse_mvp_no_err; eauto|reflexivity].
  apply sparse_mvp_iff in E. destruct E as [Hh [Hk [Lz [_ E]]]].
  cbn [rp_pub_of rp_cap_h rp_cap_k] in *. rewrite K4 in *. cbn [rs_nrows rs_ncols r1_size_of] in *.
  cbn [obind]. unfold zero_pad_and_concat, zero_pad, vector_concat. cbn [concat].
  assert (length mz = 3 * r_nrows cs)%nat as Lm by (rewrite E, map_length, seq_length; lia). rewrite Lm.
  match goal with |- context [(?a <? 3 * ?b)%nat] => destruct (Nat.ltb_spec a (3 * b)) as [|Hc] end; [reflexivity|]. exfalso.
  unfold rp_n in Hc. cbn [rp_pub_of rp_cap_k rp_cap_s_a rp_cap_s_b rp_cap_s_c] in Hc. rewrite K4 in Hc.
  cbn [rs_ncols rs_adensity rs_bdensity rs_cdensity r1_size_of] in Hc. unfold r1_nnz in Hn. lia.
Qed.
Lemma rp_length_panic d beta (g : G1) (h : G2) pp cs pk vk x w d0 d1 d2 d3 :
  setup d beta g h = Ok pp -> rp_index gamma pp cs = Ok (pk, vk) ->
  (1 + length x + length w <> r_ncols cs)%nat -> rp_prove H gamma pk x w d0 d1 d2 d3 = Panic.
Proof.
  intros Hs Hi Hn. destruct (rp_index_inv gamma _ _ _ _ _ _ _ _ Hs Hi) as
    [K1 K2 K3 K4 K5 KL K6 Ku Kw Kv Ky K8 K9 Cu Cw Cv Cy].
  unfold rp_prove. cbn zeta. unfold rp_round1. cbn zeta. rewrite K1, K6.
  rewrite (surjective_pairing (rp_stack cs)), (surjective_pairing (fst (rp_stack cs))).
  match goal with |- context [sparse_mvp ?a ?b ?r ?c ?v ?z] => destruct (sparse_mvp (E:=error) a b r c v z) as [mz|er|] eqn:E end;
    [|exfalso; eapply sparse_mvp_no_err; eauto|reflexivity].
  exfalso. apply sparse_mvp_iff in E. destruct E as [Hh [Hk [Lz [_ E]]]].
  cbn [rp_pub_of rp_cap_h rp_cap_k] in *. rewrite K4 in *. cbn [rs_nrows rs_ncols r1_size_of] in *.
  cbn [length app] in Lz. rewrite app_length in Lz. lia.
Qed.
(** more columns than matrix entries: no proof *)
Lemma no_err_bind {A B} (m : outcome error A) (f : A -> outcome error B) :
  (forall er, m <> Err er) -> (forall a, f a = Panic) -> obind m f = Panic.
Proof. intros Hm Hf. destruct m as [a|er|]; cbn [obind]; auto. now destruct (Hm er). Qed.
Lemma no_err_bind' {A B} (m : outcome error A) (f : A -> outcome error B) :
  (forall er, m <> Err er) -> (forall a er, f a <> Err er) -> forall er, obind m f <> Err er.
Proof. intros Hm Hf er. destruct m as [a|er'|]; cbn [obind]; [apply Hf| |discriminate]. destruct (Hm er'). reflexivity. Qed.
Lemma unwrap_no_err {A} (m : outcome error A) er : unwrap (E' := error) m <> Err er.
Proof. destruct m; discriminate. Qed.
Lemma commit_no_err (P : list G1) (v : list F) dg er : commit_vector P v dg <> Err er.
Proof. unfold commit_vector. destruct (dg <? 0)%Z; [discriminate|apply unwrap_no_err]. Qed.
Lemma left_mvp_no_err (M : list nat * list nat * list F) v a b er : left_sparse_mvp (E:=error) M v a b <> Err er.
Proof. destruct M as [[rows cols] vals]. apply sparse_mvp_no_err. Qed.
Ltac ner := repeat first [ apply commit_no_err | apply left_mvp_no_err | apply sparse_mvp_no_err | discriminate
  | apply no_err_bind'; intros | match goal with |- context [let '(_, _) := ?p in _] => destruct p end ].
Lemma rp_wide_panic d beta (g : G1) (h : G2) pp cs pk vk x w d0 d1 d2 d3 :
  setup d beta g h = Ok pp -> rp_index gamma pp cs = Ok (pk, vk) ->
  (r1_nnz cs < r_ncols cs)%nat -> rp_prove H gamma pk x w d0 d1 d2 d3 = Panic.
Proof.
  intros Hs Hi Hn. destruct (rp_index_inv gamma _ _ _ _ _ _ _ _ Hs Hi) as
    [K1 K2 K3 K4 K5 KL K6 Ku Kw Kv Ky K8 K9 Cu Cw Cv Cy].
  unfold rp_prove. cbn zeta.
  destruct (rp_round1 gamma pk x w [d0] [d1]) as [[[s1 cy] cw]|er|] eqn:R1; [|exfalso; revert R1; unfold rp_round1; cbn zeta|reflexivity].
  2:{ destruct (rp_pk_cap_m_mat pk) as [[rows cols] vals]. revert er. unfold zero_pad_and_concat, zero_pad.
      apply no_err_bind'; [intros; apply sparse_mvp_no_err|intros mz].
      apply no_err_bind'; [intros; destruct (_ <? _)%nat; discriminate|intros]. ner.
      destruct (_ <? _)%nat; discriminate. }
  cbn [obind]. apply no_err_bind; [unfold rp_round2; ner|]. intros [[[rv cv] crv] ccv].
  apply no_err_bind; [unfold rp_round3; ner|]. intros [[[nv tv] cnu] ctv].
  apply no_err_bind; [unfold rp_round4; ner|]. intros [rt crt].
  apply no_err_bind; [unfold rp_round5; ner|]. intros [t1 ct1].
  assert (rp_s1_pub s1 = rp_pub_of gamma (rp_pk_verifier_key pk) x) as E1.
  { revert R1. unfold rp_round1. cbn zeta. destruct (rp_pk_cap_m_mat pk) as [[rows cols] vals]. intros R1.
    repeat (apply obind_ok in R1; destruct R1 as [? [_ R1]]). now injection R1 as <- _ _. }
  match goal with |- obind (rp_round6 pk ?s) _ = _ => assert (rp_round6 pk s = Panic) as -> end; [|reflexivity].
  unfold rp_round6. 
  match goal with |- obind (nonzero ?a) _ = _ => destruct (feq_dec a 0) as [->|Ho] end; [now rewrite nonzero_panic|].
  rewrite nonzero_ok by auto. cbn [obind].
  match goal with |- obind (nonzero ?a) _ = _ => destruct (feq_dec a 0) as [->|Hgo] end; [now rewrite nonzero_panic|].
  rewrite nonzero_ok by auto. cbn [obind].
  unfold rp_n. cbn [rp_s1_pub rp_s2_s1 rp_s3_s2 rp_s4_s3 rp_s5_s4 rp_s6_s5]. rewrite E1, K1. cbn [rp_pub_of rp_cap_k rp_cap_s_a rp_cap_s_b rp_cap_s_c].
  rewrite K4. cbn [rs_ncols rs_adensity rs_bdensity rs_cdensity r1_size_of]. unfold r1_nnz in Hn.
  match goal with |- context [(?a <=? ?b)%Z] => destruct (Z.leb_spec a b); [lia|reflexivity] end.
Qed.
End Run.
End RPTop.

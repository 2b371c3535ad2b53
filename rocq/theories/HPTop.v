(** HPTop.v: the HPR prover succeeds on satisfied systems, except for unlucky challenges. *)
From Verif Require Import Base Spec Tools ToolsProofs MatProofs ToolsProofs2 CS CSProofs KZG KZGProofs Properties_KZG
  Snark Laurent SnarkProofs SnarkPerm PovPEComplete SparseSum HP HPProofs HPConst HPGood HPComplete RPTop.
Local Open Scope F_scope.

Section HPTop.
Context {F G1 G2 GT : Type} {fo : FieldOps F} {fl : FieldLaws F}
        {po : PairingOps F G1 G2 GT} {pl : PairingLaws F G1 G2 GT}.
Add Field Frt : F_th.

(** the combined polynomial vanishes at z *)
Lemma hp_g_zero (e : hp_s6 F) z gv : hp_sizes e -> hp_hsizes e -> hp_sat e ->
  (Z.of_nat (length (hp_x_vec e)) <= hp_cap_h e)%Z ->
  (exists dl, hp_t_vec e = dl :: hp_t_vec_tail e) ->
  z <> 0 -> z <> 1 -> hp_gamma e * hp_omega e <> z -> hp_omega e <> z -> hp_omega e <> 0 -> hp_gamma e <> 0 ->
  hp_g_vec e (hp_ctx_of e z) = Ok gv -> peval gv z = 0.
Proof.
  intros SZ HZ G Hx T1 Hz Hz1 Hgo Hoz Ho Hg HG.
  destruct (hp_g_value e _ gv HZ HG) as [_ V]. rewrite V. clear V.
  pose proof SZ as [A1 A2 A3 A4 A5 A6 A7 A8 A9]. pose proof HZ as [B1 B2 B3 B4 B5 B6 B7 B8 B9 B10 B11 B12 B13].
  set (M := (2 * hp_vovectorsize e - hp_cap_k e)%Z).
  assert (LP M (hp_hK e) z (hp_p_c_35 (hp_ctx_of e z) * peval (hp_s_vec e) z + hp_p_c_36 (hp_ctx_of e z) + hp_p_c_37 (hp_ctx_of e z) * peval (hp_h_vec e) z
   + hp_p_c_38 (hp_ctx_of e z) * peval (hp_w_vec e) z + hp_p_c_39 (hp_ctx_of e z) * peval (hp_u_vec e) z
   + hp_p_c_40 (hp_ctx_of e z) * peval (hp_y_vec e) z + hp_p_c_41 (hp_ctx_of e z) * peval (hp_w_vec_1 e) z
   + hp_p_c_42 (hp_ctx_of e z) * peval (hp_v_vec e) z + hp_p_c_43 (hp_ctx_of e z) * peval (hp_r_vec_tilde e) z
   + hp_p_c_44 (hp_ctx_of e z) * peval (hp_t_vec e) z)) as L.
  { unfold hp_maxshift, hp_vovectorsize in *.
    apply hp_LP; auto; try lia; cbn [hp_q_y hp_q_y_1 hp_ctx_of]; unfold hp_y, hp_y_1; rewrite eval_vidx; auto; unfold hp_vovectorsize; lia. }
  apply LP_halves in L; auto; [| unfold M, hp_vovectorsize in *; lia|].
  2:{ refine (CT_0 _ _ _ _ _ (hp_CT e SZ Ho Hg (M + 1) _ _ _ _)); unfold M, hp_vovectorsize in *; try lia.
      intros i Hi. apply (hp_br_0 e SZ G T1). lia. }
  assert (hp_maxshift e + hp_vovectorsize e = M)%Z as EM by (unfold M, hp_maxshift, hp_vovectorsize; lia).
  assert (hp_h_vec_2 e = expression_vector (fun i => hp_hK e (i - M)) M) as E1.
  { unfold hp_h_vec_2. rewrite EM. unfold expression_vector. apply map_ext. intros i. rewrite hp_h2_hK, EM. reflexivity. }
  assert (hp_h_vec_3 e = expression_vector (fun i => hp_hK e (i + 1)) M) as E2.
  { unfold hp_h_vec_3. rewrite EM. unfold expression_vector. apply map_ext. intros i. now rewrite hp_h3_hK. }
  rewrite <- E1, <- E2 in L. rewrite EM.
  set (q := hp_ctx_of e z) in *. assert (hp_p_c_46 q = - z) as -> by reflexivity.
  assert (hp_p_c_45 q * fpow z (Z.to_nat (hp_cap_d e - M)) = - fpowZ z (- M)) as E24.
  { change (hp_p_c_45 q) with (- power z (- hp_cap_d e)%Z). rewrite pw by auto. rewrite <- fpowZ_nonneg by lia.
    replace (- M)%Z with (- hp_cap_d e + (hp_cap_d e - M))%Z by lia.
    rewrite (fpowZ_add z (- hp_cap_d e)) by auto. ring. }
  match goal with |- ?A + ?c * (?f * ?h) + _ + _ = 0 => replace (c * (f * h)) with ((c * f) * h) by ring end.
  rewrite E24.
  match goal with |- ?A = 0 => match type of L with ?x = ?y => transitivity (y - x); [ring|rewrite L; ring] end end.
Qed.

Lemma hp_divisors_cases (q : hp_ctx F) :
  (hp_divisors q = Ok tt /\ hp_q_z q <> 0 /\ hp_q_z q <> 1 /\ hp_gamma q * hp_q_omega q <> hp_q_z q /\ hp_q_omega q <> hp_q_z q) \/
  (hp_divisors q = Panic /\ (hp_q_z q = 0 \/ hp_q_z q = 1 \/ hp_gamma q * hp_q_omega q = hp_q_z q \/ hp_q_omega q = hp_q_z q)).
Proof.
  unfold hp_divisors. generalize (hp_q_z q), (hp_q_omega q), (hp_gamma q). intros z om ga.
  destruct (feq_dec z 0) as [->|Hz]; [right; rewrite nonzero_panic; auto|].
  rewrite (nonzero_ok z) by auto. cbn [obind].
  destruct (feq_dec om z) as [->|Ho].
  { right. split; auto. replace ((z - 1 * z) * (ga * z - 1 * z)) with (0 : F) by ring. now rewrite nonzero_panic. }
  destruct (feq_dec (ga * om) z) as [E|Hg].
  { right. split; auto. rewrite E. replace ((om - 1 * z) * (z - 1 * z)) with (0 : F) by ring. now rewrite nonzero_panic. }
  assert (om - 1 * z <> 0) as H1 by (intros E; apply Ho, fsub_0_eq; rewrite <- E; ring).
  assert (ga * om - 1 * z <> 0) as H2 by (intros E; apply Hg, fsub_0_eq; rewrite <- E; ring).
  rewrite (nonzero_ok ((om - 1 * z) * (ga * om - 1 * z))), (nonzero_ok (om - 1 * z)) by auto using fmul_neq_0. cbn [obind].
  destruct (feq_dec z 1) as [->|Hz1].
  { right. split; auto. replace ((om - 1 * 1) * (1 - 1)) with (0 : F) by ring. now rewrite nonzero_panic. }
  left. split; auto. rewrite nonzero_ok; [reflexivity|]. apply fmul_neq_0; auto.
  intros E. apply Hz1. symmetry. now apply fsub_0_eq.
Qed.

(** the matrix (d | A | B | C) of a well shaped system *)
Lemma hp_stack_shape (cs : HPR F) : hp_lengths cs -> hpr_shape cs ->
  in_shape (entries_of (fst (fst (hp_stack cs))) (snd (fst (hp_stack cs))) (snd (hp_stack cs))) (h_nrows cs) (3 * h_ncols cs + 1).
Proof.
  intros [A [B [C [D [X [Y [Z W]]]]]]] [SA [SB [SC SD]]]. unfold hp_stack, concat_matrix_horizontally. cbn [fst snd].
  rewrite !entries_of_app by (rewrite ?map_length; lia). rewrite !entries_of_map_cols.
  intros r c x Hin. apply in_app_or in Hin. destruct Hin as [Hin|Hin].
  { apply in_map_iff in Hin; destruct Hin as [[[r' c'] x'] [E Hin]]; injection E as <- <- <-. destruct (SA r' c' x' Hin). lia. }
  apply in_app_or in Hin. destruct Hin as [Hin|Hin].
  { apply in_map_iff in Hin; destruct Hin as [[[r' c'] x'] [E Hin]]; injection E as <- <- <-. destruct (SB r' c' x' Hin). lia. }
  apply in_app_or in Hin. destruct Hin as [Hin|Hin].
  { apply in_map_iff in Hin; destruct Hin as [[[r' c'] x'] [E Hin]]; injection E as <- <- <-. destruct (SC r' c' x' Hin). lia. }
  apply in_map_iff in Hin; destruct Hin as [[[r' c'] x'] [E Hin]]; injection E as <- <- <-. split; [|lia].
  unfold entries_of in Hin. apply (SD r' x'). apply (In_nth _ _ (0%nat, 0%nat, 0)) in Hin. destruct Hin as [n [Hn E]].
  rewrite combine_length, combine_length, seq_length in Hn. rewrite combine_nth in E by (rewrite combine_length, seq_length; lia).
  rewrite combine_nth in E by (rewrite seq_length; lia). injection E as E1 E2 E3.
  apply (In_nth_error _ _) || idtac. rewrite <- E1, <- E3. rewrite <- combine_nth by lia. apply nth_In. rewrite combine_length. lia.
Qed.
Lemma column_sparse (pos : list nat) (vals : list F) r :
  mat_at (entries_of pos (map (fun _ => 0%nat) pos) vals) r 0 = sparse_at pos vals r.
Proof.
  unfold mat_at, sparse_at, entries_of. revert vals. induction pos as [|p pos IH]; intros [|v vals]; try reflexivity.
  cbn [map combine fsum fst snd]. rewrite IH. rewrite Nat.eqb_refl, Bool.andb_true_r. reflexivity.
Qed.
Lemma hp_stack_rows (cs : HPR F) wa wb wc r : hp_lengths cs -> hpr_shape cs ->
  length wa = h_ncols cs -> length wb = h_ncols cs -> length wc = h_ncols cs ->
  let M := entries_of (fst (fst (hp_stack cs))) (snd (fst (hp_stack cs))) (snd (hp_stack cs)) in
  mat_vec M (3 * h_ncols cs + 1) (1 :: wa ++ wb ++ wc) r =
  mat_vec (entries_of (h_arows cs) (h_acols cs) (h_avals cs)) (h_ncols cs) wa r +
  mat_vec (entries_of (h_brows cs) (h_bcols cs) (h_bvals cs)) (h_ncols cs) wb r +
  mat_vec (entries_of (h_crows cs) (h_ccols cs) (h_cvals cs)) (h_ncols cs) wc r + sparse_at (h_drows cs) (h_dvals cs) r.
Proof.
  intros [A [B [C [D [X [Y [Z W]]]]]]] [SA [SB [SC SD]]] La Lb Lc M.
  assert (forall c, mat_at M r c = if (c <? 1)%nat then mat_at (entries_of (h_drows cs) (map (fun _ => 0%nat) (h_drows cs)) (h_dvals cs)) r 0
    else if (c <? 1 + h_ncols cs)%nat then mat_at (entries_of (h_arows cs) (h_acols cs) (h_avals cs)) r (c - 1)
    else if (c <? 1 + 2 * h_ncols cs)%nat then mat_at (entries_of (h_brows cs) (h_bcols cs) (h_bvals cs)) r (c - 1 - h_ncols cs)
    else mat_at (entries_of (h_crows cs) (h_ccols cs) (h_cvals cs)) r (c - 1 - 2 * h_ncols cs)) as HM.
  { intros c. pose proof (horizontal_at (h_nrows cs) (h_ncols cs) (h_arows cs) (h_brows cs) (h_crows cs) (h_acols cs) (h_bcols cs) (h_ccols cs)
      (h_avals cs) (h_bvals cs) (h_cvals cs) (h_drows cs) (h_dvals cs) r c) as V. apply V; auto; lia. }
  unfold mat_vec. set (n := h_ncols cs) in *.
  replace (3 * n + 1)%nat with (S (n + (n + n))) by lia. rewrite sumn_shift, !sumn_split.
  rewrite HM. cbn [Nat.ltb Nat.leb]. rewrite column_sparse. change (coef (1 :: wa ++ wb ++ wc) 0) with (1 : F).
  assert (forall i, coef (1 :: wa ++ wb ++ wc) (S i) = coef (wa ++ wb ++ wc) i) as Ec by reflexivity.
  rewrite (sumn_ext n (fun i => mat_at M r (S i) * coef (1 :: wa ++ wb ++ wc) (S i))
    (fun c => mat_at (entries_of (h_arows cs) (h_acols cs) (h_avals cs)) r c * coef wa c)).
  2:{ intros i Hi. rewrite HM, Ec, coef_app. repeat match goal with |- context [(?x <? ?y)%nat] => destruct (Nat.ltb_spec x y); try lia end.
      now replace (S i - 1)%nat with i by lia. }
  rewrite (sumn_ext n (fun i => mat_at M r (S (n + i)) * coef (1 :: wa ++ wb ++ wc) (S (n + i)))
    (fun c => mat_at (entries_of (h_brows cs) (h_bcols cs) (h_bvals cs)) r c * coef wb c)).
  2:{ intros i Hi. rewrite HM, Ec, !coef_app. repeat match goal with |- context [(?x <? ?y)%nat] => destruct (Nat.ltb_spec x y); try lia end.
      replace (S (n + i) - 1 - n)%nat with i by lia. now replace (n + i - length wa)%nat with i by lia. }
  rewrite (sumn_ext n (fun i => mat_at M r (S (n + (n + i))) * coef (1 :: wa ++ wb ++ wc) (S (n + (n + i))))
    (fun c => mat_at (entries_of (h_crows cs) (h_ccols cs) (h_cvals cs)) r c * coef wc c)).
  2:{ intros i Hi. rewrite HM, Ec, !coef_app. repeat match goal with |- context [(?x <? ?y)%nat] => destruct (Nat.ltb_spec x y); try lia end.
      replace (S (n + (n + i)) - 1 - 2 * n)%nat with i by lia. now replace (n + (n + i) - length wa - length wb)%nat with i by lia. }
  ring.
Qed.

Section Run.
Variable H : list (item F G1) -> F.
Variable gamma : F.

(** The events in which the prover may fail on a satisfied system: a challenge is one of finitely
    many values, or the combined polynomial is zero (ark-poly cannot divide a constant polynomial). *)
Definition hp_unlucky (pk : hp_pk F G1 G2) (x : list F) (w : list F * list F * list F) (d0 d1 d2 : F) : Prop :=
  let vk := hp_pk_verifier_key pk in
  exists s1 cu, hp_round1 gamma pk x w [d0] = Ok (s1, cu) /\
  let mu := hp_p_ch_mu H vk x cu in
  ((exists i, (i < hs_nrows (hp_vk_size vk))%nat /\ mu = fpow gamma i) \/
   let s2 := mkHPS2 s1 mu in
   exists sv cms, hp_round2 pk s2 = Ok (sv, cms) /\
   let nu := hp_p_ch_nu H vk x cu cms in
   ((exists i, (i < 3 * hs_ncols (hp_vk_size vk) + 1)%nat /\ nu = fpow gamma i) \/
    let s3 := mkHPS3 s2 sv nu in
    exists hv cmh, hp_round3 pk s3 = Ok (hv, cmh) /\
    let s4 := mkHPS4 s3 hv (hp_p_ch_beta H vk x cu cms cmh) in
    exists rt cr, hp_round4 pk s4 [d1] = Ok (rt, cr) /\
    let s5 := mkHPS5 s4 rt (hp_p_ch_alpha H vk x cu cms cmh cr) in
    exists tv ct, hp_round5 pk s5 [d2] = Ok (tv, ct) /\
    let omega := hp_p_ch_omega H vk x cu cms cmh cr ct in
    let s6 := mkHPS6 s5 tv omega in
    (omega = 0 \/
     exists ch2 ch3, hp_round6 pk s6 = Ok (ch2, ch3) /\
     let z := hp_p_ch_z H vk x cu cms cmh cr ct ch2 ch3 in
     (z = 0 \/ z = 1 \/ gamma * omega = z \/ omega = z \/
      exists gv, hp_g_vec s6 (hp_ctx_of s6 z) = Ok gv /\ forall i, coef gv i = 0)))).

Theorem hp_complete d beta (g : G1) (h : G2) pp cs pk vk x wa wb wc d0 d1 d2 :
  g <> v0 -> h <> v0 -> gamma <> 0 ->
  setup d beta g h = Ok pp -> hp_index gamma pp cs = Ok (pk, vk) ->
  (1 <= h_nrows cs)%nat -> (1 <= h_ncols cs)%nat -> hp_nnz cs = hp_claimed cs -> (h_nrows cs <= hp_nnz cs)%nat -> hpr_shape cs ->
  length wa = h_ncols cs -> length wb = h_ncols cs -> length wc = h_ncols cs -> (length x <= h_nrows cs)%nat ->
  hpr_holds (entries_of (h_arows cs) (h_acols cs) (h_avals cs)) (entries_of (h_brows cs) (h_bcols cs) (h_bvals cs))
            (entries_of (h_crows cs) (h_ccols cs) (h_cvals cs)) (sparse_at (h_drows cs) (h_dvals cs))
            (h_nrows cs) (h_ncols cs) x wa wb wc ->
  (d0 <> 0 \/ exists i, (1 <= i)%nat /\ coef (wa ++ wb ++ wc) i <> 0) ->
  (exists pf, hp_prove H gamma pk x (wa, wb, wc) d0 d1 d2 = Ok pf /\
     forall rnd, hp_verify H gamma vk x pf rnd = Ok tt) \/
  hp_unlucky pk x (wa, wb, wc) d0 d1 d2.
Proof.
  intros Hg Hh Hga Hs Hi Hr1 Hc1 Huni H3 Hsh La Lb Lc Lx [Hhad Hlin] Hnc.
  enough ((exists pf, hp_prove H gamma pk x (wa, wb, wc) d0 d1 d2 = Ok pf) \/ hp_unlucky pk x (wa, wb, wc) d0 d1 d2) as [[pf P]|P].
  { left. exists pf. split; auto. intros rnd. eapply (hp_accepts H gamma d beta g h); eauto. }
  { now right. }
  destruct (hp_index_inv gamma _ _ _ _ _ _ _ _ Hs Hi) as
    [K1 K2 K3 K4 K5 KL K6 Ku Kw Kv Ky K8 K9 Cu Cw Cv Cy].
  destruct (hp_stack_len cs KL) as [LR [LC LV]].
  pose proof (hp_stack_shape cs KL Hsh) as MS.
  pose proof (fun r => hp_stack_rows cs wa wb wc r KL Hsh La Lb Lc) as MR. cbn zeta in MR.
  subst vk. set (vk := hp_pk_verifier_key pk) in *.
  set (rows := fst (fst (hp_stack cs))) in *. set (cols := snd (fst (hp_stack cs))) in *. set (vals := snd (hp_stack cs)) in *.
  set (M := entries_of rows cols vals) in *. set (ws := wa ++ wb ++ wc) in *.
  assert (length ws = 3 * h_ncols cs)%nat as Lz by (unfold ws; rewrite !app_length; lia).
  assert (length (hp_pk_u_vec pk) = hp_nnz cs) as Lu by (rewrite Ku; now rewrite power_vector_length).
  assert (length (hp_pk_w_vec pk) = hp_nnz cs) as Lw by (rewrite Kw; now rewrite power_vector_length).
  assert (length (hp_pk_y_vec pk) = hp_nnz cs) as Ly by (rewrite Ky, hadamard_length, Lu, Lw; lia).
  set (nr := h_nrows cs) in *. set (nc := h_ncols cs) in *. set (nz := hp_nnz cs) in *.
  set (e0 := hp_pub_of gamma vk x).
  assert (hp_cap_h e0 = Z.of_nat nr) as EH by (cbn; now rewrite K4).
  assert (hp_cap_k e0 = Z.of_nat nc) as EK by (cbn; now rewrite K4).
  assert (hp_cap_s_a e0 = Z.of_nat (length (h_arows cs))) as ESa by (cbn; now rewrite K4).
  assert (hp_cap_s_b e0 = Z.of_nat (length (h_arows cs))) as ESb by (cbn; now rewrite K4).
  assert (hp_cap_s_c e0 = Z.of_nat (length (h_arows cs))) as ESc by (cbn; now rewrite K4).
  assert (hp_cap_s_d e0 = Z.of_nat (length (h_drows cs))) as ESd by (cbn; now rewrite K4).
  assert (hp_cap_d e0 = Z.of_nat (d + 1)) as ED by (cbn; now rewrite K5).
  assert (nz = length (h_arows cs) + length (h_arows cs) + length (h_arows cs) + length (h_drows cs))%nat as EN by (rewrite Huni; unfold hp_claimed; lia).
  assert (hp_claimed cs = nz) as EC by (symmetry; exact Huni).
  assert (hp_vovectorsize e0 = Z.of_nat (3 * nc + nz + 1)) as EV by (unfold hp_vovectorsize; lia).
  assert (hp_ell e0 = Z.of_nat nz) as EL1 by (unfold hp_ell; lia).
  assert (hp_maxshift e0 = Z.of_nat (2 * nc + nz + 1))%Z as EMS by (unfold hp_maxshift; lia).
  (* round 1 *)
  set (u1 := (ws ++ repeat 0 (nz + 1)) ++ [d0]).
  assert (length u1 = 3 * nc + nz + 2)%nat as L1.
  { unfold u1. rewrite !app_length, Lz, repeat_length. cbn [length]. lia. }
  set (s1 := mkHPS1 e0 (hp_pk_u_vec pk) (hp_pk_w_vec pk) (hp_pk_v_vec pk) (hp_pk_y_vec pk) u1).
  set (cu := vscale (peval u1 beta) g).
  assert (hp_round1 gamma pk x (wa, wb, wc) [d0] = Ok (s1, cu)) as R1.
  { unfold hp_round1. cbn zeta. fold vk. fold e0. rewrite K2, EV.
    unfold vector_concat, zero_pad_and_concat, zero_pad. cbn [concat]. rewrite !app_nil_r. fold ws. rewrite Lz, Nat2Z.id.
    destruct (Nat.ltb_spec (3 * nc + nz + 1) (3 * nc)); [lia|]. cbn [obind].
    replace (3 * nc + nz + 1 - 3 * nc)%nat with (nz + 1)%nat by lia. rewrite ?app_nil_r. fold u1.
    rewrite (commit_vector_ok0 (d + 1) beta g u1) by lia. reflexivity. }
  unfold hp_prove. cbn zeta. fold vk. rewrite R1. cbn [obind].
  unfold hp_unlucky. fold vk. cbn zeta.
  set (mu := hp_p_ch_mu H vk x cu). set (s2 := mkHPS2 s1 mu).
  assert ((exists i, (i < nr)%nat /\ mu = fpow gamma i) \/ forall i, (i < nr)%nat -> mu <> fpow gamma i) as [Emu|Nmu].
  { clear - fl. generalize nr. intros n. induction n as [|n IH]; [right; intros; lia|].
    destruct IH as [[i [Hi E]]|IH]; [left; exists i; split; [lia|auto]|].
    destruct (feq_dec (F:=F) mu (fpow gamma n)) as [E|E]; [left; exists n; split; [lia|auto]|].
    right. intros i Hi. destruct (Nat.eq_dec i n) as [->|]; auto. apply IH. lia. }
  { right. exists s1, cu. split; auto. left. rewrite K4. exact Emu. }
  (* round 2 *)
  assert (length (hp_r_vec s2) = nr)%nat as Lrv.
  { unfold hp_r_vec. rewrite expression_vector_inverse_length. change (hp_cap_h s2) with (hp_cap_h e0). rewrite EH. lia. }
  set (cv := map (mat_vec (transpose M) nr (hp_r_vec s2)) (seq 0 (3 * nc + 1))).
  set (sv := concat_neg_vector (hp_r_vec s2) cv).
  assert (length sv = nr + (3 * nc + 1))%nat as L2.
  { unfold sv, concat_neg_vector, cv. now rewrite app_length, !map_length, seq_length, Lrv. }
  set (cms := vscale (peval sv beta) g).
  assert (hp_round2 pk s2 = Ok (sv, cms)) as R2.
  { unfold hp_round2. rewrite K2, K6. change (hp_cap_h s2) with (hp_cap_h e0). change (hp_cap_k s2) with (hp_cap_k e0). rewrite EH, EK.
    assert (left_sparse_mvp (E:=error) (hp_stack cs) (hp_r_vec s2) (Z.of_nat nr) (3 * Z.of_nat nc + 1) = Ok cv) as ->.
    { rewrite (surjective_pairing (hp_stack cs)), (surjective_pairing (fst (hp_stack cs))). fold rows cols vals.
      apply left_sparse_mvp_iff. replace (Z.to_nat (3 * Z.of_nat nc + 1)) with (3 * nc + 1)%nat by lia. rewrite Nat2Z.id.
      split; [lia|]. split; [lia|]. split; [lia|]. split; [|reflexivity].
      intros r c y Hin. apply in_map_iff in Hin. destruct Hin as [[[r' c'] y'] [E Hin]]. injection E as <- <- <-. destruct (MS r' c' y' Hin). auto. }
    cbn [obind]. fold sv. rewrite (commit_vector_ok0 (d + 1) beta g sv) by lia. reflexivity. }
  rewrite R2. cbn [obind].
  set (nu := hp_p_ch_nu H vk x cu cms). set (s3 := mkHPS3 s2 sv nu).
  assert ((exists i, (i < 3 * nc + 1)%nat /\ nu = fpow gamma i) \/ forall i, (i < 3 * nc + 1)%nat -> nu <> fpow gamma i) as [Enu|Nnu].
  { clear - fl. generalize (3 * nc + 1)%nat. intros n. induction n as [|n IH]; [right; intros; lia|].
    destruct IH as [[i [Hi E]]|IH]; [left; exists i; split; [lia|auto]|].
    destruct (feq_dec (F:=F) nu (fpow gamma n)) as [E|E]; [left; exists n; split; [lia|auto]|].
    right. intros i Hi. destruct (Nat.eq_dec i n) as [->|]; auto. apply IH. lia. }
  { right. exists s1, cu. split; auto. right. exists sv, cms. split; auto. left. rewrite K4. exact Enu. }
  (* round 3 *)
  set (hv := hp_h_val s3).
  assert (length hv = 3 * nc + nz + 1)%nat as L3.
  { unfold hv, hp_h_val, concat_uwinverse_vector. rewrite app_length, uwinverse_length. unfold hp_rnu_vec.
    rewrite expression_vector_inverse_length. change (hp_cap_k s3) with (hp_cap_k e0).
    change (hp_u_vec s3) with (hp_pk_u_vec pk). change (hp_w_vec s3) with (hp_pk_w_vec pk). rewrite EK, Lu, Lw. lia. }
  set (cmh := vscale (peval hv beta) g).
  assert (hp_round3 pk s3 = Ok (hv, cmh)) as R3.
  { unfold hp_round3. fold hv. rewrite K2. change (hp_cap_k s3) with (hp_cap_k e0). change (hp_ell s3) with (hp_ell e0). rewrite EK, EL1.
    rewrite (commit_vector_ok0 (d + 1) beta g hv) by lia. reflexivity. }
  rewrite R3. cbn [obind].
  set (s4 := mkHPS4 s3 hv _).
  (* round 4 *)
  set (rt := hp_r_acc s4 ++ [d1]).
  assert (length rt = 3 * nc + nz + 2)%nat as L4.
  { unfold rt, hp_r_acc. rewrite app_length, accumulate_length. unfold hp_r_vec_1. rewrite expression_vector_length.
    change (hp_vovectorsize s4) with (hp_vovectorsize e0). rewrite EV. cbn [length]. lia. }
  set (cr := vscale (peval rt beta) g).
  assert (hp_round4 pk s4 [d1] = Ok (rt, cr)) as R4.
  { unfold hp_round4, vector_concat. cbn [concat app]. fold rt. rewrite K2. change (hp_vovectorsize s4) with (hp_vovectorsize e0). rewrite EV.
    rewrite (commit_vector_ok0 (d + 1) beta g rt) by lia. reflexivity. }
  rewrite R4. cbn [obind].
  set (s5 := mkHPS5 s4 rt _).
  (* round 5 *)
  set (tv := d2 :: hp_t_vec_tail s5).
  assert (Z.of_nat (length tv) = Z.of_nat (2 * nc + nz + 4))%Z as L5.
  { unfold tv. cbn [length]. unfold hp_t_vec_tail. rewrite expression_vector_length.
    change (hp_maxshift s5) with (hp_maxshift e0). lia. }
  set (ct := vscale (peval tv beta) g).
  assert (hp_round5 pk s5 [d2] = Ok (tv, ct)) as R5.
  { unfold hp_round5, vector_concat. cbn [concat app]. rewrite app_nil_r. fold tv. rewrite K2.
    change (hp_maxshift s5) with (hp_maxshift e0).
    rewrite (commit_vector_ok0 (d + 1) beta g tv) by lia. reflexivity. }
  rewrite R5. cbn [obind].
  set (om := hp_p_ch_omega H vk x cu cms cmh cr ct).
  set (s6 := mkHPS6 s5 tv om).
  destruct (feq_dec om 0) as [Eo|Ho].
  { right. exists s1, cu. split; auto. right. exists sv, cms. split; auto. right. exists hv, cmh. split; auto.
    exists rt, cr. split; auto. exists tv, ct. split; auto. }
  assert (hp_cap_h s6 = Z.of_nat nr) as EH6 by exact EH.
  assert (hp_cap_k s6 = Z.of_nat nc) as EK6 by exact EK.
  assert (hp_cap_s_a s6 = Z.of_nat (length (h_arows cs))) as ESa6 by exact ESa.
  assert (hp_cap_s_b s6 = Z.of_nat (length (h_arows cs))) as ESb6 by exact ESb.
  assert (hp_cap_s_c s6 = Z.of_nat (length (h_arows cs))) as ESc6 by exact ESc.
  assert (hp_cap_s_d s6 = Z.of_nat (length (h_drows cs))) as ESd6 by exact ESd.
  assert (hp_cap_d s6 = Z.of_nat (d + 1)) as ED6 by exact ED.
  assert (hp_vovectorsize s6 = Z.of_nat (3 * nc + nz + 1)) as EV6 by exact EV.
  assert (hp_maxshift s6 = Z.of_nat (2 * nc + nz + 1))%Z as EMS6 by exact EMS.
  assert (length (hp_pk_v_vec pk) = nz) as Lvv by (rewrite Kv; exact LV).
  assert (hp_hsizes s6) as HZ.
  { split; rewrite ?EV6, ?EMS6, ?EH6, ?EK6, ?ESa6, ?ESb6, ?ESc6, ?ESd6, ?ED6; try lia.
    - change (hp_u_vec s6) with (hp_pk_u_vec pk). lia.
    - change (hp_w_vec s6) with (hp_pk_w_vec pk). lia.
    - change (hp_v_vec s6) with (hp_pk_v_vec pk). lia.
    - change (hp_y_vec s6) with (hp_pk_y_vec pk). lia.
    - change (hp_w_vec_1 s6) with u1. lia.
    - change (hp_s_vec s6) with sv. lia.
    - change (hp_h_vec s6) with hv. lia.
    - change (hp_r_vec_tilde s6) with rt. lia.
    - change (hp_t_vec s6) with tv. lia. }
  assert (hp_sizes s6) as SZ.
  { destruct HZ. rewrite ?EV6, ?EMS6 in *. split; rewrite ?EH6, ?EK6, ?ESa6, ?ESb6, ?ESc6, ?ESd6 in *; lia. }
  assert (hp_sat s6) as GD.
  { apply (sat_hp_sat s6 nr nc (length (h_arows cs)) (length (h_arows cs)) (length (h_arows cs)) (length (h_drows cs)) rows cols vals ws d0 d1);
      auto; try lia.
    - rewrite <- EN. reflexivity.
    - intros r Hr. fold M. rewrite MR. now apply Hlin.
    - intros i Hi'. unfold ws. rewrite !coef_app. repeat match goal with |- context [(?x <? ?y)%nat] => destruct (Nat.ltb_spec x y); try lia end.
      replace (nc + i - length wa)%nat with i by lia. replace (2 * nc + i - length wa - length wb)%nat with i by lia. now apply Hhad. }
  set (N := (5 * Z.of_nat nc + 2 * Z.of_nat nz + 2)%Z).
  assert (hp_maxshift s6 + hp_vovectorsize s6 = N)%Z as EM by (rewrite EMS6, EV6; lia).
  assert (length (hp_h_vec_2 s6) = Z.to_nat N) as LH1 by (rewrite <- EM; apply expression_vector_length).
  assert (length (hp_h_vec_3 s6) = Z.to_nat N) as LH2 by (rewrite <- EM; apply expression_vector_length).
  assert (exists ch2 ch3, hp_round6 pk s6 = Ok (ch2, ch3)) as [ch2 [ch3 R6]].
  { unfold hp_round6. rewrite K2, ED6. change (hp_gamma s6) with gamma. change (hp_omega s6) with om.
    rewrite nonzero_ok by now apply fmul_neq_0. cbn [obind].
    change (hp_cap_h s6) with (hp_cap_h e0). change (hp_ell s6) with (hp_ell e0). rewrite EH, EL1.
    destruct (Z.leb_spec 0 (- Z.of_nat nr + Z.of_nat nz)); [|lia]. cbn [assert_ obind].
    rewrite (commit_vector_ok (d + 1) beta g (hp_h_vec_2 s6)); [|lia|lia|].
    2:{ unfold voffset. rewrite LH1. destruct (Nat.ltb_spec (Z.to_nat (Z.of_nat (d + 1))) (Z.to_nat N)); lia. }
    cbn [obind]. rewrite EM. rewrite (commit_vector_ok0 (d + 1) beta g (hp_h_vec_3 s6)) by lia. cbn [obind]. eauto. }
  rewrite R6. cbn [obind].
  set (z := hp_p_ch_z H vk x cu cms cmh cr ct ch2 ch3).
  set (q := hp_ctx_of s6 z).
  destruct (hp_divisors_cases q) as [[D1 [Hz [Hz1 [Hgo Hoz]]]]|[D1 D2]].
  2:{ right. exists s1, cu. split; auto. right. exists sv, cms. split; auto. right. exists hv, cmh. split; auto.
      exists rt, cr. split; auto. exists tv, ct. split; auto.
      right. exists ch2, ch3. split; auto. fold z. destruct D2 as [D2|[D2|[D2|D2]]]; auto. }
  change (hp_q_z q) with z in *. change (hp_q_omega q) with om in *. change (hp_gamma q) with gamma in *.
  destruct (add_first_ok (hp_g_at s6 q) (hp_cap_d s6) (hp_p_c_36 q)) as [gv [EG [LG VG]]]; [lia|].
  assert (peval gv z = 0) as G0.
  { apply (hp_g_zero s6 z gv SZ HZ GD); auto; [change (hp_x_vec s6) with x; lia|]. exists d2. reflexivity. }
  assert (hp_round7 s6 z = Ok (q, gv)) as R7.
  { unfold hp_round7. fold q. rewrite D1. cbn [obind]. unfold hp_g_vec. rewrite EG. cbn [obind].
    rewrite check_poly_eval_ok by (now rewrite peval_strip). reflexivity. }
  rewrite R7. cbn [obind].
  change (hp_w_vec_1 s6) with u1. rewrite K2.
  assert (2 <= length (strip u1))%nat as Lu1.
  { destruct (Nat.le_gt_cases 2 (length (strip u1))) as [|Q]; auto. exfalso.
    assert (length (strip u1) <= 1)%nat as Q1 by lia. rewrite strip_const in Q1.
    destruct Hnc as [Hd0|[i [Hi1 Hiw]]].
    - specialize (Q1 (3 * nc + nz + 1)%nat). unfold u1 in Q1. rewrite coef_app, app_length, Lz, repeat_length in Q1.
      destruct (Nat.ltb_spec (3 * nc + nz + 1) (3 * nc + (nz + 1))); [lia|].
      replace (3 * nc + nz + 1 - (3 * nc + (nz + 1)))%nat with 0%nat in Q1 by lia. apply Hd0. apply Q1. lia.
    - assert (i < 3 * nc)%nat as Hi3.
      { destruct (Nat.lt_ge_cases i (3 * nc)); auto. exfalso. apply Hiw. unfold coef. apply nth_overflow. lia. }
      specialize (Q1 i). unfold u1 in Q1. rewrite !coef_app, !app_length, Lz, repeat_length in Q1.
      repeat match type of Q1 with context [(?x <? ?y)%nat] => destruct (Nat.ltb_spec x y); try lia end. apply Hiw. apply Q1. lia. }
  assert (2 <= length (strip hv))%nat as Lhv.
  { destruct (Nat.le_gt_cases 2 (length (strip hv))) as [|Q]; auto. exfalso.
    assert (length (strip hv) <= 1)%nat as Q1 by lia. rewrite strip_const in Q1.
    destruct GD as [_ G1' _ _ _ _ _]. specialize (G1' 2%Z). rewrite EK6, ESa6, ESb6, ESc6, ESd6 in G1'.
    unfold hp_k1 in G1'. change (hp_h_vec s6) with hv in G1'.
    rewrite EK6, (vidx_coef hv _ 1), Q1 in G1' by lia.
    rewrite !PovPEConst.range_in in G1' by lia. apply (f1_neq_0 (F:=F)).
    match type of G1' with _ -> ?a = 0 => transitivity (- a); [ring|rewrite G1' by lia; ring] end. }
  destruct (le_dec (length (strip gv)) 1) as [Q|Qg].
  { right. exists s1, cu. split; auto. right. exists sv, cms. split; auto. right. exists hv, cmh. split; auto.
      exists rt, cr. split; auto. exists tv, ct. split; auto.
      right. exists ch2, ch3. split; auto. fold z. do 4 right. exists gv. split; auto. now apply (strip_const_root gv z). }
  left.
  match goal with |- exists pf, obind (batch_open ?P ?fs ?gs ?z1 ?z2 ?x1 ?x2) _ = _ =>
    destruct (batch_complete (d + 1) beta g h fs gs z1 z2 x1 x2 0) as [w1 [w2 [EW _]]] end; auto; [lia| |rewrite EW; cbn [obind]; eauto].
  intros f Hf. pose proof (strip_length u1). pose proof (strip_length hv). pose proof (strip_length gv).
  cbn [app In] in Hf. destruct Hf as [<-|[<-|[<-|[]]]]; lia.
Qed.

Lemma hp_index_ok d beta (g : G1) (h : G2) pp cs :
  setup d beta g h = Ok pp -> hp_lengths cs -> (1 <= hp_nnz cs <= d + 1)%nat ->
  (5 * h_ncols cs + 2 * hp_claimed cs + 2 <= d)%nat ->
  exists pk vk, hp_index gamma pp cs = Ok (pk, vk).
Proof.
  intros Hs HL Hn Hd. destruct (kzg_vk_setup d beta g h pp Hs) as [Hd' [Hp Hv]].
  destruct (hp_stack_len cs HL) as [LR [LC LV]].
  unfold hp_index. rewrite Hp, Hv, srs_length, hp_get_size_ok by auto. cbn [obind]. unfold hp_get_max_degree.
  cbn [hs_nrows hs_ncols hs_adensity hs_bdensity hs_cdensity hs_ddensity hp_size_of].
  assert (hp_claimed cs = 3 * length (h_arows cs) + length (h_drows cs))%nat as EN by reflexivity.
  match goal with |- context [(?a <? ?b)%nat] => destruct (Nat.ltb_spec a b); [|lia] end. cbn [assert_ obind].
  fold (hp_stack cs).
  set (ms := (Z.of_nat (length (h_arows cs)) + Z.of_nat (length (h_arows cs)) + Z.of_nat (length (h_arows cs)) + Z.of_nat (length (h_drows cs)))%Z).
  assert (ms = Z.of_nat (hp_claimed cs)) as Em by (unfold ms; lia). clearbody ms.
  assert (forall v : list F, length v = hp_nnz cs -> exists c, commit_vector (srs (d + 1) beta g) v ms = Ok c) as Hc.
  { intros v L. eexists. apply commit_vector_ok; try lia. unfold voffset. rewrite L, Em, Nat2Z.id.
    destruct (Nat.ltb_spec (hp_claimed cs) (hp_nnz cs)); lia. }
  destruct (Hc (int_array_to_power_vector (fst (fst (hp_stack cs))) gamma)) as [c1 ->]; [now rewrite power_vector_length|]. cbn [obind].
  destruct (Hc (int_array_to_power_vector (snd (fst (hp_stack cs))) gamma)) as [c2 ->]; [now rewrite power_vector_length|]. cbn [obind].
  destruct (Hc (snd (hp_stack cs))) as [c3 ->]; [auto|]. cbn [obind].
  match goal with |- context [commit_vector _ ?y ms] => destruct (Hc y) as [c4 ->] end; [rewrite hadamard_length, !power_vector_length; lia|]. cbn [obind]. eauto.
Qed.
(** fewer claimed matrix entries than rows: the prover panics *)
Ltac ner := repeat first [ apply commit_no_err | apply left_mvp_no_err | apply sparse_mvp_no_err | discriminate
  | apply no_err_bind'; intros | match goal with |- context [let '(_, _) := ?p in _] => destruct p end ].
Lemma hp_sparse_panic d beta (g : G1) (h : G2) pp cs pk vk x w d0 d1 d2 :
  setup d beta g h = Ok pp -> hp_index gamma pp cs = Ok (pk, vk) ->
  (hp_claimed cs < h_nrows cs)%nat -> hp_prove H gamma pk x w d0 d1 d2 = Panic.
Proof.
  intros Hs Hi Hn. destruct (hp_index_inv gamma _ _ _ _ _ _ _ _ Hs Hi) as
    [K1 K2 K3 K4 K5 KL K6 Ku Kw Kv Ky K8 K9 Cu Cw Cv Cy]. destruct w as [[wa wb] wc].
  unfold hp_prove. cbn zeta.
  destruct (hp_round1 gamma pk x (wa, wb, wc) [d0]) as [[s1 cw]|er|] eqn:R1; [|exfalso; revert R1; unfold hp_round1; cbn zeta|reflexivity].
  2:{ revert er. unfold zero_pad_and_concat, zero_pad.
      apply no_err_bind'; [intros; destruct (_ <? _)%nat; discriminate|intros]. ner. }
  cbn [obind]. apply no_err_bind; [unfold hp_round2; ner|]. intros [sv csv].
  apply no_err_bind; [unfold hp_round3; ner|]. intros [hv chv].
  apply no_err_bind; [unfold hp_round4; ner|]. intros [rt crt].
  apply no_err_bind; [unfold hp_round5; ner|]. intros [t1 ct1].
  assert (hp_s1_pub s1 = hp_pub_of gamma (hp_pk_verifier_key pk) x) as E1.
  { revert R1. unfold hp_round1. cbn zeta. intros R1.
    repeat (apply obind_ok in R1; destruct R1 as [? [_ R1]]). now injection R1 as <- _. }
  match goal with |- obind (hp_round6 pk ?s) _ = _ => assert (hp_round6 pk s = Panic) as -> end; [|reflexivity].
  unfold hp_round6.
  match goal with |- obind (nonzero ?a) _ = _ => destruct (feq_dec a 0) as [->|Ho] end; [now rewrite nonzero_panic|].
  rewrite nonzero_ok by auto. cbn [obind].
  unfold hp_ell. cbn [hp_s1_pub hp_s2_s1 hp_s3_s2 hp_s4_s3 hp_s5_s4 hp_s6_s5]. rewrite E1, K1. cbn [hp_pub_of hp_cap_h hp_cap_s_a hp_cap_s_b hp_cap_s_c hp_cap_s_d].
  rewrite K4. cbn [hs_nrows hs_adensity hs_bdensity hs_cdensity hs_ddensity hp_size_of]. unfold hp_claimed in Hn.
  match goal with |- context [(?a <=? ?b)%Z] => destruct (Z.leb_spec a b); [lia|reflexivity] end.
Qed.
(** a witness longer than the padded vector panics *)
Lemma hp_long_panic d beta (g : G1) (h : G2) pp cs pk vk x wa wb wc d0 d1 d2 :
  setup d beta g h = Ok pp -> hp_index gamma pp cs = Ok (pk, vk) ->
  (3 * h_ncols cs + hp_claimed cs + 1 < length wa + length wb + length wc)%nat ->
  hp_prove H gamma pk x (wa, wb, wc) d0 d1 d2 = Panic.
Proof.
  intros Hs Hi Hn. destruct (hp_index_inv gamma _ _ _ _ _ _ _ _ Hs Hi) as
    [K1 K2 K3 K4 K5 KL K6 Ku Kw Kv Ky K8 K9 Cu Cw Cv Cy].
  unfold hp_prove. cbn zeta. unfold hp_round1. cbn zeta. rewrite K1.
  unfold zero_pad_and_concat, zero_pad, vector_concat. cbn [concat]. rewrite app_nil_r, !app_length.
  unfold hp_vovectorsize. cbn [hp_pub_of hp_cap_k hp_cap_s_a hp_cap_s_b hp_cap_s_c hp_cap_s_d]. rewrite K4.
  cbn [hs_ncols hs_adensity hs_bdensity hs_cdensity hs_ddensity hp_size_of]. unfold hp_claimed in Hn.
  match goal with |- context [(?a <? ?b)%nat] => destruct (Nat.ltb_spec a b) as [|Hc] end; [reflexivity|]. exfalso. lia.
Qed.
(** the three parts of the witness are only looked at as one list *)
Lemma hp_concat_only pk x wa wb wc wa' wb' wc' d0 d1 d2 :
  wa ++ wb ++ wc = wa' ++ wb' ++ wc' ->
  hp_prove H gamma pk x (wa, wb, wc) d0 d1 d2 = hp_prove H gamma pk x (wa', wb', wc') d0 d1 d2.
Proof.
  intros E. assert (hp_round1 gamma pk x (wa, wb, wc) [d0] = hp_round1 gamma pk x (wa', wb', wc') [d0]) as R.
  { unfold hp_round1, vector_concat. cbn [concat]. now rewrite !app_nil_r, E. }
  unfold hp_prove. now rewrite R.
Qed.
End Run.
End HPTop.

(** R1Complete.v: every proof produced by the R1CS prover is accepted. *)
From Verif Require Import Base Spec Tools ToolsProofs MatProofs ToolsProofs2 CS CSProofs KZG KZGProofs Properties_KZG
  Snark Laurent SnarkProofs PovPEComplete SparseSum R1 R1Proofs R1Const.
Local Open Scope F_scope.

Section R1Complete.
Context {F G1 G2 GT : Type} {fo : FieldOps F} {fl : FieldLaws F}
        {po : PairingOps F G1 G2 GT} {pl : PairingLaws F G1 G2 GT}.
Add Field Frc : F_th.

(** the size reported for a system whose coordinate lists have matching lengths *)
Definition r1_size_of (cs : R1CS F) : R1CSSize :=
  mkR1CSSize (r_nrows cs) (r_ncols cs) (length (r_arows cs)) (length (r_brows cs)) (length (r_crows cs)) (r_input_size cs).
Definition r1_lengths (cs : R1CS F) : Prop :=
  length (r_arows cs) = length (r_acols cs) /\ length (r_arows cs) = length (r_avals cs) /\
  length (r_brows cs) = length (r_bcols cs) /\ length (r_brows cs) = length (r_bvals cs) /\
  length (r_crows cs) = length (r_ccols cs) /\ length (r_crows cs) = length (r_cvals cs).
Lemma r1_get_size_inv {E} (cs : R1CS F) sz : r1cs_get_size (E:=E) cs = Ok sz -> sz = r1_size_of cs /\ r1_lengths cs.
Proof.
  unfold r1cs_get_size, r1_lengths. intros X.
  destruct (Nat.eqb_spec (length (r_arows cs)) (length (r_acols cs))); [|discriminate].
  destruct (Nat.eqb_spec (length (r_arows cs)) (length (r_avals cs))); [|discriminate].
  destruct (Nat.eqb_spec (length (r_brows cs)) (length (r_bcols cs))); [|discriminate].
  destruct (Nat.eqb_spec (length (r_brows cs)) (length (r_bvals cs))); [|discriminate].
  destruct (Nat.eqb_spec (length (r_crows cs)) (length (r_ccols cs))); [|discriminate].
  destruct (Nat.eqb_spec (length (r_crows cs)) (length (r_cvals cs))); [|discriminate].
  cbn [assert_ obind] in X. injection X as <-. split; [reflexivity|tauto].
Qed.
Lemma r1_get_size_ok {E} (cs : R1CS F) : r1_lengths cs -> r1cs_get_size (E:=E) cs = Ok (r1_size_of cs).
Proof.
  intros [A [B [C [D [X Y]]]]]. unfold r1cs_get_size. rewrite <- A, <- B, <- C, <- D, <- X, <- Y, !Nat.eqb_refl. reflexivity.
Qed.
(** the stacked matrix *)
Definition r1_stack (cs : R1CS F) := concat_matrix_vertically (r_nrows cs) (r_arows cs) (r_brows cs) (r_crows cs)
                       (r_acols cs) (r_bcols cs) (r_ccols cs) (r_avals cs) (r_bvals cs) (r_cvals cs).
Definition r1_nnz (cs : R1CS F) : nat := (length (r_arows cs) + length (r_brows cs) + length (r_crows cs))%nat.
Lemma r1_stack_len cs : r1_lengths cs ->
  length (fst (fst (r1_stack cs))) = r1_nnz cs /\ length (snd (fst (r1_stack cs))) = r1_nnz cs /\ length (snd (r1_stack cs)) = r1_nnz cs.
Proof.
  intros [A [B [C [D [X Y]]]]]. unfold r1_stack, r1_nnz, concat_matrix_vertically. cbn [fst snd]. rewrite !app_length, !map_length. lia.
Qed.

Section Run.
Variable H : list (item F G1) -> F.
Variable gamma : F.

(** what [index] puts in the keys *)
Record r1_keys (d : nat) (beta : F) (g : G1) (h : G2) (cs : R1CS F) (pk : r1_pk F G1 G2) (vk : r1_vk G1 G2) : Prop := {
  rk_vk : r1_pk_verifier_key pk = vk;
  rk_pow : r1_pk_powers pk = srs (d + 1) beta g;
  rk_kzg : r1_vk_kzg_vk vk = vk_for beta g h;
  rk_size : r1_vk_size vk = r1_size_of cs;
  rk_bound : r1_vk_degree_bound vk = (d + 1)%nat;
  rk_len : r1_lengths cs;
  rk_mat : r1_pk_cap_m_mat pk = r1_stack cs;
  rk_u : r1_pk_u_vec pk = int_array_to_power_vector (fst (fst (r1_stack cs))) gamma;
  rk_w : r1_pk_w_vec pk = int_array_to_power_vector (snd (fst (r1_stack cs))) gamma;
  rk_v : r1_pk_v_vec pk = snd (r1_stack cs);
  rk_y : r1_pk_y_vec pk = hadamard_vector (r1_pk_u_vec pk) (r1_pk_w_vec pk);
  rk_deg : (2 * Z.of_nat (r_ncols cs) + 2 * Z.of_nat (r1_nnz cs) - Z.of_nat (r_nrows cs) < Z.of_nat (d + 1))%Z;
  rk_nnz : (1 <= r1_nnz cs)%nat;
  rk_cm_u : r1_vk_cm_u_vec vk = vscale (peval (r1_pk_u_vec pk) beta) g;
  rk_cm_w : r1_vk_cm_w_vec vk = vscale (peval (r1_pk_w_vec pk) beta) g;
  rk_cm_v : r1_vk_cm_v_vec vk = vscale (peval (r1_pk_v_vec pk) beta) g;
  rk_cm_y : r1_vk_cm_y_vec vk = vscale (peval (r1_pk_y_vec pk) beta) g }.

Lemma r1_index_inv d beta (g : G1) (h : G2) pp cs pk vk : setup d beta g h = Ok pp ->
  r1_index gamma pp cs = Ok (pk, vk) -> r1_keys d beta g h cs pk vk.
Proof.
  intros Hs Hi. destruct (kzg_vk_setup d beta g h pp Hs) as [Hd [Hp Hv]].
  unfold r1_index in Hi. rewrite Hp, Hv, srs_length in Hi.
  apply obind_ok in Hi. destruct Hi as [sz [Esz Hi]]. apply r1_get_size_inv in Esz. destruct Esz as [-> HL].
  destruct (r1_stack_len cs HL) as [LR [LC LV]].
  unfold r1_get_max_degree in Hi.
  destruct (Z.ltb_spec (- Z.of_nat (rs_nrows (r1_size_of cs)) + 2 * Z.of_nat (rs_ncols (r1_size_of cs)) +
    2 * Z.of_nat (rs_adensity (r1_size_of cs)) + 2 * Z.of_nat (rs_bdensity (r1_size_of cs)) + 2 * Z.of_nat (rs_cdensity (r1_size_of cs))) 0)%Z as [|Hpos]; [discriminate|].
  cbn [rs_nrows rs_ncols rs_adensity rs_bdensity rs_cdensity r1_size_of] in Hpos, Hi.
  destruct (Nat.ltb_spec (Z.to_nat (- Z.of_nat (r_nrows cs) + 2 * Z.of_nat (r_ncols cs) +
    2 * Z.of_nat (length (r_arows cs)) + 2 * Z.of_nat (length (r_brows cs)) + 2 * Z.of_nat (length (r_crows cs)))) (d + 1)) as [Hm|]; [|discriminate].
  cbn [assert_ obind] in Hi. fold (r1_stack cs) in Hi.
  set (u := int_array_to_power_vector (fst (fst (r1_stack cs))) gamma) in *.
  set (w := int_array_to_power_vector (snd (fst (r1_stack cs))) gamma) in *.
  set (v := snd (r1_stack cs)) in *. set (y := hadamard_vector u w) in *.
  assert (length u = r1_nnz cs) as Lu by (unfold u; now rewrite power_vector_length).
  assert (length w = r1_nnz cs) as Lw by (unfold w; now rewrite power_vector_length).
  assert (length y = r1_nnz cs) as Ly by (unfold y; rewrite hadamard_length, Lu, Lw; lia).
  assert (Z.of_nat (r1_nnz cs) = Z.of_nat (length (r_arows cs)) + Z.of_nat (length (r_brows cs)) + Z.of_nat (length (r_crows cs)))%Z as EN by (unfold r1_nnz; lia).
  apply obind_ok in Hi. destruct Hi as [cu [E1 Hi]]. apply obind_ok in Hi. destruct Hi as [cw [E2 Hi]].
  apply obind_ok in Hi. destruct Hi as [cv [E3 Hi]]. apply obind_ok in Hi. destruct Hi as [cy [E4 Hi]].
  apply commit_vector_inv0 in E1; [|lia]. apply commit_vector_inv0 in E2; [|lia].
  apply commit_vector_inv0 in E3; [|fold v in LV; rewrite LV; lia]. apply commit_vector_inv0 in E4; [|lia].
  injection Hi as <- <-. split; try lia; cbn [r1_pk_verifier_key r1_pk_powers r1_vk_kzg_vk r1_vk_size r1_vk_degree_bound r1_pk_cap_m_mat r1_pk_u_vec r1_pk_w_vec r1_pk_v_vec r1_pk_y_vec r1_vk_cm_u_vec r1_vk_cm_w_vec r1_vk_cm_v_vec r1_vk_cm_y_vec]; auto; tauto.
Qed.

(** lengths of the vectors of an honest run *)
Record r1_hsizes (e : r1_s6 F) : Prop := {
  hz_h : (1 <= r1_cap_h e)%Z; hz_k : (1 <= r1_cap_k e)%Z;
  hz_3h : (3 * r1_cap_h e <= r1_cap_s_a e + r1_cap_s_b e + r1_cap_s_c e)%Z;
  hz_u : (Z.of_nat (length (r1_u_vec e)) = r1_cap_s_a e + r1_cap_s_b e + r1_cap_s_c e)%Z;
  hz_w : (Z.of_nat (length (r1_w_vec e)) = r1_cap_s_a e + r1_cap_s_b e + r1_cap_s_c e)%Z;
  hz_v : (Z.of_nat (length (r1_v_vec e)) = r1_cap_s_a e + r1_cap_s_b e + r1_cap_s_c e)%Z;
  hz_y : (Z.of_nat (length (r1_y_vec e)) = r1_cap_s_a e + r1_cap_s_b e + r1_cap_s_c e)%Z;
  hz_u1 : (Z.of_nat (length (r1_u_vec_1 e)) = r1_vovectorsize e + 1)%Z;
  hz_s : (Z.of_nat (length (r1_s_vec e)) = 3 * r1_cap_h e + r1_cap_k e)%Z;
  hz_hv : (Z.of_nat (length (r1_h_vec e)) = r1_vovectorsize e)%Z;
  hz_r : (Z.of_nat (length (r1_r_vec_tilde e)) = r1_vovectorsize e + 1)%Z;
  hz_t : (Z.of_nat (length (r1_t_vec e)) = r1_maxshift e + 3)%Z;
  hz_d : (2 * r1_vovectorsize e - r1_cap_h e + 1 <= r1_cap_d e)%Z }.

(** the combined polynomial *)
Lemma r1_g_value (e : r1_s6 F) q gv : r1_hsizes e -> r1_g_vec e q = Ok gv ->
  length gv = Z.to_nat (r1_cap_d e) /\
  forall x, peval gv x = r1_p_c_35 q * peval (r1_s_vec e) x
    + r1_p_c_37 q * peval (r1_h_vec e) x + r1_p_c_38 q * peval (r1_w_vec e) x
    + r1_p_c_39 q * peval (r1_u_vec e) x + r1_p_c_40 q * peval (r1_y_vec e) x
    + r1_p_c_41 q * peval (r1_u_vec_1 e) x + r1_p_c_42 q * peval (r1_v_vec e) x
    + r1_p_c_43 q * peval (r1_r_vec_tilde e) x + r1_p_c_44 q * peval (r1_t_vec e) x
    + r1_p_c_45 q * (fpow x (Z.to_nat (r1_cap_d e - (r1_maxshift e + r1_vovectorsize e))) * peval (r1_h_vec_2 e) x)
    + r1_p_c_46 q * peval (r1_h_vec_3 e) x + r1_p_c_36 q.
Proof.
  intros [] HG. unfold r1_g_vec in HG. apply add_first_inv in HG. destruct HG as [_ [L HG]].
  split; auto. intros x. rewrite HG. f_equal. unfold r1_g_at, linear_combination. cbn [fold_left fst snd].
  match goal with |- _ = ?rhs => change (EV (r1_cap_d e) x (fun i => ((((((((((0 + r1_p_c_35 q * vidx (r1_s_vec e) i)
    + r1_p_c_37 q * vidx (r1_h_vec e) i) + r1_p_c_38 q * vidx (r1_w_vec e) i)
    + r1_p_c_39 q * vidx (r1_u_vec e) i) + r1_p_c_40 q * vidx (r1_y_vec e) i)
    + r1_p_c_41 q * vidx (r1_u_vec_1 e) i) + r1_p_c_42 q * vidx (r1_v_vec e) i)
    + r1_p_c_43 q * vidx (r1_r_vec_tilde e) i) + r1_p_c_44 q * vidx (r1_t_vec e) i)
    + r1_p_c_45 q * vidx (r1_h_vec_2 e) (- r1_cap_d e + i + r1_maxshift e + r1_vovectorsize e)%Z)
    + r1_p_c_46 q * vidx (r1_h_vec_3 e) i) rhs) end.
  assert (length (r1_h_vec_2 e) = Z.to_nat (r1_maxshift e + r1_vovectorsize e)) as L1 by apply expression_vector_length.
  assert (length (r1_h_vec_3 e) = Z.to_nat (r1_maxshift e + r1_vovectorsize e)) as L2 by apply expression_vector_length.
  unfold r1_maxshift, r1_vovectorsize in *.
  repeat apply EV_add; try apply EV_scale; try (apply EV_list; lia).
  - unfold EV. rewrite eval_vector_expression_sum.
    rewrite (peval_sumn (r1_s_vec e) x (Z.to_nat (r1_cap_d e))), <- sumn_mul_l by lia. apply sumn_ext.
    intros i _. rewrite vidx_S. ring.
  - apply (EV_shift (r1_cap_d e) x (r1_h_vec_2 e) _
      (fun i => (- r1_cap_d e + i + (- r1_cap_h e + r1_cap_k e + r1_cap_s_a e + r1_cap_s_b e + r1_cap_s_c e) + (r1_cap_k e + r1_cap_s_a e + r1_cap_s_b e + r1_cap_s_c e))%Z)); [rewrite L1; lia|].
    intros i. lia.
Qed.

(** the commitment to the combined polynomial *)
Lemma r1_cm_g_value beta (g : G1) (h : G2) vk (e : r1_s6 F) q gv : r1_hsizes e -> r1_g_vec e q = Ok gv ->
  r1_vk_kzg_vk vk = vk_for beta g h ->
  r1_vk_cm_u_vec vk = vscale (peval (r1_u_vec e) beta) g ->
  r1_vk_cm_w_vec vk = vscale (peval (r1_w_vec e) beta) g ->
  r1_vk_cm_v_vec vk = vscale (peval (r1_v_vec e) beta) g ->
  r1_vk_cm_y_vec vk = vscale (peval (r1_y_vec e) beta) g ->
  r1_v_cm_g vk q (vscale (peval (r1_u_vec_1 e) beta) g) (vscale (peval (r1_s_vec e) beta) g)
     (vscale (peval (r1_h_vec e) beta) g) (vscale (peval (r1_r_vec_tilde e) beta) g) (vscale (peval (r1_t_vec e) beta) g)
     (vscale (fpow beta (Z.to_nat (r1_cap_d e - (r1_maxshift e + r1_vovectorsize e))) * peval (r1_h_vec_2 e) beta) g)
     (vscale (peval (r1_h_vec_3 e) beta) g) = vscale (peval gv beta) g.
Proof.
  intros HZ HG K3 K10 K11 K12 K13. destruct (r1_g_value e q gv HZ HG) as [_ V]. rewrite V. clear V.
  unfold r1_v_cm_g. rewrite K3, K10, K11, K12, K13. cbn [vk_g vk_for].
  pose proof (lin_comb_vscale g (r1_v_c_36 q)
    [(peval (r1_s_vec e) beta, r1_v_c_35 q); (peval (r1_h_vec e) beta, r1_v_c_37 q);
     (peval (r1_w_vec e) beta, r1_v_c_38 q); (peval (r1_u_vec e) beta, r1_v_c_39 q);
     (peval (r1_y_vec e) beta, r1_v_c_40 q); (peval (r1_u_vec_1 e) beta, r1_v_c_41 q);
     (peval (r1_v_vec e) beta, r1_v_c_42 q); (peval (r1_r_vec_tilde e) beta, r1_v_c_43 q);
     (peval (r1_t_vec e) beta, r1_v_c_44 q);
     (fpow beta (Z.to_nat (r1_cap_d e - (r1_maxshift e + r1_vovectorsize e))) * peval (r1_h_vec_2 e) beta, r1_v_c_45 q);
     (peval (r1_h_vec_3 e) beta, r1_v_c_46 q)]) as E. cbn [map fst snd] in E. rewrite E. f_equal.
  change (r1_v_c_35 q) with (r1_p_c_35 q). change (r1_v_c_36 q) with (r1_p_c_36 q).
  change (r1_v_c_37 q) with (r1_p_c_37 q). change (r1_v_c_38 q) with (r1_p_c_38 q).
  change (r1_v_c_39 q) with (r1_p_c_39 q). change (r1_v_c_40 q) with (r1_p_c_40 q).
  change (r1_v_c_41 q) with (r1_p_c_41 q). change (r1_v_c_42 q) with (r1_p_c_42 q).
  change (r1_v_c_43 q) with (r1_p_c_43 q). change (r1_v_c_44 q) with (r1_p_c_44 q).
  change (r1_v_c_45 q) with (r1_p_c_45 q). change (r1_v_c_46 q) with (r1_p_c_46 q).
  cbn [fsum]. ring.
Qed.

(** what the rounds produce *)
Lemma r1_round1_inv n beta (g : G1) pk x w dl s1 cu :
  r1_pk_powers pk = srs n beta g ->
  r1_round1 gamma pk x w [dl] = Ok (s1, cu) ->
  let e := r1_pub_of gamma (r1_pk_verifier_key pk) x in
  exists mz k, s1 = mkR1S1 e (r1_pk_u_vec pk) (r1_pk_w_vec pk) (r1_pk_v_vec pk) (r1_pk_y_vec pk)
                 ((mz ++ 1 :: x ++ w) ++ repeat 0 k ++ [dl]) /\
    sparse_mvp (E:=error) (3 * r1_cap_h e)%Z (r1_cap_k e) (fst (fst (r1_pk_cap_m_mat pk))) (snd (fst (r1_pk_cap_m_mat pk)))
      (snd (r1_pk_cap_m_mat pk)) (1 :: x ++ w) = Ok mz /\
    (1 <= r1_cap_h e)%Z /\ (1 <= r1_cap_k e)%Z /\
    (3 * r1_cap_h e <= r1_cap_s_a e + r1_cap_s_b e + r1_cap_s_c e)%Z /\
    (Z.of_nat (length (r1_u_vec_1 s1)) = r1_vovectorsize e + 1)%Z /\
    cu = vscale (peval (r1_u_vec_1 s1) beta) g.
Proof.
  intros K HR e. unfold r1_round1 in HR. cbn zeta in HR. rewrite K in HR. fold e in HR.
  destruct (r1_pk_cap_m_mat pk) as [[rows cols] vals].
  apply obind_ok in HR. destruct HR as [mz [E1 HR]].
  apply obind_ok in HR. destruct HR as [u1 [E2 HR]].
  apply obind_ok in HR. destruct HR as [cu' [E3 HR]]. injection HR as <- <-.
  change ([1] ++ x ++ w) with (1 :: x ++ w) in *.
  pose proof E1 as E1'. apply sparse_mvp_iff in E1'. destruct E1' as [Hh [Hk [Lz [_ Emz]]]].
  apply zero_pad_inv in E2. destruct E2 as [k [E2 L2]].
  cbn [vector_concat concat app] in E2, L2. rewrite app_nil_r in E2, L2.
  assert (length mz = Z.to_nat (3 * r1_cap_h e)) as Lm by (rewrite Emz, map_length, seq_length; reflexivity).
  rewrite app_length, Lm in L2.
  assert (0 <= r1_vovectorsize e)%Z as Hv by (unfold r1_vovectorsize, e, r1_pub_of; cbn; lia).
  assert (Z.of_nat (length u1) = r1_vovectorsize e + 1)%Z as L1.
  { rewrite E2, !(app_length (mz ++ _)), !(app_length mz), !(app_length (repeat _ _)), repeat_length, Lm. cbn [length] in *. lia. }
  apply commit_vector_inv0 in E3; [|lia]. exists mz, k. cbn [r1_u_vec_1].
  split; [now rewrite E2|]. cbn [fst snd]. split; auto. split; [lia|]. split; [lia|].
  split; [unfold r1_vovectorsize in *; lia|]. split; [auto|tauto].
Qed.
Lemma r1_round2_inv n beta (g : G1) pk (e : r1_s2 F) sv cs :
  r1_pk_powers pk = srs n beta g -> (0 <= r1_cap_h e)%Z -> (0 <= r1_cap_k e)%Z ->
  r1_round2 pk e = Ok (sv, cs) ->
  exists cv, left_sparse_mvp (E:=error) (r1_pk_cap_m_mat pk) (r1_r_vec e) (3 * r1_cap_h e)%Z (r1_cap_k e) = Ok cv /\
  sv = concat_neg_vector (r1_r_vec e) cv /\
  (Z.of_nat (length sv) = 3 * r1_cap_h e + r1_cap_k e)%Z /\ cs = vscale (peval sv beta) g.
Proof.
  intros K HH HK HR. unfold r1_round2 in HR. rewrite K in HR.
  apply obind_ok in HR. destruct HR as [cv [E1 HR]].
  apply obind_ok in HR. destruct HR as [cs' [E2 HR]]. injection HR as <- <-. exists cv. split; auto. split; auto.
  destruct (r1_pk_cap_m_mat pk) as [[rows cols] vals]. apply left_sparse_mvp_iff in E1. destruct E1 as [_ [_ [_ [_ E1]]]].
  assert (Z.of_nat (length (concat_neg_vector (r1_r_vec e) cv)) = 3 * r1_cap_h e + r1_cap_k e)%Z as L.
  { unfold concat_neg_vector. rewrite app_length, map_length, E1, map_length, seq_length. unfold r1_r_vec.
    rewrite expression_vector_inverse_length. lia. }
  apply commit_vector_inv0 in E2; [|lia]. tauto.
Qed.
Lemma r1_round3_inv n beta (g : G1) pk (e : r1_s3 F) hv ch :
  r1_pk_powers pk = srs n beta g -> (0 <= r1_cap_k e)%Z ->
  (Z.of_nat (length (r1_u_vec e)) = r1_ell_1 e)%Z -> (Z.of_nat (length (r1_w_vec e)) = r1_ell_1 e)%Z ->
  r1_round3 pk e = Ok (hv, ch) ->
  hv = r1_h_val e /\ (Z.of_nat (length hv) = r1_cap_k e + r1_ell_1 e)%Z /\ ch = vscale (peval hv beta) g.
Proof.
  intros K HK Lu Lw HR. unfold r1_round3 in HR. rewrite K in HR.
  apply obind_ok in HR. destruct HR as [ch' [E1 HR]]. injection HR as <- <-. split; auto.
  assert (Z.of_nat (length (r1_h_val e)) = r1_cap_k e + r1_ell_1 e)%Z as L.
  { unfold r1_h_val, concat_uwinverse_vector. rewrite app_length, uwinverse_length. unfold r1_rnu_vec.
    rewrite expression_vector_inverse_length. lia. }
  apply commit_vector_inv0 in E1; [|lia]. tauto.
Qed.
Lemma r1_round4_inv n beta (g : G1) pk (e : r1_s4 F) dl rt cr :
  r1_pk_powers pk = srs n beta g -> (0 <= r1_vovectorsize e)%Z ->
  r1_round4 pk e [dl] = Ok (rt, cr) ->
  rt = r1_r_acc e ++ [dl] /\ (Z.of_nat (length rt) = r1_vovectorsize e + 1)%Z /\ cr = vscale (peval rt beta) g.
Proof.
  intros K HK HR. unfold r1_round4 in HR. cbn zeta in HR. rewrite K in HR.
  apply obind_ok in HR. destruct HR as [cr' [E1 HR]]. injection HR as <- <-.
  unfold vector_concat in *. cbn [concat app] in *. 
  assert (Z.of_nat (length (r1_r_acc e ++ [dl])) = r1_vovectorsize e + 1)%Z as L.
  { rewrite app_length. unfold r1_r_acc. rewrite accumulate_length. unfold r1_r_vec_1. rewrite expression_vector_length. cbn [length]. lia. }
  apply commit_vector_inv0 in E1; [|lia]. tauto.
Qed.
Lemma r1_round5_inv n beta (g : G1) pk (e : r1_s5 F) dl tv ct :
  r1_pk_powers pk = srs n beta g -> (0 <= r1_maxshift e)%Z ->
  r1_round5 pk e [dl] = Ok (tv, ct) ->
  tv = dl :: r1_t_vec_tail e /\ (Z.of_nat (length tv) = r1_maxshift e + 3)%Z /\ ct = vscale (peval tv beta) g.
Proof.
  intros K HK HR. unfold r1_round5 in HR. cbn zeta in HR. rewrite K in HR.
  apply obind_ok in HR. destruct HR as [ct' [E1 HR]]. injection HR as <- <-.
  unfold vector_concat in *. cbn [concat app] in *. rewrite app_nil_r in *.
  assert (Z.of_nat (length (dl :: r1_t_vec_tail e)) = r1_maxshift e + 3)%Z as L.
  { cbn [length]. unfold r1_t_vec_tail. rewrite expression_vector_length. lia. }
  apply commit_vector_inv0 in E1; [|lia]. tauto.
Qed.
Lemma r1_round6_inv n beta (g : G1) pk (e : r1_s6 F) c1 c2 :
  r1_pk_powers pk = srs n beta g -> (0 <= r1_maxshift e + r1_vovectorsize e <= r1_cap_d e)%Z ->
  r1_round6 pk e = Ok (c1, c2) ->
  c1 = vscale (fpow beta (Z.to_nat (r1_cap_d e - (r1_maxshift e + r1_vovectorsize e))) * peval (r1_h_vec_2 e) beta) g /\
  c2 = vscale (peval (r1_h_vec_3 e) beta) g.
Proof.
  intros K HC HR. unfold r1_round6 in HR. rewrite K in HR.
  apply obind_ok in HR. destruct HR as [[] [_ HR]].
  apply obind_ok in HR. destruct HR as [c1' [E1 HR]].
  apply obind_ok in HR. destruct HR as [c2' [E2 HR]]. injection HR as <- <-.
  assert (length (r1_h_vec_2 e) = Z.to_nat (r1_maxshift e + r1_vovectorsize e)) as L1 by apply expression_vector_length.
  assert (length (r1_h_vec_3 e) = Z.to_nat (r1_maxshift e + r1_vovectorsize e)) as L2 by apply expression_vector_length.
  apply commit_vector_inv in E1. destruct E1 as [_ [_ [_ ->]]].
  apply commit_vector_inv0 in E2; [|lia]. destruct E2 as [_ [_ ->]]. split; auto. do 3 f_equal.
  unfold voffset. rewrite L1. destruct (Nat.ltb_spec (Z.to_nat (r1_cap_d e)) (Z.to_nat (r1_maxshift e + r1_vovectorsize e))); lia.
Qed.
Lemma r1_round7_inv (e : r1_s6 F) z q gv : r1_round7 e z = Ok (q, gv) ->
  q = r1_ctx_of e z /\ r1_divisors q = Ok tt /\ r1_g_vec e q = Ok gv /\ peval gv z = 0.
Proof.
  intros HR. unfold r1_round7 in HR.
  apply obind_ok in HR. destruct HR as [[] [E0 HR]].
  apply obind_ok in HR. destruct HR as [gv' [E1 HR]].
  apply obind_ok in HR. destruct HR as [[] [E2 HR]]. injection HR as <- <-.
  apply check_poly_eval_inv in E2. rewrite peval_strip in E2. auto.
Qed.

(** *** Every proof is accepted *)
Lemma r1_accepts d beta (g : G1) (h : G2) pp cs pk vk x w d0 d1 d2 pf rnd :
  g <> v0 -> h <> v0 ->
  setup d beta g h = Ok pp -> r1_index gamma pp cs = Ok (pk, vk) ->
  r1_prove H gamma pk x w d0 d1 d2 = Ok pf -> r1_verify H gamma vk x pf rnd = Ok tt.
Proof.
  intros Hg Hh Hs Hi Hp. destruct (r1_index_inv _ _ _ _ _ _ _ _ Hs Hi) as
    [K1 K2 K3 K4 K5 KL K6 Ku Kw Kv Ky K8 K9 Cu Cw Cv Cy].
  destruct (r1_stack_len cs KL) as [LR [LC LV]].
  subst vk. set (vk := r1_pk_verifier_key pk) in *.
  unfold r1_prove in Hp. cbn zeta in Hp. fold vk in Hp.
  apply obind_ok in Hp. destruct Hp as [[s1 cu] [R1 Hp]].
  apply obind_ok in Hp. destruct Hp as [[sv cms] [R2 Hp]].
  apply obind_ok in Hp. destruct Hp as [[hv cmh] [R3 Hp]].
  apply obind_ok in Hp. destruct Hp as [[rt cr] [R4 Hp]].
  apply obind_ok in Hp. destruct Hp as [[tv ct] [R5 Hp]].
  apply obind_ok in Hp. destruct Hp as [[ch2 ch3] [R6 Hp]].
  apply obind_ok in Hp. destruct Hp as [[q gv] [R7 Hp]].
  apply obind_ok in Hp. destruct Hp as [[w1 w2] [R8 Hp]].
  injection Hp as <-.
  apply (r1_round1_inv _ _ _ _ _ _ _ _ _ K2) in R1. cbn zeta in R1. fold vk in R1.
  destruct R1 as [mz [kp [-> [_ [HH [HK [H3 [L1 Ecu]]]]]]]]. cbn [r1_u_vec_1] in *.
  set (e := r1_pub_of gamma vk x) in *. set (u1 := (mz ++ _) ++ _) in *.
  assert (Z.of_nat (r1_nnz cs) = r1_cap_s_a e + r1_cap_s_b e + r1_cap_s_c e)%Z as EN
    by (unfold e, r1_pub_of; cbn; rewrite K4; unfold r1_nnz, r1_size_of; cbn; lia).
  assert (length (r1_pk_u_vec pk) = r1_nnz cs) as Lu by (rewrite Ku; now rewrite power_vector_length).
  assert (length (r1_pk_w_vec pk) = r1_nnz cs) as Lw by (rewrite Kw; now rewrite power_vector_length).
  assert (length (r1_pk_y_vec pk) = r1_nnz cs) as Ly by (rewrite Ky, hadamard_length, Lu, Lw; lia).
  apply (r1_round2_inv _ _ _ _ _ _ _ K2) in R2; [|cbn; lia|cbn; lia]. destruct R2 as [cv [_ [_ [L2 Ecs]]]].
  apply (r1_round3_inv _ _ _ _ _ _ _ K2) in R3; [|cbn; lia| |].
  2:{ change (Z.of_nat (length (r1_pk_u_vec pk)) = r1_cap_s_a e + r1_cap_s_b e + r1_cap_s_c e)%Z. lia. }
  2:{ change (Z.of_nat (length (r1_pk_w_vec pk)) = r1_cap_s_a e + r1_cap_s_b e + r1_cap_s_c e)%Z. lia. }
  destruct R3 as [_ [L3 Ech]].
  assert (0 <= r1_vovectorsize e)%Z as Hv by (unfold r1_vovectorsize; lia).
  assert (0 <= r1_maxshift e)%Z as Hms by (unfold r1_maxshift; lia).
  apply (r1_round4_inv _ _ _ _ _ _ _ _ K2) in R4; [|exact Hv]. destruct R4 as [_ [L4 Ecr]].
  apply (r1_round5_inv _ _ _ _ _ _ _ _ K2) in R5; [|exact Hms]. destruct R5 as [_ [L5 Ect]].
  set (s6 := mkR1S6 _ tv _) in *.
  assert (r1_cap_d e = Z.of_nat (d + 1)) as ED by (change (Z.of_nat (r1_vk_degree_bound vk) = Z.of_nat (d + 1)); now rewrite K5).
  assert (r1_cap_h e = Z.of_nat (r_nrows cs)) as EH by (change (Z.of_nat (rs_nrows (r1_vk_size vk)) = Z.of_nat (r_nrows cs)); now rewrite K4).
  assert (r1_cap_k e = Z.of_nat (r_ncols cs)) as EK by (change (Z.of_nat (rs_ncols (r1_vk_size vk)) = Z.of_nat (r_ncols cs)); now rewrite K4).
  assert (r1_hsizes s6) as HZ.
  { split.
    - exact HH.
    - exact HK.
    - exact H3.
    - change (Z.of_nat (length (r1_pk_u_vec pk)) = r1_cap_s_a e + r1_cap_s_b e + r1_cap_s_c e)%Z. lia.
    - change (Z.of_nat (length (r1_pk_w_vec pk)) = r1_cap_s_a e + r1_cap_s_b e + r1_cap_s_c e)%Z. lia.
    - change (Z.of_nat (length (r1_pk_v_vec pk)) = r1_cap_s_a e + r1_cap_s_b e + r1_cap_s_c e)%Z. rewrite Kv. lia.
    - change (Z.of_nat (length (r1_pk_y_vec pk)) = r1_cap_s_a e + r1_cap_s_b e + r1_cap_s_c e)%Z. lia.
    - exact L1.
    - exact L2.
    - change (r1_h_vec s6) with hv. change (r1_vovectorsize s6) with (r1_vovectorsize e). change (Z.of_nat (length hv) = r1_cap_k e + r1_ell_1 e)%Z in L3. rewrite L3. unfold r1_ell_1, r1_vovectorsize. lia.
    - exact L4.
    - exact L5.
    - change (2 * r1_vovectorsize e - r1_cap_h e + 1 <= r1_cap_d e)%Z. unfold r1_vovectorsize. lia. }
  apply (r1_round6_inv _ _ _ _ _ _ _ K2) in R6.
  2:{ destruct HZ. unfold r1_maxshift, r1_vovectorsize in *. lia. }
  destruct R6 as [Ec1 Ec2].
  apply r1_round7_inv in R7. destruct R7 as [Eq [Hdiv [Hgv Hz0]]].
  unfold r1_verify. cbn zeta.
  cbn [r1_cm_u_vec_1 r1_cm_s_vec r1_cm_h_vec r1_cm_r_vec_tilde r1_cm_t_vec r1_cm_h_vec_2 r1_cm_h_vec_3 r1_pf_y r1_pf_y_1 r1_cap_w r1_cap_w_1].
  match goal with |- obind (r1_divisors ?q') _ = _ => assert (q' = q) as -> by (rewrite Eq; reflexivity) end.
  rewrite Hdiv. cbn [obind].
  change (r1_v_ch_omega H vk x cu cms cmh cr ct) with (r1_p_ch_omega H vk x cu cms cmh cr ct).
  change (r1_v_ch_z H vk x cu cms cmh cr ct ch2 ch3) with (r1_p_ch_z H vk x cu cms cmh cr ct ch2 ch3).
  change (r1_v_cm_g vk q cu cms cmh cr ct ch2 ch3) with (r1_p_cm_g vk q cu cms cmh cr ct ch2 ch3).
  change (r1_v_ch_rand_xi H vk x cu cms cmh cr ct ch2 ch3) with (r1_p_ch_rand_xi H vk x cu cms cmh cr ct ch2 ch3).
  change (r1_v_ch_rand_xi_2 H vk x cu cms cmh cr ct ch2 ch3) with (r1_p_ch_rand_xi_2 H vk x cu cms cmh cr ct ch2 ch3).
  rewrite K2 in R8.
  pose proof (batch_verifies (d + 1) beta g h _ _ _ _ _ _ _ _ rnd Hg Hh R8 ltac:(lia)) as V.
  assert (r1_p_cm_g vk q cu cms cmh cr ct ch2 ch3 = vscale (peval gv beta) g) as Ecg.
  { change (r1_p_cm_g vk q cu cms cmh cr ct ch2 ch3) with (r1_v_cm_g vk q cu cms cmh cr ct ch2 ch3).
    rewrite Ecu, Ecs, Ech, Ecr, Ect, Ec1, Ec2. change u1 with (r1_u_vec_1 s6). change sv with (r1_s_vec s6).
    change hv with (r1_h_vec s6). change rt with (r1_r_vec_tilde s6).
    change tv with (r1_t_vec s6). apply r1_cm_g_value with (h := h); [exact HZ|exact Hgv|exact K3|exact Cu|exact Cw|exact Cv|exact Cy]. }
  rewrite K3.
  match goal with |- (if batch_check _ ?cs ?ds _ _ _ _ ?ys ?zs _ _ _ then _ else _) = _ =>
    match type of V with batch_check _ ?cs' ?ds' _ _ _ _ ?ys' ?zs' _ _ _ = _ =>
      assert (cs = cs') as X1; [|assert (ds = ds') as X2; [|assert (ys = ys') as X3; [|assert (zs = zs') as X4]]] end end.
  - cbn [map]. rewrite !peval_strip, Ech, Ecu. reflexivity.
  - cbn [map]. rewrite !peval_strip, Ecg. reflexivity.
  - cbn [map]. rewrite !peval_strip, Eq. cbn [r1_ctx_of r1_q_y r1_q_y_1]. unfold r1_y, r1_y_1.
    destruct HZ. rewrite !eval_vidx by (unfold r1_vovectorsize in *; lia). reflexivity.
  - cbn [map]. rewrite !peval_strip, Hz0. reflexivity.
  - rewrite X1, X2, X3, X4, V. reflexivity.
Qed.
End Run.
End R1Complete.

(** HPComplete.v: every proof produced by the HPR prover is accepted. *)
From Verif Require Import Base Spec Tools ToolsProofs MatProofs ToolsProofs2 CS CSProofs KZG KZGProofs Properties_KZG
  Snark Laurent SnarkProofs PovPEComplete SparseSum HP HPProofs HPConst.
Local Open Scope F_scope.

Section HPComplete.
Context {F G1 G2 GT : Type} {fo : FieldOps F} {fl : FieldLaws F}
        {po : PairingOps F G1 G2 GT} {pl : PairingLaws F G1 G2 GT}.
Add Field Frc : F_th.

(** the size reported for a system whose coordinate lists have matching lengths: the number of
    entries of A stands for those of B and C too (cs/hpr.rs:91-99) *)
Definition hp_size_of (cs : HPR F) : HPRSize :=
  mkHPRSize (h_nrows cs) (h_ncols cs) (length (h_arows cs)) (length (h_arows cs)) (length (h_arows cs))
    (length (h_drows cs)) (h_input_size cs).
Definition hp_lengths (cs : HPR F) : Prop :=
  length (h_arows cs) = length (h_acols cs) /\ length (h_arows cs) = length (h_avals cs) /\
  length (h_brows cs) = length (h_bcols cs) /\ length (h_brows cs) = length (h_bvals cs) /\
  length (h_crows cs) = length (h_ccols cs) /\ length (h_crows cs) = length (h_cvals cs) /\
  length (h_drows cs) = length (h_dvals cs) /\ (length (h_drows cs) <= h_nrows cs)%nat.
Lemma hp_get_size_inv {E} (cs : HPR F) sz : hpr_get_size (E:=E) cs = Ok sz -> sz = hp_size_of cs /\ hp_lengths cs.
Proof.
  unfold hpr_get_size, hp_lengths. intros X.
  destruct (Nat.eqb_spec (length (h_arows cs)) (length (h_acols cs))); [|discriminate].
  destruct (Nat.eqb_spec (length (h_arows cs)) (length (h_avals cs))); [|discriminate].
  destruct (Nat.eqb_spec (length (h_brows cs)) (length (h_bcols cs))); [|discriminate].
  destruct (Nat.eqb_spec (length (h_brows cs)) (length (h_bvals cs))); [|discriminate].
  destruct (Nat.eqb_spec (length (h_crows cs)) (length (h_ccols cs))); [|discriminate].
  destruct (Nat.eqb_spec (length (h_crows cs)) (length (h_cvals cs))); [|discriminate].
  destruct (Nat.eqb_spec (length (h_drows cs)) (length (h_dvals cs))); [|discriminate].
  destruct (Nat.leb_spec (length (h_drows cs)) (h_nrows cs)); [|discriminate].
  cbn [assert_ obind] in X. injection X as <-. split; [reflexivity|tauto].
Qed.
Lemma hp_get_size_ok {E} (cs : HPR F) : hp_lengths cs -> hpr_get_size (E:=E) cs = Ok (hp_size_of cs).
Proof.
  intros [A [B [C [D [X [Y [Z W]]]]]]]. unfold hpr_get_size. rewrite <- A, <- B, <- C, <- D, <- X, <- Y, <- Z, !Nat.eqb_refl.
  destruct (Nat.leb_spec (length (h_drows cs)) (h_nrows cs)); [reflexivity|lia].
Qed.
(** the matrix (d | A | B | C) *)
Definition hp_stack (cs : HPR F) := concat_matrix_horizontally (h_ncols cs) (h_arows cs) (h_brows cs) (h_crows cs)
                       (h_acols cs) (h_bcols cs) (h_ccols cs) (h_avals cs) (h_bvals cs) (h_cvals cs) (h_drows cs) (h_dvals cs).
(** the number of its entries, and the number the sizes claim *)
Definition hp_nnz (cs : HPR F) : nat := (length (h_arows cs) + length (h_brows cs) + length (h_crows cs) + length (h_drows cs))%nat.
Definition hp_claimed (cs : HPR F) : nat := (3 * length (h_arows cs) + length (h_drows cs))%nat.
Lemma hp_stack_len cs : hp_lengths cs ->
  length (fst (fst (hp_stack cs))) = hp_nnz cs /\ length (snd (fst (hp_stack cs))) = hp_nnz cs /\ length (snd (hp_stack cs)) = hp_nnz cs.
Proof.
  intros [A [B [C [D [X [Y [Z W]]]]]]]. unfold hp_stack, hp_nnz, concat_matrix_horizontally. cbn [fst snd]. rewrite !app_length, !map_length, seq_length. lia.
Qed.

Section Run.
Variable H : list (item F G1) -> F.
Variable gamma : F.

(** what [index] puts in the keys *)
Record hp_keys (d : nat) (beta : F) (g : G1) (h : G2) (cs : HPR F) (pk : hp_pk F G1 G2) (vk : hp_vk G1 G2) : Prop := {
  rk_vk : hp_pk_verifier_key pk = vk;
  rk_pow : hp_pk_powers pk = srs (d + 1) beta g;
  rk_kzg : hp_vk_kzg_vk vk = vk_for beta g h;
  rk_size : hp_vk_size vk = hp_size_of cs;
  rk_bound : hp_vk_degree_bound vk = (d + 1)%nat;
  rk_len : hp_lengths cs;
  rk_mat : hp_pk_cap_m_mat pk = hp_stack cs;
  rk_u : hp_pk_u_vec pk = int_array_to_power_vector (fst (fst (hp_stack cs))) gamma;
  rk_w : hp_pk_w_vec pk = int_array_to_power_vector (snd (fst (hp_stack cs))) gamma;
  rk_v : hp_pk_v_vec pk = snd (hp_stack cs);
  rk_y : hp_pk_y_vec pk = hadamard_vector (hp_pk_u_vec pk) (hp_pk_w_vec pk);
  rk_deg : (5 * h_ncols cs + 2 * hp_claimed cs + 2 < d + 1)%nat;
  rk_nnz : (1 <= hp_nnz cs <= d + 1)%nat;
  rk_cm_u : hp_vk_cm_u_vec vk = vscale (fpow beta (hp_claimed cs - hp_nnz cs) * peval (hp_pk_u_vec pk) beta) g;
  rk_cm_w : hp_vk_cm_w_vec vk = vscale (fpow beta (hp_claimed cs - hp_nnz cs) * peval (hp_pk_w_vec pk) beta) g;
  rk_cm_v : hp_vk_cm_v_vec vk = vscale (fpow beta (hp_claimed cs - hp_nnz cs) * peval (hp_pk_v_vec pk) beta) g;
  rk_cm_y : hp_vk_cm_y_vec vk = vscale (fpow beta (hp_claimed cs - hp_nnz cs) * peval (hp_pk_y_vec pk) beta) g }.

Lemma hp_index_inv d beta (g : G1) (h : G2) pp cs pk vk : setup d beta g h = Ok pp ->
  hp_index gamma pp cs = Ok (pk, vk) -> hp_keys d beta g h cs pk vk.
Proof.
  intros Hs Hi. destruct (kzg_vk_setup d beta g h pp Hs) as [Hd [Hp Hv]].
  unfold hp_index in Hi. rewrite Hp, Hv, srs_length in Hi.
  apply obind_ok in Hi. destruct Hi as [sz [Esz Hi]]. apply hp_get_size_inv in Esz. destruct Esz as [-> HL].
  destruct (hp_stack_len cs HL) as [LR [LC LV]].
  unfold hp_get_max_degree in Hi.
  cbn [hs_nrows hs_ncols hs_adensity hs_bdensity hs_cdensity hs_ddensity hp_size_of] in Hi.
  match type of Hi with obind (assert_ (?a <? ?b)%nat) _ = _ => destruct (Nat.ltb_spec a b) as [Hm|]; [|discriminate] end.
  cbn [assert_ obind] in Hi. fold (hp_stack cs) in Hi.
  set (u := int_array_to_power_vector (fst (fst (hp_stack cs))) gamma) in *.
  set (w := int_array_to_power_vector (snd (fst (hp_stack cs))) gamma) in *.
  set (v := snd (hp_stack cs)) in *. set (y := hadamard_vector u w) in *.
  assert (length u = hp_nnz cs) as Lu by (unfold u; now rewrite power_vector_length).
  assert (length w = hp_nnz cs) as Lw by (unfold w; now rewrite power_vector_length).
  assert (length y = hp_nnz cs) as Ly by (unfold y; rewrite hadamard_length, Lu, Lw; lia).
  set (ms := (Z.of_nat (length (h_arows cs)) + Z.of_nat (length (h_arows cs)) + Z.of_nat (length (h_arows cs)) + Z.of_nat (length (h_drows cs)))%Z) in *.
  assert (ms = Z.of_nat (hp_claimed cs)) as EN by (unfold ms, hp_claimed; lia). clearbody ms.
  assert (forall l : list F, length l = hp_nnz cs -> voffset l ms = (hp_claimed cs - hp_nnz cs)%nat) as Vo.
  { intros l L. unfold voffset. rewrite L, EN, Nat2Z.id. destruct (Nat.ltb_spec (hp_claimed cs) (hp_nnz cs)); lia. }
  apply obind_ok in Hi. destruct Hi as [cu [E1 Hi]]. apply obind_ok in Hi. destruct Hi as [cw [E2 Hi]].
  apply obind_ok in Hi. destruct Hi as [cv [E3 Hi]]. apply obind_ok in Hi. destruct Hi as [cy [E4 Hi]].
  apply commit_vector_inv in E1. apply commit_vector_inv in E2. apply commit_vector_inv in E3. apply commit_vector_inv in E4.
  rewrite Vo in E1, E2, E3, E4 by auto. 
  injection Hi as <- <-. split; cbn [hp_pk_verifier_key hp_pk_powers hp_vk_kzg_vk hp_vk_size hp_vk_degree_bound hp_pk_cap_m_mat hp_pk_u_vec hp_pk_w_vec hp_pk_v_vec hp_pk_y_vec hp_vk_cm_u_vec hp_vk_cm_w_vec hp_vk_cm_v_vec hp_vk_cm_y_vec]; auto; try tauto; unfold hp_claimed in *; lia.
Qed.
Lemma hp_uniform_commit (beta : F) (g : G1) n (l : list F) : n = 0%nat ->
  vscale (fpow beta n * peval l beta) g = vscale (peval l beta) g.
Proof. intros ->. apply commit_vector_inv0_aux. Qed.

(** lengths of the vectors of an honest run *)
Record hp_hsizes (e : hp_s6 F) : Prop := {
  hz_h : (1 <= hp_cap_h e)%Z; hz_k : (0 <= hp_cap_k e)%Z;
  hz_hm : (hp_cap_h e <= hp_cap_s_a e + hp_cap_s_b e + hp_cap_s_c e + hp_cap_s_d e)%Z;
  hz_u : (Z.of_nat (length (hp_u_vec e)) = hp_cap_s_a e + hp_cap_s_b e + hp_cap_s_c e + hp_cap_s_d e)%Z;
  hz_w : (Z.of_nat (length (hp_w_vec e)) = hp_cap_s_a e + hp_cap_s_b e + hp_cap_s_c e + hp_cap_s_d e)%Z;
  hz_v : (Z.of_nat (length (hp_v_vec e)) = hp_cap_s_a e + hp_cap_s_b e + hp_cap_s_c e + hp_cap_s_d e)%Z;
  hz_y : (Z.of_nat (length (hp_y_vec e)) = hp_cap_s_a e + hp_cap_s_b e + hp_cap_s_c e + hp_cap_s_d e)%Z;
  hz_u1 : (Z.of_nat (length (hp_w_vec_1 e)) = hp_vovectorsize e + 1)%Z;
  hz_s : (Z.of_nat (length (hp_s_vec e)) = hp_cap_h e + 3 * hp_cap_k e + 1)%Z;
  hz_hv : (Z.of_nat (length (hp_h_vec e)) = hp_vovectorsize e)%Z;
  hz_r : (Z.of_nat (length (hp_r_vec_tilde e)) = hp_vovectorsize e + 1)%Z;
  hz_t : (Z.of_nat (length (hp_t_vec e)) = hp_maxshift e + 3)%Z;
  hz_d : (2 * hp_vovectorsize e - hp_cap_k e + 1 <= hp_cap_d e)%Z }.

(** the combined polynomial *)
Lemma hp_g_value (e : hp_s6 F) q gv : hp_hsizes e -> hp_g_vec e q = Ok gv ->
  length gv = Z.to_nat (hp_cap_d e) /\
  forall x, peval gv x = hp_p_c_35 q * peval (hp_s_vec e) x
    + hp_p_c_37 q * peval (hp_h_vec e) x + hp_p_c_38 q * peval (hp_w_vec e) x
    + hp_p_c_39 q * peval (hp_u_vec e) x + hp_p_c_40 q * peval (hp_y_vec e) x
    + hp_p_c_41 q * peval (hp_w_vec_1 e) x + hp_p_c_42 q * peval (hp_v_vec e) x
    + hp_p_c_43 q * peval (hp_r_vec_tilde e) x + hp_p_c_44 q * peval (hp_t_vec e) x
    + hp_p_c_45 q * (fpow x (Z.to_nat (hp_cap_d e - (hp_maxshift e + hp_vovectorsize e))) * peval (hp_h_vec_2 e) x)
    + hp_p_c_46 q * peval (hp_h_vec_3 e) x + hp_p_c_36 q.
Proof.
  intros [] HG. unfold hp_g_vec in HG. apply add_first_inv in HG. destruct HG as [_ [L HG]].
  split; auto. intros x. rewrite HG. f_equal. unfold hp_g_at, linear_combination. cbn [fold_left fst snd].
  match goal with |- _ = ?rhs => change (EV (hp_cap_d e) x (fun i => ((((((((((0 + hp_p_c_35 q * vidx (hp_s_vec e) i)
    + hp_p_c_37 q * vidx (hp_h_vec e) i) + hp_p_c_38 q * vidx (hp_w_vec e) i)
    + hp_p_c_39 q * vidx (hp_u_vec e) i) + hp_p_c_40 q * vidx (hp_y_vec e) i)
    + hp_p_c_41 q * vidx (hp_w_vec_1 e) i) + hp_p_c_42 q * vidx (hp_v_vec e) i)
    + hp_p_c_43 q * vidx (hp_r_vec_tilde e) i) + hp_p_c_44 q * vidx (hp_t_vec e) i)
    + hp_p_c_45 q * vidx (hp_h_vec_2 e) (- hp_cap_d e + i + hp_maxshift e + hp_vovectorsize e)%Z)
    + hp_p_c_46 q * vidx (hp_h_vec_3 e) i) rhs) end.
  assert (length (hp_h_vec_2 e) = Z.to_nat (hp_maxshift e + hp_vovectorsize e)) as L1 by apply expression_vector_length.
  assert (length (hp_h_vec_3 e) = Z.to_nat (hp_maxshift e + hp_vovectorsize e)) as L2 by apply expression_vector_length.
  unfold hp_maxshift, hp_vovectorsize in *.
  repeat apply EV_add; try apply EV_scale; try (apply EV_list; lia).
  - unfold EV. rewrite eval_vector_expression_sum.
    rewrite (peval_sumn (hp_s_vec e) x (Z.to_nat (hp_cap_d e))), <- sumn_mul_l by lia. apply sumn_ext.
    intros i _. rewrite vidx_S. ring.
  - apply (EV_shift (hp_cap_d e) x (hp_h_vec_2 e) _
      (fun i => (- hp_cap_d e + i + (2 * hp_cap_k e + hp_cap_s_a e + hp_cap_s_b e + hp_cap_s_c e + hp_cap_s_d e + 1) + (3 * hp_cap_k e + hp_cap_s_a e + hp_cap_s_b e + hp_cap_s_c e + hp_cap_s_d e + 1))%Z)); [rewrite L1; lia|].
    intros i. lia.
Qed.

(** the commitment to the combined polynomial *)
Lemma hp_cm_g_value beta (g : G1) (h : G2) vk (e : hp_s6 F) q gv : hp_hsizes e -> hp_g_vec e q = Ok gv ->
  hp_vk_kzg_vk vk = vk_for beta g h ->
  hp_vk_cm_u_vec vk = vscale (peval (hp_u_vec e) beta) g ->
  hp_vk_cm_w_vec vk = vscale (peval (hp_w_vec e) beta) g ->
  hp_vk_cm_v_vec vk = vscale (peval (hp_v_vec e) beta) g ->
  hp_vk_cm_y_vec vk = vscale (peval (hp_y_vec e) beta) g ->
  hp_v_cm_g vk q (vscale (peval (hp_w_vec_1 e) beta) g) (vscale (peval (hp_s_vec e) beta) g)
     (vscale (peval (hp_h_vec e) beta) g) (vscale (peval (hp_r_vec_tilde e) beta) g) (vscale (peval (hp_t_vec e) beta) g)
     (vscale (fpow beta (Z.to_nat (hp_cap_d e - (hp_maxshift e + hp_vovectorsize e))) * peval (hp_h_vec_2 e) beta) g)
     (vscale (peval (hp_h_vec_3 e) beta) g) = vscale (peval gv beta) g.
Proof.
  intros HZ HG K3 K10 K11 K12 K13. destruct (hp_g_value e q gv HZ HG) as [_ V]. rewrite V. clear V.
  unfold hp_v_cm_g. rewrite K3, K10, K11, K12, K13. cbn [vk_g vk_for].
  pose proof (lin_comb_vscale g (hp_v_c_36 q)
    [(peval (hp_s_vec e) beta, hp_v_c_35 q); (peval (hp_h_vec e) beta, hp_v_c_37 q);
     (peval (hp_w_vec e) beta, hp_v_c_38 q); (peval (hp_u_vec e) beta, hp_v_c_39 q);
     (peval (hp_y_vec e) beta, hp_v_c_40 q); (peval (hp_w_vec_1 e) beta, hp_v_c_41 q);
     (peval (hp_v_vec e) beta, hp_v_c_42 q); (peval (hp_r_vec_tilde e) beta, hp_v_c_43 q);
     (peval (hp_t_vec e) beta, hp_v_c_44 q);
     (fpow beta (Z.to_nat (hp_cap_d e - (hp_maxshift e + hp_vovectorsize e))) * peval (hp_h_vec_2 e) beta, hp_v_c_45 q);
     (peval (hp_h_vec_3 e) beta, hp_v_c_46 q)]) as E. cbn [map fst snd] in E. rewrite E. f_equal.
  change (hp_v_c_35 q) with (hp_p_c_35 q). change (hp_v_c_36 q) with (hp_p_c_36 q).
  change (hp_v_c_37 q) with (hp_p_c_37 q). change (hp_v_c_38 q) with (hp_p_c_38 q).
  change (hp_v_c_39 q) with (hp_p_c_39 q). change (hp_v_c_40 q) with (hp_p_c_40 q).
  change (hp_v_c_41 q) with (hp_p_c_41 q). change (hp_v_c_42 q) with (hp_p_c_42 q).
  change (hp_v_c_43 q) with (hp_p_c_43 q). change (hp_v_c_44 q) with (hp_p_c_44 q).
  change (hp_v_c_45 q) with (hp_p_c_45 q). change (hp_v_c_46 q) with (hp_p_c_46 q).
  cbn [fsum]. ring.
Qed.

(** what the rounds produce *)
Lemma hp_round1_inv n beta (g : G1) pk x wa wb wc dl s1 cu :
  hp_pk_powers pk = srs n beta g ->
  hp_round1 gamma pk x (wa, wb, wc) [dl] = Ok (s1, cu) ->
  let e := hp_pub_of gamma (hp_pk_verifier_key pk) x in
  exists k, s1 = mkHPS1 e (hp_pk_u_vec pk) (hp_pk_w_vec pk) (hp_pk_v_vec pk) (hp_pk_y_vec pk)
                 ((wa ++ wb ++ wc) ++ repeat 0 k ++ [dl]) /\
    (Z.of_nat (length (wa ++ wb ++ wc) + k) = hp_vovectorsize e)%Z /\
    (Z.of_nat (length (hp_w_vec_1 s1)) = hp_vovectorsize e + 1)%Z /\
    cu = vscale (peval (hp_w_vec_1 s1) beta) g.
Proof.
  intros K HR e. unfold hp_round1 in HR. cbn zeta in HR. rewrite K in HR. fold e in HR.
  apply obind_ok in HR. destruct HR as [u1 [E2 HR]].
  apply obind_ok in HR. destruct HR as [cu' [E3 HR]]. injection HR as <- <-.
  apply zero_pad_inv in E2. destruct E2 as [k [E2 L2]].
  cbn [vector_concat concat app] in E2, L2. rewrite !app_nil_r in E2, L2.
  assert (0 <= hp_vovectorsize e)%Z as Hv by (unfold hp_vovectorsize, e, hp_pub_of; cbn [hp_cap_h hp_cap_k hp_cap_s_a hp_cap_s_b hp_cap_s_c hp_cap_s_d]; lia).
  assert (Z.of_nat (length u1) = hp_vovectorsize e + 1)%Z as L1.
  { rewrite E2, !(app_length (wa ++ _)), !(app_length (repeat _ _)), repeat_length. cbn [length] in *. lia. }
  apply commit_vector_inv0 in E3; [|lia]. exists k. cbn [hp_w_vec_1].
  split; [now rewrite E2|]. split; [lia|]. split; [auto|tauto].
Qed.
Lemma hp_round2_inv n beta (g : G1) pk (e : hp_s2 F) sv cs :
  hp_pk_powers pk = srs n beta g -> (0 <= hp_cap_h e)%Z -> (0 <= hp_cap_k e)%Z ->
  hp_round2 pk e = Ok (sv, cs) ->
  (1 <= hp_cap_h e)%Z /\
  exists cv, left_sparse_mvp (E:=error) (hp_pk_cap_m_mat pk) (hp_r_vec e) (hp_cap_h e) (3 * hp_cap_k e + 1)%Z = Ok cv /\
  sv = concat_neg_vector (hp_r_vec e) cv /\
  (Z.of_nat (length sv) = hp_cap_h e + 3 * hp_cap_k e + 1)%Z /\ cs = vscale (peval sv beta) g.
Proof.
  intros K HH HK HR. unfold hp_round2 in HR. rewrite K in HR.
  apply obind_ok in HR. destruct HR as [cv [E1 HR]].
  apply obind_ok in HR. destruct HR as [cs' [E2 HR]]. injection HR as <- <-.
  pose proof E1 as E0.
  destruct (hp_pk_cap_m_mat pk) as [[rows cols] vals]. apply left_sparse_mvp_iff in E0. destruct E0 as [Y1 [Y2 [_ [_ E0]]]].
  split; [lia|]. exists cv. split; auto. split; auto.
  assert (Z.of_nat (length (concat_neg_vector (hp_r_vec e) cv)) = hp_cap_h e + 3 * hp_cap_k e + 1)%Z as L.
  { unfold concat_neg_vector. rewrite app_length, map_length, E0, map_length, seq_length. unfold hp_r_vec.
    rewrite expression_vector_inverse_length. lia. }
  apply commit_vector_inv0 in E2; [|lia]. tauto.
Qed.
Lemma hp_round3_inv n beta (g : G1) pk (e : hp_s3 F) hv ch :
  hp_pk_powers pk = srs n beta g -> (0 <= hp_cap_k e)%Z ->
  (Z.of_nat (length (hp_u_vec e)) = hp_ell e)%Z -> (Z.of_nat (length (hp_w_vec e)) = hp_ell e)%Z ->
  hp_round3 pk e = Ok (hv, ch) ->
  hv = hp_h_val e /\ (Z.of_nat (length hv) = 3 * hp_cap_k e + hp_ell e + 1)%Z /\ ch = vscale (peval hv beta) g.
Proof.
  intros K HK Lu Lw HR. unfold hp_round3 in HR. rewrite K in HR.
  apply obind_ok in HR. destruct HR as [ch' [E1 HR]]. injection HR as <- <-. split; auto.
  assert (Z.of_nat (length (hp_h_val e)) = 3 * hp_cap_k e + hp_ell e + 1)%Z as L.
  { unfold hp_h_val, concat_uwinverse_vector. rewrite app_length, uwinverse_length. unfold hp_rnu_vec.
    rewrite expression_vector_inverse_length. lia. }
  apply commit_vector_inv0 in E1; [|lia]. tauto.
Qed.
Lemma hp_round4_inv n beta (g : G1) pk (e : hp_s4 F) dl rt cr :
  hp_pk_powers pk = srs n beta g -> (0 <= hp_vovectorsize e)%Z ->
  hp_round4 pk e [dl] = Ok (rt, cr) ->
  rt = hp_r_acc e ++ [dl] /\ (Z.of_nat (length rt) = hp_vovectorsize e + 1)%Z /\ cr = vscale (peval rt beta) g.
Proof.
  intros K HK HR. unfold hp_round4 in HR. cbn zeta in HR. rewrite K in HR.
  apply obind_ok in HR. destruct HR as [cr' [E1 HR]]. injection HR as <- <-.
  unfold vector_concat in *. cbn [concat app] in *. 
  assert (Z.of_nat (length (hp_r_acc e ++ [dl])) = hp_vovectorsize e + 1)%Z as L.
  { rewrite app_length. unfold hp_r_acc. rewrite accumulate_length. unfold hp_r_vec_1. rewrite expression_vector_length. cbn [length]. lia. }
  apply commit_vector_inv0 in E1; [|lia]. tauto.
Qed.
Lemma hp_round5_inv n beta (g : G1) pk (e : hp_s5 F) dl tv ct :
  hp_pk_powers pk = srs n beta g -> (0 <= hp_maxshift e)%Z ->
  hp_round5 pk e [dl] = Ok (tv, ct) ->
  tv = dl :: hp_t_vec_tail e /\ (Z.of_nat (length tv) = hp_maxshift e + 3)%Z /\ ct = vscale (peval tv beta) g.
Proof.
  intros K HK HR. unfold hp_round5 in HR. cbn zeta in HR. rewrite K in HR.
  apply obind_ok in HR. destruct HR as [ct' [E1 HR]]. injection HR as <- <-.
  unfold vector_concat in *. cbn [concat app] in *. rewrite app_nil_r in *.
  assert (Z.of_nat (length (dl :: hp_t_vec_tail e)) = hp_maxshift e + 3)%Z as L.
  { cbn [length]. unfold hp_t_vec_tail. rewrite expression_vector_length. lia. }
  apply commit_vector_inv0 in E1; [|lia]. tauto.
Qed.
Lemma hp_round6_inv n beta (g : G1) pk (e : hp_s6 F) c1 c2 :
  hp_pk_powers pk = srs n beta g -> (0 <= hp_maxshift e + hp_vovectorsize e <= hp_cap_d e)%Z ->
  hp_round6 pk e = Ok (c1, c2) ->
  (hp_cap_h e <= hp_ell e)%Z /\
  c1 = vscale (fpow beta (Z.to_nat (hp_cap_d e - (hp_maxshift e + hp_vovectorsize e))) * peval (hp_h_vec_2 e) beta) g /\
  c2 = vscale (peval (hp_h_vec_3 e) beta) g.
Proof.
  intros K HC HR. unfold hp_round6 in HR. rewrite K in HR.
  apply obind_ok in HR. destruct HR as [[] [_ HR]].
  apply obind_ok in HR. destruct HR as [[] [E0 HR]].
  assert (hp_cap_h e <= hp_ell e)%Z as E0'.
  { destruct (Z.leb_spec 0 (- hp_cap_h e + hp_ell e)); [lia|discriminate E0]. }
  apply obind_ok in HR. destruct HR as [c1' [E1 HR]].
  apply obind_ok in HR. destruct HR as [c2' [E2 HR]]. injection HR as <- <-.
  assert (length (hp_h_vec_2 e) = Z.to_nat (hp_maxshift e + hp_vovectorsize e)) as L1 by apply expression_vector_length.
  assert (length (hp_h_vec_3 e) = Z.to_nat (hp_maxshift e + hp_vovectorsize e)) as L2 by apply expression_vector_length.
  apply commit_vector_inv in E1. destruct E1 as [_ [_ [_ ->]]].
  apply commit_vector_inv0 in E2; [|lia]. destruct E2 as [_ [_ ->]]. split; auto. split; auto. do 3 f_equal.
  unfold voffset. rewrite L1. destruct (Nat.ltb_spec (Z.to_nat (hp_cap_d e)) (Z.to_nat (hp_maxshift e + hp_vovectorsize e))); lia.
Qed.
Lemma hp_round7_inv (e : hp_s6 F) z q gv : hp_round7 e z = Ok (q, gv) ->
  q = hp_ctx_of e z /\ hp_divisors q = Ok tt /\ hp_g_vec e q = Ok gv /\ peval gv z = 0.
Proof.
  intros HR. unfold hp_round7 in HR.
  apply obind_ok in HR. destruct HR as [[] [E0 HR]].
  apply obind_ok in HR. destruct HR as [gv' [E1 HR]].
  apply obind_ok in HR. destruct HR as [[] [E2 HR]]. injection HR as <- <-.
  apply check_poly_eval_inv in E2. rewrite peval_strip in E2. auto.
Qed.

(** *** Every proof is accepted, if the claimed number of entries is right *)
Lemma hp_accepts d beta (g : G1) (h : G2) pp cs pk vk x wa wb wc d0 d1 d2 pf rnd :
  g <> v0 -> h <> v0 ->
  setup d beta g h = Ok pp -> hp_index gamma pp cs = Ok (pk, vk) -> hp_nnz cs = hp_claimed cs ->
  hp_prove H gamma pk x (wa, wb, wc) d0 d1 d2 = Ok pf -> hp_verify H gamma vk x pf rnd = Ok tt.
Proof.
  intros Hg Hh Hs Hi Huni Hp. destruct (hp_index_inv _ _ _ _ _ _ _ _ Hs Hi) as
    [K1 K2 K3 K4 K5 KL K6 Ku Kw Kv Ky K8 K9 Cu Cw Cv Cy].
  rewrite hp_uniform_commit in Cu, Cw, Cv, Cy by lia.
  destruct (hp_stack_len cs KL) as [LR [LC LV]].
  subst vk. set (vk := hp_pk_verifier_key pk) in *.
  unfold hp_prove in Hp. cbn zeta in Hp. fold vk in Hp.
  apply obind_ok in Hp. destruct Hp as [[s1 cu] [R1 Hp]].
  apply obind_ok in Hp. destruct Hp as [[sv cms] [R2 Hp]].
  apply obind_ok in Hp. destruct Hp as [[hv cmh] [R3 Hp]].
  apply obind_ok in Hp. destruct Hp as [[rt cr] [R4 Hp]].
  apply obind_ok in Hp. destruct Hp as [[tv ct] [R5 Hp]].
  apply obind_ok in Hp. destruct Hp as [[ch2 ch3] [R6 Hp]].
  apply obind_ok in Hp. destruct Hp as [[q gv] [R7 Hp]].
  apply obind_ok in Hp. destruct Hp as [[w1 w2] [R8 Hp]].
  injection Hp as <-.
  apply (hp_round1_inv _ _ _ _ _ _ _ _ _ _ _ K2) in R1. cbn zeta in R1. fold vk in R1.
  destruct R1 as [kp [-> [_ [L1 Ecu]]]]. cbn [hp_w_vec_1] in *.
  set (e := hp_pub_of gamma vk x) in *. set (u1 := (wa ++ wb ++ wc) ++ _) in *.
  assert (Z.of_nat (hp_nnz cs) = hp_cap_s_a e + hp_cap_s_b e + hp_cap_s_c e + hp_cap_s_d e)%Z as EN
    by (unfold e, hp_pub_of; cbn [hp_cap_h hp_cap_k hp_cap_s_a hp_cap_s_b hp_cap_s_c hp_cap_s_d]; rewrite K4, Huni; unfold hp_claimed, hp_size_of; cbn [hs_adensity hs_bdensity hs_cdensity hs_ddensity]; lia).
  assert (0 <= hp_cap_s_a e /\ 0 <= hp_cap_s_b e /\ 0 <= hp_cap_s_c e /\ 0 <= hp_cap_s_d e)%Z as SN by (unfold e, hp_pub_of; cbn [hp_cap_h hp_cap_k hp_cap_s_a hp_cap_s_b hp_cap_s_c hp_cap_s_d]; lia).
  assert (length (hp_pk_u_vec pk) = hp_nnz cs) as Lu by (rewrite Ku; now rewrite power_vector_length).
  assert (length (hp_pk_w_vec pk) = hp_nnz cs) as Lw by (rewrite Kw; now rewrite power_vector_length).
  assert (length (hp_pk_y_vec pk) = hp_nnz cs) as Ly by (rewrite Ky, hadamard_length, Lu, Lw; lia).
  apply (hp_round2_inv _ _ _ _ _ _ _ K2) in R2; [|cbn; lia|cbn; lia]. destruct R2 as [HH [cv [_ [_ [L2 Ecs]]]]].
  apply (hp_round3_inv _ _ _ _ _ _ _ K2) in R3; [|cbn; lia| |].
  2:{ change (Z.of_nat (length (hp_pk_u_vec pk)) = hp_cap_s_a e + hp_cap_s_b e + hp_cap_s_c e + hp_cap_s_d e)%Z. lia. }
  2:{ change (Z.of_nat (length (hp_pk_w_vec pk)) = hp_cap_s_a e + hp_cap_s_b e + hp_cap_s_c e + hp_cap_s_d e)%Z. lia. }
  destruct R3 as [_ [L3 Ech]].
  change (hp_cap_h _) with (hp_cap_h e) in HH.
  assert (hp_cap_d e = Z.of_nat (d + 1)) as ED by (change (Z.of_nat (hp_vk_degree_bound vk) = Z.of_nat (d + 1)); now rewrite K5).
  assert (hp_cap_h e = Z.of_nat (h_nrows cs)) as EH by (change (Z.of_nat (hs_nrows (hp_vk_size vk)) = Z.of_nat (h_nrows cs)); now rewrite K4).
  assert (hp_cap_k e = Z.of_nat (h_ncols cs)) as EK by (change (Z.of_nat (hs_ncols (hp_vk_size vk)) = Z.of_nat (h_ncols cs)); now rewrite K4).
  assert (0 <= hp_vovectorsize e)%Z as Hv by (unfold hp_vovectorsize; lia).
  assert (0 <= hp_maxshift e)%Z as Hms by (unfold hp_maxshift; lia).
  apply (hp_round4_inv _ _ _ _ _ _ _ _ K2) in R4; [|exact Hv]. destruct R4 as [_ [L4 Ecr]].
  apply (hp_round5_inv _ _ _ _ _ _ _ _ K2) in R5; [|exact Hms]. destruct R5 as [_ [L5 Ect]].
  set (s6 := mkHPS6 _ tv _) in *.
  apply (hp_round6_inv _ _ _ _ _ _ _ K2) in R6.
  2:{ change (0 <= hp_maxshift e + hp_vovectorsize e <= hp_cap_d e)%Z. unfold hp_maxshift, hp_vovectorsize in *. lia. }
  destruct R6 as [HM [Ec1 Ec2]]. change (hp_cap_h e <= hp_ell e)%Z in HM. unfold hp_ell in HM.
  assert (hp_hsizes s6) as HZ.
  { split.
    - exact HH.
    - change (0 <= hp_cap_k e)%Z. lia.
    - exact HM.
    - change (Z.of_nat (length (hp_pk_u_vec pk)) = hp_cap_s_a e + hp_cap_s_b e + hp_cap_s_c e + hp_cap_s_d e)%Z. lia.
    - change (Z.of_nat (length (hp_pk_w_vec pk)) = hp_cap_s_a e + hp_cap_s_b e + hp_cap_s_c e + hp_cap_s_d e)%Z. lia.
    - change (Z.of_nat (length (hp_pk_v_vec pk)) = hp_cap_s_a e + hp_cap_s_b e + hp_cap_s_c e + hp_cap_s_d e)%Z. rewrite Kv. lia.
    - change (Z.of_nat (length (hp_pk_y_vec pk)) = hp_cap_s_a e + hp_cap_s_b e + hp_cap_s_c e + hp_cap_s_d e)%Z. lia.
    - exact L1.
    - exact L2.
    - change (hp_h_vec s6) with hv. change (hp_vovectorsize s6) with (hp_vovectorsize e). change (Z.of_nat (length hv) = 3 * hp_cap_k e + hp_ell e + 1)%Z in L3. rewrite L3. unfold hp_ell, hp_vovectorsize. lia.
    - exact L4.
    - exact L5.
    - change (2 * hp_vovectorsize e - hp_cap_k e + 1 <= hp_cap_d e)%Z. unfold hp_vovectorsize. lia. }
  apply hp_round7_inv in R7. destruct R7 as [Eq [Hdiv [Hgv Hz0]]].
  unfold hp_verify. cbn zeta.
  cbn [hp_cm_w_vec_1 hp_cm_s_vec hp_cm_h_vec hp_cm_r_vec_tilde hp_cm_t_vec hp_cm_h_vec_2 hp_cm_h_vec_3 hp_pf_y hp_pf_y_1 hp_cap_w hp_cap_w_1].
  match goal with |- obind (hp_divisors ?q') _ = _ => assert (q' = q) as -> by (rewrite Eq; reflexivity) end.
  rewrite Hdiv. cbn [obind].
  change (hp_v_ch_omega H vk x cu cms cmh cr ct) with (hp_p_ch_omega H vk x cu cms cmh cr ct).
  change (hp_v_ch_z H vk x cu cms cmh cr ct ch2 ch3) with (hp_p_ch_z H vk x cu cms cmh cr ct ch2 ch3).
  change (hp_v_cm_g vk q cu cms cmh cr ct ch2 ch3) with (hp_p_cm_g vk q cu cms cmh cr ct ch2 ch3).
  change (hp_v_ch_rand_xi H vk x cu cms cmh cr ct ch2 ch3) with (hp_p_ch_rand_xi H vk x cu cms cmh cr ct ch2 ch3).
  change (hp_v_ch_rand_xi_2 H vk x cu cms cmh cr ct ch2 ch3) with (hp_p_ch_rand_xi_2 H vk x cu cms cmh cr ct ch2 ch3).
  rewrite K2 in R8.
  pose proof (batch_verifies (d + 1) beta g h _ _ _ _ _ _ _ _ rnd Hg Hh R8 ltac:(lia)) as V.
  assert (hp_p_cm_g vk q cu cms cmh cr ct ch2 ch3 = vscale (peval gv beta) g) as Ecg.
  { change (hp_p_cm_g vk q cu cms cmh cr ct ch2 ch3) with (hp_v_cm_g vk q cu cms cmh cr ct ch2 ch3).
    rewrite Ecu, Ecs, Ech, Ecr, Ect, Ec1, Ec2. change u1 with (hp_w_vec_1 s6). change sv with (hp_s_vec s6).
    change hv with (hp_h_vec s6). change rt with (hp_r_vec_tilde s6).
    change tv with (hp_t_vec s6). apply hp_cm_g_value with (h := h); [exact HZ|exact Hgv|exact K3|exact Cu|exact Cw|exact Cv|exact Cy]. }
  rewrite K3.
  match goal with |- (if batch_check _ ?cs ?ds _ _ _ _ ?ys ?zs _ _ _ then _ else _) = _ =>
    match type of V with batch_check _ ?cs' ?ds' _ _ _ _ ?ys' ?zs' _ _ _ = _ =>
      assert (cs = cs') as X1; [|assert (ds = ds') as X2; [|assert (ys = ys') as X3; [|assert (zs = zs') as X4]]] end end.
  - cbn [map]. rewrite !peval_strip, Ech, Ecu. reflexivity.
  - cbn [map]. rewrite !peval_strip, Ecg. reflexivity.
  - cbn [map]. rewrite !peval_strip, Eq. cbn [hp_ctx_of hp_q_y hp_q_y_1]. unfold hp_y, hp_y_1.
    destruct HZ. rewrite !eval_vidx by (unfold hp_vovectorsize in *; lia). reflexivity.
  - cbn [map]. rewrite !peval_strip, Hz0. reflexivity.
  - rewrite X1, X2, X3, X4, V. reflexivity.
Qed.
End Run.
End HPComplete.

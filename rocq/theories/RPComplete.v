(** RPComplete.v: every proof produced by the prover-efficient R1CS prover is accepted. *)
From Verif Require Import Base Spec Tools ToolsProofs MatProofs ToolsProofs2 CS CSProofs KZG KZGProofs Properties_KZG
  Snark Laurent SnarkProofs PovPEComplete SparseSum R1Complete RP RPProofs RPConst.
Local Open Scope F_scope.

Section RPComplete.
Context {F G1 G2 GT : Type} {fo : FieldOps F} {fl : FieldLaws F}
        {po : PairingOps F G1 G2 GT} {pl : PairingLaws F G1 G2 GT}.
Add Field Frc : F_th.

(** the stacked matrix: A, C, B *)
Definition rp_stack (cs : R1CS F) := concat_matrix_vertically (r_nrows cs) (r_arows cs) (r_crows cs) (r_brows cs)
                       (r_acols cs) (r_ccols cs) (r_bcols cs) (r_avals cs) (r_cvals cs) (r_bvals cs).
Lemma rp_stack_len cs : r1_lengths cs ->
  length (fst (fst (rp_stack cs))) = r1_nnz cs /\ length (snd (fst (rp_stack cs))) = r1_nnz cs /\ length (snd (rp_stack cs)) = r1_nnz cs.
Proof.
  intros [A [B [C [D [X Y]]]]]. unfold rp_stack, r1_nnz, concat_matrix_vertically. cbn [fst snd]. rewrite !app_length, !map_length. lia.
Qed.

Section Run.
Variable H : list (item F G1) -> F.
Variable gamma : F.

(** what [index] puts in the keys *)
Record rp_keys (d : nat) (beta : F) (g : G1) (h : G2) (cs : R1CS F) (pk : rp_pk F G1 G2) (vk : rp_vk G1 G2) : Prop := {
  pk_vk : rp_pk_verifier_key pk = vk;
  pk_pow : rp_pk_powers pk = srs (d + 1) beta g;
  pk_kzg : rp_vk_kzg_vk vk = vk_for beta g h;
  pk_size : rp_vk_size vk = r1_size_of cs;
  pk_bound : rp_vk_degree_bound vk = (d + 1)%nat;
  pk_len : r1_lengths cs;
  pk_mat : rp_pk_cap_m_mat pk = rp_stack cs;
  pk_u : rp_pk_u_vec pk = int_array_to_power_vector (fst (fst (rp_stack cs))) gamma;
  pk_w : rp_pk_w_vec pk = int_array_to_power_vector (snd (fst (rp_stack cs))) gamma;
  pk_v : rp_pk_v_vec pk = snd (rp_stack cs);
  pk_y : rp_pk_y_vec pk = hadamard_vector (rp_pk_u_vec pk) (rp_pk_w_vec pk);
  pk_deg : (2 * r_nrows cs + r1_nnz cs <= d)%nat;
  pk_nnz : (1 <= r1_nnz cs)%nat;
  pk_cm_u : rp_vk_cm_u_vec vk = vscale (peval (rp_pk_u_vec pk) beta) g;
  pk_cm_w : rp_vk_cm_w_vec vk = vscale (peval (rp_pk_w_vec pk) beta) g;
  pk_cm_v : rp_vk_cm_v_vec vk = vscale (peval (rp_pk_v_vec pk) beta) g;
  pk_cm_y : rp_vk_cm_y_vec vk = vscale (peval (rp_pk_y_vec pk) beta) g }.

Lemma rp_index_inv d beta (g : G1) (h : G2) pp cs pk vk : setup d beta g h = Ok pp ->
  rp_index gamma pp cs = Ok (pk, vk) -> rp_keys d beta g h cs pk vk.
Proof.
  intros Hs Hi. destruct (kzg_vk_setup d beta g h pp Hs) as [Hd [Hp Hv]].
  unfold rp_index in Hi. rewrite Hp, Hv, srs_length in Hi.
  apply obind_ok in Hi. destruct Hi as [sz [Esz Hi]]. apply r1_get_size_inv in Esz. destruct Esz as [-> HL].
  destruct (rp_stack_len cs HL) as [LR [LC LV]].
  unfold rp_get_max_degree in Hi. cbn zeta in Hi.
  cbn [rs_nrows rs_ncols rs_adensity rs_bdensity rs_cdensity r1_size_of] in Hi.
  destruct (Nat.ltb_spec (2 * r_nrows cs + length (r_arows cs) + length (r_brows cs) + length (r_crows cs)) (d + 1)) as [Hm|]; [|discriminate].
  cbn [assert_ obind] in Hi. fold (rp_stack cs) in Hi.
  set (u := int_array_to_power_vector (fst (fst (rp_stack cs))) gamma) in *.
  set (w := int_array_to_power_vector (snd (fst (rp_stack cs))) gamma) in *.
  set (v := snd (rp_stack cs)) in *. set (y := hadamard_vector u w) in *.
  assert (length u = r1_nnz cs) as Lu by (unfold u; now rewrite power_vector_length).
  assert (length w = r1_nnz cs) as Lw by (unfold w; now rewrite power_vector_length).
  assert (length y = r1_nnz cs) as Ly by (unfold y; rewrite hadamard_length, Lu, Lw; lia).
  assert (Z.of_nat (r1_nnz cs) = Z.of_nat (length (r_arows cs)) + Z.of_nat (length (r_brows cs)) + Z.of_nat (length (r_crows cs)))%Z as EN by (unfold r1_nnz; lia).
  apply obind_ok in Hi. destruct Hi as [cu [E1 Hi]]. apply obind_ok in Hi. destruct Hi as [cw [E2 Hi]].
  apply obind_ok in Hi. destruct Hi as [cv [E3 Hi]]. apply obind_ok in Hi. destruct Hi as [cy [E4 Hi]].
  apply commit_vector_inv0 in E1; [|lia]. apply commit_vector_inv0 in E2; [|lia].
  apply commit_vector_inv0 in E3; [|fold v in LV; rewrite LV; lia]. apply commit_vector_inv0 in E4; [|lia].
  injection Hi as <- <-. split; try lia; cbn [rp_pk_verifier_key rp_pk_powers rp_vk_kzg_vk rp_vk_size rp_vk_degree_bound rp_pk_cap_m_mat rp_pk_u_vec rp_pk_w_vec rp_pk_v_vec rp_pk_y_vec rp_vk_cm_u_vec rp_vk_cm_w_vec rp_vk_cm_v_vec rp_vk_cm_y_vec]; auto; tauto.
Qed.

(** lengths of the vectors of an honest run *)
Record rp_hsizes (e : rp_s6 F) : Prop := {
  phz_h : (1 <= rp_cap_h e)%Z; phz_k : (1 <= rp_cap_k e)%Z;
  phz_3h : (3 * rp_cap_h e <= rp_cap_s_a e + rp_cap_s_b e + rp_cap_s_c e)%Z;
  phz_kn : (rp_cap_k e <= rp_cap_s_a e + rp_cap_s_b e + rp_cap_s_c e)%Z;
  phz_u : (Z.of_nat (length (rp_u_vec e)) = rp_cap_s_a e + rp_cap_s_b e + rp_cap_s_c e)%Z;
  phz_w : (Z.of_nat (length (rp_w_vec e)) = rp_cap_s_a e + rp_cap_s_b e + rp_cap_s_c e)%Z;
  phz_v : (Z.of_nat (length (rp_v_vec e)) = rp_cap_s_a e + rp_cap_s_b e + rp_cap_s_c e)%Z;
  phz_y : (Z.of_nat (length (rp_y_vec e)) = rp_cap_s_a e + rp_cap_s_b e + rp_cap_s_c e)%Z;
  phz_y1 : (Z.of_nat (length (rp_y_vec_1 e)) = rp_n e + 1)%Z;
  phz_wv : (Z.of_nat (length (rp_wit_vec e)) = rp_n e + 1)%Z;
  phz_rv : (Z.of_nat (length (rp_r_vec e)) = 3 * rp_cap_h e)%Z;
  phz_cv : (Z.of_nat (length (rp_c_vec e)) = rp_cap_k e)%Z;
  phz_nv : (Z.of_nat (length (rp_rnu_vec e)) = rp_cap_k e)%Z;
  phz_tv : (Z.of_nat (length (rp_t_vec e)) = rp_n e)%Z;
  phz_r : (Z.of_nat (length (rp_r_vec_tilde e)) = rp_n e + 1)%Z;
  phz_t1 : (Z.of_nat (length (rp_t_vec_1 e)) = rp_maxshift e + 3)%Z;
  phz_d : (2 * rp_cap_h e + rp_n e + 1 <= rp_cap_d e)%Z }.

(** the combined polynomial *)
Lemma rp_g_value (e : rp_s6 F) q gv : rp_hsizes e -> rp_g_vec e q = Ok gv ->
  length gv = Z.to_nat (rp_cap_d e) /\
  forall x, peval gv x = rp_p_c_36 q * peval (rp_r_vec e) x
    + rp_p_c_38 q * peval (rp_rnu_vec e) x
    + rp_p_c_39 q * peval (rp_c_vec e) x
    + rp_p_c_40 q * peval (rp_w_vec e) x
    + rp_p_c_41 q * peval (rp_u_vec e) x
    + rp_p_c_42 q * peval (rp_y_vec e) x
    + rp_p_c_43 q * peval (rp_y_vec_1 e) x
    + rp_p_c_44 q * peval (rp_wit_vec e) x
    + rp_p_c_45 q * peval (rp_v_vec e) x
    + rp_p_c_46 q * peval (rp_r_vec_tilde e) x
    + rp_p_c_47 q * peval (rp_t_vec_1 e) x
    + rp_p_c_48 q * (fpow x (Z.to_nat (rp_cap_d e - (rp_maxshift e + rp_n e))) * peval (rp_h_vec_1 e) x)
    + rp_p_c_49 q * peval (rp_h_vec_2 e) x + rp_p_c_37 q.
Proof.
  intros [] HG. unfold rp_g_vec in HG. apply add_first_inv in HG. destruct HG as [_ [L HG]].
  split; auto. intros x. rewrite HG. f_equal. unfold rp_g_at, linear_combination. cbn [fold_left fst snd].
  match goal with |- _ = ?rhs => change (EV (rp_cap_d e) x (fun i => (((((((((((((0 + rp_p_c_36 q * vidx (rp_r_vec e) i) + rp_p_c_38 q * vidx (rp_rnu_vec e) i) + rp_p_c_39 q * vidx (rp_c_vec e) i) + rp_p_c_40 q * vidx (rp_w_vec e) i) + rp_p_c_41 q * vidx (rp_u_vec e) i) + rp_p_c_42 q * vidx (rp_y_vec e) i) + rp_p_c_43 q * vidx (rp_y_vec_1 e) i) + rp_p_c_44 q * vidx (rp_wit_vec e) i) + rp_p_c_45 q * vidx (rp_v_vec e) i) + rp_p_c_46 q * vidx (rp_r_vec_tilde e) i) + rp_p_c_47 q * vidx (rp_t_vec_1 e) i) + rp_p_c_48 q * vidx (rp_h_vec_1 e) (- rp_cap_d e + i + rp_maxshift e + rp_n e)%Z) + rp_p_c_49 q * vidx (rp_h_vec_2 e) i)) rhs) end.
  assert (length (rp_h_vec_1 e) = Z.to_nat (rp_maxshift e + rp_n e)) as L1 by apply expression_vector_length.
  assert (length (rp_h_vec_2 e) = Z.to_nat (rp_maxshift e + rp_n e)) as L2 by apply expression_vector_length.
  unfold rp_maxshift, rp_n in *.
  repeat apply EV_add; try apply EV_scale; try (apply EV_list; lia).
  - unfold EV. rewrite eval_vector_expression_sum.
    rewrite (peval_sumn (rp_r_vec e) x (Z.to_nat (rp_cap_d e))), <- sumn_mul_l by lia. apply sumn_ext.
    intros i _. rewrite vidx_S. ring.
  - apply (EV_shift (rp_cap_d e) x (rp_h_vec_1 e) _
      (fun i => (- rp_cap_d e + i + (2 * rp_cap_h e) + (rp_cap_s_a e + rp_cap_s_b e + rp_cap_s_c e))%Z)); [rewrite L1; lia|].
    intros i. lia.
Qed.

(** the commitment to the combined polynomial *)
Lemma rp_cm_g_value beta (g : G1) (h : G2) vk (e : rp_s6 F) q gv : rp_hsizes e -> rp_g_vec e q = Ok gv ->
  rp_vk_kzg_vk vk = vk_for beta g h ->
  rp_vk_cm_u_vec vk = vscale (peval (rp_u_vec e) beta) g ->
  rp_vk_cm_w_vec vk = vscale (peval (rp_w_vec e) beta) g ->
  rp_vk_cm_v_vec vk = vscale (peval (rp_v_vec e) beta) g ->
  rp_vk_cm_y_vec vk = vscale (peval (rp_y_vec e) beta) g ->
  rp_v_cm_g vk q (vscale (peval (rp_y_vec_1 e) beta) g)
     (vscale (peval (rp_wit_vec e) beta) g)
     (vscale (peval (rp_r_vec e) beta) g)
     (vscale (peval (rp_c_vec e) beta) g)
     (vscale (peval (rp_rnu_vec e) beta) g)
     (vscale (peval (rp_t_vec e) beta) g)
     (vscale (peval (rp_r_vec_tilde e) beta) g)
     (vscale (peval (rp_t_vec_1 e) beta) g)
     (vscale (fpow beta (Z.to_nat (rp_cap_d e - (rp_maxshift e + rp_n e))) * peval (rp_h_vec_1 e) beta) g)
     (vscale (peval (rp_h_vec_2 e) beta) g) = vscale (peval gv beta) g.
Proof.
  intros HZ HG K3 K10 K11 K12 K13. destruct (rp_g_value e q gv HZ HG) as [_ V]. rewrite V. clear V.
  unfold rp_v_cm_g. rewrite K3, K10, K11, K12, K13. cbn [vk_g vk_for].
  pose proof (lin_comb_vscale g (rp_v_c_37 q)
    [(peval (rp_r_vec e) beta, rp_v_c_36 q); (peval (rp_rnu_vec e) beta, rp_v_c_38 q); (peval (rp_c_vec e) beta, rp_v_c_39 q); (peval (rp_w_vec e) beta, rp_v_c_40 q); (peval (rp_u_vec e) beta, rp_v_c_41 q); (peval (rp_y_vec e) beta, rp_v_c_42 q); (peval (rp_y_vec_1 e) beta, rp_v_c_43 q); (peval (rp_wit_vec e) beta, rp_v_c_44 q); (peval (rp_v_vec e) beta, rp_v_c_45 q); (peval (rp_r_vec_tilde e) beta, rp_v_c_46 q); (peval (rp_t_vec_1 e) beta, rp_v_c_47 q); ((fpow beta (Z.to_nat (rp_cap_d e - (rp_maxshift e + rp_n e))) * peval (rp_h_vec_1 e) beta), rp_v_c_48 q); (peval (rp_h_vec_2 e) beta, rp_v_c_49 q)]) as E. cbn [map fst snd] in E. rewrite E. f_equal.
  change (rp_v_c_36 q) with (rp_p_c_36 q). change (rp_v_c_37 q) with (rp_p_c_37 q). change (rp_v_c_38 q) with (rp_p_c_38 q). change (rp_v_c_39 q) with (rp_p_c_39 q). change (rp_v_c_40 q) with (rp_p_c_40 q). change (rp_v_c_41 q) with (rp_p_c_41 q). change (rp_v_c_42 q) with (rp_p_c_42 q). change (rp_v_c_43 q) with (rp_p_c_43 q). change (rp_v_c_44 q) with (rp_p_c_44 q). change (rp_v_c_45 q) with (rp_p_c_45 q). change (rp_v_c_46 q) with (rp_p_c_46 q). change (rp_v_c_47 q) with (rp_p_c_47 q). change (rp_v_c_48 q) with (rp_p_c_48 q). change (rp_v_c_49 q) with (rp_p_c_49 q).
  cbn [fsum]. ring.
Qed.

(** what the rounds produce *)
Lemma rp_round1_inv n beta (g : G1) pk x w dl dl1 s1 cy cw :
  rp_pk_powers pk = srs n beta g ->
  rp_round1 gamma pk x w [dl] [dl1] = Ok (s1, cy, cw) ->
  let e := rp_pub_of gamma (rp_pk_verifier_key pk) x in
  exists mz k1 k2, s1 = mkRPS1 e (rp_pk_u_vec pk) (rp_pk_w_vec pk) (rp_pk_v_vec pk) (rp_pk_y_vec pk)
                 (mz ++ repeat 0 k1 ++ [dl]) (w ++ repeat 0 k2 ++ [dl1]) /\
    sparse_mvp (E:=error) (3 * rp_cap_h e)%Z (rp_cap_k e) (fst (fst (rp_pk_cap_m_mat pk))) (snd (fst (rp_pk_cap_m_mat pk)))
      (snd (rp_pk_cap_m_mat pk)) (1 :: x ++ w) = Ok mz /\
    (1 <= rp_cap_h e)%Z /\ (1 <= rp_cap_k e)%Z /\
    (3 * rp_cap_h e <= rp_cap_s_a e + rp_cap_s_b e + rp_cap_s_c e)%Z /\
    (Z.of_nat (length (rp_y_vec_1 s1)) = rp_n e + 1)%Z /\ (Z.of_nat (length (rp_wit_vec s1)) = rp_n e + 1)%Z /\
    cy = vscale (peval (rp_y_vec_1 s1) beta) g /\ cw = vscale (peval (rp_wit_vec s1) beta) g.
Proof.
  intros K HR e. unfold rp_round1 in HR. cbn zeta in HR. rewrite K in HR. fold e in HR.
  destruct (rp_pk_cap_m_mat pk) as [[rows cols] vals].
  apply obind_ok in HR. destruct HR as [mz [E1 HR]].
  apply obind_ok in HR. destruct HR as [y1 [E2 HR]].
  apply obind_ok in HR. destruct HR as [cy' [E3 HR]].
  apply obind_ok in HR. destruct HR as [wv [E4 HR]].
  apply obind_ok in HR. destruct HR as [cw' [E5 HR]]. injection HR as <- <- <-.
  change ([1] ++ x ++ w) with (1 :: x ++ w) in *.
  pose proof E1 as E1'. apply sparse_mvp_iff in E1'. destruct E1' as [Hh [Hk [Lz [_ Emz]]]].
  apply zero_pad_inv in E2. destruct E2 as [k1 [E2 L2]].
  apply zero_pad_inv in E4. destruct E4 as [k2 [E4 L4]].
  cbn [vector_concat concat app] in E2, L2, E4, L4. rewrite ?app_nil_r in E2, L2, E4, L4.
  assert (length mz = Z.to_nat (3 * rp_cap_h e)) as Lm by (rewrite Emz, map_length, seq_length; reflexivity).
  assert (0 <= rp_n e)%Z as Hv by (unfold rp_n, e, rp_pub_of; cbn; lia).
  assert (Z.of_nat (length y1) = rp_n e + 1)%Z as L1.
  { rewrite E2, !app_length, repeat_length, Lm. cbn [length]. lia. }
  assert (Z.of_nat (length wv) = rp_n e + 1)%Z as L3.
  { rewrite E4, !app_length, repeat_length. cbn [length]. lia. }
  apply commit_vector_inv0 in E3; [|lia]. apply commit_vector_inv0 in E5; [|lia]. exists mz, k1, k2. cbn [rp_y_vec_1 rp_wit_vec].
  split; [now rewrite E2, E4|]. cbn [fst snd]. split; auto. split; [lia|]. split; [lia|].
  split; [unfold rp_n in *; lia|]. split; [auto|]. split; [auto|]. tauto.
Qed.
Lemma rp_round2_inv n beta (g : G1) pk (e : rp_s2 F) rv cv cr cc :
  rp_pk_powers pk = srs n beta g -> (0 <= rp_cap_h e)%Z -> (0 <= rp_cap_k e)%Z ->
  rp_round2 pk e = Ok (rv, cv, cr, cc) ->
  left_sparse_mvp (E:=error) (rp_pk_cap_m_mat pk) (rp_r_val e) (3 * rp_cap_h e)%Z (rp_cap_k e) = Ok cv /\
  rv = rp_r_val e /\
  (Z.of_nat (length rv) = 3 * rp_cap_h e)%Z /\ (Z.of_nat (length cv) = rp_cap_k e)%Z /\
  cr = vscale (peval rv beta) g /\ cc = vscale (peval cv beta) g.
Proof.
  intros K HH HK HR. unfold rp_round2 in HR. rewrite K in HR.
  apply obind_ok in HR. destruct HR as [cv' [E1 HR]].
  apply obind_ok in HR. destruct HR as [cr' [E2 HR]].
  apply obind_ok in HR. destruct HR as [cc' [E3 HR]]. injection HR as <- <- <- <-. split; auto. split; auto.
  destruct (rp_pk_cap_m_mat pk) as [[rows cols] vals]. apply left_sparse_mvp_iff in E1. destruct E1 as [_ [_ [_ [_ E1]]]].
  assert (Z.of_nat (length (rp_r_val e)) = 3 * rp_cap_h e)%Z as L1.
  { unfold rp_r_val. rewrite expression_vector_inverse_length. lia. }
  assert (Z.of_nat (length cv') = rp_cap_k e)%Z as L2 by (rewrite E1, map_length, seq_length; lia).
  apply commit_vector_inv0 in E2; [|lia]. apply commit_vector_inv0 in E3; [|lia]. tauto.
Qed.
Lemma rp_round3_inv n beta (g : G1) pk (e : rp_s3 F) nv tv cn ct :
  rp_pk_powers pk = srs n beta g -> (0 <= rp_cap_k e)%Z ->
  (Z.of_nat (length (rp_u_vec e)) = rp_ell_1 e)%Z -> (Z.of_nat (length (rp_w_vec e)) = rp_ell_1 e)%Z ->
  rp_round3 pk e = Ok (nv, tv, cn, ct) ->
  nv = rp_rnu_val e /\ tv = rp_t_val e /\ (Z.of_nat (length nv) = rp_cap_k e)%Z /\ (Z.of_nat (length tv) = rp_ell_1 e)%Z /\
  cn = vscale (peval nv beta) g /\ ct = vscale (peval tv beta) g.
Proof.
  intros K HK Lu Lw HR. unfold rp_round3 in HR. rewrite K in HR.
  apply obind_ok in HR. destruct HR as [cn' [E1 HR]].
  apply obind_ok in HR. destruct HR as [ct' [E2 HR]]. injection HR as <- <- <- <-. split; auto. split; auto.
  assert (Z.of_nat (length (rp_rnu_val e)) = rp_cap_k e)%Z as L1.
  { unfold rp_rnu_val. rewrite expression_vector_inverse_length. lia. }
  assert (Z.of_nat (length (rp_t_val e)) = rp_ell_1 e)%Z as L2.
  { unfold rp_t_val. rewrite uwinverse_length. lia. }
  apply commit_vector_inv0 in E1; [|lia]. apply commit_vector_inv0 in E2; [|lia]. tauto.
Qed.
Lemma rp_round4_inv n beta (g : G1) pk (e : rp_s4 F) dl rt cr :
  rp_pk_powers pk = srs n beta g -> (0 <= rp_n e)%Z ->
  rp_round4 pk e [dl] = Ok (rt, cr) ->
  rt = rp_r_acc e ++ [dl] /\ (Z.of_nat (length rt) = rp_n e + 1)%Z /\ cr = vscale (peval rt beta) g.
Proof.
  intros K HK HR. unfold rp_round4 in HR. cbn zeta in HR. rewrite K in HR.
  apply obind_ok in HR. destruct HR as [cr' [E1 HR]]. injection HR as <- <-.
  unfold vector_concat in *. cbn [concat app] in *. 
  assert (Z.of_nat (length (rp_r_acc e ++ [dl])) = rp_n e + 1)%Z as L.
  { rewrite app_length. unfold rp_r_acc. rewrite accumulate_length. unfold rp_r_vec_1. rewrite expression_vector_length. cbn [length]. lia. }
  apply commit_vector_inv0 in E1; [|lia]. tauto.
Qed.
Lemma rp_round5_inv n beta (g : G1) pk (e : rp_s5 F) dl tv ct :
  rp_pk_powers pk = srs n beta g -> (0 <= rp_maxshift e)%Z ->
  rp_round5 pk e [dl] = Ok (tv, ct) ->
  tv = dl :: rp_t_vec_1_tail e /\ (Z.of_nat (length tv) = rp_maxshift e + 3)%Z /\ ct = vscale (peval tv beta) g.
Proof.
  intros K HK HR. unfold rp_round5 in HR. cbn zeta in HR. rewrite K in HR.
  apply obind_ok in HR. destruct HR as [ct' [E1 HR]]. injection HR as <- <-.
  unfold vector_concat in *. cbn [concat app] in *. rewrite app_nil_r in *.
  assert (Z.of_nat (length (dl :: rp_t_vec_1_tail e)) = rp_maxshift e + 3)%Z as L.
  { cbn [length]. unfold rp_t_vec_1_tail. rewrite expression_vector_length. lia. }
  apply commit_vector_inv0 in E1; [|lia]. tauto.
Qed.
Lemma rp_round6_inv n beta (g : G1) pk (e : rp_s6 F) c1 c2 :
  rp_pk_powers pk = srs n beta g -> (0 <= rp_maxshift e + rp_n e <= rp_cap_d e)%Z ->
  rp_round6 pk e = Ok (c1, c2) ->
  rp_omega e <> 0 /\ rp_gamma e * rp_omega e <> 0 /\ (rp_cap_k e <= rp_n e)%Z /\
  c1 = vscale (fpow beta (Z.to_nat (rp_cap_d e - (rp_maxshift e + rp_n e))) * peval (rp_h_vec_1 e) beta) g /\
  c2 = vscale (peval (rp_h_vec_2 e) beta) g.
Proof.
  intros K HC HR. unfold rp_round6 in HR. rewrite K in HR.
  apply obind_ok in HR. destruct HR as [[] [N1 HR]]. apply nonzero_inv in N1.
  apply obind_ok in HR. destruct HR as [[] [N2 HR]]. apply nonzero_inv in N2.
  destruct (Z.leb_spec (rp_cap_k e) (rp_n e)) as [N3|]; [|discriminate]. cbn [assert_ obind] in HR.
  apply obind_ok in HR. destruct HR as [c1' [E1 HR]].
  apply obind_ok in HR. destruct HR as [c2' [E2 HR]]. injection HR as <- <-.
  assert (length (rp_h_vec_1 e) = Z.to_nat (rp_maxshift e + rp_n e)) as L1 by apply expression_vector_length.
  assert (length (rp_h_vec_2 e) = Z.to_nat (rp_maxshift e + rp_n e)) as L2 by apply expression_vector_length.
  apply commit_vector_inv in E1. destruct E1 as [_ [_ [_ ->]]].
  apply commit_vector_inv0 in E2; [|lia]. destruct E2 as [_ [_ ->]]. split; auto. split; auto. split; auto. split; auto. do 3 f_equal.
  unfold voffset. rewrite L1. destruct (Nat.ltb_spec (Z.to_nat (rp_cap_d e)) (Z.to_nat (rp_maxshift e + rp_n e))); lia.
Qed.
Lemma rp_round7_inv (e : rp_s6 F) z q gv : rp_round7 e z = Ok (q, gv) ->
  q = rp_ctx_of e z /\ rp_divisors q = Ok tt /\ rp_g_vec e q = Ok gv /\ peval gv z = 0.
Proof.
  intros HR. unfold rp_round7 in HR.
  apply obind_ok in HR. destruct HR as [[] [E0 HR]].
  apply obind_ok in HR. destruct HR as [gv' [E1 HR]].
  apply obind_ok in HR. destruct HR as [[] [E2 HR]]. injection HR as <- <-.
  apply check_poly_eval_inv in E2. rewrite peval_strip in E2. auto.
Qed.

(** *** Every proof is accepted *)
Lemma rp_accepts d beta (g : G1) (h : G2) pp cs pk vk x w d0 d1 d2 d3 pf rnd :
  g <> v0 -> h <> v0 ->
  setup d beta g h = Ok pp -> rp_index gamma pp cs = Ok (pk, vk) ->
  rp_prove H gamma pk x w d0 d1 d2 d3 = Ok pf -> rp_verify H gamma vk x pf rnd = Ok tt.
Proof.
  intros Hg Hh Hs Hi Hp. destruct (rp_index_inv _ _ _ _ _ _ _ _ Hs Hi) as
    [K1 K2 K3 K4 K5 KL K6 Ku Kw Kv Ky K8 K9 Cu Cw Cv Cy].
  destruct (rp_stack_len cs KL) as [LR [LC LV]].
  subst vk. set (vk := rp_pk_verifier_key pk) in *.
  unfold rp_prove in Hp. cbn zeta in Hp. fold vk in Hp.
  apply obind_ok in Hp. destruct Hp as [[[s1 cy1] cw] [R1 Hp]].
  apply obind_ok in Hp. destruct Hp as [[[[rv cv] crv] ccv] [R2 Hp]].
  apply obind_ok in Hp. destruct Hp as [[[[nv tv] cnu] ctv] [R3 Hp]].
  apply obind_ok in Hp. destruct Hp as [[rt crt] [R4 Hp]].
  apply obind_ok in Hp. destruct Hp as [[t1 ct1] [R5 Hp]].
  apply obind_ok in Hp. destruct Hp as [[ch1 ch2] [R6 Hp]].
  apply obind_ok in Hp. destruct Hp as [[q gv] [R7 Hp]].
  apply obind_ok in Hp. destruct Hp as [[w1 w2] [R8 Hp]].
  injection Hp as <-.
  apply (rp_round1_inv _ _ _ _ _ _ _ _ _ _ _ K2) in R1. cbn zeta in R1. fold vk in R1.
  destruct R1 as [mz [k1 [k2 [-> [_ [HH [HK [H3 [L1 [Lwt [Ecy Ecw]]]]]]]]]]]. cbn [rp_y_vec_1 rp_wit_vec] in *.
  set (e := rp_pub_of gamma vk x) in *. set (y1 := mz ++ _) in *. set (wv := w ++ _) in *.
  assert (Z.of_nat (r1_nnz cs) = rp_cap_s_a e + rp_cap_s_b e + rp_cap_s_c e)%Z as EN
    by (unfold e, rp_pub_of; cbn; rewrite K4; unfold r1_nnz, r1_size_of; cbn; lia).
  assert (length (rp_pk_u_vec pk) = r1_nnz cs) as Lu by (rewrite Ku; now rewrite power_vector_length).
  assert (length (rp_pk_w_vec pk) = r1_nnz cs) as Lw by (rewrite Kw; now rewrite power_vector_length).
  assert (length (rp_pk_y_vec pk) = r1_nnz cs) as Ly by (rewrite Ky, hadamard_length, Lu, Lw; lia).
  apply (rp_round2_inv _ _ _ _ _ _ _ _ _ K2) in R2; [|cbn; lia|cbn; lia]. destruct R2 as [_ [_ [L2 [L2' [Ecr Ecc]]]]].
  apply (rp_round3_inv _ _ _ _ _ _ _ _ _ K2) in R3; [|cbn; lia| |].
  2:{ change (Z.of_nat (length (rp_pk_u_vec pk)) = rp_cap_s_a e + rp_cap_s_b e + rp_cap_s_c e)%Z. lia. }
  2:{ change (Z.of_nat (length (rp_pk_w_vec pk)) = rp_cap_s_a e + rp_cap_s_b e + rp_cap_s_c e)%Z. lia. }
  destruct R3 as [_ [_ [L3 [L3' [Ecn Ect]]]]].
  assert (0 <= rp_n e)%Z as Hv by (unfold rp_n; lia).
  assert (0 <= rp_maxshift e)%Z as Hms by (unfold rp_maxshift; lia).
  apply (rp_round4_inv _ _ _ _ _ _ _ _ K2) in R4; [|exact Hv]. destruct R4 as [_ [L4 Ecrt]].
  apply (rp_round5_inv _ _ _ _ _ _ _ _ K2) in R5; [|exact Hms]. destruct R5 as [_ [L5 Ect1]].
  set (s6 := mkRPS6 _ t1 _) in *.
  assert (rp_cap_d e = Z.of_nat (d + 1)) as ED by (change (Z.of_nat (rp_vk_degree_bound vk) = Z.of_nat (d + 1)); now rewrite K5).
  assert (rp_cap_h e = Z.of_nat (r_nrows cs)) as EH by (change (Z.of_nat (rs_nrows (rp_vk_size vk)) = Z.of_nat (r_nrows cs)); now rewrite K4).
  assert (rp_cap_k e = Z.of_nat (r_ncols cs)) as EK by (change (Z.of_nat (rs_ncols (rp_vk_size vk)) = Z.of_nat (r_ncols cs)); now rewrite K4).
  assert (rp_n e = Z.of_nat (r1_nnz cs)) as EV by (unfold rp_n; lia).
  apply (rp_round6_inv _ _ _ _ _ _ _ K2) in R6.
  2:{ change (0 <= rp_maxshift e + rp_n e <= rp_cap_d e)%Z. unfold rp_maxshift in *. lia. }
  destruct R6 as [_ [_ [Hkn [Ec1 Ec2]]]]. change (rp_cap_k e <= rp_n e)%Z in Hkn.
  assert (rp_hsizes s6) as HZ.
  { split.
    - exact HH.
    - exact HK.
    - exact H3.
    - exact Hkn.
    - change (Z.of_nat (length (rp_pk_u_vec pk)) = rp_cap_s_a e + rp_cap_s_b e + rp_cap_s_c e)%Z. lia.
    - change (Z.of_nat (length (rp_pk_w_vec pk)) = rp_cap_s_a e + rp_cap_s_b e + rp_cap_s_c e)%Z. lia.
    - change (Z.of_nat (length (rp_pk_v_vec pk)) = rp_cap_s_a e + rp_cap_s_b e + rp_cap_s_c e)%Z. rewrite Kv. lia.
    - change (Z.of_nat (length (rp_pk_y_vec pk)) = rp_cap_s_a e + rp_cap_s_b e + rp_cap_s_c e)%Z. lia.
    - exact L1.
    - exact Lwt.
    - exact L2.
    - exact L2'.
    - exact L3.
    - exact L3'.
    - exact L4.
    - exact L5.
    - change (2 * rp_cap_h e + rp_n e + 1 <= rp_cap_d e)%Z. lia. }
  apply rp_round7_inv in R7. destruct R7 as [Eq [Hdiv [Hgv Hz0]]].
  unfold rp_verify. cbn zeta.
  cbn [rp_cm_y_vec_1 rp_cm_w_vec rp_cm_r_vec rp_cm_c_vec rp_cm_rnu_vec rp_cm_t_vec rp_cm_r_vec_tilde rp_cm_t_vec_1 rp_cm_h_vec_1 rp_cm_h_vec_2 rp_pf_y rp_pf_y_1 rp_pf_y_2 rp_cap_w rp_cap_w_1].
  match goal with |- obind (rp_divisors ?q') _ = _ => assert (q' = q) as -> by (rewrite Eq; reflexivity) end.
  rewrite Hdiv. cbn [obind].
  change (rp_v_ch_omega H vk x cy1 cw crv ccv cnu ctv crt ct1) with (rp_p_ch_omega H vk x cy1 cw crv ccv cnu ctv crt ct1).
  change (rp_v_ch_z H vk x cy1 cw crv ccv cnu ctv crt ct1 ch1 ch2) with (rp_p_ch_z H vk x cy1 cw crv ccv cnu ctv crt ct1 ch1 ch2).
  change (rp_v_cm_g vk q cy1 cw crv ccv cnu ctv crt ct1 ch1 ch2) with (rp_p_cm_g vk q cy1 cw crv ccv cnu ctv crt ct1 ch1 ch2).
  change (rp_v_ch_rand_xi H vk x cy1 cw crv ccv cnu ctv crt ct1 ch1 ch2) with (rp_p_ch_rand_xi H vk x cy1 cw crv ccv cnu ctv crt ct1 ch1 ch2).
  change (rp_v_ch_rand_xi_2 H vk x cy1 cw crv ccv cnu ctv crt ct1 ch1 ch2) with (rp_p_ch_rand_xi_2 H vk x cy1 cw crv ccv cnu ctv crt ct1 ch1 ch2).
  rewrite K2 in R8.
  pose proof (batch_verifies (d + 1) beta g h _ _ _ _ _ _ _ _ rnd Hg Hh R8 ltac:(lia)) as V.
  assert (rp_p_cm_g vk q cy1 cw crv ccv cnu ctv crt ct1 ch1 ch2 = vscale (peval gv beta) g) as Ecg.
  { change (rp_p_cm_g vk q cy1 cw crv ccv cnu ctv crt ct1 ch1 ch2) with (rp_v_cm_g vk q cy1 cw crv ccv cnu ctv crt ct1 ch1 ch2).
    rewrite Ecy, Ecw, Ecr, Ecc, Ecn, Ect, Ecrt, Ect1, Ec1, Ec2. change y1 with (rp_y_vec_1 s6). change wv with (rp_wit_vec s6).
    change rv with (rp_r_vec s6). change cv with (rp_c_vec s6). change nv with (rp_rnu_vec s6). change tv with (rp_t_vec s6). change rt with (rp_r_vec_tilde s6).
    change t1 with (rp_t_vec_1 s6). apply rp_cm_g_value with (h := h); [exact HZ|exact Hgv|exact K3|exact Cu|exact Cw|exact Cv|exact Cy]. }
  rewrite K3.
  match goal with |- (if batch_check _ ?cs ?ds _ _ _ _ ?ys ?zs _ _ _ then _ else _) = _ =>
    match type of V with batch_check _ ?cs' ?ds' _ _ _ _ ?ys' ?zs' _ _ _ = _ =>
      assert (cs = cs') as X1; [|assert (ds = ds') as X2; [|assert (ys = ys') as X3; [|assert (zs = zs') as X4]]] end end.
  - cbn [map]. rewrite !peval_strip, Ect, Ecy, Ecc. reflexivity.
  - cbn [map]. rewrite !peval_strip, Ecg. reflexivity.
  - cbn [map]. rewrite !peval_strip, Eq. cbn [rp_ctx_of rp_q_y rp_q_y_1 rp_q_y_2]. unfold rp_y, rp_y_1, rp_y_2.
    destruct HZ. rewrite !eval_vidx by (unfold rp_n in *; lia). reflexivity.
  - cbn [map]. rewrite !peval_strip, Hz0. reflexivity.
  - rewrite X1, X2, X3, X4, V. reflexivity.
Qed.
End Run.
End RPComplete.

(** PovPEAttack.v: a dishonest prover for the prover-efficient POV argument.  The last third of the
    vector u that the prover commits to is not constrained by the verifier's equation beyond position
    2n + n_mul, and only by u_(2n+j) b_j = 0 for multiplication gates j, so a prover can correct the
    output of every addition gate, every constant gate and every multiplication by 0 to whatever it likes. *)
From Verif Require Import Base Spec Tools ToolsProofs ToolsProofs2 PermProofs CS KZG KZGProofs Properties_KZG
  Snark Laurent SnarkProofs SnarkPerm PovPE PovPEProofs PovPEConst PovPEGood PovPEComplete PovPETop PovPESoundSpec.
Local Open Scope F_scope.

Section PovPEAttack.
Context {F G1 G2 GT : Type} {fo : FieldOps F} {fl : FieldLaws F}
        {po : PairingOps F G1 G2 GT} {pl : PairingLaws F G1 G2 GT}.
Add Field Fpa : F_th.

(** What the output of gate j should be. *)
Definition pe_gate (nm na : nat) (consts a b : list F) (j : nat) : F :=
  if (j <? nm)%nat then coef a j * coef b j else
  if (j <? nm + na)%nat then coef a j + coef b j else coef consts (j - (nm + na)).
(** The two vectors of the dishonest prover (the honest ones: snarks/voproof_pov_prover_efficient.rs:122-140;
    the honest u is 0 where this one holds the correction of the gate). *)
Definition cheat_u (nm na : nat) (consts a b c : list F) (i : nat) : F :=
  let n := (nm + na + length consts)%nat in
  if (i <? n)%nat then coef a i else
  if (i <? n + nm)%nat then coef b (i - n) else
  if (i <? 2 * n)%nat then 0 else coef c (i - 2 * n) - pe_gate nm na consts a b (i - 2 * n).
Definition cheat_v (nm na : nat) (consts a b c : list F) (i : nat) : F :=
  let n := (nm + na + length consts)%nat in
  if (i <? n - nm)%nat then coef b (nm + i) else
  if (i <? n + na)%nat then pe_gate nm na consts a b (i - (n - nm)) else 0.

Section Run.
Variable H : list (item F G1) -> F.
Variable gamma : F.

(** everything [prove] does after its first round (snarks/voproof_pov_prover_efficient.rs:141-724) *)
Definition pe_finish (pk : pe_pk F G1 G2) (x : POVInstance (F:=F)) (s1 : pe_s1 F) (cm_u_vec cm_v_vec : G1)
  (delta_2 delta_3 : F) : outcome error (pe_proof F G1) :=
  let vk := pe_pk_verifier_key pk in
  let zeta := pe_p_ch_zeta H vk x cm_u_vec cm_v_vec in
  let zeta_1 := pe_p_ch_zeta_1 H vk x cm_u_vec cm_v_vec in
  let s2 := mkPES2 s1 zeta zeta_1 in
  let! (r_vec, cm_r_vec) := pe_round2 pk s2 [delta_2] in
  let alpha := pe_p_ch_alpha H vk x cm_u_vec cm_v_vec cm_r_vec in
  let s3 := mkPES3 s2 r_vec alpha in
  let! (t_vec_1, cm_t_vec_1) := pe_round3 pk s3 [delta_3] in
  let omega := pe_p_ch_omega H vk x cm_u_vec cm_v_vec cm_r_vec cm_t_vec_1 in
  let s4 := mkPES4 s3 t_vec_1 omega in
  let! (cm_h_vec_1, cm_h_vec_2) := pe_round4 pk s4 in
  let z := pe_p_ch_z H vk x cm_u_vec cm_v_vec cm_r_vec cm_t_vec_1 cm_h_vec_1 cm_h_vec_2 in
  let! (q, g_vec) := pe_round5 s4 z in
  let cm_g := pe_p_cm_g vk q cm_u_vec cm_v_vec cm_r_vec cm_t_vec_1 cm_h_vec_1 cm_h_vec_2 in
  let y := pe_q_y q in
  let y_2 := pe_q_y_2 q in
  let rand_xi := pe_p_ch_rand_xi H vk x cm_u_vec cm_v_vec cm_r_vec cm_t_vec_1 cm_h_vec_1 cm_h_vec_2
                   cm_g omega y y_2 z in
  let rand_xi_2 := pe_p_ch_rand_xi_2 H vk x cm_u_vec cm_v_vec cm_r_vec cm_t_vec_1 cm_h_vec_1 cm_h_vec_2
                   cm_g omega y y_2 z in
  let! (cap_w, cap_w_1) := batch_open (pe_pk_powers pk) [strip (pe_u_vec s4); strip r_vec] [strip g_vec]
                             (omega / z) z rand_xi rand_xi_2 in
  Ok (mkPEProof cm_u_vec cm_v_vec cm_r_vec cm_t_vec_1 cm_h_vec_1 cm_h_vec_2 y y_2 cap_w cap_w_1).

Lemma pe_prove_finish pk x w d0 d1 d2 d3 :
  pe_prove H gamma pk x w d0 d1 d2 d3 =
  let! (s1, (cu, cv)) := pe_round1 gamma pk x w [d0] [d1] in pe_finish pk x s1 cu cv d2 d3.
Proof. reflexivity. Qed.

(** The dishonest prover: commits to its own two vectors, then goes on like the honest one. *)
Definition pe_cheat (cs : POV F) (pk : pe_pk F G1 G2) (x : POVInstance (F:=F)) (w : POVWitness (F:=F))
  (d0 d1 d2 d3 : F) : outcome error (pe_proof F G1) :=
  let '(a, b, c) := w in
  let n := ps_n (pov_get_size cs) in
  let uv := map (cheat_u (p_nmul cs) (p_nadd cs) (p_consts cs) a b c) (seq 0 (3 * n)) ++ [d0] in
  let vv := map (cheat_v (p_nmul cs) (p_nadd cs) (p_consts cs) a b c) (seq 0 (3 * n)) ++ [d1] in
  let! xv := sparse_vector (fst x) (snd x) (3 * n) in
  let! tv := sparse_zero_one_vector (fst x) (3 * n) in
  let! cu := commit_vector (pe_pk_powers pk) uv (Z.of_nat (3 * n + 1)) in
  let! cv := commit_vector (pe_pk_powers pk) vv (Z.of_nat (3 * n + 1)) in
  let s1 := mkPES1 (pe_pub_of gamma (pe_pk_verifier_key pk) x) (pe_pk_sigma_vec pk) (pe_pk_d_vec pk) xv tv uv vv in
  pe_finish pk x s1 cu cv d2 d3.

Lemma pe_finish_accepts d beta (g : G1) (h : G2) pp cs pk vk x xv tv uv vv cu cv d2 d3 pf rnd :
  g <> v0 -> h <> v0 ->
  setup d beta g h = Ok pp -> pe_index gamma pp cs = Ok (pk, vk) ->
  length xv = (3 * ps_n (pov_get_size cs))%nat -> length tv = (3 * ps_n (pov_get_size cs))%nat ->
  length uv = (3 * ps_n (pov_get_size cs) + 1)%nat -> length vv = (3 * ps_n (pov_get_size cs) + 1)%nat ->
  cu = vscale (peval uv beta) g -> cv = vscale (peval vv beta) g ->
  pe_finish pk x (mkPES1 (pe_pub_of gamma (pe_pk_verifier_key pk) x) (pe_pk_sigma_vec pk) (pe_pk_d_vec pk) xv tv uv vv) cu cv d2 d3 = Ok pf ->
  pe_verify H gamma vk x pf rnd = Ok tt.
Proof.
  intros Hg Hh Hs Hi L1 L2 L3 L4 Ecu Ecv Hp. destruct (pe_index_inv gamma _ _ _ _ _ _ _ _ Hs Hi) as
    [K1 [K2 [K3 [K4 [K5 [K6 [K7 [K8 [K9 [K10 K11]]]]]]]]]].
  destruct (pvw_length _ _ _ _ K7) as [Hga Ls].
  subst vk. set (vk := pe_pk_verifier_key pk) in *.
  unfold pe_finish in Hp. fold vk in Hp.
  apply obind_ok in Hp. destruct Hp as [[r cr] [R2 Hp]].
  apply obind_ok in Hp. destruct Hp as [[t1 ct] [R3 Hp]].
  apply obind_ok in Hp. destruct Hp as [[ch1 ch2] [R4 Hp]].
  apply obind_ok in Hp. destruct Hp as [[q gv] [R5 Hp]].
  apply obind_ok in Hp. destruct Hp as [[w1 w2] [R6 Hp]].
  injection Hp as <-.
  apply (pe_round2_inv _ _ _ _ _ _ _ _ K2) in R2; [|cbn; lia]. destruct R2 as [_ [_ [L5 Ecr]]].
  apply (pe_round3_inv _ _ _ _ _ _ _ _ K2) in R3; [|cbn; lia|cbn; lia]. destruct R3 as [_ [L6 Ect]].
  set (s4 := mkPES4 _ t1 _) in *.
  assert (pe_cap_c_total s4 = Z.of_nat (ps_n (pov_get_size cs))) as EC by (change (Z.of_nat (ps_n (pe_vk_size vk)) = Z.of_nat (ps_n (pov_get_size cs))); now rewrite K4).
  assert (pe_cap_c_a s4 = Z.of_nat (p_nadd cs)) as ECa by (change (Z.of_nat (ps_nadd (pe_vk_size vk)) = Z.of_nat (p_nadd cs)); now rewrite K4).
  assert (pe_cap_c_m s4 = Z.of_nat (p_nmul cs)) as ECm by (change (Z.of_nat (ps_nmul (pe_vk_size vk)) = Z.of_nat (p_nmul cs)); now rewrite K4).
  assert (pe_cap_d s4 = Z.of_nat (d + 1)) as ED by (change (Z.of_nat (pe_vk_degree_bound vk) = Z.of_nat (d + 1)); now rewrite K5).
  assert (ps_n (pov_get_size cs) = length (p_consts cs) + p_nmul cs + p_nadd cs)%nat as EN by reflexivity.
  unfold pe_get_max_degree in K8. change (ps_nmul (pov_get_size cs)) with (p_nmul cs) in K8.
  assert (pe_sizes s4) as SZ.
  { split; rewrite ?EC, ?ECa, ?ECm; try lia.
    - cbn [s4 pe_d_vec pe_s2_s1 pe_s3_s2 pe_s4_s3]; try rewrite K6; lia.
    - cbn [s4 pe_u_vec pe_s2_s1 pe_s3_s2 pe_s4_s3]; try rewrite K6; lia.
    - cbn [s4 pe_v_vec pe_s2_s1 pe_s3_s2 pe_s4_s3]; try rewrite K6; lia.
    - change (pe_r_vec s4) with r. rewrite L5. exact (f_equal (fun c => 3 * c + 1)%Z EC).
    - cbn [s4 pe_sigma_vec pe_s2_s1 pe_s3_s2 pe_s4_s3]; try rewrite K6; lia.
    - cbn [s4 pe_x_vec pe_s2_s1 pe_s3_s2 pe_s4_s3]; try rewrite K6; lia.
    - cbn [s4 pe_t_vec pe_s2_s1 pe_s3_s2 pe_s4_s3]; try rewrite K6; lia.
    - change (pe_t_vec_1 s4) with t1. rewrite L6. exact (f_equal2 (fun m c => m + c + 3)%Z ECm EC). }
  apply (pe_round4_inv _ _ _ _ _ _ _ K2) in R4; [|unfold pe_maxshift, pe_n; lia]. destruct R4 as [Hom [Ec1 Ec2]].
  apply pe_round5_inv in R5. destruct R5 as [Eq [Hdiv [Hgv Hz0]]].
  unfold pe_verify.
  cbn [pe_cm_u_vec pe_cm_v_vec pe_cm_r_vec pe_cm_t_vec_1 pe_cm_h_vec_1 pe_cm_h_vec_2 pe_pf_y pe_pf_y_2 pe_cap_w pe_cap_w_1].
  match goal with |- obind (pe_divisors ?q') _ = _ => assert (q' = q) as -> by (rewrite Eq; reflexivity) end.
  rewrite Hdiv. cbn [obind].
  change (pe_v_ch_omega H vk x cu cv cr ct) with (pe_p_ch_omega H vk x cu cv cr ct).
  change (pe_v_ch_z H vk x cu cv cr ct ch1 ch2) with (pe_p_ch_z H vk x cu cv cr ct ch1 ch2).
  change (pe_v_cm_g vk q cu cv cr ct ch1 ch2) with (pe_p_cm_g vk q cu cv cr ct ch1 ch2).
  change (pe_v_ch_rand_xi H vk x cu cv cr ct ch1 ch2) with (pe_p_ch_rand_xi H vk x cu cv cr ct ch1 ch2).
  change (pe_v_ch_rand_xi_2 H vk x cu cv cr ct ch1 ch2) with (pe_p_ch_rand_xi_2 H vk x cu cv cr ct ch1 ch2).
  rewrite K2 in R6.
  pose proof (batch_verifies (d + 1) beta g h _ _ _ _ _ _ _ _ rnd Hg Hh R6 ltac:(lia)) as V.
  assert (pe_p_cm_g vk q cu cv cr ct ch1 ch2 = vscale (peval gv beta) g) as Ecg.
  { change (pe_p_cm_g vk q cu cv cr ct ch1 ch2) with (pe_v_cm_g vk q cu cv cr ct ch1 ch2).
    rewrite Ecu, Ecv, Ect, Ec1, Ec2. change uv with (pe_u_vec s4). change vv with (pe_v_vec s4).
    change t1 with (pe_t_vec_1 s4). apply pe_cm_g_value with (h := h); [exact SZ|lia|exact Hgv|exact K3|exact K10|].
    rewrite K11. change (pe_d_vec s4) with (pe_pk_d_vec pk). now rewrite K6. }
  rewrite K3.
  match goal with |- (if batch_check _ ?cs ?ds _ _ _ _ ?ys ?zs _ _ _ then _ else _) = _ =>
    match type of V with batch_check _ ?cs' ?ds' _ _ _ _ ?ys' ?zs' _ _ _ = _ =>
      assert (cs = cs') as X1; [|assert (ds = ds') as X2; [|assert (ys = ys') as X3; [|assert (zs = zs') as X4]]] end end.
  - cbn [map]. rewrite !peval_strip, Ecu, Ecr. reflexivity.
  - cbn [map]. rewrite !peval_strip, Ecg. reflexivity.
  - cbn [map]. rewrite !peval_strip, Eq. cbn [pe_ctx_of pe_q_y pe_q_y_2]. unfold pe_y, pe_y_2.
    destruct SZ. rewrite !eval_vidx by (unfold pe_n; lia). reflexivity.
  - cbn [map]. rewrite !peval_strip, Hz0. reflexivity.
  - rewrite X1, X2, X3, X4, V. reflexivity.
Qed.

(** The events in which the attack has to be repeated with other randomizers. *)
Definition pe_cheat_unlucky (cs : POV F) (pk : pe_pk F G1 G2) (x : POVInstance (F:=F)) (w : POVWitness (F:=F)) (d0 d1 d2 d3 : F) : Prop :=
  let vk := pe_pk_verifier_key pk in
  let '(a, b, c) := w in
  let n := ps_n (pov_get_size cs) in
  let uv := map (cheat_u (p_nmul cs) (p_nadd cs) (p_consts cs) a b c) (seq 0 (3 * n)) ++ [d0] in
  let vv := map (cheat_v (p_nmul cs) (p_nadd cs) (p_consts cs) a b c) (seq 0 (3 * n)) ++ [d1] in
  exists xv tv cu cv,
  commit_vector (pe_pk_powers pk) uv (Z.of_nat (3 * n + 1)) = Ok cu /\ commit_vector (pe_pk_powers pk) vv (Z.of_nat (3 * n + 1)) = Ok cv /\
  let s1 := mkPES1 (pe_pub_of gamma (pe_pk_verifier_key pk) x) (pe_pk_sigma_vec pk) (pe_pk_d_vec pk) xv tv uv vv in
  let zeta := pe_p_ch_zeta H vk x cu cv in
  let zeta_1 := pe_p_ch_zeta_1 H vk x cu cv in
  let s2 := mkPES2 s1 zeta zeta_1 in
  ((exists i, (i < 3 * ps_n (pe_vk_size vk))%nat /\
     coef (a ++ b ++ c) i + coef (pe_pk_sigma_vec pk) i * zeta + zeta_1 = 0) \/
   exists r cr, pe_round2 pk s2 [d2] = Ok (r, cr) /\
   let s3 := mkPES3 s2 r (pe_p_ch_alpha H vk x cu cv cr) in
   exists t1 ct, pe_round3 pk s3 [d3] = Ok (t1, ct) /\
   let omega := pe_p_ch_omega H vk x cu cv cr ct in
   let s4 := mkPES4 s3 t1 omega in
   (omega = 0 \/
    exists ch1 ch2, pe_round4 pk s4 = Ok (ch1, ch2) /\
    let z := pe_p_ch_z H vk x cu cv cr ct ch1 ch2 in
    (z = 0 \/ z = 1 \/ gamma * z = 1 \/ omega = z \/
     (forall i, (1 <= i)%nat -> coef (pe_u_vec s1) i = 0) \/
     exists gv, pe_g_vec s4 (pe_ctx_of s4 z) = Ok gv /\ forall i, coef gv i = 0))).


Section Good.
Variable e : pe_s4 F.
Variables (nm na : nat) (consts a b c : list F) (wires : list (nat * nat)) (pos : list nat) (vals : list F).
Variables (d0 d1 d2 d3 : F).
Let n := (nm + na + length consts)%nat.
Hypothesis EC : pe_cap_c_total e = Z.of_nat n.
Hypothesis ECa : pe_cap_c_a e = Z.of_nat na.
Hypothesis ECm : pe_cap_c_m e = Z.of_nat nm.
Hypothesis Hn : (1 <= n)%nat.
Hypothesis La : length a = n.
Hypothesis Lb : length b = n.
Hypothesis Lc : length c = n.
Hypothesis Eu : pe_u_vec e = map (cheat_u nm na consts a b c) (seq 0 (3 * n)) ++ [d0].
Hypothesis Ev : pe_v_vec e = map (cheat_v nm na consts a b c) (seq 0 (3 * n)) ++ [d1].
Hypothesis Ed : pe_d_vec e = consts.
Hypothesis Es : permutation_vector_from_wires (E:=error) (pe_gamma e) wires (3 * n) = Ok (pe_sigma_vec e).
Hypothesis Ex : forall k, coef (pe_x_vec e) k = sparse_at pos vals k.
Hypothesis Et : forall k, coef (pe_t_vec e) k = sparse_at pos (map (fun _ => 1) pos) k.
Hypothesis Er : pe_r_vec e = accumulate_vector 1 (fun i => pe_r_num e i * finv (pe_r_den e i)) (pe_r_len e) fmul ++ [d2].
Hypothesis Hden : forall i, (1 <= i <= 3 * pe_cap_c_total e)%Z -> pe_r_den e i <> 0.
Hypothesis Et1 : pe_t_vec_1 e = d3 :: pe_t_vec_1_tail e.
Hypothesis Hsat : pe_enforced wires nm pos vals a b c.
Hypothesis Hnd : NoDup pos.
Hypothesis Hlen : length pos = length vals.
Hypothesis Hpos : forall p, In p pos -> (p < 2 * n + nm + na)%nat.

Lemma chn_eq : n = (nm + na + length consts)%nat. Proof. reflexivity. Qed.
Lemma ch_u i : (1 <= i <= 3 * Z.of_nat n)%Z -> vidx (pe_u_vec e) i = cheat_u nm na consts a b c (Z.to_nat (i - 1)).
Proof.
  intros Hi. rewrite vidx_in, Eu, coef_app, map_length, seq_length by lia.
  destruct (Nat.ltb_spec (Z.to_nat (i - 1)) (3 * n)); [|lia]. unfold coef.
  rewrite (nth_indep _ _ (cheat_u nm na consts a b c 0)) by (rewrite map_length, seq_length; lia).
  rewrite map_nth, seq_nth by lia. reflexivity.
Qed.
Lemma ch_v i : (1 <= i <= 3 * Z.of_nat n)%Z -> vidx (pe_v_vec e) i = cheat_v nm na consts a b c (Z.to_nat (i - 1)).
Proof.
  intros Hi. rewrite vidx_in, Ev, coef_app, map_length, seq_length by lia.
  destruct (Nat.ltb_spec (Z.to_nat (i - 1)) (3 * n)); [|lia]. unfold coef.
  rewrite (nth_indep _ _ (cheat_v nm na consts a b c 0)) by (rewrite map_length, seq_length; lia).
  rewrite map_nth, seq_nth by lia. reflexivity.
Qed.
Ltac ifs := repeat match goal with |- context [(?x <? ?y)%nat] => destruct (Nat.ltb_spec x y); try lia end.
Notation W := (a ++ b ++ c).
Lemma ch_W i : (1 <= i <= 3 * Z.of_nat n)%Z ->
  vidx (pe_u_vec e) i + vidx (pe_v_vec e) (i - (Z.of_nat nm + Z.of_nat n)) +
  vidx (pe_d_vec e) (i - (Z.of_nat na + Z.of_nat nm + 2 * Z.of_nat n)) = coef W (Z.to_nat (i - 1)).
Proof.
  pose proof chn_eq. intros Hi. rewrite ch_u by lia. rewrite Ed. unfold cheat_u. fold n.
  rewrite !coef_app, La, Lb.
  destruct (Nat.ltb_spec (Z.to_nat (i - 1)) n).
  { rewrite (vidx_out (pe_v_vec e)), (vidx_out consts) by lia. ring. }
  destruct (Nat.ltb_spec (Z.to_nat (i - 1)) (n + nm)).
  { rewrite (vidx_out (pe_v_vec e)), (vidx_out consts) by lia.
    destruct (Nat.ltb_spec (Z.to_nat (i - 1) - n) n); [ring|lia]. }
  rewrite ch_v by lia. unfold cheat_v. fold n.
  replace (Z.to_nat (i - (Z.of_nat nm + Z.of_nat n) - 1)) with (Z.to_nat (i - 1) - n - nm)%nat by lia.
  destruct (Nat.ltb_spec (Z.to_nat (i - 1) - n) n).
  { rewrite (vidx_out consts) by lia. ifs.
    match goal with |- 0 + coef b ?x + 0 = coef b ?y => replace x with y by lia end. ring. }
  ifs.
  { rewrite (vidx_out consts) by lia.
    match goal with |- coef c ?x - pe_gate _ _ _ _ _ ?k + pe_gate _ _ _ _ _ ?k' + 0 = coef c ?y => replace k' with k by lia; replace x with y by lia end. ring. }
  rewrite vidx_in by lia. unfold pe_gate. ifs.
  match goal with |- coef c ?x - coef consts ?k + 0 + coef consts ?k' = coef c ?y => replace k' with k by lia; replace x with y by lia end. ring.
Qed.
Lemma ch_num i : (1 <= i <= 3 * Z.of_nat n)%Z -> pe_r_num e i =
  coef W (Z.to_nat (i - 1)) + fpow (pe_gamma e) (Z.to_nat (i - 1)) * pe_zeta e + pe_zeta_1 e.
Proof.
  intros Hi. rewrite <- ch_W by lia. unfold pe_r_num, minus_i64. rewrite EC, ECa, ECm.
  replace (i - 1 + 1)%Z with i by lia. rewrite range_in by lia.
  replace (i - (Z.of_nat nm + Z.of_nat n + 1) + 1)%Z with (i - (Z.of_nat nm + Z.of_nat n))%Z by lia.
  replace (i - (Z.of_nat na + Z.of_nat nm + 2 * Z.of_nat n + 1) + 1)%Z with (i - (Z.of_nat na + Z.of_nat nm + 2 * Z.of_nat n))%Z by lia.
  destruct (sigma_at _ _ _ _ Es) as [Hg _].
  assert (power_vidx (pe_gamma e) (3 * Z.of_nat n) i = fpow (pe_gamma e) (Z.to_nat (i - 1))) as ->; [|ring].
  unfold power_vidx. destruct (Z.leb_spec 1 i), (Z.leb_spec i (3 * Z.of_nat n)); try lia. cbn [andb].
  replace (i - 1)%Z with (Z.of_nat (Z.to_nat (i - 1))) at 1 by lia. now apply power_nat.
Qed.
Lemma ch_den i : (1 <= i <= 3 * Z.of_nat n)%Z -> pe_r_den e i =
  coef W (Z.to_nat (i - 1)) + coef (pe_sigma_vec e) (Z.to_nat (i - 1)) * pe_zeta e + pe_zeta_1 e.
Proof.
  intros Hi. rewrite <- ch_W by lia. unfold pe_r_den, minus_i64. rewrite EC, ECa, ECm.
  replace (i - 1 + 1)%Z with i by lia. rewrite range_in by lia.
  replace (i - (Z.of_nat nm + Z.of_nat n + 1) + 1)%Z with (i - (Z.of_nat nm + Z.of_nat n))%Z by lia.
  replace (i - (Z.of_nat na + Z.of_nat nm + 2 * Z.of_nat n + 1) + 1)%Z with (i - (Z.of_nat na + Z.of_nat nm + 2 * Z.of_nat n))%Z by lia.
  rewrite (vidx_in (pe_sigma_vec e)) by lia. ring.
Qed.

Lemma cheat_pe_good : pe_good e.
Proof.
  pose proof chn_eq as En. destruct Hsat as [S1 [S4 S5]].
  split; rewrite ?EC, ?ECa, ?ECm.
  - intros i Hi. destruct (Z_le_gt_dec i (Z.of_nat n)) as [H1|H1].
    { rewrite (vidx_out _ (i - Z.of_nat n)), range_out by lia. ring. }
    rewrite !ch_u by lia. unfold cheat_u. fold n.
    destruct (Z_le_gt_dec i (Z.of_nat n + Z.of_nat nm)) as [H2|H2].
    + rewrite range_in, ch_v by lia. unfold cheat_v, pe_gate. fold n. ifs.
      replace (Z.to_nat (i - Z.of_nat nm - 1) - (n - nm))%nat with (Z.to_nat (i - 1) - n)%nat by lia.
      replace (Z.to_nat (i - Z.of_nat n - 1)) with (Z.to_nat (i - 1) - n)%nat by lia. ring.
    + rewrite range_out by lia.
      destruct (Z_le_gt_dec i (2 * Z.of_nat n)) as [H3|H3].
      { destruct (Nat.ltb_spec (Z.to_nat (i - 1)) (2 * n)); [|lia]. ifs; ring. }
      destruct (Z_le_gt_dec i (2 * Z.of_nat n + Z.of_nat nm)) as [Q4|Q4].
      * unfold pe_gate. replace (Z.to_nat (i - Z.of_nat n - 1) - n)%nat with (Z.to_nat (i - 1) - 2 * n)%nat by lia. ifs.
        destruct (feq_dec (coef b (Z.to_nat (i - 1) - 2 * n)) 0) as [Eb|Eb]; [rewrite Eb; ring|].
        rewrite S1 by (lia || auto). ring.
      * ifs; ring.
  - intros i Hi. rewrite !ch_v, ch_u by lia. unfold cheat_u, cheat_v, pe_gate. fold n. ifs.
    replace (Z.to_nat (i + Z.of_nat nm - Z.of_nat n - 1)) with (Z.to_nat (i - 1) - (n - nm))%nat by lia.
    replace (nm + Z.to_nat (i - Z.of_nat n - 1))%nat with (Z.to_nat (i - 1) - (n - nm))%nat by lia. ring.
  - intros i Hi. rewrite (vidx_in (pe_t_vec e)), (vidx_in (pe_x_vec e)), Ex, Et by lia.
    set (k := Z.to_nat (i - 1)). destruct (in_dec Nat.eq_dec k pos) as [Hk|Hk].
    + apply In_nth with (d := 0%nat) in Hk. destruct Hk as [j [Hj Ej]].
      assert (In (k, coef vals j) (combine pos vals)) as Hin.
      { rewrite <- Ej. unfold coef. rewrite <- combine_nth by auto. apply nth_In. rewrite combine_length. lia. }
      unfold sparse_at at 2. rewrite (NoDup_fsum_pick _ k (coef vals j)); auto using combine_NoDup_fst.
      assert (E5 := S5 j ltac:(lia)). rewrite Ej in E5. rewrite <- E5.
      assert (k < 2 * n + nm + na)%nat as Hkk by (apply Hpos; rewrite <- Ej; now apply nth_In).
      unfold k in *. rewrite <- ch_W by lia. rewrite (vidx_out (pe_d_vec e)) by lia.
      replace (i - Z.of_nat nm - Z.of_nat n)%Z with (i - (Z.of_nat nm + Z.of_nat n))%Z by lia. ring.
    + unfold sparse_at at 1. rewrite (fsum_pick_out _ k); [ring|].
      intros Hc. apply Hk. apply in_map_iff in Hc. destruct Hc as [[k' y] [<- Hc]]. now apply in_combine_l in Hc.
  - intros i Hi. rewrite Er. unfold pe_r_len. rewrite EC.
    replace (3 * Z.of_nat n)%Z with (Z.of_nat (3 * n)) by lia.
    apply (grand_product_rec (pe_r_num e) (pe_r_den e)); [|lia]. intros j Hj. apply Hden. lia.
  - rewrite Er. unfold pe_r_len. rewrite EC.
    replace (3 * Z.of_nat n)%Z with (Z.of_nat (3 * n)) by lia.
    apply (grand_product_end (pe_r_num e) (pe_r_den e) wires); [lia| |].
    { intros j Hj. apply Hden. lia. }
    destruct (sigma_at _ _ _ _ Es) as [Hg [Hb Hs]].
    intros j Hj. pose proof (sg_below wires (3 * n) j Hj) as Hsg. rewrite ch_den, ch_num by lia.
    replace (Z.to_nat (Z.of_nat (S j) - 1)) with j by lia.
    replace (Z.to_nat (Z.of_nat (S (sg wires (3 * n) j)) - 1)) with (sg wires (3 * n) j) by lia.
    rewrite Hs by auto. assert (coef W (sg wires (3 * n) j) = coef W j) as ->; auto.
    apply (respects_inv wires (3 * n)); auto.
  - exists d3. exact Et1.
Qed.
End Good.

Theorem pe_forge d beta (g : G1) (h : G2) pp cs pk vk pos vals a b c d0 d1 d2 d3 :
  g <> v0 -> h <> v0 ->
  setup d beta g h = Ok pp -> pe_index gamma pp cs = Ok (pk, vk) ->
  length a = ps_n (pov_get_size cs) -> length b = ps_n (pov_get_size cs) -> length c = ps_n (pov_get_size cs) ->
  pe_enforced (p_wires cs) (p_nmul cs) pos vals a b c ->
  NoDup pos -> length pos = length vals ->
  (forall p, In p pos -> (p < 2 * ps_n (pov_get_size cs) + p_nmul cs + p_nadd cs)%nat) ->
  (exists pf, pe_cheat cs pk (pos, vals) (a, b, c) d0 d1 d2 d3 = Ok pf /\
     forall rnd, pe_verify H gamma vk (pos, vals) pf rnd = Ok tt) \/
  (pe_cheat cs pk (pos, vals) (a, b, c) d0 d1 d2 d3 = Panic /\ pe_cheat_unlucky cs pk (pos, vals) (a, b, c) d0 d1 d2 d3).
Proof.
  intros Hg Hh Hs Hi La Lb Lc Hsat Hnd Hlen Hpos.
  destruct (pe_index_inv gamma _ _ _ _ _ _ _ _ Hs Hi) as
    [K1 [K2 [K3 [K4 [K5 [K6 [K7 [K8 [K9 [K10 K11]]]]]]]]]].
  destruct (pvw_length _ _ _ _ K7) as [Hga Ls].
  pose proof Hi as Hi0. subst vk. set (vk := pe_pk_verifier_key pk) in *.
  set (n := ps_n (pov_get_size cs)) in *.
  assert (n = p_nmul cs + p_nadd cs + length (p_consts cs))%nat as EN by (unfold n, pov_get_size; cbn [ps_n]; lia).
  unfold pe_get_max_degree in K8. change (ps_nmul (pov_get_size cs)) with (p_nmul cs) in K8. fold n in K8.
  destruct (sparse_vector_ok (E:=error) pos vals (3 * n) Hnd) as [xv [E1 [L1 X1]]]; [intros i Hip; apply Hpos in Hip; lia|].
  destruct (sparse_vector_ok (E:=error) pos (map (fun _ => 1) pos) (3 * n) Hnd) as [tv [E2 [L2 X2]]]; [intros i Hip; apply Hpos in Hip; lia|].
  set (uv := map (cheat_u (p_nmul cs) (p_nadd cs) (p_consts cs) a b c) (seq 0 (3 * n)) ++ [d0]).
  set (vv := map (cheat_v (p_nmul cs) (p_nadd cs) (p_consts cs) a b c) (seq 0 (3 * n)) ++ [d1]).
  assert (length uv = 3 * n + 1)%nat as L3 by (unfold uv; rewrite app_length, map_length, seq_length; reflexivity).
  assert (length vv = 3 * n + 1)%nat as L4 by (unfold vv; rewrite app_length, map_length, seq_length; reflexivity).
  set (e0 := pe_pub_of gamma vk (pos, vals)).
  assert (pe_cap_c_total e0 = Z.of_nat n) as EC by (cbn; now rewrite K4).
  assert (pe_cap_c_a e0 = Z.of_nat (p_nadd cs)) as ECa by (cbn; now rewrite K4).
  assert (pe_cap_c_m e0 = Z.of_nat (p_nmul cs)) as ECm by (cbn; now rewrite K4).
  assert (pe_cap_d e0 = Z.of_nat (d + 1)) as ED by (cbn; now rewrite K5).
  set (s1 := mkPES1 e0 (pe_pk_sigma_vec pk) (pe_pk_d_vec pk) xv tv uv vv).
  set (cu := vscale (peval uv beta) g). set (cv := vscale (peval vv beta) g).
  assert (Cu : commit_vector (pe_pk_powers pk) uv (Z.of_nat (3 * n + 1)) = Ok cu) by (rewrite K2; apply commit_vector_ok0; lia).
  assert (Cv : commit_vector (pe_pk_powers pk) vv (Z.of_nat (3 * n + 1)) = Ok cv) by (rewrite K2; apply commit_vector_ok0; lia).
  assert (pe_cheat cs pk (pos, vals) (a, b, c) d0 d1 d2 d3 = pe_finish pk (pos, vals) s1 cu cv d2 d3) as R1.
  { unfold pe_cheat. cbn zeta. fold n. fold uv vv. cbn [fst snd]. rewrite E1, sparse_zero_one_eq, E2. cbn [obind].
    rewrite Cu, Cv. reflexivity. }
  rewrite R1.
  enough ((exists pf, pe_finish pk (pos, vals) s1 cu cv d2 d3 = Ok pf) \/
     (pe_finish pk (pos, vals) s1 cu cv d2 d3 = Panic /\ pe_cheat_unlucky cs pk (pos, vals) (a, b, c) d0 d1 d2 d3)) as [[pf P]|P].
  { left. exists pf. split; auto. intros rnd. eapply (pe_finish_accepts d beta g h) with (xv := xv) (tv := tv) (uv := uv) (vv := vv) (cu := cu) (cv := cv); eauto; lia. }
  { now right. }
  unfold pe_finish. fold vk. cbn zeta.
  unfold pe_cheat_unlucky. cbn zeta. fold vk. fold n. fold uv vv.
  set (s2 := mkPES2 s1 _ _).
  assert (forall i, (1 <= i <= 3 * Z.of_nat n)%Z -> pe_r_den s2 i =
    coef (a ++ b ++ c) (Z.to_nat (i - 1)) + coef (pe_pk_sigma_vec pk) (Z.to_nat (i - 1)) * pe_zeta s2 + pe_zeta_1 s2) as Hden.
  { intros i Hi'.
    apply (ch_den (mkPES4 (mkPES3 s2 [] 0) [] 0) (p_nmul cs) (p_nadd cs) (p_consts cs) a b c pos vals
      d0 d1); rewrite <- ?EN; auto; try lia. }
  destruct (existsb (fun i => is_zero (pe_r_den s2 i)) (zrange (pe_r_len s2))) eqn:Eb.
  { right. split.
    - unfold pe_round2, pe_r_acc. now rewrite Eb.
    - exists xv, tv, cu, cv. split; [rewrite <- ?K2; exact Cu|]. split; [rewrite <- ?K2; exact Cv|]. cbn zeta. fold e0. left. apply existsb_exists in Eb. destruct Eb as [i [Hin Hz]].
      unfold zrange in Hin. apply in_map_iff in Hin. destruct Hin as [j [<- Hj]]. apply in_seq in Hj.
      change (pe_r_len s2) with (3 * pe_cap_c_total e0)%Z in Hj. rewrite EC in Hj.
      destruct (is_zero_spec (pe_r_den s2 (Z.of_nat j))) as [Hz0|]; [|discriminate].
      rewrite Hden in Hz0 by lia. exists (Z.to_nat (Z.of_nat j - 1)). split; [|exact Hz0]. fold vk. rewrite K4. fold n. lia. }
  assert (forall i, (1 <= i <= 3 * pe_cap_c_total e0)%Z -> pe_r_den s2 i <> 0) as Hd0.
  { intros i Hi'. apply (pe_r_acc_inv s2 (accumulate_vector 1 (fun i => pe_r_num s2 i * finv (pe_r_den s2 i)) (pe_r_len s2) fmul)); auto.
    unfold pe_r_acc. now rewrite Eb. }
  set (r := accumulate_vector 1 (fun i => pe_r_num s2 i * finv (pe_r_den s2 i)) (pe_r_len s2) fmul ++ [d2]).
  assert (length r = 3 * n + 1)%nat as L5.
  { unfold r. rewrite app_length, accumulate_length. change (pe_r_len s2) with (3 * pe_cap_c_total e0)%Z. rewrite EC. cbn [length]. lia. }
  set (cr := vscale (peval r beta) g).
  assert (pe_round2 pk s2 [d2] = Ok (r, cr)) as R2.
  { unfold pe_round2, pe_r_acc. rewrite Eb, K2. cbn [obind]. unfold zero_pad_and_concat, zero_pad. rewrite accumulate_length.
    change (pe_n s2) with (3 * pe_cap_c_total e0)%Z. change (pe_r_len s2) with (3 * pe_cap_c_total e0)%Z.
    destruct (Nat.ltb_spec (Z.to_nat (3 * pe_cap_c_total e0)) (Z.to_nat (3 * pe_cap_c_total e0))); [lia|]. cbn [obind].
    rewrite Nat.sub_diag. cbn [repeat concat app]. rewrite app_nil_r. change (3 * pe_cap_c_total e0)%Z with (pe_r_len s2) at 1. fold r.
    rewrite (commit_vector_ok0 (d + 1) beta g r) by lia. reflexivity. }
  rewrite R2. cbn [obind].
  set (s3 := mkPES3 s2 r _).
  set (t1 := d3 :: pe_t_vec_1_tail s3).
  assert (Z.of_nat (length t1) = Z.of_nat (p_nmul cs) + Z.of_nat n + 3)%Z as L6.
  { unfold t1. cbn [length]. unfold pe_t_vec_1_tail. rewrite expression_vector_length.
    change (pe_maxshift s3) with (pe_cap_c_m e0 + pe_cap_c_total e0)%Z. lia. }
  set (ct := vscale (peval t1 beta) g).
  assert (pe_round3 pk s3 [d3] = Ok (t1, ct)) as R3.
  { unfold pe_round3, vector_concat. cbn [concat app]. rewrite app_nil_r. fold t1. rewrite K2.
    change (pe_maxshift s3) with (pe_cap_c_m e0 + pe_cap_c_total e0)%Z.
    rewrite (commit_vector_ok0 (d + 1) beta g t1) by lia. reflexivity. }
  rewrite R3. cbn [obind].
  set (om := pe_p_ch_omega H vk (pos, vals) cu cv cr ct).
  set (s4 := mkPES4 s3 t1 om).
  destruct (feq_dec om 0) as [Eo|Ho].
  { right. split.
    - unfold pe_round4. cbn [pe_omega s4]. now rewrite Eo, nonzero_panic.
    - exists xv, tv, cu, cv. split; [rewrite <- ?K2; exact Cu|]. split; [rewrite <- ?K2; exact Cv|]. cbn zeta. fold e0. right. exists r, cr. split; auto. exists t1, ct. split; auto. }
  assert (pe_cap_c_total s4 = Z.of_nat n) as EC4 by exact EC.
  assert (pe_cap_c_a s4 = Z.of_nat (p_nadd cs)) as ECa4 by exact ECa.
  assert (pe_cap_c_m s4 = Z.of_nat (p_nmul cs)) as ECm4 by exact ECm.
  assert (pe_cap_d s4 = Z.of_nat (d + 1)) as ED4 by exact ED.
  assert (pe_sizes s4) as SZ.
  { split; rewrite ?EC4, ?ECa4, ?ECm4; try lia.
    - change (pe_d_vec s4) with (pe_pk_d_vec pk). rewrite K6. lia.
    - change (pe_u_vec s4) with uv. lia.
    - change (pe_v_vec s4) with vv. lia.
    - change (pe_r_vec s4) with r. lia.
    - change (pe_sigma_vec s4) with (pe_pk_sigma_vec pk). fold n in Ls. lia.
    - change (pe_x_vec s4) with xv. lia.
    - change (pe_t_vec s4) with tv. lia.
    - change (pe_t_vec_1 s4) with t1. lia. }
  assert (pe_good s4) as GD.
  { apply (cheat_pe_good s4 (p_nmul cs) (p_nadd cs) (p_consts cs) a b c (p_wires cs) pos vals
      d0 d1 d2 d3); rewrite <- ?EN; auto; try lia. }
  set (M := (4 * Z.of_nat n + Z.of_nat (p_nmul cs))%Z).
  assert (pe_maxshift s4 + pe_n s4 = M)%Z as EM by (unfold pe_maxshift, pe_n; lia).
  assert (length (pe_h_vec_1 s4) = Z.to_nat M) as LH1 by (rewrite <- EM; apply expression_vector_length).
  assert (length (pe_h_vec_2 s4) = Z.to_nat M) as LH2 by (rewrite <- EM; apply expression_vector_length).
  assert (exists ch1 ch2, pe_round4 pk s4 = Ok (ch1, ch2)) as [ch1 [ch2 R4]].
  { unfold pe_round4. cbn [pe_omega s4]. rewrite nonzero_ok by auto. cbn [obind]. rewrite K2, ED4.
    rewrite (commit_vector_ok (d + 1) beta g (pe_h_vec_1 s4)); [|lia|lia|].
    2:{ unfold voffset. rewrite LH1. destruct (Nat.ltb_spec (Z.to_nat (Z.of_nat (d + 1))) (Z.to_nat M)); lia. }
    cbn [obind]. rewrite EM. rewrite (commit_vector_ok0 (d + 1) beta g (pe_h_vec_2 s4)) by lia. cbn [obind]. eauto. }
  rewrite R4. cbn [obind].
  set (z := pe_p_ch_z H vk (pos, vals) cu cv cr ct ch1 ch2).
  set (q := pe_ctx_of s4 z).
  destruct (pe_divisors_cases q) as [[D1 [Hz [Hz1 [Hgz Hoz]]]]|[D1 D2]].
  2:{ right. split; [unfold pe_round5; fold q; now rewrite D1|].
      exists xv, tv, cu, cv. split; [rewrite <- ?K2; exact Cu|]. split; [rewrite <- ?K2; exact Cv|]. cbn zeta. fold e0. right. exists r, cr. split; auto. exists t1, ct. split; auto.
      right. exists ch1, ch2. split; auto. cbn zeta. destruct D2 as [D2|[D2|[D2|D2]]]; auto. }
  change (pe_q_z q) with z in *. change (pe_q_omega q) with om in *. change (pe_gamma q) with gamma in *.
  destruct (add_first_ok (pe_g_at s4 q) (pe_cap_d s4) (pe_p_c_20 q)) as [gv [EG [LG VG]]]; [lia|].
  assert (om / z <> 0) as Hoz0.
  { intros E. apply Ho. transitivity (om / z * z); [field; auto|rewrite E; ring]. }
  assert (peval gv z = 0) as G0.
  { apply (pe_g_zero s4 z gv SZ GD); auto; try lia.
    - change (pe_omega s4) with om. change (pe_x0 s4) with pos. change (pe_t_vec s4) with tv.
      rewrite eval_sparse_zero_one_eq.
      destruct (eval_sparse_vector_ok (E:=error) (om / z) pos (map (fun _ => 1) pos) (3 * n) Hoz0 Hnd) as [tv' [Et' ->]].
      { intros i Hip. apply Hpos in Hip. lia. }
      rewrite E2 in Et'. injection Et' as <-. reflexivity.
    - change (pe_x0 s4) with pos. change (pe_x1 s4) with vals. change (pe_x_vec s4) with xv.
      destruct (eval_sparse_vector_ok (E:=error) z pos vals (3 * n) Hz Hnd) as [xv' [Ex' ->]].
      { intros i Hip. apply Hpos in Hip. lia. }
      rewrite E1 in Ex'. injection Ex' as <-. reflexivity. }
  assert (pe_round5 s4 z = Ok (q, gv)) as R5.
  { unfold pe_round5. fold q. rewrite D1. cbn [obind]. unfold pe_g_vec. rewrite EG. cbn [obind].
    rewrite check_poly_eval_ok by (now rewrite peval_strip). reflexivity. }
  rewrite R5. cbn [obind].
  change (pe_u_vec s4) with uv. rewrite K2.
  assert (2 <= length (strip r))%nat as Lr.
  { destruct (Nat.le_gt_cases 2 (length (strip r))) as [|Q]; auto. exfalso.
    assert (length (strip r) <= 1)%nat as Q1 by lia. rewrite strip_const in Q1.
    destruct GD as [_ _ _ _ G5 _]. change (pe_r_vec s4) with r in G5. rewrite EC4 in G5.
    rewrite vidx_in in G5 by lia. rewrite Q1 in G5 by lia. symmetry in G5. now apply f1_neq_0 in G5. }
  destruct (le_dec (length (strip uv)) 1) as [Q|Qu].
  { right. split.
    - rewrite batch_open_panic; [reflexivity|lia| |exists (strip uv); split; [now left|exact Q]].
      intros f Hf. pose proof (strip_length uv). pose proof (strip_length r). pose proof (strip_length gv).
      cbn [app In] in Hf. destruct Hf as [<-|[<-|[<-|[]]]]; lia.
    - exists xv, tv, cu, cv. split; [rewrite <- ?K2; exact Cu|]. split; [rewrite <- ?K2; exact Cv|]. cbn zeta. fold e0. right. exists r, cr. split; auto. exists t1, ct. split; auto.
      right. exists ch1, ch2. split; auto. cbn zeta. do 4 right. left. cbn [pe_u_vec]. now apply strip_const. }
  destruct (le_dec (length (strip gv)) 1) as [Q|Qg].
  { right. split.
    - rewrite batch_open_panic; [reflexivity|lia| |exists (strip gv); split; [cbn [app In]; tauto|exact Q]].
      intros f Hf. pose proof (strip_length uv). pose proof (strip_length r). pose proof (strip_length gv).
      cbn [app In] in Hf. destruct Hf as [<-|[<-|[<-|[]]]]; lia.
    - exists xv, tv, cu, cv. split; [rewrite <- ?K2; exact Cu|]. split; [rewrite <- ?K2; exact Cv|]. cbn zeta. fold e0. right. exists r, cr. split; auto. exists t1, ct. split; auto.
      right. exists ch1, ch2. split; auto. cbn zeta. do 5 right. exists gv. split; auto. now apply (strip_const_root gv z). }
  left.
  match goal with |- exists pf, obind (batch_open ?P ?fs ?gs ?z1 ?z2 ?x1 ?x2) _ = _ =>
    destruct (batch_complete (d + 1) beta g h fs gs z1 z2 x1 x2 0) as [w1 [w2 [EW _]]] end; auto; [lia| |rewrite EW; cbn [obind]; eauto].
  intros f Hf. pose proof (strip_length uv). pose proof (strip_length r). pose proof (strip_length gv).
  cbn [app In] in Hf. destruct Hf as [<-|[<-|[<-|[]]]]; lia.
Qed.

End Run.
End PovPEAttack.

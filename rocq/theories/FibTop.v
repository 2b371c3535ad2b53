(** FibTop.v: the Fibonacci argument end to end. *)
From Verif Require Import Base Spec SnarkSpec Tools ToolsProofs ToolsProofs2 CS KZG KZGProofs Properties_KZG
  Snark Laurent SnarkProofs SnarkPerm PovPEConst PovPEComplete Fib FibProofs FibValue.
Local Open Scope F_scope.

Section Walk.
Context {F : Type} {fo : FieldOps F} {fl : FieldLaws F}.
Add Field Fwalk : F_th.
Lemma fib_walk_length (a b : F) t : length (fib_walk a b t) = length t.
Proof. revert a b. induction t as [|ti t IH]; intros a b; cbn [fib_walk length]; auto. Qed.
Lemma fib_walk_at (a b : F) t i : (i < length t)%nat ->
  coef (a :: b :: fib_walk a b t) (S (S i)) =
  coef (a :: b :: fib_walk a b t) i + coef (a :: b :: fib_walk a b t) (S i) * coef t i.
Proof.
  revert a b i. induction t as [|ti t IH]; intros a b i Hi; cbn [length] in Hi; [lia|].
  destruct i as [|i]; [reflexivity|]. apply (IH b (a + b * ti) i). lia.
Qed.
Lemma fib_walk_unique (a b : F) t w : length w = length t ->
  (forall i, (i < length t)%nat -> coef (a :: b :: w) (S (S i)) = coef (a :: b :: w) i + coef (a :: b :: w) (S i) * coef t i) ->
  w = fib_walk a b t.
Proof.
  revert a b w. induction t as [|ti t IH]; intros a b [|v w] L Hw; try discriminate; auto.
  cbn [fib_walk]. pose proof (Hw 0%nat ltac:(cbn; lia)) as E. cbn in E. subst v. f_equal. apply IH; [now injection L|].
  intros i Hi. exact (Hw (S i) ltac:(cbn; lia)).
Qed.
Lemma fib_walk_prefix (a b : F) t w : length w = length t -> (1 <= length t)%nat ->
  (forall i, (i < length t - 1)%nat -> coef (a :: b :: w) (S (S i)) = coef (a :: b :: w) i + coef (a :: b :: w) (S i) * coef t i) ->
  removelast w = removelast (fib_walk a b t).
Proof.
  revert a b w. induction t as [|ti t IH]; intros a b [|v w] L L1 Hw; try discriminate; auto.
  cbn [fib_walk]. destruct t as [|t2 t]; destruct w as [|v2 w]; try discriminate; auto.
  assert (v = a + b * ti) as -> by exact (Hw 0%nat ltac:(cbn; lia)).
  assert (removelast (v2 :: w) = removelast (fib_walk b (a + b * ti) (t2 :: t))) as R.
  { apply IH; [cbn in *; lia|cbn; lia|].
    intros i Hi. refine (Hw (S i) _). cbn in *. lia. }
  cbn [fib_walk] in *. cbn [removelast] in *. f_equal. exact R.
Qed.
Lemma coef_last (w : list F) : last w 0 = coef w (length w - 1).
Proof.
  induction w as [|v w IH]; auto. destruct w as [|v2 w]; auto.
  change (last (v :: v2 :: w) 0) with (last (v2 :: w) 0). rewrite IH. cbn [length]. 
  replace (S (S (length w)) - 1)%nat with (S (S (length w) - 1)) by lia. reflexivity.
Qed.
End Walk.

Section Sums.
Context {F : Type} {fo : FieldOps F} {fl : FieldLaws F}.
Add Field Fsums : F_th.
Variable e : fb_s3 F.
Notation n := (fb_n e).
Notation al := (fb_alpha e).
Notation w := (fb_w_vec e).
Notation r := (fb_r_vec e).
Notation t := (fb_pk_t_vec e).
Notation NN := (n + 3)%Z.
Ltac fold_idx i :=
  replace (minus_i64 i 1) with i in * by (unfold minus_i64; lia);
  replace (minus_i64 i 2) with (i - 1)%Z in * by (unfold minus_i64; lia);
  replace (minus_i64 i 3) with (i - 2)%Z in * by (unfold minus_i64; lia).

(** the constraint sum at every position, when r holds the products of w and t *)
Lemma fb_sum_at_val (SZ : fb_sizes e) i :
  (forall i, (1 <= i <= n)%Z -> vidx r i = vidx w (i - 1) * vidx t i) -> (1 <= i <= NN)%Z ->
  fb_sum_at e i = delta i 1 * (vidx w 1 - fb_a e - fb_b e * vidx t 1)
    + power al 2 * delta i 2 * (vidx w 2 - vidx r 2 - fb_b e)
    + power al 3 * delta i n * (vidx w n - fb_c e)
    + power al 4 * range_index 3 n i * (vidx w i - vidx r i - vidx w (i - 2)).
Proof.
  intros Hr Hi. assert (2 <= n)%Z as Hn by (destruct SZ; lia).
  assert (Z.of_nat (length t) = n) as Lt by (destruct SZ; lia).
  assert (fb_sum_vec_add_7 e i = 0) as E7.
  { unfold fb_sum_vec_add_7, fb_n_1, fb_maxshift. destruct (Z_le_gt_dec i n).
    - rewrite range_out by (unfold minus_i64; lia). ring.
    - rewrite fb_t1_out by (auto; unfold minus_i64; lia). ring. }
  assert (fb_sum_vec_add_2 e i + fb_sum_vec_add_3 e i = 0) as E23.
  { unfold fb_sum_vec_add_2, fb_sum_vec_add_3, fb_c_1. fold_idx i. destruct (Z_le_gt_dec i n).
    - rewrite Hr, range_in by lia. ring.
    - rewrite (vidx_out t), range_out by lia. ring. }
  assert (fb_sum_at e i = fb_sum_vec_add_1 e i + fb_sum_vec_add_4 e i + fb_sum_vec_add_5 e i + fb_sum_vec_add_6 e i) as ->.
  { unfold fb_sum_at. rewrite E7. transitivity (fb_sum_vec_add_1 e i + (fb_sum_vec_add_2 e i + fb_sum_vec_add_3 e i) + fb_sum_vec_add_4 e i + fb_sum_vec_add_5 e i + fb_sum_vec_add_6 e i); [ring|rewrite E23; ring]. }
  unfold fb_sum_vec_add_1, fb_sum_vec_add_4, fb_sum_vec_add_5, fb_sum_vec_add_6, fb_c_2, fb_c_4, fb_c_5, fb_c_6, fb_c_7, fb_c_8.
  fold_idx i. unfold delta, range_index.
  destruct (Z.eqb_spec i 1) as [E1|E1]; [subst i|]; [|destruct (Z.eqb_spec i 2) as [E2|E2]; [subst i|]].
  - change (1 =? 2)%Z with false. change (3 <=? 1)%Z with false. change (1 <=? 1)%Z with true. cbn [andb].
    destruct (Z.leb_spec 1 n); [|lia]. destruct (Z.eqb_spec 1 n); [lia|]. ring.
  - change (3 <=? 2)%Z with false. change (1 <=? 2)%Z with true. cbn [andb].
    destruct (Z.leb_spec 2 n); [|lia]. destruct (Z.eqb_spec 2 n) as [<-|]; ring.
  - destruct (Z.leb_spec 1 i), (Z.leb_spec 3 i); try lia. cbn [andb].
    destruct (Z.leb_spec i n) as [Hl|Hl]; destruct (Z.eqb_spec i n) as [En|En]; try lia; [rewrite En; ring|ring|ring].
Qed.
(** with a single step the position after the last one is constrained by the randomizers *)
Lemma fb_sum_at_single dl : n = 1%Z -> length t = 1%nat -> fb_t_vec_1 e = dl :: fb_t_vec_1_tail e ->
  fb_sum_at e 2 = power al 2 * (vidx w 2 - vidx r 2 - fb_b e) - power al 4 * (vidx w 2 - vidx r 2).
Proof.
  intros Hn Lt Et. unfold fb_sum_at.
  unfold fb_sum_vec_add_1, fb_sum_vec_add_2, fb_sum_vec_add_3, fb_sum_vec_add_4, fb_sum_vec_add_5, fb_sum_vec_add_6, fb_sum_vec_add_7.
  unfold fb_c_1, fb_c_2, fb_c_4, fb_c_5, fb_c_6, fb_c_7, fb_c_8, fb_n_1, fb_maxshift. rewrite Hn.
  change (minus_i64 2 1) with 2%Z. change (minus_i64 2 2) with 1%Z. change (minus_i64 2 3) with 0%Z. change (minus_i64 2 (1 + 1)) with 1%Z.
  change (delta 2 1) with (0 : F). change (delta 2 2) with (1 : F). change (range_index 1 1 2) with (0 : F).
  change (range_index 1 (2 + 1) 1) with (1 : F).
  rewrite (vidx_out t 2) by lia. rewrite (vidx_out w 0) by lia.
  assert (vidx (fb_t_vec_1 e) 2 = 0) as ->.
  { rewrite Et. change 2%Z with (Z.of_nat 2). rewrite vidx_S. change (coef (dl :: fb_t_vec_1_tail e) 1) with (coef (fb_t_vec_1_tail e) 0).
    unfold fb_t_vec_1_tail. rewrite nth_expression_vector by (unfold fb_maxshift; lia).
    unfold fb_t_vec_1_at, fb_n_1. rewrite Hn. rewrite range_out by lia. rewrite (vidx_out t) by lia. ring. }
  ring.
Qed.
End Sums.

Section FibRun.
Context {F G1 G2 GT : Type} {fo : FieldOps F} {fl : FieldLaws F}
        {po : PairingOps F G1 G2 GT} {pl : PairingLaws F G1 G2 GT}.
Add Field Ffr : F_th.
Variable H : list (item F G1) -> F.

Lemma fb_index_inv d beta (g : G1) (h : G2) pp cs pk vk : setup d beta g h = Ok pp ->
  fb_index pp cs = Ok (pk, vk) -> length (fib_t cs) = fib_n cs ->
  fb_pk_verifier_key pk = vk /\ fb_pk_powers pk = srs (d + 1) beta g /\ fb_vk_kzg_vk vk = vk_for beta g h /\
  fb_vk_size vk = fib_n cs /\ fb_vk_degree_bound vk = (d + 1)%nat /\ fb_pk_t pk = fib_t cs /\
  (fib_n cs + 2 < d + 1)%nat /\ (1 <= fib_n cs)%nat /\
  fb_vk_cm_t_vec vk = vscale (peval (fib_t cs) beta) g.
Proof.
  intros Hs Hi Lt. destruct (kzg_vk_setup d beta g h pp Hs) as [Hd [Hp Hv]].
  unfold fb_index in Hi. rewrite Hp, Hv, srs_length in Hi. unfold fb_get_max_degree in Hi.
  destruct (Nat.ltb_spec (fib_n cs + 2) (d + 1)) as [Hm|]; [|discriminate].
  cbn [assert_ obind] in Hi. oinv Hi. cbn [obind] in Hi. injection Hi as <- <-.
  cbn [fb_pk_verifier_key fb_pk_powers fb_vk_kzg_vk fb_vk_size fb_vk_degree_bound fb_pk_t fb_vk_cm_t_vec].
  apply commit_vector_inv0 in E; [|lia]. destruct E as [L1 [_ ->]]. repeat split; auto. lia.
Qed.
Lemma fb_round1_inv n beta (g : G1) pk x w dl dl1 s1 cw cr :
  fb_pk_powers pk = srs n beta g -> length (fb_pk_t pk) = fb_vk_size (fb_pk_verifier_key pk) ->
  fb_round1 pk x w [dl] [dl1] = Ok (s1, (cw, cr)) ->
  let N := fb_vk_size (fb_pk_verifier_key pk) in
  (length w <= N)%nat /\ exists wv rv, s1 = mkFBS1 (fb_pub_of (fb_pk_verifier_key pk) x) (fb_pk_t pk) wv rv /\
    wv = (w ++ repeat 0 (N - length w)) ++ [dl] /\ length wv = (N + 1)%nat /\ length rv = (N + 1)%nat /\
    (forall i, (1 <= i <= Z.of_nat N)%Z -> vidx rv i = vidx wv (i - 1) * vidx (fb_pk_t pk) i) /\ coef rv N = dl1 /\
    cw = vscale (peval wv beta) g /\ cr = vscale (peval rv beta) g.
Proof.
  intros K Lt HR N. unfold fb_round1 in HR. cbn zeta in HR. rewrite K in HR.
  unfold fb_n_1, fb_pub_of in HR. cbn [fb_n] in HR. fold N in HR, Lt. rewrite Nat2Z.id in HR.
  apply obind_ok in HR. destruct HR as [wv [E1 HR]].
  apply obind_ok in HR. destruct HR as [cw' [E2 HR]].
  apply obind_ok in HR. destruct HR as [rv [E3 HR]].
  apply obind_ok in HR. destruct HR as [cr' [E4 HR]].
  injection HR as <- <- <-.
  apply zero_pad_inv in E1. destruct E1 as [k [E1 L1]]. apply zero_pad_inv in E3. destruct E3 as [k' [E3 L3]].
  assert (length wv = N + 1)%nat as Lw by (rewrite E1, !app_length, repeat_length; cbn [concat app length]; lia).
  rewrite map_length, combine_length, firstn_length, Lt in L3. cbn [app length] in L3. 
  assert (k' = 0%nat) as -> by lia. cbn [repeat app concat] in E3.
  assert (length rv = N + 1)%nat as Lr.
  { rewrite E3, app_length, map_length, combine_length, firstn_length, Lt. cbn [app length]. lia. }
  apply commit_vector_inv0 in E2; [|lia]. apply commit_vector_inv0 in E4; [|lia].
  split; [lia|]. exists wv, rv. split; [reflexivity|]. split; [rewrite E1; cbn [concat]; rewrite app_nil_r; replace (N - length w)%nat with k by lia; now rewrite app_assoc|].
  split; auto. split; auto. split; [|split; [|tauto]].
  - intros i Hi. replace i with (Z.of_nat (S (Z.to_nat (i - 1)))) at 1 3 by lia. rewrite !vidx_S.
    set (j := Z.to_nat (i - 1)). assert (j < N)%nat as Hj by lia.
    assert (vidx wv (i - 1) = coef ([0] ++ wv) j) as ->.
    { destruct j as [|j'] eqn:Ej; cbn [app].
      - rewrite vidx_out by lia. reflexivity.
      - change (coef (0 :: wv) (S j')) with (coef wv j'). rewrite <- vidx_S. f_equal. lia. }
    rewrite E3. unfold coef. rewrite app_nth1 by (rewrite map_length, combine_length, firstn_length, Lt; cbn [app length]; lia).
    rewrite (nth_indep _ 0 ((fun ab : F * F => fst ab * snd ab) (0, 0))) by (rewrite map_length, combine_length, firstn_length, Lt; cbn [app length]; lia).
    rewrite (map_nth (fun ab : F * F => fst ab * snd ab)), combine_nth by (rewrite firstn_length, Lt; cbn [app length]; lia).
    cbn [fst snd]. f_equal.
    pose proof (app_nth1 (firstn N ([0] ++ wv)) (skipn N ([0] ++ wv)) 0 (n := j)) as Q.
    rewrite firstn_skipn in Q. symmetry. apply Q. rewrite firstn_length. cbn [app length]. lia.
  - rewrite E3. unfold coef. rewrite app_nth2; rewrite map_length, combine_length, firstn_length, Lt; cbn [app length]; [|lia].
    replace (N - Init.Nat.min (Init.Nat.min N (S (length wv))) N)%nat with 0%nat by lia. reflexivity.
Qed.
Lemma fb_round2_inv n beta (g : G1) pk (e : fb_s2 F) dl t1 ct :
  fb_pk_powers pk = srs n beta g -> fb_round2 pk e [dl] = Ok (t1, ct) ->
  t1 = dl :: fb_t_vec_1_tail e /\ (5 <= n)%nat /\ ct = vscale (peval t1 beta) g.
Proof.
  intros K HR. unfold fb_round2 in HR. rewrite K in HR.
  apply obind_ok in HR. destruct HR as [ct' [E1 HR]]. injection HR as <- <-.
  unfold vector_concat in *. cbn [concat app] in *. rewrite app_nil_r in *.
  assert (length (dl :: fb_t_vec_1_tail e) = 5%nat) as L by (cbn [length]; unfold fb_t_vec_1_tail; now rewrite expression_vector_length).
  apply commit_vector_inv0 in E1; [|rewrite L; unfold fb_maxshift; lia]. rewrite L in E1. tauto.
Qed.
Lemma fb_round4_inv n beta (g : G1) pk (e : fb_s3 F) z cw cr ct c1 c2 q gv cg :
  fb_pk_powers pk = srs n beta g ->
  fb_round4 pk e z cw cr ct c1 c2 = Ok (q, gv, cg) ->
  q = fb_ctx_of e z /\ fb_divisors q = Ok tt /\ fb_g_vec e q = Ok gv /\ peval gv z = 0 /\
  cg = fb_p_cm_g (fb_pk_verifier_key pk) q cw cr ct c1 c2 /\ cg = vscale (peval gv beta) g.
Proof.
  intros K HR. unfold fb_round4 in HR. cbn zeta in HR. rewrite K in HR.
  apply obind_ok in HR. destruct HR as [[] [E0 HR]].
  apply obind_ok in HR. destruct HR as [[] [E1 HR]].
  apply obind_ok in HR. destruct HR as [gv' [E2 HR]].
  apply obind_ok in HR. destruct HR as [c [E3 HR]].
  apply obind_ok in HR. destruct HR as [[] [E4 HR]].
  apply obind_ok in HR. destruct HR as [[] [E5 HR]].
  apply obind_ok in HR. destruct HR as [[] [E6 HR]]. injection HR as <- <- <-.
  apply check_poly_eval_inv in E6. rewrite peval_strip in E6.
  destruct (add_first_inv _ _ _ _ E2) as [_ [L _]].
  apply commit_vector_inv0 in E3; [|rewrite L; cbn; lia]. destruct E3 as [_ [_ E3]].
  assert (fb_p_cm_g (fb_pk_verifier_key pk) (fb_ctx_of e z) cw cr ct c1 c2 = c) as E.
  { apply veqb_eq. destruct (veqb _ c) eqn:X in E4 |- *; auto. discriminate E4. }
  repeat split; auto. now rewrite E.
Qed.

(** the states reached by an honest run *)
Lemma fb_s3_sizes (pk : fb_pk F G1 G2) x wv rv dl al om :
  let N := fb_vk_size (fb_pk_verifier_key pk) in
  (2 <= N)%nat -> (N + 2 < fb_vk_degree_bound (fb_pk_verifier_key pk))%nat -> length (fb_pk_t pk) = N ->
  length wv = (N + 1)%nat -> length rv = (N + 1)%nat ->
  let s2 := mkFBS2 (mkFBS1 (fb_pub_of (fb_pk_verifier_key pk) x) (fb_pk_t pk) wv rv) al in
  fb_sizes (mkFBS3 s2 (dl :: fb_t_vec_1_tail s2) om).
Proof.
  intros N HN HD Lt Lw Lr s2. split; cbn [fb_n fb_cap_d fb_pk_t_vec fb_w_vec fb_r_vec fb_t_vec_1 fb_pub_of fb_s3_s2 fb_s2_s1 fb_s1_pub s2]; fold N; try lia.
  now exists dl.
Qed.

(** *** Every proof is accepted *)
Lemma fb_accepts d beta (g : G1) (h : G2) pp cs pk vk x w d0 d1 d2 pf rnd :
  g <> v0 -> h <> v0 ->
  setup d beta g h = Ok pp -> fb_index pp cs = Ok (pk, vk) -> length (fib_t cs) = fib_n cs ->
  fb_prove H pk x w d0 d1 d2 = Ok pf -> fb_verify H vk x pf rnd = Ok tt.
Proof.
  intros Hg Hh Hs Hi Lt Hp. destruct (fb_index_inv _ _ _ _ _ _ _ _ Hs Hi Lt) as [K1 [K2 [K3 [K4 [K5 [K6 [K7 [K8 K9]]]]]]]].
  subst vk. set (vk := fb_pk_verifier_key pk) in *.
  unfold fb_prove in Hp. fold vk in Hp.
  apply obind_ok in Hp. destruct Hp as [[s1 [cw cr]] [R1 Hp]].
  apply obind_ok in Hp. destruct Hp as [[t1 ct] [R2 Hp]].
  apply obind_ok in Hp. destruct Hp as [[ch1 ch2] [R3 Hp]].
  apply obind_ok in Hp. destruct Hp as [[[q gv] cg] [R4 Hp]].
  apply obind_ok in Hp. destruct Hp as [[w1 w2] [R5 Hp]].
  injection Hp as <-.
  apply (fb_round1_inv _ _ _ _ _ _ _ _ _ _ _ K2) in R1; [|fold vk; rewrite K4, K6; exact Lt]. cbn zeta in R1. fold vk in R1. rewrite K4 in R1.
  destruct R1 as [_ [wv [rv [-> [_ [Lw [Lr [_ [_ [Ecw Ecr]]]]]]]]]].
  apply (fb_round2_inv _ _ _ _ _ _ _ _ K2) in R2. destruct R2 as [_ [_ Ect]].
  set (s3 := mkFBS3 _ t1 _) in *.
  apply (fb_round4_inv _ _ _ _ _ _ _ _ _ _ _ _ _ _ K2) in R4. destruct R4 as [Eq [Hdiv [Hgv [Hz0 [Ecg1 Ecg2]]]]]. fold vk in Ecg1.
  unfold fb_verify.
  cbn [fb_cm_w_vec fb_cm_r_vec fb_cm_t_vec_1 fb_cm_h_vec_1 fb_cm_h_vec_2 fb_pf_y fb_pf_y_1 fb_pf_y_2 fb_cap_w fb_cap_w_1].
  match goal with |- obind (fb_divisors ?q') _ = _ => assert (q' = q) as -> by (rewrite Eq; reflexivity) end.
  rewrite Hdiv. cbn [obind].
  change (fb_v_ch_omega H vk cw cr ct) with (fb_p_ch_omega H vk cw cr ct).
  change (fb_v_ch_z H vk cw cr ct ch1 ch2) with (fb_p_ch_z H vk cw cr ct ch1 ch2).
  change (fb_v_cm_g vk q cw cr ct ch1 ch2) with (fb_p_cm_g vk q cw cr ct ch1 ch2).
  change (fb_v_ch_rand_xi H vk cw cr ct ch1 ch2) with (fb_p_ch_rand_xi H vk cw cr ct ch1 ch2).
  change (fb_v_ch_rand_xi_2 H vk cw cr ct ch1 ch2) with (fb_p_ch_rand_xi_2 H vk cw cr ct ch1 ch2).
  rewrite <- Ecg1. rewrite K2 in R5.
  pose proof (batch_verifies (d + 1) beta g h _ _ _ _ _ _ _ _ rnd Hg Hh R5 ltac:(lia)) as V.
  rewrite K3.
  match goal with |- (if batch_check _ ?cs ?ds _ _ _ _ ?ys ?zs _ _ _ then _ else _) = _ =>
    match type of V with batch_check _ ?cs' ?ds' _ _ _ _ ?ys' ?zs' _ _ _ = _ =>
      assert (cs = cs') as X1; [|assert (ds = ds') as X2; [|assert (ys = ys') as X3; [|assert (zs = zs') as X4]]] end end.
  - cbn [map]. rewrite !peval_strip, Ecw, Ecr, K9, <- K6. reflexivity.
  - cbn [map]. rewrite !peval_strip, Ecg2. reflexivity.
  - cbn [map]. rewrite !peval_strip, Eq. cbn [fb_ctx_of fb_q_y fb_q_y_1 fb_q_y_2]. unfold fb_y, fb_y_1, fb_y_2, fb_n_1.
    cbn [s3 fb_w_vec fb_r_vec fb_pk_t_vec fb_s3_s2 fb_s2_s1 fb_s1_pub fb_n fb_pub_of fb_omega]. rewrite K4, K6.
    rewrite !eval_vidx by lia. reflexivity.
  - cbn [map]. rewrite !peval_strip, Hz0. reflexivity.
  - rewrite X1, X2, X3, X4, V. reflexivity.
Qed.

(** *** What a returned proof says about the prover's input *)
(** the recurrences hold at every position but the last, where they are combined with the claimed
    result *)
Lemma fb_sound_sums d beta (g : G1) (h : G2) pp cs pk vk x w d0 d1 d2 pf :
  setup d beta g h = Ok pp -> fb_index pp cs = Ok (pk, vk) -> length (fib_t cs) = fib_n cs -> (2 <= fib_n cs)%nat ->
  fb_prove H pk x w d0 d1 d2 = Ok pf ->
  let al := fb_p_ch_alpha H vk (fb_cm_w_vec pf) (fb_cm_r_vec pf) in
  let wv := w ++ repeat 0 (fib_n cs - length w) in
  (length w <= fib_n cs)%nat /\
  exists e, fb_sizes e /\ fb_alpha e = al /\ fb_a e = fib_a x /\ fb_b e = fib_b x /\ fb_c e = fib_c x /\
    fb_n e = Z.of_nat (fib_n cs) /\ fb_w_vec e = wv ++ [d0] /\ fb_pk_t_vec e = fib_t cs /\
    (forall i, (1 <= i <= fb_n e)%Z -> vidx (fb_r_vec e) i = vidx (fb_w_vec e) (i - 1) * vidx (fb_pk_t_vec e) i) /\
    forall i, (1 <= i <= fb_n e + 3)%Z -> fb_sum_at e i = 0.
Proof.
  intros Hs Hi Lt HN Hp al wv. destruct (fb_index_inv _ _ _ _ _ _ _ _ Hs Hi Lt) as [K1 [K2 [K3 [K4 [K5 [K6 [K7 [K8 K9]]]]]]]].
  subst vk. set (vk := fb_pk_verifier_key pk) in *.
  unfold fb_prove in Hp. fold vk in Hp.
  apply obind_ok in Hp. destruct Hp as [[s1 [cw cr]] [R1 Hp]].
  apply obind_ok in Hp. destruct Hp as [[t1 ct] [R2 Hp]].
  apply obind_ok in Hp. destruct Hp as [[ch1 ch2] [R3 Hp]].
  apply obind_ok in Hp. destruct Hp as [[[q gv] cg] [R4 Hp]].
  apply obind_ok in Hp. destruct Hp as [[w1 w2] [R5 Hp]].
  injection Hp as <-.
  apply (fb_round1_inv _ _ _ _ _ _ _ _ _ _ _ K2) in R1; [|fold vk; rewrite K4, K6; exact Lt]. cbn zeta in R1. fold vk in R1. rewrite K4 in R1.
  destruct R1 as [Lw0 [wv' [rv [-> [Ewv [Lw [Lr [Hr [_ [Ecw Ecr]]]]]]]]]].
  apply (fb_round2_inv _ _ _ _ _ _ _ _ K2) in R2. destruct R2 as [Et1 [_ Ect]].
  split; auto.
  match type of R3 with fb_round3 _ ?s = _ => set (s3 := s) in * end. exists s3.
  split; [unfold s3; rewrite Et1; apply fb_s3_sizes; fold vk; rewrite ?K4, ?K5, ?K6; auto; lia|].
  split; [reflexivity|]. split; [reflexivity|]. split; [reflexivity|]. split; [reflexivity|].
  assert (fb_n s3 = Z.of_nat (fib_n cs)) as En by (cbn; now rewrite K4).
  split; [exact En|]. split; [exact Ewv|]. split; [exact K6|]. split.
  - intros i Hi'. apply Hr. lia.
  - apply fb_checks_1_inv. unfold fb_round3 in R3. apply obind_ok in R3. destruct R3 as [[] [R3 _]]. exact R3.
Qed.
Ltac by_E E := match type of E with ?l = 0 => transitivity l; [ring|rewrite E; ring] end.
Ltac by_E' E := match type of E with ?l = 0 => transitivity l; [|rewrite E; ring] end.
Lemma fb_prover_checks d beta (g : G1) (h : G2) pp cs pk vk x w d0 d1 d2 pf :
  setup d beta g h = Ok pp -> fb_index pp cs = Ok (pk, vk) -> length (fib_t cs) = fib_n cs -> (2 <= fib_n cs)%nat ->
  fb_prove H pk x w d0 d1 d2 = Ok pf ->
  let al := fb_p_ch_alpha H vk (fb_cm_w_vec pf) (fb_cm_r_vec pf) in
  let wv := w ++ repeat 0 (fib_n cs - length w) in
  let ww := fib_walk (fib_a x) (fib_b x) (fib_t cs) in
  al = 0 \/
  (length w <= fib_n cs)%nat /\ removelast wv = removelast ww /\
  (if (fib_n cs =? 2)%nat then (last wv 0 - last ww 0) + al * (last wv 0 - fib_c x) = 0
   else (last wv 0 - fib_c x) + al * (last wv 0 - last ww 0) = 0).
Proof.
  intros Hs Hi Lt HN Hp al wv ww.
  destruct (fb_sound_sums _ _ _ _ _ _ _ _ _ _ _ _ _ _ Hs Hi Lt HN Hp) as [Lw [e [SZ [Ea [Eaa [Eb [Ec [En [Ew [Et [Hr G]]]]]]]]]]].
  destruct (feq_dec al 0) as [|Ha]; [now left|]. right. split; auto. fold al in Ea. fold wv in Ew.
  assert (length wv = fib_n cs) as Lwv by (unfold wv; rewrite app_length, repeat_length; lia).
  set (N := fib_n cs) in *.
  assert (forall i, (1 <= i)%Z -> (i <= Z.of_nat N)%Z -> vidx (fb_w_vec e) i = coef wv (Z.to_nat (i - 1))) as Vw.
  { intros i H1 H2. rewrite Ew, vidx_app_l by lia. now rewrite vidx_in by lia. }
  assert (forall i, (1 <= i)%Z -> vidx (fb_pk_t_vec e) i = coef (fib_t cs) (Z.to_nat (i - 1))) as Vt.
  { intros i H1. rewrite Et. now rewrite vidx_in by lia. }
  set (res i := coef (fib_a x :: fib_b x :: wv) (S (S i)) - (coef (fib_a x :: fib_b x :: wv) i + coef (fib_a x :: fib_b x :: wv) (S i) * coef (fib_t cs) i)).
  assert (forall j, (j < N)%nat ->
     delta (Z.of_nat (S j)) 1 * res 0%nat + power al 2 * delta (Z.of_nat (S j)) 2 * res 1%nat
     + power al 3 * delta (Z.of_nat (S j)) (Z.of_nat N) * (coef wv (N - 1) - fib_c x)
     + power al 4 * range_index 3 (Z.of_nat N) (Z.of_nat (S j)) * res j = 0) as R.
  { intros j Hj. rewrite <- (G (Z.of_nat (S j))) by lia. rewrite (fb_sum_at_val e SZ) by (auto; lia).
    rewrite Ea, Eaa, Eb, Ec, En. rewrite (Vw (Z.of_nat N)) by lia. replace (Z.to_nat (Z.of_nat N - 1)) with (N - 1)%nat by lia.
    rewrite (Hr 2%Z) by lia. rewrite (Vw 1%Z), (Vw 2%Z), (Vt 1%Z), (Vt 2%Z) by lia. change (2 - 1)%Z with 1%Z. rewrite (Vw 1%Z) by lia.
    change (Z.to_nat (1 - 1)) with 0%nat. change (Z.to_nat (2 - 1)) with 1%nat. change (Z.to_nat 1) with 1%nat.
    assert (power al 4 * range_index 3 (Z.of_nat N) (Z.of_nat (S j)) * res j =
       power al 4 * range_index 3 (Z.of_nat N) (Z.of_nat (S j)) * (vidx (fb_w_vec e) (Z.of_nat (S j)) - vidx (fb_r_vec e) (Z.of_nat (S j)) - vidx (fb_w_vec e) (Z.of_nat (S j) - 2))) as ->.
    { destruct (le_lt_dec 2 j) as [Hj2|Hj2]; [|rewrite range_out by lia; ring]. f_equal.
      rewrite Hr, !Vw, Vt by lia. unfold res.
      replace (Z.to_nat (Z.of_nat (S j) - 1)) with j by lia.
      destruct j as [|[|j]]; try lia.
      replace (Z.to_nat (Z.of_nat (S (S (S j))) - 1 - 1)) with (S j) by lia.
      replace (Z.to_nat (Z.of_nat (S (S (S j))) - 2 - 1)) with j by lia.
      change (coef (fib_a x :: fib_b x :: wv) (S (S (S (S j))))) with (coef wv (S (S j))).
      change (coef (fib_a x :: fib_b x :: wv) (S (S (S j)))) with (coef wv (S j)).
      change (coef (fib_a x :: fib_b x :: wv) (S (S j))) with (coef wv j). ring. }
    unfold res. change (coef (fib_a x :: fib_b x :: wv) 2) with (coef wv 0). change (coef (fib_a x :: fib_b x :: wv) 3) with (coef wv 1).
    change (coef (fib_a x :: fib_b x :: wv) 0) with (fib_a x). change (coef (fib_a x :: fib_b x :: wv) 1) with (fib_b x). ring. }
  assert (forall k, (1 <= k <= 4)%Z -> power al k <> 0) as Pa.
  { intros k Hk. rewrite pw by auto. now apply fpowZ_neq_0. }
  assert (forall i, (i < N - 1)%nat -> res i = 0) as R0.
  { intros i Hi'. pose proof (R i ltac:(lia)) as E. rewrite (delta_neq _ (Z.of_nat N)) in E by lia.
    destruct i as [|[|i]].
    - rewrite (delta_neq _ 2), range_out in E by lia. change (delta (Z.of_nat 1) 1) with (1 : F) in E. by_E E.
    - rewrite (delta_neq _ 1), range_out in E by lia. change (delta (Z.of_nat 2) 2) with (1 : F) in E.
      apply fmul_cancel_l with (a := power al 2); [apply Pa; lia|]. by_E E.
    - rewrite !delta_neq, range_in in E by lia.
      apply fmul_cancel_l with (a := power al 4); [apply Pa; lia|]. by_E E. }
  assert (removelast wv = removelast ww) as RL.
  { apply fib_walk_prefix; try lia. intros i Hi'. apply fsub_0_eq. apply R0. lia. }
  split; auto.
  assert (res (N - 1)%nat = last wv 0 - last ww 0) as RN.
  { unfold res. pose proof (fib_walk_at (fib_a x) (fib_b x) (fib_t cs) (N - 1) ltac:(lia)) as E. fold ww in E.
    assert (length ww = N) as Lww by (unfold ww; now rewrite fib_walk_length).
    assert (forall i, (i < N + 1)%nat -> coef (fib_a x :: fib_b x :: wv) i = coef (fib_a x :: fib_b x :: ww) i) as Q.
    { intros i Hi'. destruct i as [|[|i]]; auto. change (coef wv i = coef ww i).
      rewrite (app_removelast_last (l := wv) 0) by (intros E0; rewrite E0 in Lwv; cbn in Lwv; lia).
      rewrite (app_removelast_last (l := ww) 0) by (intros E0; rewrite E0 in Lww; cbn in Lww; lia).
      assert (length (removelast ww) = N - 1)%nat as Lr.
      { rewrite removelast_firstn_len, firstn_length, Lww. lia. }
      rewrite !coef_app, RL, Lr. destruct (Nat.ltb_spec i (N - 1)); auto. lia. }
    rewrite (Q (N - 1)%nat), (Q (S (N - 1))) by lia. rewrite <- E. rewrite !coef_last, Lwv, Lww. reflexivity. }
  pose proof (R (N - 1)%nat ltac:(lia)) as E. rewrite RN in E. rewrite <- Lwv, <- coef_last, Lwv in E.
  replace (Z.of_nat (S (N - 1))) with (Z.of_nat N) in E by lia. change (delta (Z.of_nat N) (Z.of_nat N)) with (if (Z.of_nat N =? Z.of_nat N)%Z then (1 : F) else 0) in E.
  rewrite Z.eqb_refl, (delta_neq _ 1) in E by lia.
  destruct (Nat.eqb_spec N 2) as [E2|E2].
  - apply fmul_cancel_l with (a := power al 2); [apply Pa; lia|]. rewrite E2 in E.
    rewrite range_out in E by lia. assert (res 1%nat = last wv 0 - last ww 0) as R1 by (rewrite <- RN; f_equal; lia).
    rewrite R1 in E. change (delta (Z.of_nat 2) 2) with (1 : F) in E.
    by_E' E. rewrite !pw by auto. change 3%Z with (2 + 1)%Z.
    rewrite fpowZ_add by auto. change (fpowZ al 1) with (al * 1). ring.
  - apply fmul_cancel_l with (a := power al 3); [apply Pa; lia|].
    rewrite (delta_neq _ 2), range_in in E by lia.
    by_E' E. rewrite !pw by auto. change 4%Z with (3 + 1)%Z.
    rewrite (fpowZ_add al 3 1) by auto. change (fpowZ al 1) with (al * 1). ring.
Qed.

(** *** Completeness *)
(** the events in which the prover aborts on a true statement: a challenge is one of a few values or
    a polynomial to be opened is constant (ark-poly cannot divide a constant polynomial) *)
Definition fb_unlucky (pk : fb_pk F G1 G2) (x : fib_instance F) (w : list F) (d0 d1 d2 : F) : Prop :=
  let vk := fb_pk_verifier_key pk in
  exists s1 cw cr, fb_round1 pk x w [d0] [d1] = Ok (s1, (cw, cr)) /\
  let s2 := mkFBS2 s1 (fb_p_ch_alpha H vk cw cr) in
  exists t1 ct, fb_round2 pk s2 [d2] = Ok (t1, ct) /\
  let om := fb_p_ch_omega H vk cw cr ct in
  let s3 := mkFBS3 s2 t1 om in
  om <> 0 /\
  exists ch1 ch2, fb_round3 pk s3 = Ok (ch1, ch2) /\
  let z := fb_p_ch_z H vk cw cr ct ch1 ch2 in
  (z = 0 \/ z = 1 \/ om = z \/
   (forall i, (1 <= i)%nat -> coef (fb_w_vec s1) i = 0) \/
   (forall i, (1 <= i)%nat -> coef (fb_pk_t_vec s1) i = 0) \/
   (forall i, (1 <= i)%nat -> coef (fb_r_vec s1) i = 0) \/
   exists gv, fb_g_vec s3 (fb_ctx_of s3 z) = Ok gv /\ forall i, coef gv i = 0).
(** the challenge omega of the run is zero *)
Definition fb_omega_zero (pk : fb_pk F G1 G2) (x : fib_instance F) (w : list F) (d0 d1 d2 : F) : Prop :=
  let vk := fb_pk_verifier_key pk in
  exists s1 cw cr, fb_round1 pk x w [d0] [d1] = Ok (s1, (cw, cr)) /\
  let s2 := mkFBS2 s1 (fb_p_ch_alpha H vk cw cr) in
  exists t1 ct, fb_round2 pk s2 [d2] = Ok (t1, ct) /\ fb_p_ch_omega H vk cw cr ct = 0.

Lemma fb_cm_g_value beta (g : G1) (h : G2) vk (e : fb_s3 F) z gv cw cr : fb_sizes e ->
  fb_g_vec e (fb_ctx_of e z) = Ok gv ->
  fb_vk_kzg_vk vk = vk_for beta g h ->
  fb_vk_cm_t_vec vk = vscale (peval (fb_pk_t_vec e) beta) g ->
  fb_p_cm_g vk (fb_ctx_of e z) cw cr (vscale (peval (fb_t_vec_1 e) beta) g)
     (vscale (fpow beta (Z.to_nat (fb_cap_d e - (fb_n e + 3 - 1))) * peval (fb_h_vec_1 e) beta) g)
     (vscale (peval (fb_h_vec_2 e) beta) g) = vscale (peval gv beta) g.
Proof.
  intros SZ HG K3 K9. destruct (fb_g_value e SZ z gv HG) as [_ V]. rewrite V. clear V.
  set (q := fb_ctx_of e z). unfold fb_p_cm_g. rewrite K3, K9. cbn [vk_g vk_for].
  pose proof (lin_comb_vscale g (fb_p_c_17 q)
    [(peval (fb_pk_t_vec e) beta, fb_p_c_20 q); (peval (fb_t_vec_1 e) beta, fb_p_c_23 q);
     (fpow beta (Z.to_nat (fb_cap_d e - (fb_n e + 3 - 1))) * peval (fb_h_vec_1 e) beta, fb_p_c_24 q);
     (peval (fb_h_vec_2 e) beta, fb_p_c_25 q)]) as E. cbn [map fst snd] in E. rewrite E. f_equal.
  cbn [fsum]. ring.
Qed.
Lemma fb_complete d beta (g : G1) (h : G2) pp cs pk vk a b c w d0 d1 d2 :
  g <> v0 -> h <> v0 ->
  setup d beta g h = Ok pp -> fb_index pp cs = Ok (pk, vk) -> length (fib_t cs) = fib_n cs -> (2 <= fib_n cs)%nat ->
  fib_holds a b c (fib_t cs) w ->
  (exists pf, fb_prove H pk (mkFibIns a b c) w d0 d1 d2 = Ok pf /\
     forall rnd, fb_verify H vk (mkFibIns a b c) pf rnd = Ok tt) \/
  (fb_prove H pk (mkFibIns a b c) w d0 d1 d2 = Panic /\ fb_unlucky pk (mkFibIns a b c) w d0 d1 d2) \/
  fb_omega_zero pk (mkFibIns a b c) w d0 d1 d2.
Proof.
  intros Hg Hh Hs Hi Lt HN [Hw Hc]. set (x := mkFibIns a b c).
  enough ((exists pf, fb_prove H pk x w d0 d1 d2 = Ok pf) \/
     (fb_prove H pk x w d0 d1 d2 = Panic /\ fb_unlucky pk x w d0 d1 d2) \/ fb_omega_zero pk x w d0 d1 d2) as [[pf P]|[P|P]].
  { left. exists pf. split; auto. intros rnd. eapply (fb_accepts d beta g h); eauto. }
  { now right; left. }
  { now right; right. }
  destruct (fb_index_inv _ _ _ _ _ _ _ _ Hs Hi Lt) as [K1 [K2 [K3 [K4 [K5 [K6 [K7 [K8 K9]]]]]]]].
  subst vk. set (vk := fb_pk_verifier_key pk) in *. set (N := fib_n cs) in *.
  assert (length w = N) as Lw by (rewrite Hw, fib_walk_length; exact Lt).
  assert (exists s1 cw cr, fb_round1 pk x w [d0] [d1] = Ok (s1, (cw, cr))) as [s1 [cw [cr R1]]].
  { unfold fb_round1. cbn zeta. fold vk. rewrite K2. unfold fb_n_1, fb_pub_of. cbn [fb_n]. rewrite K4, Nat2Z.id.
    unfold zero_pad_and_concat, zero_pad. rewrite Lw, Nat.ltb_irrefl. cbn [obind].
    rewrite Nat.sub_diag. cbn [repeat concat app]. rewrite !app_nil_r.
    rewrite (commit_vector_ok0 (d + 1) beta g) by (rewrite ?app_length; cbn [length]; lia). cbn [obind].
    rewrite map_length, combine_length, firstn_length, K6, Lt. cbn [length]. rewrite app_length. cbn [length].
    replace (Nat.min (Nat.min N (S (length w + 1))) N) with N by lia. rewrite Nat.ltb_irrefl. cbn [obind].
    rewrite Nat.sub_diag. cbn [repeat]. rewrite !app_nil_r.
    rewrite (commit_vector_ok0 (d + 1) beta g)
      by (rewrite ?app_length, ?map_length, ?combine_length, ?firstn_length; cbn [length]; rewrite ?app_length, ?Lt; cbn [length]; lia).
    cbn [obind]. eauto. }
  pose proof R1 as R1'.
  apply (fb_round1_inv _ _ _ _ _ _ _ _ _ _ _ K2) in R1; [|fold vk; rewrite K4, K6; exact Lt]. cbn zeta in R1. fold vk in R1. rewrite K4 in R1. fold N in R1.
  destruct R1 as [_ [wv [rv [Es1 [Ewv [Lwv [Lr [Hr [_ [Ecw Ecr]]]]]]]]]].
  rewrite Lw, Nat.sub_diag in Ewv. cbn [repeat] in Ewv. rewrite app_nil_r in Ewv.
  unfold fb_prove. fold vk. rewrite R1'. cbn [obind].
  set (s2 := mkFBS2 s1 _).
  set (t1 := d2 :: fb_t_vec_1_tail s2).
  assert (length t1 = 5%nat) as L5 by (unfold t1; cbn [length]; unfold fb_t_vec_1_tail; now rewrite expression_vector_length).
  set (ct := vscale (peval t1 beta) g).
  assert (fb_round2 pk s2 [d2] = Ok (t1, ct)) as R2.
  { unfold fb_round2, vector_concat. cbn [concat app]. rewrite app_nil_r. fold t1. rewrite K2.
    rewrite (commit_vector_ok0 (d + 1) beta g t1) by (unfold fb_maxshift; lia). reflexivity. }
  rewrite R2. cbn [obind].
  set (om := fb_p_ch_omega H vk cw cr ct). set (s3 := mkFBS3 s2 t1 om).
  destruct (feq_dec om 0) as [Eo|Ho].
  { right; right. exists s1, cw, cr. split; auto. exists t1, ct. split; auto. }
  assert (fb_n s3 = Z.of_nat N) as En by (subst s1; cbn; now rewrite K4).
  assert (fb_cap_d s3 = Z.of_nat (d + 1)) as Ed by (subst s1; cbn; now rewrite K5).
  assert (fb_sizes s3) as SZ.
  { unfold s3, t1, s2. rewrite Es1. unfold vk. apply fb_s3_sizes; fold vk; rewrite ?K4, ?K5, ?K6; auto; lia. }
  assert (fb_w_vec s3 = w ++ [d0]) as Ew3 by (subst s1; exact Ewv).
  assert (fb_pk_t_vec s3 = fib_t cs) as Et3 by (subst s1; exact K6).
  assert (forall i, (1 <= i)%Z -> (i <= Z.of_nat N)%Z -> vidx (fb_w_vec s3) i = coef w (Z.to_nat (i - 1))) as Vw.
  { intros i H1 H2. rewrite Ew3, vidx_app_l by lia. now rewrite vidx_in by lia. }
  assert (forall i, (1 <= i)%Z -> vidx (fb_pk_t_vec s3) i = coef (fib_t cs) (Z.to_nat (i - 1))) as Vt.
  { intros i H1. rewrite Et3. now rewrite vidx_in by lia. }
  assert (forall i, (1 <= i <= Z.of_nat N)%Z -> vidx (fb_r_vec s3) i = vidx (fb_w_vec s3) (i - 1) * vidx (fb_pk_t_vec s3) i) as Hr3.
  { intros i Hi'. subst s1. now apply Hr. }
  assert (forall i, (i < N)%nat -> coef (a :: b :: w) (S (S i)) = coef (a :: b :: w) i + coef (a :: b :: w) (S i) * coef (fib_t cs) i) as Wk.
  { intros i Hi'. rewrite Hw. apply fib_walk_at. lia. }
  assert (forall i, (1 <= i <= fb_n s3 + 3)%Z -> fb_sum_at s3 i = 0) as G.
  { intros i Hi'. rewrite (fb_sum_at_val s3 SZ) by (auto; rewrite ?En; auto).
    assert (fb_a s3 = a /\ fb_b s3 = b /\ fb_c s3 = c) as [Ea [Eb Ec]] by (subst s1; auto). rewrite Ea, Eb, Ec, En.
    pose proof (Wk 0%nat ltac:(lia)) as W0. pose proof (Wk 1%nat ltac:(lia)) as W1.
    change (coef w 0 = a + b * coef (fib_t cs) 0) in W0. change (coef w 1 = b + coef w 0 * coef (fib_t cs) 1) in W1.
    rewrite (Vw (Z.of_nat N)) by lia. replace (Z.to_nat (Z.of_nat N - 1)) with (length w - 1)%nat by lia. rewrite <- coef_last, Hc.
    rewrite (Hr3 2%Z) by lia. rewrite (Vw 1%Z), (Vw 2%Z), (Vt 1%Z), (Vt 2%Z) by lia. change (2 - 1)%Z with 1%Z. rewrite (Vw 1%Z) by lia.
    change (Z.to_nat (1 - 1)) with 0%nat. change (Z.to_nat 1) with 1%nat. rewrite W1, W0.
    assert (range_index 3 (Z.of_nat N) i * (vidx (fb_w_vec s3) i - vidx (fb_r_vec s3) i - vidx (fb_w_vec s3) (i - 2)) = 0) as E3.
    { destruct (Z_lt_le_dec i 3) as [|H3]; [rewrite range_out by lia; ring|].
      destruct (Z_lt_le_dec (Z.of_nat N) i) as [|HnN]; [rewrite range_out by lia; ring|].
      rewrite Hr3, !Vw, Vt by lia. pose proof (Wk (Z.to_nat (i - 1)) ltac:(lia)) as W.
      replace (Z.to_nat (i - 1)) with (S (S (Z.to_nat (i - 3)))) in * by lia.
      replace (Z.to_nat (i - 1 - 1)) with (S (Z.to_nat (i - 3))) by lia.
      replace (Z.to_nat (i - 2 - 1)) with (Z.to_nat (i - 3)) by lia.
      set (j := Z.to_nat (i - 3)) in *. change (coef w (S (S j)) = coef w j + coef w (S j) * coef (fib_t cs) (S (S j))) in W.
      rewrite W. ring. }
    match goal with |- ?A + power ?al 4 * ?B * ?C = 0 => transitivity (A + power al 4 * (B * C)); [ring|rewrite E3; ring] end. }
  pose proof (fb_checks_1_ok s3 SZ Ho G) as C1.
  assert (fb_at_sum s3 (fb_n s3 + 3) = 0) as G0.
  { rewrite fb_const by auto. apply sumZ_0. intros i Hi'. rewrite G by lia. ring. }
  assert (length (fb_h_vec_1 s3) = N + 2)%nat as LH1 by (rewrite fb_h1_len, En; lia).
  assert (length (fb_h_vec_2 s3) = N + 2)%nat as LH2 by (rewrite fb_h2_len, En; lia).
  set (ch1 := vscale (fpow beta (Z.to_nat (fb_cap_d s3 - (fb_n s3 + 3 - 1))) * peval (fb_h_vec_1 s3) beta) g).
  set (ch2 := vscale (peval (fb_h_vec_2 s3) beta) g).
  assert (fb_round3 pk s3 = Ok (ch1, ch2)) as R3.
  { unfold fb_round3. rewrite C1. cbn [obind]. rewrite K2, Ed.
    assert (voffset (fb_h_vec_1 s3) (Z.of_nat (d + 1)) = Z.to_nat (fb_cap_d s3 - (fb_n s3 + 3 - 1))) as EV1.
    { unfold voffset. rewrite LH1, Ed, En. destruct (Nat.ltb_spec (Z.to_nat (Z.of_nat (d + 1))) (N + 2)); lia. }
    rewrite (commit_vector_ok (d + 1) beta g (fb_h_vec_1 s3)) by (rewrite ?EV1, ?LH1, ?Ed, ?En; lia).
    rewrite EV1. cbn [obind]. unfold fb_maxshift, fb_n_1. rewrite En.
    rewrite (commit_vector_ok0 (d + 1) beta g (fb_h_vec_2 s3)) by lia. unfold ch1. rewrite En. reflexivity. }
  rewrite R3. cbn [obind]. fold om s3.
  set (z := fb_p_ch_z H vk cw cr ct ch1 ch2).
  assert (forall P : Prop, (z = 0 \/ z = 1 \/ om = z \/
   (forall i, (1 <= i)%nat -> coef (fb_w_vec s1) i = 0) \/
   (forall i, (1 <= i)%nat -> coef (fb_pk_t_vec s1) i = 0) \/
   (forall i, (1 <= i)%nat -> coef (fb_r_vec s1) i = 0) \/
   exists gv, fb_g_vec s3 (fb_ctx_of s3 z) = Ok gv /\ forall i, coef gv i = 0) -> fb_unlucky pk x w d0 d1 d2) as UL.
  { intros _ U. exists s1, cw, cr. split; auto. exists t1, ct. split; auto. split; auto. exists ch1, ch2. split; auto. }
  specialize (UL True).
  destruct (feq_dec z 0) as [Z0|Hz].
  { right; left. split; [|apply UL; auto]. unfold fb_round4, fb_checks_2. cbn [fb_q_z fb_ctx_of]. rewrite Z0, nonzero_panic. reflexivity. }
  destruct (feq_dec om z) as [Z1|Hoz].
  { right; left. split; [|apply UL; auto]. unfold fb_round4. cbn zeta.
    assert (fb_checks_2 s3 (fb_ctx_of s3 z) = Panic \/ (fb_checks_2 s3 (fb_ctx_of s3 z) = Ok tt)) as C.
    { unfold fb_checks_2, assert_. cbn [fb_q_z fb_q_omega fb_ctx_of]. rewrite nonzero_ok by auto. cbn [obind].
      unfold fb_check_13, fb_check_14, fb_check_15, fb_check_16, fb_check_17, fb_check_18, assert_.
      do 6 (destruct (feqb _ _); cbn [obind]; [|now left]).
      left. change (fb_omega s3) with om. rewrite Z1. replace (power z 2 * (z - 1 * z)) with (0 : F) by ring. now rewrite nonzero_panic. }
    destruct C as [-> | ->]; [reflexivity|]. cbn [obind].
    unfold fb_divisors. cbn [fb_q_z fb_q_omega fb_ctx_of]. rewrite nonzero_ok by auto. cbn [obind].
    change (fb_omega s3) with om. rewrite Z1. replace (z - 1 * z) with (0 : F) by ring. rewrite nonzero_panic.
    destruct (feq_dec (power z 2 * (1 - z)) 0) as [E|E]; [rewrite E, nonzero_panic; reflexivity|rewrite nonzero_ok by auto; reflexivity]. }
  pose proof (fb_checks_2_ok s3 SZ Ho z Hz Hoz G0) as C2.
  destruct (feq_dec z 1) as [Z1|Hz1].
  { right; left. split; [|apply UL; auto]. unfold fb_round4. cbn zeta. rewrite C2. cbn [obind].
    unfold fb_divisors. cbn [fb_q_z fb_q_omega fb_ctx_of]. rewrite nonzero_ok by auto. cbn [obind].
    rewrite Z1. replace (power 1 2 * (1 - 1)) with (0 : F) by ring. rewrite nonzero_panic. reflexivity. }
  set (q := fb_ctx_of s3 z) in *.
  destruct (add_first_ok (fb_g_at s3 q) (fb_cap_d s3) (fb_p_c_17 q)) as [gv [EG [LG VG]]]; [lia|].
  assert (peval gv z = 0) as Gz by (apply (fb_g_zero s3 SZ Ho z Hz Hz1 Hoz gv G0 EG)).
  assert (fb_p_cm_g vk q cw cr ct ch1 ch2 = vscale (peval gv beta) g) as Ecg.
  { apply (fb_cm_g_value beta g h vk s3 z gv cw cr SZ EG K3). rewrite Et3. exact K9. }
  assert (fb_round4 pk s3 z cw cr ct ch1 ch2 = Ok (q, gv, fb_p_cm_g vk q cw cr ct ch1 ch2)) as R4.
  { unfold fb_round4. cbn zeta. fold q vk. rewrite C2. cbn [obind]. change (fb_divisors q) with (fb_divisors (fb_ctx_of s3 z)). rewrite (fb_divisors_ok s3 z Hz Hz1 Hoz). cbn [obind].
    unfold fb_g_vec. rewrite EG. cbn [obind]. rewrite K2.
    rewrite (commit_vector_ok0 (d + 1) beta g gv) by lia. cbn [obind].
    rewrite Ecg. rewrite (proj2 (veqb_eq _ _) eq_refl). cbn [assert_ obind].
    rewrite check_poly_eval_ok by (rewrite peval_strip; apply (fb_naive_val s3 SZ Ho z Hz Hoz G0)). cbn [obind].
    rewrite check_poly_eval_ok by (rewrite peval_strip; exact Gz). reflexivity. }
  rewrite R4. cbn [obind]. rewrite K2.
  assert (forall f, In f ([strip (fb_w_vec s3); strip (fb_pk_t_vec s3); strip (fb_r_vec s3)] ++ [strip gv]) -> (length f <= d + 1)%nat) as LF.
  { intros f Hf. pose proof (strip_length (fb_w_vec s3)). pose proof (strip_length (fb_pk_t_vec s3)).
    pose proof (strip_length (fb_r_vec s3)). pose proof (strip_length gv). destruct SZ. rewrite En in *.
    cbn [app In] in Hf. destruct Hf as [<-|[<-|[<-|[<-|[]]]]]; lia. }
  destruct (le_dec (length (strip (fb_w_vec s3))) 1) as [Q|Qw].
  { right; left. split; [|apply UL; do 3 right; left; exact (proj1 (strip_const _) Q)].
    rewrite batch_open_panic; [reflexivity|lia|exact LF|exists (strip (fb_w_vec s3)); split; [cbn [app In]; tauto|exact Q]]. }
  destruct (le_dec (length (strip (fb_pk_t_vec s3))) 1) as [Q|Qt].
  { right; left. split; [|apply UL; do 4 right; left; exact (proj1 (strip_const _) Q)].
    rewrite batch_open_panic; [reflexivity|lia|exact LF|exists (strip (fb_pk_t_vec s3)); split; [cbn [app In]; tauto|exact Q]]. }
  destruct (le_dec (length (strip (fb_r_vec s3))) 1) as [Q|Qr].
  { right; left. split; [|apply UL; do 5 right; left; exact (proj1 (strip_const _) Q)].
    rewrite batch_open_panic; [reflexivity|lia|exact LF|exists (strip (fb_r_vec s3)); split; [cbn [app In]; tauto|exact Q]]. }
  destruct (le_dec (length (strip gv)) 1) as [Q|Qg].
  { right; left. split; [|apply UL; do 6 right; exists gv; split; [exact EG|now apply (strip_const_root gv z)]].
    rewrite batch_open_panic; [reflexivity|lia|exact LF|exists (strip gv); split; [cbn [app In]; tauto|exact Q]]. }
  left.
  match goal with |- exists pf, obind (batch_open ?P ?fs ?gs ?z1 ?z2 ?x1 ?x2) _ = _ =>
    destruct (batch_complete (d + 1) beta g h fs gs z1 z2 x1 x2 0) as [w1 [w2 [EW _]]] end; auto; [lia| |rewrite EW; cbn [obind]; eauto].
  intros f Hf. split; [|now apply LF]. cbn [app In] in Hf. destruct Hf as [<-|[<-|[<-|[<-|[]]]]]; lia.
Qed.
Lemma fb_index_ok d beta (g : G1) (h : G2) pp cs :
  setup d beta g h = Ok pp -> length (fib_t cs) = fib_n cs -> (1 <= fib_n cs)%nat -> (fib_n cs + 2 <= d)%nat ->
  exists pk vk, fb_index pp cs = Ok (pk, vk).
Proof.
  intros Hs Lt HN Hd. destruct (kzg_vk_setup d beta g h pp Hs) as [Hd' [Hp Hv]].
  unfold fb_index. rewrite Hp, Hv, srs_length. unfold fb_get_max_degree.
  destruct (Nat.ltb_spec (fib_n cs + 2) (d + 1)); [|lia]. cbn [assert_ obind].
  rewrite commit_vector_ok0 by lia. cbn [obind]. eauto.
Qed.

(** *** Sequences of length one *)
Lemma fb_single d beta (g : G1) (h : G2) pp cs pk vk x w d0 d1 d2 pf :
  setup d beta g h = Ok pp -> fb_index pp cs = Ok (pk, vk) -> length (fib_t cs) = 1%nat -> fib_n cs = 1%nat ->
  fb_prove H pk x w d0 d1 d2 = Ok pf ->
  let al := fb_p_ch_alpha H vk (fb_cm_w_vec pf) (fb_cm_r_vec pf) in
  (4 <= d)%nat /\ al * al * (d0 - d1 - fib_b x) = al * al * (al * al * (d0 - d1)).
Proof.
  intros Hs Hi Lt HN Hp al. destruct (fb_index_inv _ _ _ _ _ _ _ _ Hs Hi ltac:(congruence)) as [K1 [K2 [K3 [K4 [K5 [K6 [K7 [K8 K9]]]]]]]].
  subst vk. set (vk := fb_pk_verifier_key pk) in *.
  unfold fb_prove in Hp. fold vk in Hp.
  apply obind_ok in Hp. destruct Hp as [[s1 [cw cr]] [R1 Hp]].
  apply obind_ok in Hp. destruct Hp as [[t1 ct] [R2 Hp]].
  apply obind_ok in Hp. destruct Hp as [[ch1 ch2] [R3 Hp]].
  apply obind_ok in Hp. destruct Hp as [[[q gv] cg] [R4 Hp]].
  apply obind_ok in Hp. destruct Hp as [[w1 w2] [R5 Hp]].
  injection Hp as <-.
  apply (fb_round1_inv _ _ _ _ _ _ _ _ _ _ _ K2) in R1; [|fold vk; rewrite K4, K6; congruence]. cbn zeta in R1. fold vk in R1. rewrite K4, HN in R1.
  destruct R1 as [Lw0 [wv' [rv [-> [Ewv [Lw [Lr [Hr [Hd1 [Ecw Ecr]]]]]]]]]].
  apply (fb_round2_inv _ _ _ _ _ _ _ _ K2) in R2. destruct R2 as [Et1 [Hd Ect]]. split; [lia|].
  match type of R3 with fb_round3 _ ?s = _ => set (s3 := s) in * end.
  assert (fb_n s3 = 1%Z) as En by (cbn; now rewrite K4, HN).
  unfold fb_round3 in R3. apply obind_ok in R3. destruct R3 as [[] [R3 _]].
  pose proof (fb_checks_1_inv s3 R3 2%Z ltac:(lia)) as E.
  rewrite (fb_sum_at_single s3 d2 En) in E; [|cbn; now rewrite K6|exact Et1].
  assert (vidx (fb_w_vec s3) 2 = d0) as Ew.
  { change (fb_w_vec s3) with wv'. change 2%Z with (Z.of_nat 2). rewrite vidx_S, Ewv, coef_app, app_length, repeat_length.
    replace (length w + (1 - length w))%nat with 1%nat by lia. reflexivity. }
  assert (vidx (fb_r_vec s3) 2 = d1) as Er.
  { change (fb_r_vec s3) with rv. change 2%Z with (Z.of_nat 2). rewrite vidx_S. exact Hd1. }
  rewrite Ew, Er in E. change (fb_alpha s3) with al in E. change (fb_b s3) with (fib_b x) in E.
  apply fsub_0_eq. match type of E with ?l = 0 => transitivity l; [|exact E] end.
  rewrite !(pw_pos al). change (Pos.to_nat 2) with 2%nat. change (Pos.to_nat 4) with 4%nat. cbn [fpow]. ring.
Qed.

(** *** The instance is not bound by the challenges *)
Lemma fb_malleable vk a b c pf b' c' :
  exists a', forall rnd, fb_verify H vk (mkFibIns a' b' c') pf rnd = fb_verify H vk (mkFibIns a b c) pf rnd.
Proof.
  set (al := fb_v_ch_alpha H vk (fb_cm_w_vec pf) (fb_cm_r_vec pf)).
  set (om := fb_v_ch_omega H vk (fb_cm_w_vec pf) (fb_cm_r_vec pf) (fb_cm_t_vec_1 pf)).
  set (z := fb_v_ch_z H vk (fb_cm_w_vec pf) (fb_cm_r_vec pf) (fb_cm_t_vec_1 pf) (fb_cm_h_vec_1 pf) (fb_cm_h_vec_2 pf)).
  set (n := Z.of_nat (fb_vk_size vk)).
  exists (a - (b' - b) * (fb_pf_y_1 pf + power al 2 * om) - (c' - c) * (power al 3 * power z (n - 1) * power (om / z) (n - 1))).
  intros rnd. set (a' := a - _ - _). unfold fb_verify. cbn zeta. fold al om z.
  set (q := mkFBCtx (fb_pub_of vk (mkFibIns a b c)) al om z (fb_pf_y pf) (fb_pf_y_1 pf) (fb_pf_y_2 pf)).
  set (q' := mkFBCtx (fb_pub_of vk (mkFibIns a' b' c')) al om z (fb_pf_y pf) (fb_pf_y_1 pf) (fb_pf_y_2 pf)).
  change (fb_divisors q') with (fb_divisors q). destruct (fb_divisors q) as [[]| |] eqn:D; cbn [obind]; auto.
  unfold fb_divisors in D. change (fb_q_z q) with z in D.
  apply obind_ok in D. destruct D as [[] [D1 D]]. apply nonzero_inv in D1.
  apply obind_ok in D. destruct D as [[] [D2 _]]. apply nonzero_inv in D2.
  assert (1 - z <> 0) as D3 by (intros E; apply D2; rewrite E; ring).
  assert (fb_v_c_17 q' = fb_v_c_17 q) as E17.
  { unfold fb_v_c_17. unfold q, q'. cbn [fb_q_alpha fb_q_omega fb_q_z fb_q_y fb_q_y_1 fb_q_y_2 fb_ctx_pub fb_n fb_a fb_b fb_c fb_pub_of fib_a fib_b fib_c].
    fold n. unfold a'. generalize (power z (n - 1)), (power (om / z) (n - 1)), (power z n). intros p1 p2 p3.
    rewrite !(pw_pos z), !(pw_pos al), !(pw_pos om), !(pw_pos 1).
    change (Pos.to_nat 2) with 2%nat. change (Pos.to_nat 3) with 3%nat. change (Pos.to_nat 4) with 4%nat. cbn [fpow].
    field. auto. }
  assert (forall cw cr ct c1 c2, fb_v_cm_g vk q' cw cr ct c1 c2 = fb_v_cm_g vk q cw cr ct c1 c2) as EG.
  { intros. unfold fb_v_cm_g. rewrite E17. reflexivity. }
  rewrite !EG. reflexivity.
Qed.
End FibRun.

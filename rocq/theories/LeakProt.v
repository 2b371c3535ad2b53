(** LeakProt.v: which committed vector each prover reveals at a point. *)
From Verif Require Import Base Spec Tools ToolsProofs MatProofs CS CSProofs KZG KZGProofs Snark Laurent SnarkProofs SnarkPerm
  PovPE PovPEComplete Fib FibTop Pov PovComplete R1 R1Complete RP RPComplete HP HPComplete SoundSpec Sound LeakSpec Leak.
Local Open Scope F_scope.

Section LeakProt.
Context {F G1 G2 GT : Type} {fo : FieldOps F} {fl : FieldLaws F} {po : PairingOps F G1 G2 GT} {pl : PairingLaws F G1 G2 GT}.
Add Field Flp : F_th.

Lemma eval_padded (l : list F) r (k : Z) : (Z.of_nat (length l) <= k)%Z ->
  eval_vector_expression r (fun i => vidx l i) k = peval l r.
Proof. apply eval_vidx. Qed.

Lemma pv_reveals H gamma pk x (a b c : list F) d0 d1 d2 pf :
  pv_prove H gamma pk x (a, b, c) d0 d1 d2 = Ok pf ->
  let n := (3 * ps_n (pv_vk_size (pv_pk_verifier_key pk)))%nat in
  exists k, (length (a ++ b ++ c) + k = n)%nat /\
  commit_vector (pv_pk_powers pk) ((a ++ b ++ c) ++ repeat 0 k ++ [d0]) (Z.of_nat n + 1) = Ok (pv_cm_w_vec pf) /\
  pv_pf_y pf = peval ((a ++ b ++ c) ++ repeat 0 k ++ [d0]) (pv_point H (pv_pk_verifier_key pk) x pf).
Proof.
  intros Hp n. unfold pv_prove in Hp. oinv Hp. destruct a0 as [s1 cw]. unfold pv_round1 in E. oinv E. oinv E. oinv E. oinv E.
  injection E as <- <-. apply zero_pad_inv in E1. destruct E1 as [k [-> Hk]].
  oinv Hp. destruct a1 as [rv cr]. oinv Hp. destruct a1 as [tv ct]. oinv Hp. destruct a1 as [ch1 ch2]. oinv Hp. destruct a1 as [q gv].
  oinv Hp. destruct a1 as [cW cW1]. injection Hp as <-. cbn [pv_cm_w_vec pv_pf_y].
  match goal with K : pv_round5 _ _ = Ok _ |- _ => unfold pv_round5 in K; repeat (oinv K); injection K as <- _ end.
  assert (vector_concat [a; b; c] = a ++ b ++ c) as EV by (unfold vector_concat; cbn [concat]; now rewrite app_nil_r). rewrite EV in *.
  assert (Z.of_nat n = 3 * Z.of_nat (ps_n (pv_vk_size (pv_pk_verifier_key pk))))%Z as En by (unfold n; lia).
  unfold pv_vovectorsize, pv_pub_of in Hk. cbn [pv_cap_c_total] in Hk. rewrite <- En, Nat2Z.id in Hk.
  exists k. split; [exact Hk|]. split; [rewrite En; exact E2|].
  cbn [pv_q_y pv_ctx_of]. unfold pv_y. cbn [pv_omega pv_w_vec pv_s4_s3 pv_s3_s2 pv_s2_s1]. 
  unfold vector_concat in *; cbn [concat] in *; rewrite ?app_nil_r in *. cbn [app]. apply eval_vidx.
  unfold pv_vovectorsize. rewrite !app_length, repeat_length in *. cbn [concat app length]. cbn [pv_cap_c_total pv_pub_of pv_s1_pub pv_s2_s1 pv_s3_s2 pv_s4_s3]. lia.
Qed.

Lemma pe_reveals H gamma pk x w d0 d1 d2 d3 pf :
  pe_prove H gamma pk x w d0 d1 d2 d3 = Ok pf ->
  let size := pe_vk_size (pe_pk_verifier_key pk) in let n := (3 * ps_n size)%nat in let u := pe_left size w in
  exists k, (length u + k = n)%nat /\
  commit_vector (pe_pk_powers pk) (u ++ repeat 0 k ++ [d0]) (Z.of_nat n + 1) = Ok (pe_cm_u_vec pf) /\
  pe_pf_y pf = peval (u ++ repeat 0 k ++ [d0]) (pe_point H (pe_pk_verifier_key pk) x pf).
Proof.
  intros Hp size n u. unfold pe_prove in Hp. oinv Hp. destruct a as [s1 [cu cv]]. destruct w as [[a b] c].
  unfold pe_round1 in E. oinv E. oinv E. oinv E. oinv E. oinv E. oinv E. oinv E. oinv E. injection E as <- <- <-.
  assert (a1 = u) as ->.
  { unfold concat_subvec in E1. do 2 (match type of E1 with context [if ?b then _ else _] => destruct b end; [discriminate|]). injection E1 as <-.
    unfold u, pe_left. cbn [skipn pe_cap_c_total pe_cap_c_m pe_pub_of]. fold size. now rewrite !Nat.sub_0_r, !Nat2Z.id. }
  apply zero_pad_inv in E3. destruct E3 as [k [-> Hk]].
  do 4 (oinv Hp; match type of Hp with context [let (_, _) := ?p in _] => destruct p end).
  oinv Hp. match type of Hp with context [let (_, _) := ?p in _] => destruct p end. injection Hp as <-. cbn [pe_cm_u_vec pe_pf_y].
  match goal with K : pe_round5 _ _ = Ok _ |- _ => unfold pe_round5 in K; repeat (oinv K); injection K as <- _ end.
  assert (Z.of_nat n = 3 * Z.of_nat (ps_n size))%Z as En by (unfold n; lia).
  unfold pe_n, pe_pub_of in Hk. cbn [pe_cap_c_total] in Hk. fold size in Hk. rewrite <- En, Nat2Z.id in Hk.
  exists k. split; [exact Hk|]. split; [rewrite En; exact E4|].
  cbn [pe_q_y pe_ctx_of]. unfold pe_y. cbn [pe_omega pe_u_vec pe_s4_s3 pe_s3_s2 pe_s2_s1].
  cbn [concat]. rewrite ?app_nil_r. apply eval_vidx.
  unfold pe_n. rewrite !app_length, repeat_length in *. cbn [length]. cbn [pe_cap_c_total pe_pub_of pe_s1_pub pe_s2_s1 pe_s3_s2 pe_s4_s3]. fold size. lia.
Qed.

Lemma hp_reveals H gamma pk x (a b c : list F) d0 d1 d2 pf :
  hp_prove H gamma pk x (a, b, c) d0 d1 d2 = Ok pf ->
  let size := hp_vk_size (hp_pk_verifier_key pk) in
  let n := (3 * hs_ncols size + hs_adensity size + hs_bdensity size + hs_cdensity size + hs_ddensity size + 1)%nat in
  let u := a ++ b ++ c in
  exists k, (length u + k = n)%nat /\
  commit_vector (hp_pk_powers pk) (u ++ repeat 0 k ++ [d0]) (Z.of_nat n + 1) = Ok (hp_cm_w_vec_1 pf) /\
  hp_pf_y_1 pf = peval (u ++ repeat 0 k ++ [d0]) (hp_point H (hp_pk_verifier_key pk) x pf).
Proof.
  intros Hp size n u. unfold hp_prove in Hp. oinv Hp. destruct a0 as [s1 cu].
  unfold hp_round1 in E. oinv E. oinv E. injection E as <- <-.
  apply zero_pad_inv in E0. destruct E0 as [k [-> Hk]].
  assert (vector_concat [a; b; c] = u) as EV by (unfold vector_concat, u; cbn [concat]; now rewrite app_nil_r). rewrite EV in *.
  do 7 (oinv Hp; match type of Hp with context [let (_, _) := ?p in _] => destruct p end).
  injection Hp as <-. cbn [hp_cm_w_vec_1 hp_pf_y_1].
  match goal with K : hp_round7 _ _ = Ok _ |- _ => unfold hp_round7 in K; repeat (oinv K); injection K as <- _ end.
  assert (hp_vovectorsize (hp_pub_of gamma (hp_pk_verifier_key pk) x) = Z.of_nat n) as En.
  { unfold hp_vovectorsize, hp_pub_of. fold size. cbn [hp_cap_k hp_cap_s_a hp_cap_s_b hp_cap_s_c hp_cap_s_d]. unfold n. lia. }
  rewrite En in *. rewrite Nat2Z.id in Hk.
  exists k. split; [exact Hk|]. split; [exact E1|].
  cbn [hp_q_y_1 hp_ctx_of]. unfold hp_y_1. cbn [hp_omega hp_w_vec_1 hp_s6_s5 hp_s5_s4 hp_s4_s3 hp_s3_s2 hp_s2_s1].
  cbn [concat]. rewrite ?app_nil_r. apply eval_vidx.
  match goal with |- context [hp_vovectorsize ?e] => change (hp_vovectorsize e) with (hp_vovectorsize (hp_pub_of gamma (hp_pk_verifier_key pk) x)) end.
  rewrite En. rewrite !app_length, repeat_length in *. cbn [length]. lia.
Qed.

Lemma r1_reveals H gamma pk x w d0 d1 d2 pf :
  r1_prove H gamma pk x w d0 d1 d2 = Ok pf ->
  let size := r1_vk_size (r1_pk_verifier_key pk) in
  let n := (rs_ncols size + rs_adensity size + rs_bdensity size + rs_cdensity size)%nat in
  exists v k, rows_times (rs_nrows size) (rs_ncols size) (r1_pk_cap_m_mat pk) x w = Some v /\
  let u := v ++ [1] ++ x ++ w in (length u + k = n)%nat /\
  commit_vector (r1_pk_powers pk) (u ++ repeat 0 k ++ [d0]) (Z.of_nat n + 1) = Ok (r1_cm_u_vec_1 pf) /\
  r1_pf_y_1 pf = peval (u ++ repeat 0 k ++ [d0]) (r1_point H (r1_pk_verifier_key pk) x pf).
Proof.
  intros Hp size n. unfold r1_prove in Hp. oinv Hp. destruct a as [s1 cu].
  unfold r1_round1 in E. destruct (r1_pk_cap_m_mat pk) as [[rows cols] vals] eqn:EM. oinv E. oinv E. oinv E. injection E as <- <-.
  apply zero_pad_inv in E1. destruct E1 as [k [-> Hk]]. exists a, k.
  unfold rows_times. unfold r1_pub_of in E0. fold size in E0. cbn [r1_cap_h r1_cap_k] in E0. rewrite E0. split; auto. cbv zeta.
  set (u := a ++ [1] ++ x ++ w).
  assert (vector_concat [a; [1] ++ x ++ w] = u) as EV by (unfold vector_concat, u; cbn [concat]; now rewrite app_nil_r). rewrite EV in *.
  do 7 (oinv Hp; match type of Hp with context [let (_, _) := ?p in _] => destruct p end).
  injection Hp as <-. cbn [r1_cm_u_vec_1 r1_pf_y_1].
  match goal with K : r1_round7 _ _ = Ok _ |- _ => unfold r1_round7 in K; repeat (oinv K); injection K as <- _ end.
  assert (r1_vovectorsize (r1_pub_of gamma (r1_pk_verifier_key pk) x) = Z.of_nat n) as En.
  { unfold r1_vovectorsize, r1_pub_of. fold size. cbn [r1_cap_k r1_cap_s_a r1_cap_s_b r1_cap_s_c]. unfold n. lia. }
  rewrite En in *. rewrite Nat2Z.id in Hk.
  split; [exact Hk|]. split; [exact E2|].
  cbn [r1_q_y_1 r1_ctx_of]. unfold r1_y_1. cbn [r1_omega r1_u_vec_1 r1_s6_s5 r1_s5_s4 r1_s4_s3 r1_s3_s2 r1_s2_s1].
  cbn [concat]. rewrite ?app_nil_r. apply eval_vidx.
  match goal with |- context [r1_vovectorsize ?e] => change (r1_vovectorsize e) with (r1_vovectorsize (r1_pub_of gamma (r1_pk_verifier_key pk) x)) end.
  rewrite En. rewrite app_length, app_length, repeat_length. cbn [length]. lia.
Qed.

Lemma rp_reveals H gamma pk x w d0 d1 d2 d3 pf :
  rp_prove H gamma pk x w d0 d1 d2 d3 = Ok pf ->
  let size := rp_vk_size (rp_pk_verifier_key pk) in
  let n := (rs_adensity size + rs_bdensity size + rs_cdensity size)%nat in
  exists u k, rows_times (rs_nrows size) (rs_ncols size) (rp_pk_cap_m_mat pk) x w = Some u /\
  (length u + k = n)%nat /\
  commit_vector (rp_pk_powers pk) (u ++ repeat 0 k ++ [d0]) (Z.of_nat n + 1) = Ok (rp_cm_y_vec_1 pf) /\
  rp_pf_y_1 pf = peval (u ++ repeat 0 k ++ [d0]) (rp_point H (rp_pk_verifier_key pk) x pf).
Proof.
  intros Hp size n. unfold rp_prove in Hp. oinv Hp. destruct a as [[s1 cu] cw].
  unfold rp_round1 in E. destruct (rp_pk_cap_m_mat pk) as [[rows cols] vals] eqn:EM. oinv E. oinv E. oinv E. oinv E. oinv E. injection E as <- <- <-.
  apply zero_pad_inv in E1. destruct E1 as [k [-> Hk]]. exists a, k.
  unfold rows_times. unfold rp_pub_of in E0. fold size in E0. cbn [rp_cap_h rp_cap_k] in E0. rewrite E0. split; auto.
  oinv Hp. destruct a0 as [[[? ?] ?] ?]. oinv Hp. destruct a0 as [[[? ?] ?] ?].
  do 5 (oinv Hp; match type of Hp with context [let (_, _) := ?p in _] => destruct p end).
  injection Hp as <-. cbn [rp_cm_y_vec_1 rp_pf_y_1].
  match goal with K : rp_round7 _ _ = Ok _ |- _ => unfold rp_round7 in K; repeat (oinv K); injection K as <- _ end.
  assert (rp_n (rp_pub_of gamma (rp_pk_verifier_key pk) x) = Z.of_nat n) as En.
  { unfold rp_n, rp_pub_of. fold size. cbn [rp_cap_s_a rp_cap_s_b rp_cap_s_c]. unfold n. lia. }
  rewrite En in *. rewrite Nat2Z.id in Hk.
  split; [exact Hk|]. split; [exact E2|].
  cbn [rp_q_y_1 rp_ctx_of]. unfold rp_y_1. cbn [rp_omega rp_y_vec_1 rp_s6_s5 rp_s5_s4 rp_s4_s3 rp_s3_s2 rp_s2_s1].
  cbn [concat]. rewrite ?app_nil_r. apply eval_vidx.
  match goal with |- context [rp_n ?e] => change (rp_n e) with (rp_n (rp_pub_of gamma (rp_pk_verifier_key pk) x)) end.
  rewrite En. rewrite app_length, app_length, repeat_length. cbn [length]. lia.
Qed.
End LeakProt.

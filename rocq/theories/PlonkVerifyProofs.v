(** PlonkVerifyProofs.v: proof facts about the linearisation and the verifier of plonk-core. *)
From Verif Require Import Base Spec Tools ToolsProofs KZG KZGSpec KZGProofs SoundSpec Sound Plonk PlonkSpec PlonkPI PlonkProver PlonkGPSpec PlonkGP PlonkLookupSpec PlonkLookup PlonkLookup4
  PlonkQuot PolyDom PlonkQuotSpec PlonkQuotProofs PlonkVerify PlonkVerifySpec.
Local Open Scope F_scope.

Section PlonkVerifyProofs.
Context {F : Type} {fo : FieldOps F} {fl : FieldLaws F} {po : PrimeFieldOps F} {pl : PrimeFieldLaws F}.
Add Field Fplonkverify : F_th.
Variables (ca cd : F).
Implicit Types (k : key F) (P : polys F) (ch : chal F) (e : evals F) (u : custom F) (pf : proof F).

(** *** interpolation *)
Lemma off_domain omega n x i : domain_of omega n -> fpow x n <> 1 -> fpow (finv omega) i * x - 1 <> 0.
Proof using fl pl.
  intros D N E. apply fsub_0_eq in E. apply N. pose proof (domain_neq0 _ _ D) as O. destruct D as [_ [E1 _]].
  assert (x = fpow omega i) as ->.
  { transitivity (fpow (finv omega) i * fpow omega i * x); [rewrite fpow_finv by auto; ring|]. transitivity (fpow omega i * (fpow (finv omega) i * x)); [ring|rewrite E; ring]. }
  rewrite <- fpow_mul, Nat.mul_comm, fpow_mul, E1. apply fpow_1_l.
Qed.
Lemma finv_pow omega n i : domain_of omega n -> fpow (fpow (finv omega) i) n = 1.
Proof using fl pl.
  intros D. pose proof (domain_neq0 _ _ D) as O. destruct D as [_ [E _]]. rewrite <- fpow_mul, Nat.mul_comm, fpow_mul.
  assert (fpow (finv omega) n = 1) as ->; [|apply fpow_1_l]. transitivity (fpow (finv omega) n * fpow omega n); [rewrite E; ring|now apply fpow_finv].
Qed.
Lemma peval_map_seq n (f : nat -> F) x : peval (map f (seq 0 n)) x = sumn n (fun i => f i * fpow x i).
Proof using fl.
  assert (forall m s, peval (map f (seq s m)) x = sumn m (fun i => f (s + i)%nat * fpow x i)) as H.
  { induction m as [|m IH]; intros s; [reflexivity|]. rewrite sumn_shift. cbn [seq map peval fpow]. rewrite IH, Nat.add_0_r. f_equal; [ring|]. rewrite <- sumn_mul_l.
    apply sumn_ext. intros i _. rewrite Nat.add_succ_r. cbn [fpow]. change (S s + i)%nat with (S (s + i)). ring. }
  rewrite H. apply sumn_ext. intros i _. reflexivity.
Qed.
(** the values of the interpolating polynomial outside the domain *)
Lemma ifft_bary omega n (v : list F) x : domain_of omega n -> fpow x n <> 1 ->
  peval (ifft omega n v) x = sumn n (fun j => finv (fpow (finv omega) j * x - 1) * nth j v 0) * ((fpow x n - 1) * finv (from_Z (Z.of_nat n))).
Proof using fl pl.
  intros D N. unfold ifft. rewrite peval_map_seq.
  transitivity (sumn n (fun i => sumn n (fun j => finv (from_Z (Z.of_nat n)) * (nth j v 0 * fpow (finv omega) (i * j) * fpow x i)))).
  { apply sumn_ext. intros i _. rewrite sumn_mul_l. transitivity (finv (from_Z (Z.of_nat n)) * (fpow x i * sumn n (fun j => nth j v 0 * fpow (finv omega) (i * j)))); [ring|]. f_equal.
    rewrite <- sumn_mul_l. apply sumn_ext. intros j _. ring. }
  rewrite sumn_swap. rewrite <- sumn_mul_r. apply sumn_ext. intros j _.
  transitivity (finv (from_Z (Z.of_nat n)) * nth j v 0 * sumn n (fun i => fpow (fpow (finv omega) j * x) i)).
  { rewrite <- sumn_mul_l. apply sumn_ext. intros i _. rewrite fpow_mul_base, (Nat.mul_comm i j), fpow_mul. ring. }
  pose proof (off_domain omega n x j D N) as ND. rewrite geo_sum_div by (intros E; apply ND; rewrite E; ring).
  rewrite fpow_mul_base, finv_pow by auto. field. split; [exact (domain_size omega n D)|exact ND].
Qed.

Lemma fold_left_add_acc (l : list F) a : fold_left fadd l a = a + fold_left fadd l 0.
Proof using fl. revert a. induction l as [|y l IH]; intros a; cbn [fold_left]; [ring|]. rewrite IH, (IH (0 + y)). ring. Qed.
Lemma filter_sum (g : nat -> F) (b : nat -> bool) n : (forall i, b i = false -> g i = 0) ->
  fold_left fadd (map g (filter b (seq 0 n))) 0 = sumn n g.
Proof using fl.
  intros H. assert (forall m s, fold_left fadd (map g (filter b (seq s m))) 0 = sumn m (fun i => g (s + i)%nat)) as X.
  { induction m as [|m IH]; intros s; [reflexivity|]. rewrite sumn_shift. cbn [seq filter]. rewrite Nat.add_0_r.
    assert (sumn m (fun i => g (s + S i)%nat) = sumn m (fun i => g (S s + i)%nat)) as -> by (apply sumn_ext; intros i _; f_equal; lia). rewrite <- IH.
    destruct (b s) eqn:E; [|rewrite (H s E); ring]. cbn [map fold_left]. rewrite fold_left_add_acc. ring. }
  rewrite X. apply sumn_ext. reflexivity.
Qed.
Lemma barycentric_ok omega n (v : list F) x : domain_of omega n -> length v = n -> fpow x n <> 1 -> barycentric omega n v x = peval (ifft omega n v) x.
Proof using fl pl.
  intros D L N. rewrite ifft_bary by auto. unfold barycentric. rewrite L. f_equal. rewrite filter_sum; [|].
  - apply sumn_ext. intros i _. rewrite inverse_Some by (now apply (off_domain omega n)). reflexivity.
  - intros i E. destruct (feqb (nth i v 0) 0) eqn:Q; [|discriminate E]. apply feqb_eq in Q. rewrite Q. ring.
Qed.
Lemma first_lagrange_ok {E} omega n x : domain_of omega n -> fpow x n <> 1 -> first_lagrange n (fpow x n - 1) x = Ok (peval (l1_poly omega n) x) :> outcome E F.
Proof using fl pl.
  intros D N. unfold first_lagrange. assert (x - 1 <> 0) as N1 by (intros Z; apply fsub_0_eq in Z; apply N; rewrite Z; apply fpow_1_l).
  rewrite inverse_Some by (apply fmul_neq_0; [exact (domain_size omega n D)|exact N1]). cbn [unwrap_opt obind]. f_equal.
  unfold l1_poly. rewrite ifft_bary by auto. rewrite (sumn_single n 0%nat).
  - cbn [nth fpow]. field. repeat split; auto; try exact (domain_size omega n D).
  - apply D.
  - intros i Hi NZ. destruct i as [|i]; [contradiction|]. cbn [nth]. rewrite nth_repeat. ring.
Qed.
Lemma first_lagrange_1 {E} omega n : domain_of omega n -> first_lagrange n (fpow 1 n - 1) 1 = (Panic : outcome E F).
Proof using fl. intros D. unfold first_lagrange. unfold inverse. destruct (is_zero_spec (from_Z (Z.of_nat n) * (1 - 1 : F))) as [|NZ]; [reflexivity|]. exfalso. apply NZ. ring. Qed.

(** *** the commitment to the linearisation polynomial *)
Lemma peval_msm (sp : list (F * list F)) y : peval (multi_scalar_mul sp) y = fold_right (fun p acc => fst p * peval (snd p) y + acc) 0 sp.
Proof using fl. induction sp as [|p sp IH]; [reflexivity|]. cbn [multi_scalar_mul fold_right]. rewrite peval_padd, peval_pscale. f_equal. exact IH. Qed.

Definition arith_at (s : sel (list F)) (a b c d y : F) : F :=
  a * b * peval (q_m s) y + a * peval (q_l s) y + b * peval (q_r s) y + c * peval (q_o s) y + d * peval (q_4 s) y
  + fpow a 5 * peval (q_hl s) y + fpow b 5 * peval (q_hr s) y + fpow d 5 * peval (q_h4 s) y + peval (q_c s) y.
Definition rest_at (e : evals F) (u : custom F) (ch : chal F) (k : key F) (y : F) : F :=
  let v := eval_vals e u in let sp := ch_seps ch in
  range_constraints (s_range sp) v * peval (q_range (k_sel k)) y + logic_constraints (s_logic sp) (u_qc u) v * peval (q_logic (k_sel k)) y
  + fixed_constraints ca cd (s_fixed sp) (u_ql u) (u_qr u) (u_qc u) v * peval (q_fixed (k_sel k)) y + var_constraints ca cd (s_var sp) v * peval (q_var (k_sel k)) y.
Definition lookup_at (e : evals F) (ch : chal F) (l1 : F) (z2 h1 ql : list F) (y : F) : F :=
  let dl := ch_delta ch in let eps := ch_eps ch in let sep := ch_lookup ch in
  (combined (ch_zeta ch) (e_a e, e_b e, e_c e, e_d e) - e_f e) * sep * peval ql y
  + ((1 + dl) * (eps + e_f e) * (eps * (1 + dl) + e_t e + dl * e_tn e) * (sep * sep) + l1 * (sep * sep * sep)) * peval z2 y
  - e_z2n e * (sep * sep) * (eps * (1 + dl) + e_h2 e + dl * e_h1n e) * peval h1 y.
Definition perm_at (e : evals F) (ch : chal F) (x l1 : F) (z sf : list F) (y : F) : F :=
  let alpha := ch_alpha ch in let beta := ch_beta ch in let gamma := ch_gamma ch in
  ((e_a e + beta * x + gamma) * (e_b e + beta * coset Right * x + gamma) * (e_c e + beta * coset Output * x + gamma)
      * (e_d e + beta * coset Fourth * x + gamma) * alpha + l1 * (alpha * alpha)) * peval z y
  - (e_a e + beta * e_sl e + gamma) * (e_b e + beta * e_sr e + gamma) * (e_c e + beta * e_so e + gamma) * (beta * e_perm e * alpha) * peval sf y.
Definition parts_at (ts : list (list F)) (xn y : F) : F := peval (map (fun i => peval (nth i ts []) y) (seq 0 8)) xn.
Definition lin_at (n : nat) (k : key F) (pf : proof F) (u : custom F) (ch : chal F) (x l1 y : F) : F :=
  let e := pf_evals pf in
  u_qarith u * arith_at (k_sel k) (e_a e) (e_b e) (e_c e) (e_d e) y + rest_at e u ch k y
  + lookup_at e ch l1 (pf_z2 pf) (pf_h1 pf) (q_lookup (k_sel k)) y + perm_at e ch x l1 (pf_z pf) (k_sigma k Fourth) y
  - (fpow x n - 1) * parts_at (pf_t pf) (fpow x n) y.
Lemma lin_comm_ok n k pf u ch x l1 : ch_zeta ch <> 0 -> ch_zeta ch <> 1 ->
  exists lin, linearisation_commitment ca cd n k pf u ch x l1 = Ok lin /\ forall y, peval lin y = lin_at n k pf u ch x l1 y.
Proof using fl.
  intros N0 N1. unfold linearisation_commitment, lookup_comm. rewrite lc4 by auto. cbn [obind]. eexists. split; [reflexivity|]. intros y. rewrite peval_msm.
  unfold arithmetic_comm, permutation_comm. cbn [app fold_right fst snd].
  unfold lin_at, arith_at, rest_at, lookup_at, perm_at, parts_at. cbv zeta. cbn [seq map peval]. replace (fpow x n - 1 + 1) with (fpow x n) by ring. ring.
Qed.
Lemma lin_comm_panic n k pf u ch x l1 : ch_zeta ch = 0 \/ ch_zeta ch = 1 -> linearisation_commitment ca cd n k pf u ch x l1 = Panic.
Proof using fl. intros H. unfold linearisation_commitment, lookup_comm. now rewrite lc4_panic by auto. Qed.

(** the equation that is checked at the point is that of the quotient *)
Lemma lin_identity omega n k P pf u ch x pi : domain_of omega n -> length pi = n -> fpow x n <> 1 ->
  pf_z pf = P_z P -> pf_z2 pf = P_z2 P -> pf_h1 pf = P_h1 P -> P_pi P = ifft omega n pi ->
  right_evals omega k P x (pf_evals pf) u -> right_sels k x u ->
  lin_at n k pf u ch x (peval (l1_poly omega n) x) x + compute_r0 omega n pi ch x (peval (l1_poly omega n) x) (pf_evals pf)
  = num_value ca cd ch (point_at omega n k P x) - (fpow x n - 1) * parts_at (pf_t pf) (fpow x n) x.
Proof using fl pl.
  intros D L N Ez Ez2 Eh1 Epi [A1 [A2 [A3 [A4 [A5 [A6 [A7 [A8 [A9 [A10 [A11 [A12 [A13 [A14 [A15 [A16 A17]]]]]]]]]]]]]]]] [B1 [B2 [B3 B4]]].
  unfold lin_at, compute_r0. rewrite (barycentric_ok omega n pi x D L N), <- Epi, Ez, Ez2, Eh1. cbv zeta.
  set (v := eval_vals (pf_evals pf) u).
  assert (p_v (point_at omega n k P x) = v) as EV by (unfold point_at, v, eval_vals; cbn [p_v]; congruence).
  assert (u_qarith u * arith_at (k_sel k) (e_a (pf_evals pf)) (e_b (pf_evals pf)) (e_c (pf_evals pf)) (e_d (pf_evals pf)) x + rest_at (pf_evals pf) u ch k x + peval (P_pi P) x
          = gate_term ca cd (ch_seps ch) (p_sel (point_at omega n k P x)) (p_pi (point_at omega n k P x)) (p_v (point_at omega n k P x))) as G.
  { rewrite EV. unfold gate_term, arithmetic_term, rest_at, arith_at, point_at, sel_map. cbv zeta. fold v.
    cbn [p_sel p_pi q_m q_l q_r q_o q_4 q_c q_hl q_hr q_h4 q_arith q_range q_logic q_fixed q_var q_lookup]. rewrite B1, B2, B3, B4.
    change (v_a v) with (e_a (pf_evals pf)). change (v_b v) with (e_b (pf_evals pf)). change (v_c v) with (e_c (pf_evals pf)). change (v_d v) with (e_d (pf_evals pf)). ring. }
  unfold num_value. rewrite <- G. clear G.
  unfold perm_value, permutation_term, lookup_value. rewrite !EV. change (v_a v) with (e_a (pf_evals pf)). change (v_b v) with (e_b (pf_evals pf)). change (v_c v) with (e_c (pf_evals pf)). change (v_d v) with (e_d (pf_evals pf)).
  unfold point_at. cbn [p_x p_l1 p_sel p_sl p_sr p_so p_sf p_z p_z' p_f p_t p_t' p_h1 p_h1' p_h2 p_z2 p_z2'].
  rewrite <- A5, <- A6, <- A7, <- A8, <- A9, <- A10, <- A11, <- A12, <- A13, <- A14.
  change (q_lookup (sel_map (fun l => peval l x) (k_sel k))) with (peval (q_lookup (k_sel k)) x). unfold lookup_at, perm_at. cbv zeta. ring.
Qed.
End PlonkVerifyProofs.

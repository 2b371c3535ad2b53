(** Properties_PlonkVerify.v: the linearisation polynomial and the verifier of plonk-core (C77). *)
From Verif Require Import Base Spec Tools ToolsProofs KZG IntProofs SnarkProofs SoundSpec Sound Plonk PlonkSpec PlonkProofs PlonkBuilt Properties_Plonk PlonkPI PlonkPIProofs PlonkSigmaSpec PlonkCopy
  Properties_PlonkWires PlonkProver PlonkGPSpec PlonkGP Properties_PlonkPerm PlonkGatesSpec PlonkGates Properties_PlonkGates PlonkLookupSpec PlonkLookup PlonkLookup4 Properties_PlonkLookup
  PlonkQuot PolyDom PlonkQuotSpec PlonkQuotProofs PlonkQuot2 PlonkQuot3 PlonkQuot4 PlonkRows Properties_PlonkQuot PlonkVerify PlonkVerifySpec PlonkVerifyProofs PlonkVerify2.
From Coq Require Import Permutation Znumtheory String List.
Import ListNotations.
Local Open Scope F_scope.

Section S.
Context {F : Type} {fo : FieldOps F} {fl : FieldLaws F} {po : PrimeFieldOps F} {pl : PrimeFieldLaws F}.
Add Field Fc77 : F_th.
Variables (ca cd : F) (size : nat) (chk : F * F -> bool).
Notation built := (built ca cd size chk).
Implicit Types (c : composer F) (ws : column -> list F) (k : key F) (P : polys F) (ch : chal F) (e : evals F) (u : custom F) (pf : proof F).
Hypothesis odd_field : (3 < modulus (F:=F))%Z.
Let odd2 : (2 < modulus (F:=F))%Z. Proof. lia. Qed.

Lemma honest_custom {E} omega k P x : read_custom (e_custom (honest_evals omega k P x)) = Ok (mk_custom (peval (q_arith (k_sel k)) x) (peval (q_c (k_sel k)) x) (peval (q_l (k_sel k)) x) (peval (q_r (k_sel k)) x)
  (peval (P_w P Left) (x * omega)) (peval (P_w P Right) (x * omega)) (peval (P_w P Fourth) (x * omega))) :> outcome E (custom F).
Proof using. reflexivity. Qed.
Lemma first_ok {E} n x : from_Z (Z.of_nat n) <> (0 : F) -> x <> 1 -> exists l1, first_lagrange n (fpow x n - 1) x = Ok l1 :> outcome E F.
Proof using fl. intros N N1. unfold first_lagrange. rewrite inverse_Some; [cbn [unwrap_opt obind]; eauto|]. apply fmul_neq_0; auto. intros E0. apply fsub_0_eq in E0. contradiction. Qed.
Lemma pow_neq1 (x : F) n : fpow x n <> 1 -> x <> 1.
Proof using fl. intros N E. apply N. rewrite E. apply fpow_1_l. Qed.

(** The linearisation polynomial whose opening the prover computes is the one to which the verifier computes the
    commitment from the commitments of the proof and the key. *)
Theorem c77_linearisation omega n k P t ch x : domain_of omega n -> ch_zeta ch <> 0 -> ch_zeta ch <> 1 -> fpow x n <> 1 ->
  exists lin pf u l1 lin', linearisation ca cd omega n k P (split_tx_poly n t) ch x = Ok (lin, honest_evals omega k P x) /\
    prove_evals ca cd omega n k P t ch x = Ok pf /\ pf_evals pf = honest_evals omega k P x /\
    read_custom (e_custom (pf_evals pf)) = Ok u :> outcome error (custom F) /\ first_lagrange n (fpow x n - 1) x = Ok l1 :> outcome error F /\
    linearisation_commitment ca cd n k pf u ch x l1 = Ok lin' /\ forall y, peval lin y = peval lin' y.
Proof using fl pl.
  intros D Z0 Z1 Hx. set (ts := split_tx_poly n t).
  assert (exists lin, linearisation ca cd omega n k P ts ch x = Ok (lin, honest_evals omega k P x) /\ forall y, peval lin y =
    lin_at ca cd n k (mk_proof (P_w P) (P_z P) (P_z2 P) (P_f P) (P_h1 P) (P_h2 P) ts (honest_evals omega k P x)) (mk_custom (peval (q_arith (k_sel k)) x) (peval (q_c (k_sel k)) x) (peval (q_l (k_sel k)) x) (peval (q_r (k_sel k)) x)
  (peval (P_w P Left) (x * omega)) (peval (P_w P Right) (x * omega)) (peval (P_w P Fourth) (x * omega))) ch x (peval (l1_poly omega n) x) y) as [lin [E V]].
  { unfold linearisation. rewrite (first_lagrange_ok omega n x D Hx), honest_custom. unfold lookup_lin. rewrite lc4 by auto. cbn [obind]. eexists. split; [reflexivity|]. intros y.
    cbn [fold_left]. unfold gates_lin, arithmetic_lin, permutation_lin. cbv zeta. repeat (rewrite peval_padd || rewrite peval_pscale).
    unfold lin_at, arith_at, rest_at, lookup_at, perm_at, parts_at. cbv zeta. cbn [pf_evals pf_t pf_z pf_z2 pf_h1 seq map peval eval_vals v_a v_b v_c v_d u_qarith u_qc u_ql u_qr].
    replace (fpow x n - 1 + 1) with (fpow x n) by ring. ring. }
  destruct (lin_comm_ok ca cd n k (mk_proof (P_w P) (P_z P) (P_z2 P) (P_f P) (P_h1 P) (P_h2 P) ts (honest_evals omega k P x)) (mk_custom (peval (q_arith (k_sel k)) x) (peval (q_c (k_sel k)) x) (peval (q_l (k_sel k)) x) (peval (q_r (k_sel k)) x)
  (peval (P_w P Left) (x * omega)) (peval (P_w P Right) (x * omega)) (peval (P_w P Fourth) (x * omega))) ch x (peval (l1_poly omega n) x) Z0 Z1) as [lin' [E' V']].
  eexists lin, _, _, _, lin'. split; [exact E|]. split; [unfold prove_evals; fold ts; rewrite E; reflexivity|]. split; [reflexivity|]. split; [apply honest_custom|].
  split; [exact (first_lagrange_ok omega n x D Hx)|]. split; [exact E'|]. intros y. now rewrite V, V'.
Qed.

Lemma honest_right omega k P x : right_evals omega k P x (honest_evals omega k P x) (mk_custom (peval (q_arith (k_sel k)) x) (peval (q_c (k_sel k)) x) (peval (q_l (k_sel k)) x) (peval (q_r (k_sel k)) x)
  (peval (P_w P Left) (x * omega)) (peval (P_w P Right) (x * omega)) (peval (P_w P Fourth) (x * omega))).
Proof using. unfold right_evals. cbn. repeat split. Qed.
Lemma parts_split n (t : list F) x : (List.length t <= 8 * n)%nat -> parts_at (split_tx_poly n t) (fpow x n) x = peval t x.
Proof using fl.
  intros L. destruct (c76_split n t L) as [L8 [_ H]]. rewrite H. unfold parts_at. f_equal.
Qed.
Lemma pi_length m n (l : list F) : pi_evals m n = Ok l -> List.length l = n.
Proof using.
  unfold pi_evals. destruct (is_power_of_two n); [|discriminate]. cbn [assert_ obind]. intros H. rewrite <- (repeat_length (0 : F) n). generalize dependent (repeat (0 : F) n). clear - fl.
  induction m as [|[i v] m IH]; intros l0 H; cbn [evals_put] in H; [now injection H as ->|]. apply obind_ok in H. destruct H as [_ [_ H]]. rewrite (IH _ H). apply upd_length.
Qed.
Lemma lin_gap omega n k pf u ch x pi t : domain_of omega n -> List.length pi = n -> fpow x n <> 1 ->
  right_evals omega k (polys_of pf (ifft omega n pi) t) x (pf_evals pf) u -> right_sels k x u ->
  gap ca cd omega n k pi pf ch x u = num_value ca cd ch (point_at omega n k (polys_of pf (ifft omega n pi) t) x) - (fpow x n - 1) * parts_at (pf_t pf) (fpow x n) x.
Proof using fl pl. intros D L Hx R S1. unfold gap. now apply (lin_identity ca cd omega n k (polys_of pf (ifft omega n pi) t)). Qed.

(** The proof of an honest prover is accepted, whatever the opening challenges, if and only if the numerator is
    t (X^n - 1) at the point. *)
Theorem c77_honest omega n k P t ch x pub pi table tables : domain_of omega n -> distinct_challenges ch -> ch_zeta ch <> 0 -> ch_zeta ch <> 1 -> fpow x n <> 1 ->
  (List.length t <= 8 * n)%nat -> pi_evals pub n = Ok pi -> table_polys omega n table = Ok tables ->
  P_pi P = ifft omega n pi -> P_t P = ifft omega n (map (combined (ch_zeta ch)) (padded_table n table)) ->
  exists pf, prove_evals ca cd omega n k P t ch x = Ok pf /\ forall aw saw,
    (numerator ca cd ch (point_at omega n k P x) = Ok (peval t x * (fpow x n - 1)) -> verify ca cd (Some omega) n k tables pub pf ch x aw saw = Ok tt) /\
    (numerator ca cd ch (point_at omega n k P x) <> Ok (peval t x * (fpow x n - 1)) -> verify ca cd (Some omega) n k tables pub pf ch x aw saw = Err ProofVerificationError).
Proof using fl pl.
  intros D HD Z0 Z1 Hx Lt EP ET EPi EPt. destruct (c77_linearisation omega n k P t ch x D Z0 Z1 Hx) as [lin [pf [u [l1 [lin' [E1 [E2 _]]]]]]].
  unfold prove_evals in E2. rewrite E1 in E2. cbn [obind snd] in E2. clear pf E2. set (pf := mk_proof (P_w P) (P_z P) (P_z2 P) (P_f P) (P_h1 P) (P_h2 P) (split_tx_poly n t) (honest_evals omega k P x)). exists pf. split; [unfold prove_evals; rewrite E1; reflexivity|].
  set (T := ifft omega n (map (combined (ch_zeta ch)) (padded_table n table))) in *.
  assert (polys_of pf (ifft omega n pi) T = P) as EQ by (unfold polys_of, pf; cbn [pf_w pf_z pf_z2 pf_f pf_h1 pf_h2]; rewrite <- EPi, <- EPt; now destruct P).
  intros aw saw. pose proof (honest_right omega k P x) as R. pose proof (verify_right ca cd omega n k table tables pub pi pf ch x _ D HD Hx Z0 Z1 EP (honest_custom omega k P x) ET aw saw) as V.
  fold T in V. rewrite EQ in V. specialize (V R). rewrite V.
  rewrite (lin_gap omega n k pf _ ch x pi T D (pi_length _ _ _ EP) Hx); [|rewrite EQ; exact R|unfold right_sels; cbn; auto].
  rewrite EQ. cbn [pf pf_t]. rewrite parts_split by auto. rewrite numerator_ok by auto. set (nv := num_value ca cd ch (point_at omega n k P x)).
  split.
  - intros H. injection H as H. rewrite H. assert (peval t x * (fpow x n - 1) - (fpow x n - 1) * peval t x = 0) as -> by ring. now rewrite (proj2 (feqb_eq 0 0) eq_refl).
  - intros H. destruct (feqb (nv - (fpow x n - 1) * peval t x) 0) eqn:Q; auto. apply feqb_eq in Q. exfalso. apply H. f_equal. apply fsub_0_eq. rewrite <- Q. ring.
Qed.

Lemma prover_shape omega n c sg ch P : is_power_of_two n = true -> ch_zeta ch <> 0 -> ch_zeta ch <> 1 -> prover_polys omega n c sg ch = Ok P ->
  distinct_challenges ch /\ exists pi, pi_evals (c_pi c) n = Ok pi /\ P_pi P = ifft omega n pi /\ P_t P = ifft omega n (map (combined (ch_zeta ch)) (padded_table n (c_table c))).
Proof using fl.
  intros P2 Z0 Z1 H. unfold prover_polys in H. cbv zeta in H. apply obind_ok in H. destruct H as [ws [_ H]]. apply obind_ok in H. destruct H as [_ [_ H]].
  apply obind_ok in H. destruct H as [[[[t f] h1] h2] [E1 H]]. apply obind_ok in H. destruct H as [b [E2 H]]. apply obind_ok in H. destruct H as [z [_ H]]. apply obind_ok in H. destruct H as [z2 [_ H]].
  apply obind_ok in H. destruct H as [pi [E3 H]]. injection H as <-. cbn [P_pi P_t].
  split; [destruct (distinct_b ch) as [[HD _]|[_ EB]]; [exact HD|rewrite EB in E2; discriminate E2]|].
  destruct (pi_evals (c_pi c) n) as [pi'| |]; [|discriminate E3|discriminate E3]. cbn [lift] in E3. injection E3 as ->. exists pi. split; [reflexivity|]. split; [reflexivity|].
  unfold lookup_round in E1. rewrite table_ok in E1 by auto. cbn [obind] in E1. f_equal.
  match type of E1 with lift ?o = _ => destruct o as [r| |] eqn:EQ; [|discriminate E1|discriminate E1]; cbn [lift] in E1; injection E1 as -> end.
  apply obind_ok in EQ. destruct EQ as [t0 [_ EQ]]. apply obind_ok in EQ. destruct EQ as [f' [_ EQ]]. match type of EQ with match ?o with _ => _ end = _ => destruct o as [[h1' h2']| |]; [|discriminate EQ|discriminate EQ] end. now injection EQ as <- _ _ _.
Qed.
(** Completeness: for a circuit whose values satisfy it and whose table has no repeated row, the proof is accepted, for
    the challenges of the quotient, every point outside the domain, and every pair of opening challenges. *)
Theorem c77_complete c s omega g eta : built c -> sigma_for c s -> domains omega g eta (circuit_bound c) -> NoDup (c_table c) -> honest ca cd c ->
  let n := circuit_bound c in
  exists tables, table_polys omega n (c_table c) = Ok tables /\
  most (3 * (List.length (c_table c) * List.length (c_table c)) + 2) (fun zeta => forall beta, most (4 * n + 1) (fun gamma => most 3 (fun dl => most (2 * n + 3) (fun eps =>
    forall alpha (e : seps F) lk, let ch := mk_chal zeta beta gamma dl eps alpha e lk in
      exists k P t, prove_quotient ca cd omega g (Some eta) n c s ch = Ok (k, P, t) /\
        forall x, fpow x n <> 1 -> exists pf, prove_evals ca cd omega n k P t ch x = Ok pf /\
          forall aw saw, verify ca cd (Some omega) n k tables (c_pi c) pf ch x aw saw = Ok tt)))).
Proof using fl pl odd_field.
  intros B SF DM ND HO n. pose proof DM as [D _]. fold n in D.
  assert (is_power_of_two n = true) as P2 by (apply is_pow2; exact (bound_pow2 c)).
  exists (map (ifft omega n) (table_columns (padded_table n (c_table c)))).
  assert (table_polys omega n (c_table c) = Ok (map (ifft omega n) (table_columns (padded_table n (c_table c))))) as ET by (unfold table_polys; rewrite map_out_cols by auto; reflexivity).
  split; [exact ET|].
  eapply most_weaken; [apply Nat.le_refl| |exact (c76_complete ca cd size chk odd_field c s omega g eta B SF DM ND HO)]. cbv beta. intros zeta HZ beta.
  eapply most_weaken; [apply Nat.le_refl| |exact (HZ beta)]. cbv beta. intros gamma HG. eapply most_weaken; [apply Nat.le_refl| |exact HG]. cbv beta. intros dl HD.
  eapply most_weaken; [apply Nat.le_refl| |exact HD]. cbv beta. intros eps HE alpha e lk ch. destruct (HE alpha e lk) as [k [P [t [EQ [Lt DV]]]]]. fold n in EQ, Lt, DV. fold ch in EQ, DV.
  exists k, P, t. split; [exact EQ|]. intros x Hx.
  destruct (numerator_value ca cd ch _ _ (DV x)) as [_ [Z0 Z1]].
  unfold prove_quotient in EQ. apply obind_ok in EQ. destruct EQ as [k' [_ EQ]]. apply obind_ok in EQ. destruct EQ as [sg [_ EQ]]. apply obind_ok in EQ. destruct EQ as [P' [EP EQ]].
  apply obind_ok in EQ. destruct EQ as [t' [_ EQ]]. injection EQ as -> -> ->.
  destruct (prover_shape omega n c sg ch P P2 Z0 Z1 EP) as [HDC [pi [EPi [HPi HPt]]]].
  destruct (c77_honest omega n k P t ch x (c_pi c) pi (c_table c) (map (ifft omega n) (table_columns (padded_table n (c_table c)))) D HDC Z0 Z1 Hx) as [pf [EF HV]]; auto; [lia|].
  exists pf. split; [exact EF|]. intros aw saw. apply (HV aw saw). apply DV.
Qed.

Lemma parts_poly n m (ts : list (list F)) : (n <= m)%nat -> (forall p, In p ts -> (List.length p <= m)%nat) ->
  exists t, (List.length t <= 8 * m)%nat /\ forall x, peval t x = parts_at ts (fpow x n) x.
Proof using fl.
  clear odd2 odd_field chk size cd ca. intros Hm L. assert (forall i, (List.length (nth i ts []) <= m)%nat) as Ln.
  { intros i. destruct (Nat.lt_ge_cases i (List.length ts)) as [H|H]; [apply L; now apply nth_In|rewrite nth_overflow by auto; cbn; lia]. }
  assert (forall j s, exists t, (List.length t <= (j + 1) * m)%nat /\ forall x, peval t x = peval (map (fun i => peval (nth i ts []) x) (seq s (j + 1))) (fpow x n)) as X.
  { induction j as [|j IH]; intros s.
    - exists (nth s ts []). specialize (Ln s). split; [lia|]. intros x. cbn [Nat.add seq map peval]. ring.
    - destruct (IH (S s)) as [t [Lt Vt]]. exists (padd (nth s ts []) (repeat 0 n ++ t)). split.
      + rewrite padd_length, app_length, repeat_length. specialize (Ln s). nia.
      + intros x. rewrite peval_padd, peval_app, peval_repeat0, repeat_length, Vt. cbn [Nat.add seq map peval]. ring. }
  destruct (X 7%nat 0%nat) as [t [Lt Vt]]. exists t. split; [lia|exact Vt].
Qed.
Lemma most_off (n : nat) : (0 < n)%nat -> most n (fun x : F => fpow x n <> 1).
Proof using fl.
  clear odd2 odd_field chk size cd ca. intros Hn. set (d := (- (1) : F) :: repeat 0 (n - 1) ++ [1]).
  assert (forall y, peval d y = fpow y n - 1) as V.
  { intros y. unfold d. cbn [peval]. rewrite peval_app, peval_repeat0, repeat_length. cbn [peval]. replace n with (S (n - 1)) at 2 by lia. cbn [fpow]. ring. }
  apply (most_intro _ (fun y => (exists i, coef d i <> 0) /\ peval d y = 0)); [apply cnt_roots; unfold d; cbn [List.length]; rewrite app_length, repeat_length; cbn; lia|apply dec_roots|].
  intros x NB E. apply NB. split; [|rewrite V, E; ring]. exists 0%nat. unfold coef, d. cbn [nth]. intros Z. apply f1_neq_0. transitivity (- - (1) : F); [ring|rewrite Z; ring].
Qed.
(** Soundness, for evaluations of selectors that are right: for a circuit that no values satisfy, and a prover that fixes its
    commitments in the order of the protocol, and all evaluations before the opening challenges, the verifier does not
    accept, for most points and opening challenges. *)
Theorem c77_sound c s omega m k pi tables ws : built c -> sigma_for c s -> domain_of omega (circuit_bound c) -> ids_distinct omega (circuit_bound c) ->
  preprocess omega (circuit_bound c) c s = Ok k -> pi_evals (c_pi c) (circuit_bound c) = Ok pi -> table_polys omega (circuit_bound c) (c_table c) = Ok tables ->
  ~ (exists a, satisfies ca cd c a) -> (circuit_bound c <= m)%nat -> (forall col, (List.length (ws col) <= m)%nat) ->
  let n := circuit_bound c in
  most (3 * n) (fun zeta => forall f h1 h2, (List.length f <= m)%nat -> (List.length h1 <= m)%nat -> (List.length h2 <= m)%nat ->
  most (4 * n - 1) (fun beta => most (4 * n - 1) (fun gamma => most (2 * n + 1) (fun dl => most (2 * n - 1) (fun eps => forall z z2, (List.length z <= m)%nat -> (List.length z2 <= m)%nat ->
  most 2 (fun alpha => most_seps (fun (e : seps F) lk => forall ts, (forall p, In p ts -> (List.length p <= m)%nat) ->
  let ch := mk_chal zeta beta gamma dl eps alpha e lk in
  most (9 * m + n) (fun x => forall ev, (forall u, read_custom (e_custom ev) = Ok u :> outcome verify_error (custom F) -> right_sels k x u) ->
  most 10 (fun aw => most 6 (fun saw => verify ca cd (Some omega) n k tables (c_pi c) (mk_proof ws z z2 f h1 h2 ts ev) ch x aw saw <> Ok tt)))))))))).
Proof using fl pl odd_field.
  intros B SF D ID EK EP ET NS Hm LW n.
  eapply most_weaken; [apply Nat.le_refl| |exact (c76_sound ca cd size chk odd_field c s omega m k pi ws B SF D ID EK EP NS Hm LW)]. fold n in D, EK, EP, ET, Hm |- *. cbv beta. intros zeta HZ f h1 h2 Lf L1 L2.
  eapply most_weaken; [apply Nat.le_refl| |exact (HZ f h1 h2 Lf L1 L2)]. cbv beta. intros beta HB. eapply most_weaken; [apply Nat.le_refl| |exact HB]. cbv beta. intros gamma HG.
  eapply most_weaken; [apply Nat.le_refl| |exact HG]. cbv beta. intros dl HD. eapply most_weaken; [apply Nat.le_refl| |exact HD]. cbv beta. intros eps HE z z2 Lz Lz2.
  eapply most_weaken; [apply Nat.le_refl| |exact (HE z z2 Lz Lz2)]. cbv beta. intros alpha HA.
  eapply most_weaken; [apply Nat.le_refl| |exact HA]. cbv beta. intros r HR. eapply most_weaken; [apply Nat.le_refl| |exact HR]. cbv beta. intros l HL.
  eapply most_weaken; [apply Nat.le_refl| |exact HL]. cbv beta. intros f0 HF. eapply most_weaken; [apply Nat.le_refl| |exact HF]. cbv beta. intros v HV.
  eapply most_weaken; [apply Nat.le_refl| |exact HV]. cbv beta. intros lk H ts Lts ch.
  destruct (parts_poly n m ts Hm Lts) as [t [Lt Vt]].
  assert (forall x y, numerator ca cd ch (point_at omega n k (mk_polys ws (ifft omega n pi) z z2 f (ifft omega n (map (combined zeta) (padded_table n (c_table c)))) h1 h2) x) <> Ok y \/
    ~ numerator ca cd ch (point_at omega n k (mk_polys ws (ifft omega n pi) z z2 f (ifft omega n (map (combined zeta) (padded_table n (c_table c)))) h1 h2) x) <> Ok y) as D1.
  { intros x y. destruct (numerator ca cd ch _) as [y'| |]; [|left; discriminate|left; discriminate].
    destruct (feq_dec y' y) as [->|NE]; [right; intros X; now apply X|left; intros E; injection E as E; contradiction]. }
  assert (forall x : F, fpow x n <> 1 \/ ~ fpow x n <> 1) as D2 by (intros x; destruct (feq_dec (fpow x n) 1); [right; tauto|now left]).
  eapply most_weaken; [apply Nat.le_refl| |exact (most_and _ n _ _ (fun x => D1 x _) D2 (H t Lt) (most_off n (proj1 D)))].
  cbv beta. intros x [NN Hx] ev HS. set (pf := mk_proof ws z z2 f h1 h2 ts ev).
    destruct (verify_outcomes ca cd omega n k tables (c_pi c) pf ch x 0 0 D) as [[_ HP]|[_ [HDC [N1 [Z0 [Z1 [HLb [l1 [pi' [u [lin [_ [_ [EU _]]]]]]]]]]]]]].
    + apply most_always. intros aw. apply most_always. intros saw E.
      destruct (verify_outcomes ca cd omega n k tables (c_pi c) pf ch x aw saw D) as [[E' _]|[_ [HDC [N1 [Z0 [Z1 [HLb [l1 [pi' [u [lin [_ [EP' _]]]]]]]]]]]]]; [rewrite E in E'; discriminate E'|].
      destruct HP as [HP|[HP|[HP|[[a [Ha HP]]|HP]]]]; [auto|auto|exact (HP _ EP')|auto|tauto].
    + apply (verify_wrong ca cd omega n k (c_table c) tables (c_pi c) pi pf ch x u D HDC Hx Z0 Z1 EP EU ET). intros [R G].
      rewrite (lin_gap omega n k pf u ch x pi _ D (pi_length _ _ _ EP) Hx R (HS u EU)) in G. cbn [pf pf_t] in G. rewrite <- Vt in G.
      apply NN. fold ch. rewrite numerator_ok by auto. f_equal. apply fsub_0_eq.
      change (num_value ca cd ch (point_at omega n k (mk_polys ws (ifft omega n pi) z z2 f (ifft omega n (map (combined zeta) (padded_table n (c_table c)))) h1 h2) x) - (fpow x n - 1) * peval t x = 0) in G.
      etransitivity; [|exact G]. ring.
Qed.

(** The hypothesis about the selectors cannot be dropped. The verifier multiplies with the evaluation of q_arith that the
    proof contains, and opens no commitment to q_arith. So there is an accepted proof for every circuit, satisfiable or
    not; all other evaluations are right, and all commitments are fixed in advance. *)
Theorem c77_selector_evals_refuted c s omega k pi tables ch : built c -> domain_of omega (circuit_bound c) -> preprocess omega (circuit_bound c) c s = Ok k ->
  pi_evals (c_pi c) (circuit_bound c) = Ok pi -> table_polys omega (circuit_bound c) (c_table c) = Ok tables -> distinct_challenges ch -> ch_zeta ch <> 0 -> ch_zeta ch <> 1 ->
  let n := circuit_bound c in
  let w col := match col with Left => [1] | _ => [] end in
  most (2 * n) (fun x => exists ev, forall aw saw, verify ca cd (Some omega) n k tables (c_pi c) (mk_proof w [] [] [] [] [] [] ev) ch x aw saw = Ok tt).
Proof using fl pl odd_field.
  intros B D EK EP ET HD Z0 Z1 n w. fold n in D, EK, EP, ET. pose proof (built_wf ca cd size chk odd2 c B) as W. assert (0 < n)%nat as Hn by apply D.
  destruct (key_at omega n D c s k EK) as [sg [_ [HK [KS _]]]].
  set (T := ifft omega n (map (combined (ch_zeta ch)) (padded_table n (c_table c)))).
  set (P := mk_polys w (ifft omega n pi) [] [] [] T [] []).
  set (d := padd (q_l (k_sel k)) (padd (q_hl (k_sel k)) (q_c (k_sel k)))).
  assert (forall y, arith_at (k_sel k) 1 0 0 0 y = peval d y) as VA.
  { intros y. unfold arith_at, d. rewrite !peval_padd. rewrite !fpow_1_l. cbn [fpow]. ring. }
  assert (peval d (fpow omega 0) = 1) as V0.
  { unfold d. rewrite !peval_padd. pose proof (KS 0%nat Hn) as K0. destruct (wf_row0 _ W) as [R0 _]. rewrite R0 in K0.
    pose proof (f_equal (fun q => q_l q) K0) as Q1. pose proof (f_equal (fun q => q_hl q) K0) as Q2. pose proof (f_equal (fun q => q_c q) K0) as Q3.
    unfold at_gates, sel_map, arith_sel in Q1, Q2, Q3. cbn [q_l q_hl q_c] in Q1, Q2, Q3. rewrite Q1, Q2, Q3. ring. }
  assert (List.length d <= n - 1 + 1)%nat as Ld.
  { destruct HK as [HK _]. unfold sel_all in HK. destruct HK as [_ [L1 [_ [_ [_ [L2 [L3 _]]]]]]]. unfold d. rewrite !padd_length. lia. }
  assert (exists i, coef d i <> 0) as NZ.
  { destruct (nonzero_dec d) as [H|H]; auto. exfalso. apply f1_neq_0. rewrite <- V0. apply peval_over. exact H. }
  eapply (most_weaken (n - 1 + n)); [lia| |apply (most_and (n - 1) n (fun x => ~ ((exists i, coef d i <> 0) /\ peval d x = 0)) (fun x => fpow x n <> 1));
    [intros x; destruct (dec_roots d x); [right; tauto|now left]|intros x; destruct (feq_dec (fpow x n) 1); [right; tauto|now left]
    |apply (most_intro _ (fun x => (exists i, coef d i <> 0) /\ peval d x = 0)); [now apply cnt_roots|apply dec_roots|auto]|apply most_off; exact Hn]].
  cbv beta. intros x [NR Hx]. assert (peval d x <> 0) as NA by (intros E; apply NR; auto).
  set (l1 := peval (l1_poly omega n) x).
  set (cu qa := mk_custom qa (peval (q_c (k_sel k)) x) (peval (q_l (k_sel k)) x) (peval (q_r (k_sel k)) x) 1 0 0).
  set (ev qa := mk_evals 1 0 0 0 (peval (k_sigma k Left) x) (peval (k_sigma k Right) x) (peval (k_sigma k Output) x) 0 0 0 0 0 0 0 (peval T x) (peval T (x * omega))
    [("q_arith_eval", qa); ("q_c_eval", peval (q_c (k_sel k)) x); ("q_l_eval", peval (q_l (k_sel k)) x); ("q_r_eval", peval (q_r (k_sel k)) x); ("a_next_eval", 1); ("b_next_eval", 0); ("d_next_eval", 0)]%string).
  set (pf qa := mk_proof w [] [] [] [] [] [] (ev qa)).
  set (R := gap ca cd omega n k pi (pf 0) ch x (cu 0)).
  set (qa := - R * finv (peval d x)).
  exists (ev qa). intros aw saw. change (mk_proof w [] [] [] [] [] [] (ev qa)) with (pf qa).
  rewrite (verify_right ca cd omega n k (c_table c) tables (c_pi c) pi (pf qa) ch x (cu qa) D HD Hx Z0 Z1 EP); [|reflexivity|exact ET|].
  - assert (gap ca cd omega n k pi (pf qa) ch x (cu qa) = 0) as ->; [|now rewrite (proj2 (feqb_eq 0 0) eq_refl)].
    assert (gap ca cd omega n k pi (pf qa) ch x (cu qa) = qa * peval d x + R) as ->; [|unfold qa; field; exact NA].
    unfold R, gap, lin_at. cbn [pf pf_evals pf_t pf_z pf_z2 pf_h1]. cbn [ev e_a e_b e_c e_d]. rewrite VA. cbn [cu u_qarith].
    change (rest_at ca cd (ev qa) (cu qa) ch k x) with (rest_at ca cd (ev 0) (cu 0) ch k x).
    change (lookup_at (ev qa)) with (lookup_at (ev 0)). change (perm_at (ev qa)) with (perm_at (ev 0)). change (compute_r0 omega n pi ch x (peval (l1_poly omega n) x) (ev qa)) with (compute_r0 omega n pi ch x (peval (l1_poly omega n) x) (ev 0)). ring.
  - unfold right_evals. cbn [polys_of pf pf_w pf_z pf_z2 pf_f pf_h1 pf_h2 P_w P_z P_z2 P_f P_t P_h1 P_h2 pf_evals ev cu e_a e_b e_c e_d e_sl e_sr e_so e_perm e_z2n e_h1n e_h2 e_f e_t e_tn u_an u_bn u_dn w peval].
    repeat split; ring.
Qed.

(** The evaluations of the table are not in the transcript (proof.rs:222-263) when the first opening challenge is taken. With the
    evaluation of the table chosen after that challenge, and with all other evaluations right, there is an accepted
    proof for every circuit, whatever the wires and the other polynomials are. *)
Theorem c77_table_eval_refuted omega n k table tables pub pi ch ws z f h1 h2 ts x : domain_of omega n -> pi_evals pub n = Ok pi -> table_polys omega n table = Ok tables ->
  distinct_challenges ch -> ch_zeta ch <> 0 -> ch_zeta ch <> 1 -> fpow x n <> 1 ->
  let P := mk_polys ws (ifft omega n pi) z [] f (ifft omega n (map (combined (ch_zeta ch)) (padded_table n table))) h1 h2 in
  forall aw saw, aw <> 0 -> exists t, verify ca cd (Some omega) n k tables pub (mk_proof ws z [] f h1 h2 ts (set_table_eval (honest_evals omega k P x) t)) ch x aw saw = Ok tt.
Proof using fl pl.
  intros D EP ET HD Z0 Z1 Hx P aw saw NA. set (T := ifft omega n (map (combined (ch_zeta ch)) (padded_table n table))) in P.
  set (u := mk_custom (peval (q_arith (k_sel k)) x) (peval (q_c (k_sel k)) x) (peval (q_l (k_sel k)) x) (peval (q_r (k_sel k)) x)
    (peval (ws Left) (x * omega)) (peval (ws Right) (x * omega)) (peval (ws Fourth) (x * omega))).
  set (ev t := set_table_eval (honest_evals omega k P x) t).
  set (pf t := mk_proof ws z [] f h1 h2 ts (ev t)). set (G := gap ca cd omega n k pi (pf 0) ch x u).
  set (t := peval T x + G * finv (fpow aw 6)). exists t. change (verify ca cd (Some omega) n k tables pub (pf t) ch x aw saw = Ok tt).
  destruct (verify_run2 ca cd omega n k tables pub pi (pf t) ch x u D HD Hx Z0 Z1 EP eq_refl aw saw) as [lin [EL ->]].
  assert (check1 k tables (pf t) ch x lin (compute_r0 omega n pi ch x (peval (l1_poly omega n) x) (pf_evals (pf t))) aw = true) as ->.
  - unfold check1, pc_check. cbn [map]. rewrite (table_poly omega n table tables (ch_zeta ch) D ET), EL. fold T. apply feqb_eq.
    assert (lin_at ca cd n k (pf t) u ch x (peval (l1_poly omega n) x) x = G - compute_r0 omega n pi ch x (peval (l1_poly omega n) x) (ev 0)) as ->.
    { unfold G, gap. cbn [pf pf_evals]. assert (lin_at ca cd n k (pf t) u ch x (peval (l1_poly omega n) x) x = lin_at ca cd n k (pf 0) u ch x (peval (l1_poly omega n) x) x) as ->; [|ring].
      unfold lin_at, lookup_at. cbn [pf pf_z2 pf_evals peval ev set_table_eval e_f e_a e_b e_c e_d e_z2n e_h2 e_h1n pf_h1 pf_t pf_z]. cbv zeta. 
      change (rest_at ca cd (ev t)) with (rest_at ca cd (ev 0)). change (perm_at (ev t)) with (perm_at (ev 0)). ring. }
    change (compute_r0 omega n pi ch x (peval (l1_poly omega n) x) (pf_evals (pf t))) with (compute_r0 omega n pi ch x (peval (l1_poly omega n) x) (ev 0)).
    cbn [pf pf_evals pf_f pf_h2 pf_w ev set_table_eval e_sl e_sr e_so e_f e_h2 e_t e_a e_b e_c e_d honest_evals P P_w P_f P_h2]. unfold t. cbn [peval]. set (r0 := compute_r0 _ _ _ _ _ _ _).
    cbn [fpow]. field. exact NA.
  - assert (check2 omega tables (pf t) ch x u saw = true) as ->; [|reflexivity]. unfold check2. apply pc_true. cbn [map]. rewrite (table_poly omega n table tables (ch_zeta ch) D ET). reflexivity.
Qed.

(** Nor is the order of z_2: if it is chosen when all challenges but the point are known, as the transcript allows, there is
    an accepted proof with right evaluations for every circuit, whatever the wires and z are. *)
Theorem c77_z2_refuted c s omega g eta k pi tables ws z : built c -> domains omega g eta (circuit_bound c) ->
  preprocess omega (circuit_bound c) c s = Ok k -> pi_evals (c_pi c) (circuit_bound c) = Ok pi -> table_polys omega (circuit_bound c) (c_table c) = Ok tables ->
  (forall col, (List.length (ws col) <= circuit_bound c)%nat) -> (List.length z <= circuit_bound c)%nat ->
  let n := circuit_bound c in
  forall zeta beta gamma dl, zeta <> 0 -> zeta <> 1 -> dl <> - (1) -> most (n + 1) (fun eps => forall alpha (sp : seps F), most 2 (fun lk =>
    let ch := mk_chal zeta beta gamma dl eps alpha sp lk in distinct_challenges ch ->
    exists z2 ts, forall x, fpow x n <> 1 -> exists ev u, read_custom (e_custom ev) = Ok u :> outcome verify_error (custom F) /\ right_sels k x u /\
      forall aw saw, verify ca cd (Some omega) n k tables (c_pi c) (mk_proof ws z z2 [] [] [] ts ev) ch x aw saw = Ok tt)).
Proof using fl pl.
  intros B DM EK EP ET LW Lz n zeta beta gamma dl N0 N1 ND. pose proof DM as [D _]. fold n in D, ET, EP.
  eapply most_weaken; [apply Nat.le_refl| |exact (c76_z2_refuted ca cd size chk c s omega g eta k pi ws z B DM EK EP LW Lz zeta beta gamma dl N0 N1 ND)]. cbv beta. intros eps HE alpha sp.
  eapply most_weaken; [apply Nat.le_refl| |exact (HE alpha sp)]. cbv beta. intros lk [z2 [t [L2 [_ [Lt DV]]]]] ch HD. fold n in L2, Lt, DV. fold ch in DV.
  set (P := mk_polys ws (ifft omega n pi) z z2 [] (ifft omega n (map (combined zeta) (padded_table n (c_table c)))) [] []) in *.
  exists z2, (split_tx_poly n t). intros x Hx.
  destruct (c77_honest omega n k P t ch x (c_pi c) pi (c_table c) tables D HD N0 N1 Hx) as [pf [EF HV]]; auto; [lia|].
  destruct (c77_linearisation omega n k P t ch x D N0 N1 Hx) as [lin [pf' [u [l1 [lin' [E1 _]]]]]]. unfold prove_evals in EF. rewrite E1 in EF. cbn [obind snd] in EF. injection EF as <-.
  exists (honest_evals omega k P x). eexists. split; [apply honest_custom|]. split; [unfold right_sels; cbn; auto|]. intros aw saw. apply (HV aw saw). apply DV.
Qed.

(** Without a domain there is an error; with one, the verifier panics exactly on challenges that coincide, the point 1,
    zeta 0 or 1, public inputs outside the domain, and a proof in which a label is missing. *)
Theorem c77_panics omega n k tables pub pf ch x aw saw :
  verify ca cd None n k tables pub pf ch x aw saw = Err NoDomain /\
  (domain_of omega n -> (verify ca cd (Some omega) n k tables pub pf ch x aw saw = Panic <->
    ~ distinct_challenges ch \/ x = 1 \/ (forall pi, pi_evals pub n <> Ok pi) \/ (exists a, In a labels /\ ~ In a (map fst (e_custom (pf_evals pf)))) \/ ch_zeta ch = 0 \/ ch_zeta ch = 1)).
Proof using fl pl.
  split; [reflexivity|]. intros D. destruct (verify_outcomes ca cd omega n k tables pub pf ch x aw saw D) as [[E H]|[N [HD [N1 [Z0 [Z1 [HL [l1 [pi [u [lin [_ [EP _]]]]]]]]]]]]].
  - split; auto.
  - split; [contradiction|]. intros [H|[H|[H|[[a [Ha H]]|[H|H]]]]]; exfalso; auto. exact (H _ EP).
Qed.
End S.

(** *** Example: the two circuits of C76 *)
(** The hypotheses of completeness hold for the first circuit (c76_example), and those of soundness and of the three
    counterexamples for the second. *)
Lemma run77 : feqb (fpow (f193 5) 8) 1 = false.
Proof. vm_compute. reflexivity. Qed.
Example c77_example : (3 < modulus (F:=F193))%Z /\ exists c s k pi tables, built (f193 1) (f193 2) 7 any193 c /\ sigma_for c s /\ domains (f193 43) (f193 5) (f193 125) (circuit_bound c) /\
    ids_distinct (f193 43) (circuit_bound c) /\ preprocess (f193 43) (circuit_bound c) c s = Ok k /\ pi_evals (c_pi c) (circuit_bound c) = Ok pi /\
    table_polys (f193 43) (circuit_bound c) (c_table c) = Ok tables /\ ~ (exists a, satisfies (f193 1) (f193 2) c a) /\
    distinct_challenges chal76 /\ ch_zeta chal76 <> 0 /\ ch_zeta chal76 <> 1 /\ fpow (f193 5) (circuit_bound c) <> 1.
Proof.
  split; [reflexivity|]. pose proof run76 as R. apply andb_prop in R. destruct R as [_ R1]. destruct domains76 as [DM ID].
  destruct (run_circuit76_ok _ _ R1) as [c [s [k [pi [E [EB [ET [SF [EK [EP _]]]]]]]]]]. destruct (circuit76_ok _ _ E) as [B [H _]].
  exists c, s, k, pi, (map (ifft (f193 43) 8) (table_columns (padded_table 8 (c_table c)))). rewrite EB. split; [exact B|]. split; [exact SF|]. split; [exact DM|]. split; [exact ID|]. split; [exact EK|]. split; [exact EP|].
  split; [unfold table_polys; rewrite map_out_cols by (vm_compute; exact eq_refl); exact eq_refl|].
  split; [intros [a Ha]; apply H in Ha; revert Ha; apply neq193; vm_compute; exact eq_refl|].
  split; [unfold distinct_challenges, chal76; cbn [ch_beta ch_gamma ch_delta ch_eps]; repeat split; apply neq193; vm_compute; exact eq_refl|].
  split; [apply neq193; vm_compute; exact eq_refl|]. split; [apply neq193; vm_compute; exact eq_refl|]. apply neq193. exact run77.
Qed.

Print Assumptions c77_linearisation.
Print Assumptions c77_honest.
Print Assumptions c77_complete.
Print Assumptions c77_sound.
Print Assumptions c77_selector_evals_refuted.
Print Assumptions c77_table_eval_refuted.
Print Assumptions c77_z2_refuted.
Print Assumptions c77_panics.
Print Assumptions c77_example.

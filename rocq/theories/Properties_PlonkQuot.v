(** Properties_PlonkQuot.v: the quotient polynomial of plonk-core (C76). *)
From Verif Require Import Base Spec Tools ToolsProofs KZG IntProofs SnarkProofs SoundSpec Sound Plonk PlonkSpec PlonkProofs PlonkBuilt Properties_Plonk PlonkPI PlonkPIProofs PlonkSigmaSpec PlonkCopy
  Properties_PlonkWires PlonkProver PlonkGPSpec PlonkGP Properties_PlonkPerm PlonkGatesSpec PlonkGates Properties_PlonkGates PlonkLookupSpec PlonkLookup PlonkLookup4 Properties_PlonkLookup
  PlonkQuot PolyDom PlonkQuotSpec PlonkQuotProofs PlonkQuot2 PlonkQuot3 PlonkQuot4 PlonkRows.
From Coq Require Import Permutation Znumtheory.
Local Open Scope F_scope.

(** The domain of size n is generated by omega, the domain of size 8 n by eta, and g is in no coset of size 8 n
    in which it would have to be one. *)
Definition domains {F} {fo : FieldOps F} (omega g eta : F) (n : nat) : Prop :=
  domain_of omega n /\ domain_of eta (8 * n) /\ fpow eta 8 = omega /\ g <> 0 /\ fpow g (8 * n) <> 1.

Section S.
Context {F : Type} {fo : FieldOps F} {fl : FieldLaws F} {po : PrimeFieldOps F} {pl : PrimeFieldLaws F}.
Add Field Fc76 : F_th.
Variables (ca cd : F) (size : nat) (chk : F * F -> bool).
Notation built := (built ca cd size chk).
Implicit Types (c : composer F) (ws : column -> list F) (k : key F) (P : polys F) (ch : chal F).
Hypothesis odd_field : (3 < modulus (F:=F))%Z.
Let odd2 : (2 < modulus (F:=F))%Z. Proof. lia. Qed.

(** The Fourier transforms: interpolation on the domain and on its coset. *)
Theorem c76_ifft omega n (v : list F) : domain_of omega n -> length (ifft omega n v) = n /\
  (forall i, (i < n)%nat -> peval (ifft omega n v) (fpow omega i) = nth i v 0) /\
  forall l, (length l <= n)%nat -> (forall i, (i < n)%nat -> peval l (fpow omega i) = nth i v 0) -> forall x, peval l x = peval (ifft omega n v) x.
Proof using fl pl.
  intros D. split; [apply ifft_length|]. split; [intros i Hi; now apply ifft_value|]. intros l L H. apply (poly_agree n _ _ (map (fpow omega) (seq 0 n))); auto.
  - rewrite ifft_length. auto.
  - apply D.
  - rewrite map_length, seq_length. auto.
  - intros x Hx. apply in_map_iff in Hx. destruct Hx as [i [<- Hi]]. apply in_seq in Hi. rewrite H, ifft_value by (auto; lia). reflexivity.
Qed.
(** The quotient: if the numerator vanishes at every gate, the result is the exact quotient by X^n - 1, with at most
    8 n coefficients; there is an error exactly if there is no domain of size 8 n. *)
Theorem c76_quotient omega g eta n ch k P : domains omega g eta n -> key_sized n k -> polys_sized n P ->
  (vanishes ca cd omega n ch k P <-> exists t, quotient ca cd omega g (Some eta) n ch k P = Ok t /\ length t = (8 * n)%nat /\ divides ca cd omega n ch k P t) /\
  (vanishes ca cd omega n ch k P <-> exists t, divides ca cd omega n ch k P t) /\
  quotient ca cd omega g None n ch k P = Err InvalidEvalDomainSize.
Proof using fl pl.
  intros [D [D8 [E8 [G0 G8]]]] HK HP.
  assert ((exists t, divides ca cd omega n ch k P t) -> vanishes ca cd omega n ch k P) as X.
  { intros [t H] i Hi. rewrite H. f_equal. destruct D as [_ [E _]]. rewrite <- fpow_mul, Nat.mul_comm, fpow_mul, E, fpow_1_l. ring. }
  split; [|split; [|reflexivity]]; split.
  - intros V. now apply quotient_exact.
  - intros [t [_ [_ H]]]. apply X. eauto.
  - intros V. destruct (quotient_exact ca cd omega g eta n D D8 E8 G0 G8 ch k P HK HP V) as [t [_ [_ H]]]. eauto.
  - exact X.
Qed.
Lemma skipn_add {A} a b (l : list A) : skipn a (skipn b l) = skipn (b + a) l.
Proof using. revert l. induction b as [|b IH]; intros l; [reflexivity|]. destruct l as [|x l]; [now destruct a|]. cbn. apply IH. Qed.
(** The eight parts give the quotient back. *)
Theorem c76_split n (t : list F) : (length t <= 8 * n)%nat -> length (split_tx_poly n t) = 8%nat /\ (forall p, In p (split_tx_poly n t) -> length p = n) /\
  forall x, peval t x = peval (map (fun p => peval p x) (split_tx_poly n t)) (fpow x n).
Proof using fl.
  clear odd2 odd_field. intros L. unfold split_tx_poly. set (buf := firstn (8 * n) t ++ repeat 0 (8 * n - length t)).
  assert (length buf = (8 * n)%nat) as Lb by (unfold buf; rewrite app_length, firstn_length, repeat_length; lia).
  split; [reflexivity|]. split.
  - intros p Hp. apply in_map_iff in Hp. destruct Hp as [j [<- Hj]]. apply in_seq in Hj. rewrite firstn_length, skipn_length, Lb. nia.
  - intros x. assert (peval t x = peval buf x) as -> by (unfold buf; rewrite firstn_all2, peval_app, peval_repeat0 by auto; ring).
    assert (forall m b, length b = (m * n)%nat -> peval b x = peval (map (fun j => peval (firstn n (skipn (j * n) b)) x) (seq 0 m)) (fpow x n)) as X.
    { clear - fl. induction m as [|m IH]; intros b Lb.
      - destruct b; [reflexivity|discriminate Lb].
      - cbn [seq map peval]. rewrite <- (firstn_skipn n b) at 1. rewrite peval_app, firstn_length, Nat.min_l by (rewrite Lb; lia).
        rewrite (IH (skipn n b)) by (rewrite skipn_length, Lb; lia). cbn [skipn Nat.mul]. f_equal. f_equal. rewrite <- seq_shift, map_map. f_equal.
        apply map_ext. intros j. f_equal. f_equal. apply skipn_add. }
    rewrite (X 8%nat buf Lb), map_map. reflexivity.
Qed.

(** *** The whole prover, up to the quotient *)
Lemma most_and a1 a2 (A B : F -> Prop) : (forall x, A x \/ ~ A x) -> (forall x, B x \/ ~ B x) -> most a1 A -> most a2 B -> most (a1 + a2) (fun x => A x /\ B x).
Proof using.
  clear odd2 odd_field chk size cd ca.
  intros DA DB MA MB. apply (most_intro _ (fun x => ~ A x \/ ~ B x)).
  - apply cnt_or; [intros x; destruct (DA x); [right|left]; tauto|exact MA|exact MB].
  - intros x. destruct (DA x), (DB x); tauto.
  - intros x H. destruct (DA x), (DB x); tauto.
Qed.
Lemma most_neq (a : F) : most 1 (fun x => x <> a).
Proof using fl. apply (most_intro _ (fun x => x = a)); [apply cnt_eq|intros x; destruct (feq_dec x a); auto|auto]. Qed.
Lemma neq_dec (a x : F) : x <> a \/ ~ x <> a.
Proof using fl. clear odd2 odd_field chk size cd ca. destruct (feq_dec x a); [right; intros H; now apply H|now left]. Qed.
Lemma ok_dec {E A} (o : outcome E A) : (exists z, o = Ok z) \/ ~ (exists z, o = Ok z).
Proof using. destruct o as [a|e|]; [left; eauto|right|right]; intros [z H]; discriminate H. Qed.

Definition qs_of n c : list F := map q_lookup (c_sel c) ++ repeat 0 (n - length (c_sel c)).
Lemma honest_setup c s omega : built c -> sigma_for c s -> domain_of omega (circuit_bound c) -> honest ca cd c ->
  let n := circuit_bound c in
  exists k sg ws, preprocess omega n c s = Ok k /\ compute_sigma_polynomials omega n s = Ok sg /\ (forall col, length (sg col) = n) /\
    prover_wires n c = Ok ws /\ (forall col, length (ws col) = n) /\ copies s n (at_wire ws) /\ rows_hold ca cd c n (at_wire ws) /\
    length (qs_of n c) = n /\ (length (c_sel c) <= n)%nat /\ (forall i, nth i (qs_of n c) 0 = q_lookup (sel_at c i)) /\
    (forall i, (i < n)%nat -> nth i (qs_of n c) 0 <> 0 -> In (wire_row ws i) (c_table c) \/ c_table c = [] /\ wire_row ws i = (0, 0, 0, 0)).
Proof using fl pl odd_field.
  intros B SF D HO n. fold n in D. pose proof (built_wf ca cd size chk odd2 c B) as W. pose proof (bound_ge c) as BG. fold n in BG.
  destruct (c73_sigma_values ca cd size chk c s omega B SF) as [sg [ES [LS _]]]. fold n in ES, LS.
  destruct (preprocess omega n c s) as [k|e0|] eqn:EK; [|unfold preprocess in EK; rewrite ES in EK; discriminate EK|unfold preprocess in EK; rewrite ES in EK; discriminate EK].
  assert (values c (c_zero c) = 0) as Z0 by (eapply satisfies_zero; eauto).
  destruct (prover_wires_ok n c W BG Z0) as [ws [EW [LW VW]]].
  assert (length (c_sel c) <= n)%nat as LSel by (rewrite (wf_sel _ W); exact BG).
  assert (length (qs_of n c) = n) as LQ by (unfold qs_of; rewrite app_length, map_length, repeat_length; lia).
  assert (forall i, nth i (qs_of n c) 0 = q_lookup (sel_at c i)) as VQ.
  { intros i. unfold qs_of, sel_at. destruct (Nat.lt_ge_cases i (length (c_sel c))) as [H|H].
    - rewrite app_nth1 by (rewrite map_length; auto). change (0 : F) with (q_lookup (no_sel : sel F)) at 1. apply map_nth.
    - rewrite app_nth2 by (rewrite map_length; auto). rewrite nth_repeat, nth_overflow by auto. reflexivity. }
  assert (rows_hold ca cd c n (at_wire ws)) as RH.
  { pose proof (proj1 (vars_rows ca cd c (values c)) HO) as R. intros i Hi. specialize (R i Hi). cbv zeta in *. unfold at_wire. rewrite !VW. exact R. }
  assert (copies s n (at_wire ws)) as CP.
  { destruct SF as [maps [PM EM]]. destruct (c72_complete ca cd size chk c maps s (values c) B PM EM HO) as [_ C]. intros p Hp. specialize (C p Hp). unfold at_wire. rewrite !VW. exact C. }
  pose proof (proj1 (c74_split ca cd c n (at_wire ws)) RH) as GL.
  exists k, sg, ws. repeat (split; [first [assumption|reflexivity]|]). intros i Hi Q. rewrite VQ in Q. destruct (GL i Hi) as [_ L]. exact (L Q).
Qed.
(** For a circuit whose values satisfy it the prover computes the exact quotient, whenever it does not panic before, delta
    is not -1 and the rows of the table are different after compression. *)
Theorem c76_exact c s omega g eta k sg ch P : built c -> sigma_for c s -> domains omega g eta (circuit_bound c) -> honest ca cd c ->
  let n := circuit_bound c in
  preprocess omega n c s = Ok k -> compute_sigma_polynomials omega n s = Ok sg -> prover_polys omega n c sg ch = Ok P ->
  NoDup (map (combined (ch_zeta ch)) (c_table c)) -> ch_delta ch <> - (1) ->
  exists t, quotient ca cd omega g (Some eta) n ch k P = Ok t /\ length t = (8 * n)%nat /\ divides ca cd omega n ch k P t.
Proof using fl pl odd_field.
  intros B SF DM HO n EK ES EPP ND ND3. pose proof DM as [D [D8 [E8 [G0 G8]]]]. fold n in D, D8, G8. assert (0 < n)%nat as Hn by apply D.
  destruct (honest_setup c s omega B SF D HO) as [k' [sg' [ws [EK' [ES' [LS [EW [LW [CP [RH [LQ [LSel [VQ LK]]]]]]]]]]]]]. fold n in EK', ES', LS, EW, LW, CP, RH, LQ, LSel, VQ, LK.
  rewrite EK in EK'. injection EK' as <-. rewrite ES in ES'. injection ES' as <-. set (qs := qs_of n c) in *.
  destruct (key_at omega n D c s k EK) as [sg' [ES' [HK [KS KG]]]]. rewrite ES in ES'. injection ES' as <-.
  assert (is_power_of_two n = true) as P2 by (apply is_pow2; exact (bound_pow2 c)).
  pose proof (proj1 (c74_split ca cd c n (at_wire ws)) RH) as GL.
  destruct ch as [zeta beta gamma dl eps alpha e lk]. set (ch := mk_chal zeta beta gamma dl eps alpha e lk) in *. cbn [ch ch_zeta ch_delta] in ND, ND3.
  unfold prover_polys in EPP. cbn [ch ch_zeta ch_beta ch_gamma ch_delta ch_eps] in EPP. rewrite EW in EPP. cbn [lift obind] in EPP.
  destruct (Nat.leb_spec (length (c_sel c)) n) as [_|]; [|lia]. cbn [assert_ obind] in EPP. fold (qs_of n c) in EPP. fold qs in EPP.
  assert (zeta <> 0 /\ zeta <> 1) as [N0 N1].
  { destruct (c75_round n (c_table c) qs ws zeta P2 (bound_table c) LQ LW) as [X _]. split; intros E; rewrite X in EPP by auto; discriminate EPP. }
  destruct (complete_at n (c_table c) qs ws zeta P2 (bound_table c) LQ LW LK N0 N1 ND) as [t [f [h1 [h2 [ER HL]]]]].
  destruct (c75_round n (c_table c) qs ws zeta P2 (bound_table c) LQ LW) as [_ X]. destruct (X N0 N1) as [_ Y].
  destruct Y as [f' [h1' [h2' [E' [Lt [Lf [L1 [L2 [_ VF]]]]]]]]]; [intros i Hi Q; apply in_map; apply (padded_in n); apply LK; auto|].
  rewrite ER in E'. injection E' as -> -> -> ->. set (t := map (combined zeta) (padded_table n (c_table c))) in *. rename f' into f, h1' into h1, h2' into h2.
  rewrite ER in EPP. cbn [lift obind] in EPP. apply obind_ok in EPP. destruct EPP as [_ [_ EPP]].
  destruct (compute_permutation_poly omega n ws beta gamma sg) as [z| |] eqn:EZ; [|discriminate EPP|discriminate EPP]. cbn [lift obind] in EPP.
  destruct (compute_lookup_permutation_poly n f t h1 h2 dl eps) as [z2| |] eqn:EZ2; [|discriminate EPP|discriminate EPP]. cbn [lift obind] in EPP.
  destruct (pi_evals (c_pi c) n) as [pi| |] eqn:EPi; [|discriminate EPP|discriminate EPP]. cbn [lift obind] in EPP. injection EPP as EPP.
  apply (proj1 (c71_evals (c_pi c) n pi (proj1 (c71_circuit ca cd size chk c B)))) in EPi. destruct EPi as [_ [_ ->]]. set (pi := map (pi_get (c_pi c)) (seq 0 n)) in *.
  assert (1 + dl <> 0) as ND4 by (intros E; apply ND3; transitivity (1 + dl - 1); [ring|rewrite E; ring]).
  destruct (HL dl eps z2 ND4 EZ2) as [LZ2 HZ2]. destruct (c73_complete ca cd size chk c s omega sg ws beta gamma z B SF ES LW CP EZ) as [LZ HZ].
  subst P. set (P := mk_polys (fun col => ifft omega n (ws col)) (ifft omega n pi) (ifft omega n z) (ifft omega n z2) (ifft omega n f) (ifft omega n t) (ifft omega n h1) (ifft omega n h2)).
  assert (polys_sized n P) as HP by (unfold polys_sized, P; cbn [P_w P_pi P_z P_z2 P_f P_t P_h1 P_h2]; rewrite !ifft_length; split; [intros; now rewrite ifft_length|]; repeat split; auto).
  assert (vanishes ca cd omega n ch k P) as VN.
  { intros i Hi. rewrite numerator_ok by auto. f_equal. assert ((i + 1) mod n < n)%nat as Hi' by (apply Nat.mod_upper_bound; lia).
    destruct HZ as [HZ0 HZ]. destruct HZ2 as [HZ20 HZ2]. specialize (HZ i Hi). specialize (HZ2 i Hi). cbv zeta in HZ2.
    assert (forall col j, (j < n)%nat -> at_gates omega (P_w P col) j = at_wire ws col j) as AW by (intros col j Hj; cbn [P P_w]; now apply (at_ifft omega n D)).
    apply (parts_zero ca cd omega n D).
    - exact Hi.
    - rewrite KS by auto. exact (c74_logic_kind ca cd size chk c i B).
    - cbn [ch ch_zeta ch_beta ch_gamma ch_delta ch_eps]. split; [|split; [|split; [|split; [|split]]]].
      + rewrite KS by auto. assert (at_gates omega (P_pi P) i = pi_get (c_pi c) i) as -> by (cbn [P P_pi]; rewrite (at_ifft omega n D) by auto; unfold pi; now rewrite nth_map_seq by auto).
        destruct (GL i Hi) as [G _]. unfold gate_vals. rewrite !AW by auto. exact G.
      + unfold Z1, over_columns in *. rewrite !AW, !KG by auto. cbn [P P_z]. rewrite !(at_ifft omega n D) by auto. unfold over_columns in HZ.
        match goal with |- ?x - ?y = 0 => assert (y = x) as -> by exact HZ end. ring.
      + unfold first. cbn [P P_z]. destruct (i =? 0)%nat; [|reflexivity]. rewrite (at_ifft omega n D), HZ0 by auto. ring.
      + unfold Dq, gate_vals. cbv zeta. cbn [v_a v_b v_c v_d]. rewrite !AW by auto. 
        assert (at_gates omega (q_lookup (k_sel k)) i = q_lookup (sel_at c i)) as -> by (rewrite <- KS by auto; reflexivity).
        cbn [P P_f]. rewrite (at_ifft omega n D), VF, VQ by auto. destruct (feqb (q_lookup (sel_at c i)) 0) eqn:Q; [apply feqb_eq in Q; rewrite Q; ring|].
        unfold wire_row, at_wire. ring.
      + unfold Z2. cbn [P P_z2 P_f P_t P_h1 P_h2]. rewrite !(at_ifft omega n D) by auto. unfold at_gate in HZ2.
        match goal with |- ?x - ?y = 0 => assert (y = x) as -> by exact HZ2 end. ring.
      + unfold first. cbn [P P_z2]. destruct (i =? 0)%nat; [|reflexivity]. unfold at_gate in HZ20. rewrite (at_ifft omega n D), HZ20 by auto. ring. }
  exact (quotient_exact ca cd omega g eta n D D8 E8 G0 G8 ch k P HK HP VN).
Qed.
(** For a circuit whose values satisfy it and whose table has no repeated row, the prover computes the exact quotient,
    for most challenges. *)
Theorem c76_complete c s omega g eta : built c -> sigma_for c s -> domains omega g eta (circuit_bound c) -> NoDup (c_table c) -> honest ca cd c ->
  let n := circuit_bound c in
  most (3 * (length (c_table c) * length (c_table c)) + 2) (fun zeta => forall beta, most (4 * n + 1) (fun gamma => most 3 (fun dl => most (2 * n + 3) (fun eps =>
    forall alpha e lk, let ch := mk_chal zeta beta gamma dl eps alpha e lk in
      exists k P t, prove_quotient ca cd omega g (Some eta) n c s ch = Ok (k, P, t) /\ length t = (8 * n)%nat /\ divides ca cd omega n ch k P t)))).
Proof using fl pl odd_field.
  intros B SF DM ND HO n. pose proof DM as [D [D8 [E8 [G0 G8]]]]. fold n in D, D8, G8. pose proof (built_wf ca cd size chk odd2 c B) as W. assert (0 < n)%nat as Hn by apply D.
  pose proof (bound_ge c) as BG. fold n in BG.
  destruct (honest_setup c s omega B SF D HO) as [k [sg [ws [EK [ES [LS [EW [LW [CP [RH [LQ [LSel [VQ LK]]]]]]]]]]]]]. fold n in EK, ES, LS, EW, LW, CP, RH, LQ, LSel, VQ, LK. set (qs := qs_of n c) in *.
  assert (is_power_of_two n = true) as P2 by (apply is_pow2; exact (bound_pow2 c)).
  assert (most (3 * (length (c_table c) * length (c_table c)) + (1 + 1)) (fun zeta => NoDup (map (combined zeta) (c_table c)) /\ (zeta <> 0 /\ zeta <> 1))) as MZ.
  { apply most_and; [intros x; destruct (nodup_dec (map (combined x) (c_table c))); auto|intros x; destruct (feq_dec x 0), (feq_dec x 1); tauto| |].
    - apply (most_intro _ (fun zeta => ~ NoDup (map (combined zeta) (c_table c)))); [now apply combined_nodup|intros x; destruct (nodup_dec (map (combined x) (c_table c))); tauto|].
      intros x N. destruct (nodup_dec (map (combined x) (c_table c))); tauto.
    - apply most_and; [apply neq_dec|apply neq_dec|apply most_neq|apply most_neq]. }
  eapply most_weaken; [apply Nat.le_refl| |exact MZ]. clear MZ. cbv beta. intros zeta [NDz [N0 N1]] beta.
  destruct (complete_at n (c_table c) qs ws zeta P2 (bound_table c) LQ LW LK N0 N1 NDz) as [t [f [h1 [h2 [ER HL]]]]].
  destruct (c75_round n (c_table c) qs ws zeta P2 (bound_table c) LQ LW) as [_ X]. destruct (X N0 N1) as [_ Y].
  destruct Y as [f' [h1' [h2' [E' [Lt [Lf [L1 [L2 _]]]]]]]]; [intros i Hi Q; apply in_map; apply (padded_in n); apply LK; auto|].
  rewrite ER in E'. injection E' as -> -> -> ->. set (t := map (combined zeta) (padded_table n (c_table c))) in *. rename f' into f, h1' into h1, h2' into h2.
  assert (most (4 * n + 1) (fun gamma => (exists z, compute_permutation_poly omega n ws beta gamma sg = Ok z) /\ gamma <> beta)) as MG.
  { apply most_and; [intros; apply ok_dec|apply neq_dec|apply (c73_prover_panics omega n ws beta sg LW LS)|apply most_neq]. }
  eapply most_weaken; [apply Nat.le_refl| |exact MG]. cbv beta. clear MG. intros gamma [[z EZ] NG].
  assert (most (1 + (1 + 1)) (fun dl => dl <> beta /\ (dl <> gamma /\ dl <> - (1)))) as MD.
  { apply most_and; [apply neq_dec|intros x; destruct (feq_dec x gamma), (feq_dec x (- (1))); tauto|apply most_neq|]. apply most_and; [apply neq_dec|apply neq_dec|apply most_neq|apply most_neq]. }
  eapply most_weaken; [apply Nat.le_refl| |exact MD]. cbv beta. clear MD. intros dl [ND1 [ND2 ND3]].
  assert (1 + dl <> 0) as ND4 by (intros E; apply ND3; transitivity (1 + dl - 1); [ring|rewrite E; ring]).
  assert (most (2 * n + (1 + (1 + 1))) (fun eps => (exists z, compute_lookup_permutation_poly n f t h1 h2 dl eps = Ok z) /\ (eps <> beta /\ (eps <> gamma /\ eps <> dl)))) as ME.
  { apply most_and; [intros; apply ok_dec|intros x; destruct (feq_dec x beta), (feq_dec x gamma), (feq_dec x dl); tauto|now apply (c75_prover_panics n f t h1 h2 dl Hn)|].
    apply most_and; [apply neq_dec|intros x; destruct (feq_dec x gamma), (feq_dec x dl); tauto|apply most_neq|]. apply most_and; [apply neq_dec|apply neq_dec|apply most_neq|apply most_neq]. }
  eapply most_weaken; [apply Nat.le_refl| |exact ME]. cbv beta. clear ME. intros eps [[z2 EZ2] [NE1 [NE2 NE3]]] alpha e lk ch.
  set (pi := map (pi_get (c_pi c)) (seq 0 n)).
  assert (pi_evals (c_pi c) n = Ok pi) as EP.
  { apply (proj2 (c71_evals (c_pi c) n pi (proj1 (c71_circuit ca cd size chk c B)))). split; [exact (bound_pow2 c)|]. split; [|reflexivity].
    apply Forall_forall. intros [i v] Hi. apply (wf_pi _ W) in Hi. cbn [fst]. lia. }
  set (P := mk_polys (fun col => ifft omega n (ws col)) (ifft omega n pi) (ifft omega n z) (ifft omega n z2) (ifft omega n f) (ifft omega n t) (ifft omega n h1) (ifft omega n h2)).
  assert (prover_polys omega n c sg ch = Ok P) as EPP.
  { unfold prover_polys. cbn [ch ch_zeta ch_beta ch_gamma ch_delta ch_eps]. rewrite EW. cbn [lift obind]. destruct (Nat.leb_spec (length (c_sel c)) n) as [_|]; [|lia]. cbn [assert_ obind].
    fold (qs_of n c). fold qs. rewrite ER. cbn [lift obind].
    assert (forall x y : F, x <> y -> feqb x y = false) as FN by (intros x y NE; destruct (feqb x y) eqn:Q; auto; apply feqb_eq in Q; contradiction).
    rewrite !FN by auto. cbn [orb negb assert_ obind]. rewrite EZ. cbn [lift obind]. rewrite EZ2. cbn [lift obind]. rewrite EP. reflexivity. }
  destruct (c76_exact c s omega g eta k sg ch P B SF DM HO EK ES EPP NDz ND3) as [q [EQ [Lq HQ]]]. fold n in EQ, Lq, HQ.
  exists k, P, q. split; [|split; [exact Lq|exact HQ]]. unfold prove_quotient. rewrite EK. cbn [lift obind]. rewrite ES. cbn [lift obind]. rewrite EPP. cbn [obind]. rewrite EQ. reflexivity.
Qed.

Lemma key_sized_le a b k : (a <= b)%nat -> key_sized a k -> key_sized b k.
Proof.
  intros H [K S]. unfold key_sized, sel_all in *. split; [|intros col; specialize (S col); lia]. repeat match goal with X : _ /\ _ |- _ => destruct X end. repeat split; lia.
Qed.
(** Soundness: for a circuit that no values satisfy, the key of the verifier, and a prover that fixes its polynomials in
    the order of the protocol (the wires; then f, h1 and h2 once zeta is known; then z and z_2; then t), the numerator
    is not t (X^n - 1) at most points. The bound m on the number of coefficients need not be n. *)
Theorem c76_sound c s omega m k pi ws : built c -> sigma_for c s -> domain_of omega (circuit_bound c) -> ids_distinct omega (circuit_bound c) ->
  preprocess omega (circuit_bound c) c s = Ok k -> pi_evals (c_pi c) (circuit_bound c) = Ok pi ->
  ~ (exists a, satisfies ca cd c a) -> (circuit_bound c <= m)%nat -> (forall col, (length (ws col) <= m)%nat) ->
  let n := circuit_bound c in
  most (3 * n) (fun zeta => forall f h1 h2, (length f <= m)%nat -> (length h1 <= m)%nat -> (length h2 <= m)%nat ->
  most (4 * n - 1) (fun beta => most (4 * n - 1) (fun gamma => most (2 * n + 1) (fun dl => most (2 * n - 1) (fun eps => forall z z2, (length z <= m)%nat -> (length z2 <= m)%nat ->
  let P := mk_polys ws (ifft omega n pi) z z2 f (ifft omega n (map (combined zeta) (padded_table n (c_table c)))) h1 h2 in
  most 2 (fun alpha => most_seps (fun e lk => forall t, (length t <= 8 * m)%nat ->
  most (9 * m) (fun x => numerator ca cd (mk_chal zeta beta gamma dl eps alpha e lk) (point_at omega n k P x) <> Ok (peval t x * (fpow x n - 1)))))))))).
Proof using fl pl odd_field.
  intros B SF D ID EK EP NS Hm LW n.
  eapply most_weaken; [apply Nat.le_refl| |exact (parts_fail ca cd size chk c s omega k pi ws odd_field B SF D ID EK EP NS)]. cbv beta. intros zeta HZ f h1 h2 Lf L1 L2.
  eapply most_weaken; [apply Nat.le_refl| |exact (HZ f h1 h2)]. cbv beta. intros beta HB. eapply most_weaken; [apply Nat.le_refl| |exact HB]. cbv beta. intros gamma HG.
  eapply most_weaken; [apply Nat.le_refl| |exact HG]. cbv beta. intros dl HD. eapply most_weaken; [apply Nat.le_refl| |exact HD]. cbv beta. intros eps HE z z2 Lz Lz2 P.
  specialize (HE z z2). cbv zeta in HE. fold n in HE. fold P in HE. fold n in D, EK.
  destruct (key_at omega n D c s k EK) as [sg [_ [HK [KS _]]]].
  destruct (below_dec n (parts ca cd omega n zeta beta gamma dl eps k P)) as [A|[i [Hi NP]]]; [|contradiction|].
  { intros i Hi. apply parts_ok_dec; [exact odd_field|]. rewrite KS by auto. exact (c74_logic_kind ca cd size chk c i B). }
  fold n in Hm. assert (polys_sized m P) as HP.
  { unfold polys_sized, P. cbn [P_w P_pi P_z P_z2 P_f P_t P_h1 P_h2]. rewrite !ifft_length. repeat (split; [first [assumption|lia]|]). assumption. }
  eapply most_weaken; [apply Nat.le_refl| |exact (parts_most ca cd omega n D zeta beta gamma dl eps k P i odd_field Hi NP)]. cbv beta. intros alpha HA.
  eapply most_weaken; [apply Nat.le_refl| |exact HA]. cbv beta. intros r HR. eapply most_weaken; [apply Nat.le_refl| |exact HR]. cbv beta. intros l HL.
  eapply most_weaken; [apply Nat.le_refl| |exact HL]. cbv beta. intros f0 HF. eapply most_weaken; [apply Nat.le_refl| |exact HF]. cbv beta. intros v HV.
  eapply most_weaken; [apply Nat.le_refl| |exact HV]. cbv beta. intros lk NZ t Lt.
  apply (quotient_unsound ca cd omega n m); auto; [now apply (key_sized_le n)|]. intros V. specialize (V i Hi). apply numerator_value in V. destruct V as [V _]. apply NZ. now symmetry.
Qed.
(** The order matters. No commitment to z_2 enters the transcript (prover.rs:340-402, proof.rs:152-221), so a prover may
    choose z_2 when all challenges but the last point are known. Then there is a quotient for every circuit, satisfiable
    or not, and whatever the wires and z are. *)
Theorem c76_z2_refuted c s omega g eta k pi ws z : built c -> domains omega g eta (circuit_bound c) ->
  preprocess omega (circuit_bound c) c s = Ok k -> pi_evals (c_pi c) (circuit_bound c) = Ok pi ->
  (forall col, (length (ws col) <= circuit_bound c)%nat) -> (length z <= circuit_bound c)%nat ->
  let n := circuit_bound c in
  forall zeta beta gamma dl, zeta <> 0 -> zeta <> 1 -> dl <> - (1) -> most (n + 1) (fun eps => forall alpha e, most 2 (fun lk =>
    exists z2 t, (length z2 <= n)%nat /\
      let P := mk_polys ws (ifft omega n pi) z z2 [] (ifft omega n (map (combined zeta) (padded_table n (c_table c)))) [] [] in
      let ch := mk_chal zeta beta gamma dl eps alpha e lk in
      quotient ca cd omega g (Some eta) n ch k P = Ok t /\ length t = (8 * n)%nat /\ divides ca cd omega n ch k P t)).
Proof using fl pl.
  intros B [D [D8 [E8 [G0 G8]]]] EK EP LW Lz n zeta beta gamma dl N0 N1 ND. fold n in D, D8, G8, EK. assert (0 < n)%nat as Hn by apply D.
  destruct (key_at omega n D c s k EK) as [sg [_ [HK [KS _]]]].
  assert (1 + dl <> 0) as ND1 by (intros E; apply ND; transitivity (1 + dl - 1); [ring|rewrite E; ring]).
  set (T := map (combined zeta) (padded_table n (c_table c))). set (at_ i := nth i T 0).
  set (bad := fun eps => eps = 0 \/ exists i, (i < n)%nat /\ eps * (1 + dl) + at_ i + dl * at_ ((i + 1) mod n)%nat = 0).
  apply (most_intro _ bad).
  - rewrite Nat.add_comm. unfold bad. apply (cnt_or 1 n); [intros x; destruct (feq_dec x 0); auto|apply cnt_eq|].
    intros l ND2 Hl. rewrite <- (seq_length n 0). pose (q i := - (at_ i + dl * at_ ((i + 1) mod n)%nat) / (1 + dl)). rewrite <- (map_length q).
    apply NoDup_incl_length; [exact ND2|]. intros x Hx. destruct (Hl x Hx) as [i [Hi E]]. apply in_map_iff. exists i. split; [|apply in_seq; lia].
    unfold q. assert (- (at_ i + dl * at_ ((i + 1) mod n)%nat) = x * (1 + dl)) as -> by (transitivity (x * (1 + dl) - (x * (1 + dl) + at_ i + dl * at_ ((i + 1) mod n)%nat)); [ring|rewrite E; ring]).
    field. exact ND1.
  - intros x. unfold bad. destruct (feq_dec x 0); [auto|]. destruct (below_dec n (fun i => x * (1 + dl) + at_ i + dl * at_ ((i + 1) mod n)%nat <> 0)) as [H|[i [Hi H]]].
    + intros i _. destruct (feq_dec (x * (1 + dl) + at_ i + dl * at_ ((i + 1) mod n)%nat) 0); [right; tauto|auto].
    + right. intros [|[i [Hi E]]]; [auto|exact (H i Hi E)].
    + left. right. exists i. split; auto. destruct (feq_dec (x * (1 + dl) + at_ i + dl * at_ ((i + 1) mod n)%nat) 0); tauto.
  - intros eps NB alpha e. set (P0 := mk_polys ws (ifft omega n pi) z [] [] (ifft omega n T) [] []).
    assert (eps <> 0) as NE by (intros E; apply NB; now left).
    assert (forall i, at_gates omega [] i = 0) as A0 by (intros i; reflexivity).
    eapply most_weaken; [apply Nat.le_refl| |apply (solve_z2 ca cd omega n D zeta beta gamma dl eps alpha e k P0 N0 N1)].
    + cbv beta. intros lk [z2 [L2 V]]. exists z2.
      destruct (quotient_exact ca cd omega g eta n D D8 E8 G0 G8 (mk_chal zeta beta gamma dl eps alpha e lk) k (set_z2 P0 z2) HK) as [t [EQ [Lq HD]]].
      * unfold polys_sized, set_z2, P0. cbn [P_w P_pi P_z P_z2 P_f P_t P_h1 P_h2 length]. rewrite !ifft_length. repeat (split; [first [assumption|lia]|]). lia.
      * exact V.
      * exists t. split; [lia|]. split; [exact EQ|]. split; [exact Lq|exact HD].
    + intros i Hi. assert ((i + 1) mod n < n)%nat as Hi' by (apply Nat.mod_upper_bound; lia). unfold b2, P0. cbn [P_f P_t]. rewrite !(at_ifft omega n D), A0 by auto.
      apply fmul_neq_0; [apply fmul_neq_0; [exact ND1|]|].
      * intros E. apply NE. etransitivity; [|exact E]. ring.
      * intros E. apply NB. right. exists i. split; auto.
    + intros i Hi. unfold c2, P0. cbn [P_h1 P_h2]. rewrite !A0. apply fmul_neq_0; intros E; apply (fmul_neq_0 eps (1 + dl) NE ND1); etransitivity; [|exact E| |exact E]; ring.
Qed.
End S.

(** *** Examples: two circuits over the field with 193 elements, with 5 gates and therefore domains of 8 and 64 elements *)
Lemma prime_193 : prime 193.
Proof. apply prime_by_trial; [lia|vm_compute; reflexivity]. Qed.
Definition F193 := zp 193.
#[global] Instance F193_ops : FieldOps F193 := zp_ops 193.
#[global] Instance F193_laws : FieldLaws F193 := zp_laws 193 prime_193.
#[global] Instance F193_pops : PrimeFieldOps F193 := zp_pops 193.
#[global] Instance F193_plaws : PrimeFieldLaws F193 := zp_plaws 193 eq_refl.
Definition f193 (z : Z) : F193 := zof 193 z.
Definition zero4 : F193 * F193 * F193 * F193 := (0, 0, 0, 0).
Definition any193 (_ : F193 * F193) := true.
(** the constraint that zero is v *)
Definition circuit76 (v : Z) : outcome error (composer F193) := let! c := new_composer zero4 zero4 in constrain_to_constant (c_zero c) (f193 v) None c.
Definition chal76 : chal F193 := mk_chal (f193 3) (f193 10) (f193 20) (f193 30) (f193 41) (f193 7) (mk_seps (f193 11) (f193 12) (f193 13) (f193 14)) (f193 15).
Definition run_circuit76 (v : Z) (prove : bool) : bool :=
  match circuit76 v with
  | Ok c => (circuit_bound c =? 8)%nat && (length (c_table c) =? 0)%nat &&
      match compute_sigma_permutations (c_map (padded c)) (c_n (padded c)) with
      | Ok s => match preprocess (f193 43) 8 c s, pi_evals (c_pi c) 8 with
                | Ok _, Ok _ => if prove then match compute_sigma_polynomials (f193 43) 8 s with Ok sg => match prover_polys (f193 43) 8 c sg chal76 with Ok _ => true | _ => false end | _ => false end else true
                | _, _ => false end
      | _ => false end
  | _ => false end.
Lemma run76 : run_circuit76 0 true && run_circuit76 1 false = true.
Proof. run. Qed.
Lemma neq193 (x y : F193) : feqb x y = false -> x <> y.
Proof. intros H E. apply feqb_eq in E. congruence. Qed.
Lemma nodup193 (l : list F193) : NoDup (map (zval 193) l) -> NoDup l.
Proof. apply NoDup_map_inv. Qed.
Fixpoint zdistinct (l : list Z) : bool := match l with [] => true | x :: l' => negb (existsb (Z.eqb x) l') && zdistinct l' end.
Lemma zdistinct_ok l : zdistinct l = true -> NoDup l.
Proof.
  induction l as [|x l IH]; intros H; constructor; cbn in H; apply andb_prop in H; destruct H as [H1 H2]; auto.
  intros I. apply negb_true_iff in H1. assert (existsb (Z.eqb x) l = true) as E; [|congruence]. apply existsb_exists. exists x. split; auto. apply Z.eqb_refl.
Qed.
Lemma domains76 : domains (f193 43) (f193 5) (f193 125) 8 /\ ids_distinct (f193 43) 8.
Proof.
  split.
  - split; [|split; [|split; [|split]]].
    + split; [lia|]. split; [refine (proj1 (feqb_eq (F:=F193) _ _) _); run|]. apply nodup193, zdistinct_ok. run.
    + split; [lia|]. split; [refine (proj1 (feqb_eq (F:=F193) _ _) _); run|]. apply nodup193, zdistinct_ok. run.
    + refine (proj1 (feqb_eq (F:=F193) _ _) _). run.
    + apply neq193. vm_compute. reflexivity.
    + apply neq193. vm_compute. reflexivity.
  - apply c73_cosets.
    + refine (proj1 (feqb_eq (F:=F193) _ _) _). run.
    + intros i Hi. assert (i = 1 \/ i = 2 \/ i = 3 \/ i = 4 \/ i = 5 \/ i = 6 \/ i = 7)%nat as [-> | [-> | [-> | [-> | [-> | [-> | ->]]]]]] by lia; apply neq193; vm_compute; reflexivity.
    + intros k H. cbn [In] in H. destruct H as [<-|[<-|[<-|[]]]]; apply neq193; vm_compute; reflexivity.
    + apply nodup193, zdistinct_ok. run.
Qed.
Lemma f193_00 : (0 : F193) + 0 = 0.
Proof. refine (proj1 (feqb_eq (F:=F193) _ _) _). run. Qed.
Lemma circuit76_ok v c : circuit76 v = Ok c -> built (f193 1) (f193 2) 7 any193 c /\ (forall a, satisfies (f193 1) (f193 2) c a -> f193 v = 0) /\ (f193 v = 0 -> honest (f193 1) (f193 2) c).
Proof.
  assert (odd : (2 < modulus (F:=F193))%Z) by reflexivity. unfold circuit76. intros H. apply obind_ok in H. destruct H as [c0 [E0 E]].
  pose proof (built_new (f193 1) (f193 2) 7 any193 _ _ _ E0) as B0. destruct (new_wf (f193 1) (f193 2) zero4 zero4 _ E0) as [W0 [A0 [_ V0]]].
  pose proof (built_constrain _ _ _ _ _ _ _ _ _ B0 E) as B. split; [exact B|].
  pose proof (c64_constrain_to_constant _ _ _ _ _ _ _ _ _ odd B0 E) as [EN [SU HH]].
  assert (honest (f193 1) (f193 2) c0) as H0 by (exact (proj2 (A0 _) V0)).
  split.
  - intros a Ha. destruct (proj1 (EN a) (ex_intro _ a (conj (fun v _ => eq_refl) Ha))) as [S0 R0]. apply (satisfies_zero (f193 1) (f193 2) c0) in S0; [|exact W0]. rewrite S0 in R0. cbn [opt0] in R0. clear - R0. rewrite <- R0. apply f193_00.
  - intros Z. apply HH. split; [exact H0|]. rewrite V0, Z. cbn [opt0]. apply f193_00.
Qed.

Lemma run_circuit76_ok v b : run_circuit76 v b = true -> exists c s k pi, circuit76 v = Ok c /\ circuit_bound c = 8%nat /\ c_table c = [] /\ sigma_for c s /\
  preprocess (f193 43) 8 c s = Ok k /\ pi_evals (c_pi c) 8 = Ok pi /\
  (b = true -> exists sg P, compute_sigma_polynomials (f193 43) 8 s = Ok sg /\ prover_polys (f193 43) 8 c sg chal76 = Ok P).
Proof.
  unfold run_circuit76. intros R. destruct (circuit76 v) as [c| |] eqn:E; [|discriminate R|discriminate R].
  apply andb_prop in R. destruct R as [R0 R]. apply andb_prop in R0. destruct R0 as [R1 R2]. apply Nat.eqb_eq in R1, R2.
  destruct (compute_sigma_permutations (c_map (padded c)) (c_n (padded c))) as [s| |] eqn:ES; [|discriminate R|discriminate R].
  destruct (preprocess (f193 43) 8 c s) as [k| |] eqn:EK; [|discriminate R|discriminate R].
  destruct (pi_evals (c_pi c) 8) as [pi| |] eqn:EP; [|discriminate R|discriminate R].
  exists c, s, k, pi. split; [reflexivity|]. split; [exact R1|]. split; [now destruct (c_table c)|]. split; [exists (c_map (padded c)); split; [apply Permutation_refl|exact ES]|].
  split; [exact EK|]. split; [exact EP|]. intros ->.
  destruct (compute_sigma_polynomials (f193 43) 8 s) as [sg| |]; [|discriminate R|discriminate R].
  destruct (prover_polys (f193 43) 8 c sg chal76) as [r| |] eqn:EQ; [eauto|discriminate R|discriminate R].
Qed.
(** The hypotheses of completeness hold for the first circuit, and those of soundness and of the counterexample for the second. *)
Example c76_example : (exists c s, built (f193 1) (f193 2) 7 any193 c /\ sigma_for c s /\ domains (f193 43) (f193 5) (f193 125) (circuit_bound c) /\
    NoDup (c_table c) /\ honest (f193 1) (f193 2) c /\ exists sg P, compute_sigma_polynomials (f193 43) (circuit_bound c) s = Ok sg /\ prover_polys (f193 43) (circuit_bound c) c sg chal76 = Ok P) /\
  exists c s k pi, built (f193 1) (f193 2) 7 any193 c /\ sigma_for c s /\ domains (f193 43) (f193 5) (f193 125) (circuit_bound c) /\ ids_distinct (f193 43) (circuit_bound c) /\
    preprocess (f193 43) (circuit_bound c) c s = Ok k /\ pi_evals (c_pi c) (circuit_bound c) = Ok pi /\ ~ (exists a, satisfies (f193 1) (f193 2) c a).
Proof.
  pose proof run76 as R. apply andb_prop in R. destruct R as [R0 R1]. destruct domains76 as [DM ID]. split.
  - destruct (run_circuit76_ok _ _ R0) as [c [s [k [pi [E [EB [ET [SF [_ [_ Q]]]]]]]]]]. destruct (circuit76_ok _ _ E) as [B [_ H]].
    exists c, s. rewrite EB, ET. split; [exact B|]. split; [exact SF|]. split; [exact DM|]. split; [constructor|]. split; [apply H; refine (proj1 (feqb_eq (F:=F193) _ _) _); run|exact (Q eq_refl)].
  - destruct (run_circuit76_ok _ _ R1) as [c [s [k [pi [E [EB [ET [SF [EK [EP _]]]]]]]]]]. destruct (circuit76_ok _ _ E) as [B [H _]].
    exists c, s, k, pi. rewrite EB. split; [exact B|]. split; [exact SF|]. split; [exact DM|]. split; [exact ID|]. split; [exact EK|]. split; [exact EP|].
    intros [a Ha]. apply H in Ha. revert Ha. apply neq193. vm_compute. reflexivity.
Qed.

Print Assumptions c76_ifft.
Print Assumptions c76_quotient.
Print Assumptions c76_split.
Print Assumptions c76_exact.
Print Assumptions c76_complete.
Print Assumptions c76_sound.
Print Assumptions c76_z2_refuted.

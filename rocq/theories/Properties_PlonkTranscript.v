(** Properties_PlonkTranscript.v: the transcript of plonk-core, and the interfaces for proofs (C78). *)
From Verif Require Import Base Spec Tools ToolsProofs KZG IntProofs SnarkProofs SoundSpec Sound Plonk PlonkSpec PlonkProofs PlonkBuilt Properties_Plonk PlonkPI PlonkPIProofs PlonkSigmaSpec
  Properties_PlonkWires PlonkProver PlonkGPSpec Properties_PlonkPerm PlonkGatesSpec PlonkLookupSpec PlonkLookup4
  PlonkQuot PolyDom PlonkQuotSpec PlonkQuotProofs PlonkRows Properties_PlonkQuot PlonkVerify PlonkVerifySpec PlonkVerifyProofs PlonkVerify2 Properties_PlonkVerify
  PlonkTranscript PlonkTranscriptSpec PlonkTranscriptProofs.
From Coq Require Import Znumtheory String List.
Import ListNotations.
Local Open Scope F_scope.
Local Open Scope string_scope.
Local Open Scope list_scope.

Section S.
Context {F : Type} {fo : FieldOps F} {fl : FieldLaws F} {po : PrimeFieldOps F} {pl : PrimeFieldLaws F}.
Variables (ca cd : F) (size : nat) (chk : F * F -> bool).
Notation built := (built ca cd size chk).
Implicit Types (c : composer F) (k : key F) (ch : chal F) (pf : proof F) (hash : hash_fn F) (tr : transcript F).
Hypothesis odd_field : (3 < modulus (F:=F))%Z.

(** The verifier derives the challenges with which the prover made the proof, from the same initial transcript, for
    every hash function. *)
Theorem c78_agree hash omega g eta n c k sg tr0 pf ch x aw saw :
  prove_fs ca cd hash omega g eta n c k sg tr0 = Ok (pf, (ch, x, aw, saw)) -> verifier_challenges hash tr0 (c_pi c) pf = (ch, x, aw, saw).
Proof using. intros H. exact (proj1 (prove_fs_ok _ _ _ _ _ _ _ _ _ _ _ _ _ _ _ _ H)). Qed.

(** Completeness with the transcript: the proof for a circuit whose values satisfy it is accepted, for every hash
    function and initial transcript, unless a challenge has one of the listed values. *)
Theorem c78_complete hash c s omega g eta k sg tables tr0 pf ch x aw saw : built c -> sigma_for c s -> domains omega g eta (circuit_bound c) -> honest ca cd c ->
  let n := circuit_bound c in
  preprocess omega n c s = Ok k -> compute_sigma_polynomials omega n s = Ok sg -> table_polys omega n (c_table c) = Ok tables ->
  prove_fs ca cd hash omega g (Some eta) n c k sg tr0 = Ok (pf, (ch, x, aw, saw)) ->
  ch_zeta ch <> 0 -> ch_zeta ch <> 1 -> NoDup (map (combined (ch_zeta ch)) (c_table c)) -> ch_delta ch <> - (1) -> fpow x n <> 1 ->
  verify_fs ca cd hash (Some omega) n k tables tr0 (c_pi c) pf = Ok tt.
Proof using fl pl odd_field.
  intros B SF DM HO n EK ES ET H Z0 Z1 ND D1 Hx. destruct (prove_fs_ok _ _ _ _ _ _ _ _ _ _ _ _ _ _ _ _ H) as [EV [P [t [EP [EQ EF]]]]].
  destruct (c76_exact ca cd size chk odd_field c s omega g eta k sg ch P B SF DM HO EK ES EP ND D1) as [t' [EQ' [Lt DV]]]. fold n in EQ', Lt, DV.
  rewrite EQ in EQ'. injection EQ' as <-. pose proof DM as [D _]. fold n in D.
  assert (is_power_of_two n = true) as P2 by (apply is_pow2; exact (bound_pow2 c)).
  destruct (prover_shape omega n c sg ch P P2 Z0 Z1 EP) as [HD [pi [EPi [EPP EPT]]]].
  destruct (c77_honest ca cd omega n k P t ch x (c_pi c) pi (c_table c) tables D HD Z0 Z1 Hx) as [pf' [EF' HV]]; auto; [lia|].
  rewrite EF in EF'. injection EF' as <-. unfold verify_fs. rewrite EV. apply HV. apply DV.
Qed.

(** The state of the transcript before the opening challenges determines the public inputs and the proof, except for the
    commitment to z_2 and the evaluations of the table: those enter no challenge. *)
Theorem c78_bound hash tr0 pub pub' p q :
  snd (verifier_rounds hash tr0 pub p) = snd (verifier_rounds hash tr0 pub' q) <-> pub = pub' /\ agree p q.
Proof using. split; [apply rounds_agree|]. intros [<- A]. now rewrite (agree_rounds hash tr0 pub p q A). Qed.
(** The initial transcript determines the size and the verifier key, except for the selector of lookups; the table is
    not part of it. *)
Theorem c78_seed k k' n n' tr : seed_transcript k n tr = seed_transcript k' n' tr <-> n = n' /\ keys_agree k k'.
Proof using.
  unfold seed_transcript, keys_agree. cbv zeta. split.
  - intros H. apply app_inv_head in H. injection H. intros. split; [assumption|]. repeat (split; [assumption|]). intros []; assumption.
  - intros [<- [-> [-> [-> [-> [-> [-> [-> [-> [-> [-> [-> [-> [-> [-> S]]]]]]]]]]]]]]]. now rewrite !S.
Qed.

Lemma rounds_evals hash tr0 pub w z z2 z2' f h1 h2 ts e e' :
  fst (verifier_rounds hash tr0 pub (mk_proof w z z2 f h1 h2 ts e)) = fst (verifier_rounds hash tr0 pub (mk_proof w z z2' f h1 h2 ts e')).
Proof using.
  unfold verifier_rounds. cbv zeta. cbn [pf_w pf_f pf_h1 pf_h2 pf_z pf_t].
  do 12 (match goal with |- context [draw ?h ?l ?l' ?t] => destruct (draw h l l' t) as [? ?] end). reflexivity.
Qed.
(** Nothing is proved by a proof that is accepted: for every hash function, initial transcript, key, table, public inputs,
    and for any polynomials at all, there are evaluations with which the proof is accepted, unless a challenge has one of
    the listed values. *)
Theorem c78_forgery_refuted hash omega n k table tables tr0 pub pi ws z f h1 h2 ts : domain_of omega n -> pi_evals pub n = Ok pi -> table_polys omega n table = Ok tables ->
  exists e, let pf := mk_proof ws z [] f h1 h2 ts e in let '(ch, x, aw, _) := verifier_challenges hash tr0 pub pf in
    distinct_challenges ch -> ch_zeta ch <> 0 -> ch_zeta ch <> 1 -> fpow x n <> 1 -> aw <> 0 ->
    verify_fs ca cd hash (Some omega) n k tables tr0 pub pf = Ok tt.
Proof using fl pl.
  clear odd_field chk size. intros D EP ET. set (e0 := mk_evals 0 0 0 0 0 0 0 0 0 0 0 0 0 0 0 0 [] : evals F).
  destruct (verifier_rounds hash tr0 pub (mk_proof ws z [] f h1 h2 ts e0)) as [[ch x] tr] eqn:E0.
  set (P := mk_polys ws (ifft omega n pi) z [] f (ifft omega n (map (combined (ch_zeta ch)) (padded_table n table))) h1 h2).
  set (e1 t := set_table_eval (honest_evals omega k P x) t). set (pf t := mk_proof ws z [] f h1 h2 ts (e1 t)).
  assert (forall t, fst (verifier_rounds hash tr0 pub (pf t)) = (ch, x)) as F1 by (intros t; unfold pf; rewrite (rounds_evals hash tr0 pub ws z [] [] f h1 h2 ts (e1 t) e0), E0; reflexivity).
  assert (forall t, verifier_rounds hash tr0 pub (pf t) = verifier_rounds hash tr0 pub (pf 0)) as F2 by (intros t; apply agree_rounds; unfold agree, pf, e1; cbn; repeat split; reflexivity).
  destruct (opening_challenges hash (snd (verifier_rounds hash tr0 pub (pf 0)))) as [aw saw] eqn:EO.
  assert (forall t, verifier_challenges hash tr0 pub (pf t) = (ch, x, aw, saw)) as F3.
  { intros t. unfold verifier_challenges. rewrite F2. pose proof (F1 0) as F0. destruct (verifier_rounds hash tr0 pub (pf 0)) as [[ch' x'] tr']. cbn [fst] in F0. injection F0 as -> ->. cbn [snd] in EO. now rewrite EO. }
  assert ((distinct_challenges ch /\ ch_zeta ch <> 0 /\ ch_zeta ch <> 1 /\ fpow x n <> 1 /\ aw <> 0) \/ ~ (distinct_challenges ch /\ ch_zeta ch <> 0 /\ ch_zeta ch <> 1 /\ fpow x n <> 1 /\ aw <> 0)) as [H|H].
  { destruct (distinct_b ch) as [[HD _]|[HD _]]; [|right; tauto]. destruct (feq_dec (ch_zeta ch) 0), (feq_dec (ch_zeta ch) 1), (feq_dec (fpow x n) 1), (feq_dec aw 0); tauto. }
  - destruct H as [HD [Z0 [Z1 [Hx NA]]]]. destruct (c77_table_eval_refuted ca cd omega n k table tables pub pi ch ws z f h1 h2 ts x D EP ET HD Z0 Z1 Hx aw saw NA) as [t Ht].
    exists (e1 t). cbv zeta. fold (pf t). rewrite F3. intros _ _ _ _ _. unfold verify_fs. rewrite F3. exact Ht.
  - exists (e1 0). cbv zeta. fold (pf 0). rewrite F3. intros H1 H2 H3 H4 H5. destruct (H (conj H1 (conj H2 (conj H3 (conj H4 H5))))).
Qed.

(** *** The objects *)
(** The messages of the calls that key the transcript. *)
Definition keyed (l : list call) : transcript F := flat_map (fun x => match x with CKey a b => [(a, MBytes b)] | _ => [] end) l.
Definition only_keys (l : list call) : Prop := forall x, In x l -> exists a b, x = CKey a b.
Section Calls.
Variables (hash : hash_fn F) (omega g eta : F) (n : nat) (c : composer F) (s : sigmas) (k : key F) (sg : column -> list F).
Hypotheses (EK : preprocess omega n c s = Ok k) (ES : compute_sigma_polynomials omega n s = Ok sg).
Let pcalls := fold_left (prover_call ca cd hash omega g (Some eta) n c s).
Let vcalls := fold_left (verifier_call omega n c s).
Lemma pcalls_keys l (p : prover F) : only_keys l -> pcalls l p = mk_prover (p_key p) (p_tr p ++ keyed l).
Proof using.
  revert p. induction l as [|x l IH]; intros p H; [cbn; rewrite app_nil_r; now destruct p|]. destruct (H x (or_introl eq_refl)) as [a [b ->]]. unfold pcalls. cbn [fold_left]. fold pcalls.
  rewrite IH by (intros y Hy; apply H; now right). cbn [prover_call prover_key_transcript p_key p_tr]. unfold keyed. cbn [flat_map]. now rewrite <- app_assoc.
Qed.
Lemma pcalls_done l (p : prover F) ks : p_key p = Some ks -> pcalls l p = mk_prover (Some ks) (p_tr p ++ keyed l).
Proof using.
  revert p. induction l as [|x l IH]; intros p H; [cbn; rewrite app_nil_r, <- H; now destruct p|]. unfold pcalls. cbn [fold_left]. fold pcalls. unfold keyed. cbn [flat_map].
  destruct x as [|a b|]; cbn [prover_call].
  - unfold prover_preprocess. rewrite H. cbn [snd app]. now apply IH.
  - rewrite IH by (cbn; exact H). cbn [prover_key_transcript p_tr]. now rewrite <- app_assoc.
  - unfold prover_prove. rewrite H. cbn [snd app]. now apply IH.
Qed.
(** After any calls of a prover the transcript contains the key exactly once: where the first call is that preprocesses
    the circuit or proves. *)
Theorem c78_prover_history label pre x post : only_keys pre -> (forall a b, x <> CKey a b) ->
  pcalls (pre ++ x :: post) (new_prover label) = mk_prover (Some (k, sg)) (seed_transcript k n (new_transcript label ++ keyed pre) ++ keyed post).
Proof using EK ES.
  intros K1 K2. unfold pcalls. rewrite fold_left_app. cbn [fold_left]. fold pcalls. rewrite (pcalls_keys pre) by auto. cbn [new_prover p_key p_tr].
  assert (prover_preprocess omega (Some eta) n c s (mk_prover None (new_transcript label ++ keyed pre)) = (Ok tt, mk_prover (Some (k, sg)) (seed_transcript k n (new_transcript label ++ keyed pre)))) as E.
  { unfold prover_preprocess. cbn [p_key p_tr]. unfold preprocess_prover. now rewrite EK, ES. }
  assert (prover_call ca cd hash omega g (Some eta) n c s (mk_prover None (new_transcript label ++ keyed pre)) x = mk_prover (Some (k, sg)) (seed_transcript k n (new_transcript label ++ keyed pre))) as E2.
  { destruct x as [|a b|]; cbn [prover_call]; [now rewrite E|now destruct (K2 a b)|]. unfold prover_prove. cbn [p_key]. rewrite E. reflexivity. }
  rewrite E2. now rewrite (pcalls_done post _ (k, sg)).
Qed.
(** A verifier enters the key every time that it preprocesses the circuit. *)
Theorem c78_verifier_history label calls : v_tr (vcalls calls (new_verifier label)) =
  fold_left (fun tr x => match x with CPreprocess => seed_transcript k n tr | CKey a b => tr ++ [(a, MBytes b)] | CUse => tr end) calls (new_transcript label).
Proof using EK.
  assert (forall v, v_tr (vcalls calls v) = fold_left (fun tr x => match x with CPreprocess => seed_transcript k n tr | CKey a b => tr ++ [(a, MBytes b)] | CUse => tr end) calls (v_tr v)) as G; [|apply G].
  induction calls as [|x l IH]; intros v; [reflexivity|]. unfold vcalls. cbn [fold_left]. fold vcalls. rewrite IH. f_equal.
  destruct x as [|a b|]; cbn [verifier_call]; try reflexivity. unfold verifier_preprocess. rewrite EK. reflexivity.
Qed.
(** So a prover and a verifier that preprocesses once have the same transcript when they are keyed alike. *)
Theorem c78_histories_agree label pre x post pre' post' : only_keys pre -> (forall a b, x <> CKey a b) ->
  ~ In CPreprocess pre' -> ~ In CPreprocess post' -> keyed pre = keyed pre' -> keyed post = keyed post' ->
  p_tr (pcalls (pre ++ x :: post) (new_prover label)) = v_tr (vcalls (pre' ++ CPreprocess :: post') (new_verifier label)) /\
  v_key (vcalls (pre' ++ CPreprocess :: post') (new_verifier label)) = Some (k, n).
Proof using EK ES.
  intros K1 K2 N1 N2 E1 E2. rewrite c78_prover_history by auto. cbn [p_tr]. rewrite E1, E2.
  assert (forall l v, ~ In CPreprocess l -> vcalls l v = mk_verifier (v_key v) (v_tr v ++ keyed l)) as G.
  { induction l as [|y l IH]; intros v H; [cbn; rewrite app_nil_r; now destruct v|]. unfold vcalls. cbn [fold_left]. fold vcalls. rewrite IH by (intros Q; apply H; now right).
    unfold keyed. cbn [flat_map]. destruct y as [|a b|]; [now destruct H; left| |reflexivity]. cbn [verifier_call verifier_key_transcript v_key v_tr]. now rewrite <- app_assoc. }
  unfold vcalls. rewrite fold_left_app. cbn [fold_left]. fold vcalls. rewrite (G pre') by auto. cbn [verifier_call]. unfold verifier_preprocess. rewrite EK. cbn [lift obind].
  rewrite (G post') by auto. cbn [v_tr v_key new_verifier]. auto.
Qed.
(** A verifier that preprocesses the circuit again, which a prover refuses, has another transcript. *)
Theorem c78_verifier_twice_refuted label calls pre mid post :
  prover_preprocess omega (Some eta) n c s (mk_prover (Some (k, sg)) (new_transcript label)) = (Err CircuitAlreadyPreprocessed, mk_prover (Some (k, sg)) (new_transcript label)) /\
  (keyed calls = keyed (pre ++ mid ++ post) ->
  p_tr (pcalls calls (new_prover label)) <> v_tr (vcalls (pre ++ CPreprocess :: mid ++ CPreprocess :: post) (new_verifier label))).
Proof using EK ES.
  split; [reflexivity|]. intros EKy E. rewrite c78_verifier_history in E. apply (f_equal (@List.length _)) in E.
  assert (forall l tr, (List.length (fold_left (fun tr x => match x with CPreprocess => seed_transcript k n tr | CKey a b => tr ++ [(a, MBytes b)] | CUse => tr end) l tr) >= List.length tr + List.length (keyed l))%nat) as G.
  { induction l as [|x l IH]; intros tr; [cbn; lia|]. cbn [fold_left]. match goal with |- (List.length (fold_left _ l ?u) >= _)%nat => pose proof (IH u) as Q end. cbv beta in Q |- *. unfold keyed. cbn [flat_map]. rewrite app_length. fold (keyed l). destruct x; [unfold seed_transcript in Q |- *|..]; rewrite ?app_length in Q; cbn [List.length] in Q |- *; lia. }
  assert (forall tr, List.length (seed_transcript k n tr) = List.length tr + 20)%nat as LS by (intros tr; unfold seed_transcript; rewrite app_length; reflexivity).
  assert (List.length (p_tr (pcalls calls (new_prover label))) <= 21 + List.length (keyed calls))%nat as LP.
  { assert ((exists pre x post, calls = pre ++ x :: post /\ only_keys pre /\ forall a b, x <> CKey a b) \/ only_keys calls) as [[p1 [x [p2 [-> [K1 K2]]]]]|K].
    - clear E EKy. induction calls as [|y l IH]; [right; intros ? []|]. destruct y as [|a b|]; [left; exists [], CPreprocess, l; repeat split; [intros ? []|discriminate]| |left; exists [], CUse, l; repeat split; [intros ? []|discriminate]].
      destruct IH as [[p1 [x [p2 [-> [K1 K2]]]]]|K]; [left; exists (CKey a b :: p1), x, p2; repeat split; auto; intros y [<-|Hy]; eauto|right; intros y [<-|Hy]; eauto].
    - rewrite c78_prover_history by auto. cbn [p_tr]. rewrite app_length, LS, app_length. unfold keyed. rewrite flat_map_app. cbn [flat_map]. rewrite !app_length. cbn. lia.
    - rewrite pcalls_keys by auto. cbn [p_tr new_prover]. rewrite app_length. cbn. lia. }
  rewrite EKy in LP. rewrite fold_left_app in E. cbn [fold_left] in E. rewrite fold_left_app in E. cbn [fold_left] in E. rewrite E in LP.
  pose proof (fun tr => G post tr) as G1. pose proof (fun tr => G mid tr) as G2. pose proof (G pre (new_transcript label)) as G3.
  match type of LP with (List.length (fold_left ?f post (seed_transcript k n ?t)) <= _)%nat => pose proof (G1 (seed_transcript k n t)) as H1; rewrite LS in H1;
    match t with fold_left _ mid (seed_transcript k n ?u) => pose proof (G2 (seed_transcript k n u)) as H2; rewrite LS in H2 end end.
  cbv beta in H1, H2. unfold keyed in LP. rewrite !flat_map_app, !app_length in LP. fold (keyed pre) (keyed mid) (keyed post) in LP. cbn [new_transcript List.length] in G3. lia.
Qed.
End Calls.
(** A prover that is cleared forgets its label: its transcript is the one of a verifier only for the label "plonk". *)
Theorem c78_clear_refuted (p : prover F) label : p_tr (prover_clear p) = v_tr (new_verifier label) <-> label = "plonk".
Proof using. unfold prover_clear, new_verifier, new_transcript. cbn [p_tr v_tr]. split; [intros H; injection H; auto|now intros ->]. Qed.

(** *** The circuit interface *)
(** A proof made with the prover key of [compile] is accepted with the verifier key, the public inputs that are returned and
    the same label. *)
Theorem c78_circuit hash c s omega g eta tables ks kn label pf pub ch x aw saw : built c -> sigma_for c s -> domains omega g eta (circuit_bound c) -> honest ca cd c ->
  let n := circuit_bound c in
  compile omega (Some eta) n c s = Ok (ks, kn) -> table_polys omega n (c_table c) = Ok tables ->
  gen_proof ca cd hash omega g (Some eta) n c s ks label = Ok (pf, pub) ->
  verifier_challenges hash (new_transcript label) pub pf = (ch, x, aw, saw) ->
  ch_zeta ch <> 0 -> ch_zeta ch <> 1 -> NoDup (map (combined (ch_zeta ch)) (c_table c)) -> ch_delta ch <> - (1) -> fpow x n <> 1 ->
  pub = c_pi c /\ verify_proof ca cd hash (Some omega) tables kn pf pub label = Ok tt.
Proof using fl pl odd_field.
  intros B SF DM HO n EC ET EG EV Z0 Z1 ND D1 Hx.
  unfold compile, prover_preprocess in EC. cbn [new_prover p_key p_tr] in EC. unfold preprocess_prover in EC.
  destruct (preprocess omega n c s) as [k| |] eqn:EK; [|discriminate EC|discriminate EC]. destruct (compute_sigma_polynomials omega n s) as [sg| |] eqn:ES; [|discriminate EC|discriminate EC].
  unfold verifier_preprocess in EC. rewrite EK in EC. cbn [lift obind p_key v_key unwrap_opt] in EC. injection EC as <- <-.
  unfold gen_proof, prover_prove in EG. cbn [p_key p_tr new_prover fst obind unwrap_opt snd] in EG. apply obind_ok in EG. destruct EG as [pf' [EG EG2]]. injection EG2 as <- <-.
  apply obind_ok in EG. destruct EG as [[pf2 v] [EG EG2]]. injection EG2 as <-. split; [reflexivity|].
  destruct (prove_fs ca cd hash omega g (Some eta) n c k sg (new_transcript label)) as [[pf3 v3]| |] eqn:EF; [|discriminate EG|discriminate EG]. injection EG as -> ->. cbn [fst] in *.
  destruct v as [[[ch' x'] aw'] saw']. pose proof (c78_agree _ _ _ _ _ _ _ _ _ _ _ _ _ _ EF) as EF'. rewrite EV in EF'. injection EF' as <- <- <- <-.
  unfold verify_proof, verifier_verify. cbn [v_key v_tr new_verifier unwrap_opt obind fst snd]. eapply (c78_complete hash c s omega g eta k sg); eauto.
Qed.
(** The verifier key enters no challenge of this interface: proofs are checked with the same challenges for all keys. *)
Theorem c78_circuit_key_refuted hash omega tables label pf pub : exists ch x aw saw, forall k n,
  verify_proof ca cd hash omega tables (k, n) pf pub label = verify ca cd omega n k tables pub pf ch x aw saw.
Proof using.
  destruct (verifier_challenges hash (new_transcript label) pub pf) as [[[ch x] aw] saw] eqn:E. exists ch, x, aw, saw. intros k n.
  unfold verify_proof, verifier_verify. cbn [v_key v_tr new_verifier unwrap_opt obind fst snd]. unfold verify_fs. now rewrite E.
Qed.

(** *** A run *)
(** For a hash function that depends on the last label only *)
Definition by_label (h : string -> F) : hash_fn F := fun tr => h (fst (last tr ("", MChallenge))).
Lemma draw_label h l l' tr : draw (by_label h) l l' tr = (h l, tr ++ [(l, MChallenge); (l', MScalar (h l))]).
Proof using. unfold draw, challenge, by_label. rewrite last_last. cbn [fst]. now rewrite <- app_assoc. Qed.
Definition chal_of (h : string -> F) : chal F := mk_chal (h "zeta") (h "beta") (h "gamma") (h "delta") (h "epsilon") (h "alpha")
  (mk_seps (h "range separation challenge") (h "logic separation challenge") (h "fixed base separation challenge") (h "variable base separation challenge")) (h "lookup separation challenge").
Lemma prove_label h omega g eta n c k sg tr0 P t r : prover_polys omega n c sg (chal_of h) = Ok P -> quotient ca cd omega g eta n (chal_of h) k P = Ok t ->
  linearisation ca cd omega n k P (split_tx_poly n t) (chal_of h) (h "z") = Ok r ->
  exists pf, prove_fs ca cd (by_label h) omega g eta n c k sg tr0 = Ok (pf, (chal_of h, h "z", h "aggregate_witness", h "aggregate_witness")).
Proof using.
  intros E1 E2 E3. unfold prover_polys in E1. cbv zeta in E1. unfold prove_fs. cbv zeta.
  apply obind_ok in E1. destruct E1 as [ws [A0 E1]]. rewrite A0. cbn [obind]. rewrite draw_label.
  apply obind_ok in E1. destruct E1 as [u1 [A1 E1]]. rewrite A1. cbn [obind]. apply obind_ok in E1. destruct E1 as [[[[tt f] h1] h2] [A2 E1]]. change (h "zeta") with (ch_zeta (chal_of h)). rewrite A2. cbn [obind].
  rewrite !draw_label. apply obind_ok in E1. destruct E1 as [u2 [A3 E1]]. change (h "beta") with (ch_beta (chal_of h)). change (h "gamma") with (ch_gamma (chal_of h)). change (h "delta") with (ch_delta (chal_of h)). change (h "epsilon") with (ch_eps (chal_of h)).
  rewrite A3. cbn [obind]. apply obind_ok in E1. destruct E1 as [z [A4 E1]]. rewrite A4. cbn [obind]. apply obind_ok in E1. destruct E1 as [z2 [A5 E1]]. rewrite A5. cbn [obind].
  apply obind_ok in E1. destruct E1 as [pi [A6 E1]]. rewrite A6. cbn [obind]. rewrite !draw_label. injection E1 as <-.
  change (mk_chal _ _ _ _ _ _ _ _) with (chal_of h). rewrite E2. cbn [obind]. rewrite draw_label, E3. cbn [lift obind].
  unfold opening_challenges, challenge, by_label. rewrite !last_last. cbn [fst]. eauto.
Qed.
End S.

(** *** Example: the proof for the first circuit of C76, with a hash function that gives the challenges of C76 and the point 5 *)
Definition h76 (l : string) : F193 := match l with
  | "zeta" => f193 3 | "beta" => f193 10 | "gamma" => f193 20 | "delta" => f193 30 | "epsilon" => f193 41 | "alpha" => f193 7
  | "range separation challenge" => f193 11 | "logic separation challenge" => f193 12 | "fixed base separation challenge" => f193 13
  | "variable base separation challenge" => f193 14 | "lookup separation challenge" => f193 15 | "z" => f193 5 | _ => f193 2 end.
Lemma chal76_h : chal_of h76 = chal76.
Proof. vm_compute. reflexivity. Qed.
Example c78_example : (3 < modulus (F:=F193))%Z /\ exists c s k sg tables pf,
  built (f193 1) (f193 2) 7 any193 c /\ sigma_for c s /\ domains (f193 43) (f193 5) (f193 125) (circuit_bound c) /\ honest (f193 1) (f193 2) c /\
  preprocess (f193 43) (circuit_bound c) c s = Ok k /\ compute_sigma_polynomials (f193 43) (circuit_bound c) s = Ok sg /\ table_polys (f193 43) (circuit_bound c) (c_table c) = Ok tables /\
  prove_fs (f193 1) (f193 2) (by_label h76) (f193 43) (f193 5) (Some (f193 125)) (circuit_bound c) c k sg (new_transcript "test") = Ok (pf, (chal76, f193 5, f193 2, f193 2)) /\
  compile (f193 43) (Some (f193 125)) (circuit_bound c) c s = Ok ((k, sg), (k, circuit_bound c)) /\
  gen_proof (f193 1) (f193 2) (by_label h76) (f193 43) (f193 5) (Some (f193 125)) (circuit_bound c) c s (k, sg) "test" = Ok (pf, c_pi c) /\
  ch_zeta chal76 <> 0 /\ ch_zeta chal76 <> 1 /\ NoDup (map (combined (ch_zeta chal76)) (c_table c)) /\ ch_delta chal76 <> - (1) /\ fpow (f193 5) (circuit_bound c) <> 1.
Proof.
  split; [exact eq_refl|]. pose proof run76 as R. apply andb_prop in R. destruct R as [R0 _]. destruct domains76 as [DM _].
  assert (OF : (3 < modulus (F:=F193))%Z) by exact eq_refl.
  destruct (run_circuit76_ok _ _ R0) as [c [s [k [pi [E [EB [ET [SF [EK [EPI Q]]]]]]]]]]. destruct (circuit76_ok _ _ E) as [B [_ H]].
  assert (HO : honest (f193 1) (f193 2) c) by (apply H; refine (proj1 (feqb_eq (F:=F193) _ _) _); run).
  destruct (Q eq_refl) as [sg [P [ES EP]]]. 
  assert (Z0 : ch_zeta chal76 <> 0) by (apply neq193; vm_compute; exact eq_refl). assert (Z1 : ch_zeta chal76 <> 1) by (apply neq193; vm_compute; exact eq_refl).
  assert (D1 : ch_delta chal76 <> - (1)) by (apply neq193; vm_compute; exact eq_refl). assert (Hx : fpow (f193 5) 8 <> 1) by (apply neq193; exact run77).
  assert (ND : NoDup (map (combined (ch_zeta chal76)) (c_table c))) by (rewrite ET; constructor).
  pose proof (c76_exact (f193 1) (f193 2) 7 any193 OF c s (f193 43) (f193 5) (f193 125) k sg chal76 P B SF) as X. cbv zeta in X. rewrite EB in X.
  destruct (X DM HO EK ES EP ND D1) as [t [EQ _]]. clear X.
  destruct (c77_linearisation (f193 1) (f193 2) (f193 43) 8 k P t chal76 (f193 5) (proj1 DM) Z0 Z1 Hx) as [lin [pf0 [u [l1 [lin' [EL _]]]]]].
  destruct (prove_label (f193 1) (f193 2) h76 (f193 43) (f193 5) (Some (f193 125)) 8 c k sg (new_transcript "test") P t (lin, honest_evals (f193 43) k P (f193 5))) as [pf EF];
    [rewrite chal76_h; exact EP|rewrite chal76_h; exact EQ|rewrite chal76_h; exact EL|]. rewrite chal76_h in EF.
  exists c, s, k, sg, (map (ifft (f193 43) 8) (table_columns (padded_table 8 (c_table c)))), pf. rewrite EB.
  split; [exact B|]. split; [exact SF|]. split; [exact DM|]. split; [exact HO|]. split; [exact EK|]. split; [exact ES|].
  split; [unfold table_polys; rewrite map_out_cols by (vm_compute; exact eq_refl); exact eq_refl|]. split; [exact EF|].
  split; [unfold compile, prover_preprocess, preprocess_prover; cbn [p_key p_tr new_prover]; rewrite EK, ES; unfold verifier_preprocess; rewrite EK; exact eq_refl|].
  split; [unfold gen_proof, prover_prove; cbn [p_key p_tr new_prover fst snd obind unwrap_opt]; rewrite EF; exact eq_refl|].
  split; [exact Z0|]. split; [exact Z1|]. split; [exact ND|]. split; [exact D1|exact Hx].
Qed.

Print Assumptions c78_agree.
Print Assumptions c78_complete.
Print Assumptions c78_bound.
Print Assumptions c78_seed.
Print Assumptions c78_forgery_refuted.
Print Assumptions c78_prover_history.
Print Assumptions c78_verifier_history.
Print Assumptions c78_histories_agree.
Print Assumptions c78_verifier_twice_refuted.
Print Assumptions c78_clear_refuted.
Print Assumptions c78_circuit.
Print Assumptions c78_circuit_key_refuted.
Print Assumptions c78_example.

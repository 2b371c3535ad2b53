(** PlonkTranscript.v: model of the transcript of plonk-core and of the interfaces that use it
    (plonk-core/src/transcript.rs, proof_system/prover.rs, proof_system/proof.rs, proof_system/verifier.rs, circuit.rs,
    and [seed_transcript] of proof_system/widget/mod.rs).
    Simplifications: the transcript is the list of the labelled messages, a commitment is the polynomial, and a challenge
    is an arbitrary function [hash] of the messages so far; [from_random_bytes] succeeds. The openings are left out,
    since they are made from the polynomials, the evaluations and the two opening challenges. *)
From Verif Require Import Base Tools KZG Plonk PlonkSpec PlonkPI PlonkProver PlonkQuot PlonkVerify.
From Coq Require Import String List.
Import ListNotations.
Local Open Scope F_scope.
Local Open Scope string_scope.
Local Open Scope list_scope.

Section PlonkTranscript.
Context {F : Type} {fo : FieldOps F} {po : PrimeFieldOps F}.

Inductive msg := MPub (m : list (nat * F)) | MCom (l : list F) | MScalar (x : F) | MBytes (b : string) | MSize (n : nat) | MChallenge.
Definition transcript : Type := list (string * msg).
Definition hash_fn : Type := transcript -> F.
(** merlin [Transcript::new] *)
Definition new_transcript (label : string) : transcript := [("dom-sep", MBytes label)].
(** transcript.rs:36-46 [challenge_scalar]; the request enters the state *)
Definition challenge (hash : hash_fn) (label : string) (tr : transcript) : F * transcript := let tr' := tr ++ [(label, MChallenge)] in (hash tr', tr').
(** a challenge that is appended to the transcript *)
Definition draw (hash : hash_fn) (label label' : string) (tr : transcript) : F * transcript :=
  let (c, tr) := challenge hash label tr in (c, tr ++ [(label', MScalar c)]).
(** widget/mod.rs:257-287 [seed_transcript] and transcript.rs:48-51 [circuit_domain_sep] *)
Definition seed_transcript (k : key F) (n : nat) (tr : transcript) : transcript :=
  let s := k_sel k in
  tr ++ [("q_m", MCom (q_m s)); ("q_l", MCom (q_l s)); ("q_r", MCom (q_r s)); ("q_o", MCom (q_o s)); ("q_c", MCom (q_c s)); ("q_4", MCom (q_4 s));
    ("q_hl", MCom (q_hl s)); ("q_hr", MCom (q_hr s)); ("q_h4", MCom (q_h4 s)); ("q_arith", MCom (q_arith s)); ("q_range", MCom (q_range s)); ("q_logic", MCom (q_logic s));
    ("q_variable_group_add", MCom (q_var s)); ("q_fixed_group_add", MCom (q_fixed s));
    ("left_sigma", MCom (k_sigma k Left)); ("right_sigma", MCom (k_sigma k Right)); ("out_sigma", MCom (k_sigma k Output)); ("fourth_sigma", MCom (k_sigma k Fourth));
    ("dom-sep", MBytes "circuit_size"); ("n", MSize n)].

(** *** The verifier *)
(** proof.rs:140-300 [verify]: the challenges up to the evaluation point, and the transcript before the opening challenges *)
Definition verifier_rounds (hash : hash_fn) (tr0 : transcript) (pub : list (nat * F)) (pf : proof F) : chal F * F * transcript :=
  let e := pf_evals pf in
  let tr := tr0 ++ [("pi", MPub pub)] in
  let tr := tr ++ [("w_l", MCom (pf_w pf Left)); ("w_r", MCom (pf_w pf Right)); ("w_o", MCom (pf_w pf Output)); ("w_4", MCom (pf_w pf Fourth))] in
  let (zeta, tr) := draw hash "zeta" "zeta" tr in
  let tr := tr ++ [("f", MCom (pf_f pf))] in
  let tr := tr ++ [("h1", MCom (pf_h1 pf)); ("h2", MCom (pf_h2 pf))] in
  let (beta, tr) := draw hash "beta" "beta" tr in
  let (gamma, tr) := draw hash "gamma" "gamma" tr in
  let (delta, tr) := draw hash "delta" "delta" tr in
  let (epsilon, tr) := draw hash "epsilon" "epsilon" tr in
  let tr := tr ++ [("z", MCom (pf_z pf))] in
  let (alpha, tr) := draw hash "alpha" "alpha" tr in
  let (range_sep, tr) := draw hash "range separation challenge" "range seperation challenge" tr in
  let (logic_sep, tr) := draw hash "logic separation challenge" "logic seperation challenge" tr in
  let (fixed_sep, tr) := draw hash "fixed base separation challenge" "fixed base separation challenge" tr in
  let (var_sep, tr) := draw hash "variable base separation challenge" "variable base separation challenge" tr in
  let (lookup_sep, tr) := draw hash "lookup separation challenge" "lookup separation challenge" tr in
  let t i := nth i (pf_t pf) [] in
  let tr := tr ++ [("t_1", MCom (t 0%nat)); ("t_2", MCom (t 1%nat)); ("t_3", MCom (t 2%nat)); ("t_4", MCom (t 3%nat));
    ("t_5", MCom (t 4%nat)); ("t_6", MCom (t 5%nat)); ("t_7", MCom (t 6%nat)); ("t_8", MCom (t 7%nat))] in
  let (x, tr) := draw hash "z" "z" tr in
  let tr := tr ++ [("a_eval", MScalar (e_a e)); ("b_eval", MScalar (e_b e)); ("c_eval", MScalar (e_c e)); ("d_eval", MScalar (e_d e))] in
  let tr := tr ++ [("left_sig_eval", MScalar (e_sl e)); ("right_sig_eval", MScalar (e_sr e)); ("out_sig_eval", MScalar (e_so e)); ("perm_eval", MScalar (e_perm e))] in
  let tr := tr ++ [("f_eval", MScalar (e_f e)); ("q_lookup_eval", MScalar (e_qlookup e)); ("lookup_perm_eval", MScalar (e_z2n e));
    ("h_1_eval", MScalar (e_h1 e)); ("h_1_next_eval", MScalar (e_h1n e)); ("h_2_eval", MScalar (e_h2 e))] in
  let tr := tr ++ map (fun p => (fst p, MScalar (snd p))) (e_custom e) in
  (mk_chal zeta beta gamma delta epsilon alpha (mk_seps range_sep logic_sep fixed_sep var_sep) lookup_sep, x, tr).
(** proof.rs:350, 378: the opening challenges *)
Definition opening_challenges (hash : hash_fn) (tr : transcript) : F * F :=
  let (aw, tr) := challenge hash "aggregate_witness" tr in
  let (saw, _) := challenge hash "aggregate_witness" tr in
  (aw, saw).
Definition verifier_challenges (hash : hash_fn) (tr0 : transcript) (pub : list (nat * F)) (pf : proof F) : chal F * F * F * F :=
  let '(ch, x, tr) := verifier_rounds hash tr0 pub pf in let (aw, saw) := opening_challenges hash tr in (ch, x, aw, saw).
(** proof.rs:121-430 [verify] *)
Definition verify_fs (ca cd : F) (hash : hash_fn) (omega : option F) (n : nat) (k : key F) (tables : list (list F)) (tr0 : transcript) (pub : list (nat * F)) (pf : proof F) :
    outcome verify_error unit :=
  let '(ch, x, aw, saw) := verifier_challenges hash tr0 pub pf in verify ca cd omega n k tables pub pf ch x aw saw.

(** *** The prover *)
(** prover.rs:158-620 [prove_with_preprocessed] (the opening challenges in prover.rs:538, 568); the result contains the challenges too *)
Definition prove_fs (ca cd : F) (hash : hash_fn) (omega g : F) (eta : option F) (n : nat) (c : composer F) (k : key F) (sg : column -> list F) (tr0 : transcript) :
    outcome quot_error (proof F * (chal F * F * F * F)) :=
  let p := ifft omega n in
  let tr := tr0 ++ [("pi", MPub (c_pi c))] in
  let! ws := lift (prover_wires n c) in
  let tr := tr ++ [("w_l", MCom (p (ws Left))); ("w_r", MCom (p (ws Right))); ("w_o", MCom (p (ws Output))); ("w_4", MCom (p (ws Fourth)))] in
  let (zeta, tr) := draw hash "zeta" "zeta" tr in
  let! _ := assert_ (List.length (c_sel c) <=? n)%nat in
  let qs := map q_lookup (c_sel c) ++ repeat 0 (n - List.length (c_sel c)) in
  let! r := lift (lookup_round n (c_table c) qs ws zeta) in
  let '(t, f, h1, h2) := r in
  let tr := tr ++ [("f", MCom (p f))] in
  let tr := tr ++ [("h1", MCom (p h1)); ("h2", MCom (p h2))] in
  let (beta, tr) := draw hash "beta" "beta" tr in
  let (gamma, tr) := draw hash "gamma" "gamma" tr in
  let (delta, tr) := draw hash "delta" "delta" tr in
  let (epsilon, tr) := draw hash "epsilon" "epsilon" tr in
  let! _ := assert_ (negb (feqb beta gamma || feqb beta delta || feqb beta epsilon || feqb gamma delta || feqb gamma epsilon || feqb delta epsilon)) in
  let! z := lift (compute_permutation_poly omega n ws beta gamma sg) in
  let tr := tr ++ [("z", MCom (p z))] in
  let! z2 := lift (compute_lookup_permutation_poly n f t h1 h2 delta epsilon) in
  let! pi := lift (pi_evals (c_pi c) n) in
  let (alpha, tr) := draw hash "alpha" "alpha" tr in
  let (range_sep, tr) := draw hash "range separation challenge" "range seperation challenge" tr in
  let (logic_sep, tr) := draw hash "logic separation challenge" "logic seperation challenge" tr in
  let (fixed_sep, tr) := draw hash "fixed base separation challenge" "fixed base separation challenge" tr in
  let (var_sep, tr) := draw hash "variable base separation challenge" "variable base separation challenge" tr in
  let (lookup_sep, tr) := draw hash "lookup separation challenge" "lookup separation challenge" tr in
  let P := mk_polys (fun col => p (ws col)) (p pi) (p z) (p z2) (p f) (p t) (p h1) (p h2) in
  let ch := mk_chal zeta beta gamma delta epsilon alpha (mk_seps range_sep logic_sep fixed_sep var_sep) lookup_sep in
  let! q := quotient ca cd omega g eta n ch k P in
  let ts := split_tx_poly n q in
  let t_ i := nth i ts [] in
  let tr := tr ++ [("t_1", MCom (t_ 0%nat)); ("t_2", MCom (t_ 1%nat)); ("t_3", MCom (t_ 2%nat)); ("t_4", MCom (t_ 3%nat));
    ("t_5", MCom (t_ 4%nat)); ("t_6", MCom (t_ 5%nat)); ("t_7", MCom (t_ 6%nat)); ("t_8", MCom (t_ 7%nat))] in
  let (x, tr) := draw hash "z" "z" tr in
  let! l := lift (linearisation ca cd omega n k P ts ch x) in
  let e := snd l in
  let tr := tr ++ [("a_eval", MScalar (e_a e)); ("b_eval", MScalar (e_b e)); ("c_eval", MScalar (e_c e)); ("d_eval", MScalar (e_d e))] in
  let tr := tr ++ [("left_sig_eval", MScalar (e_sl e)); ("right_sig_eval", MScalar (e_sr e)); ("out_sig_eval", MScalar (e_so e)); ("perm_eval", MScalar (e_perm e))] in
  let tr := tr ++ [("f_eval", MScalar (e_f e)); ("q_lookup_eval", MScalar (e_qlookup e)); ("lookup_perm_eval", MScalar (e_z2n e));
    ("h_1_eval", MScalar (e_h1 e)); ("h_1_next_eval", MScalar (e_h1n e)); ("h_2_eval", MScalar (e_h2 e))] in
  let tr := tr ++ map (fun p => (fst p, MScalar (snd p))) (e_custom e) in
  let (aw, saw) := opening_challenges hash tr in
  Ok (mk_proof (P_w P) (P_z P) (P_z2 P) (P_f P) (P_h1 P) (P_h2 P) ts e, (ch, x, aw, saw)).

(** *** The objects *)
(** prover.rs:24-46 [Prover], without the circuit, which is an argument of the operations that use it: it is replaced by an
    empty one after every proof (prover.rs:129-131, 636) *)
Record prover := mk_prover { p_key : option (key F * (column -> list F)); p_tr : transcript }.
(** verifier.rs:22-40 [Verifier] *)
Record verifier := mk_verifier { v_key : option (key F * nat); v_tr : transcript }.
(** prover.rs:56-75, verifier.rs:45-69 *)
Definition new_prover (label : string) : prover := mk_prover None (new_transcript label).
Definition new_verifier (label : string) : verifier := mk_verifier None (new_transcript label).
(** error.rs [CircuitAlreadyPreprocessed]; the errors of the other functions *)
Inductive api_error := CircuitAlreadyPreprocessed | QuotError (e : quot_error).
Definition api {A} (o : outcome quot_error A) : outcome api_error A := match o with Ok a => Ok a | Err e => Err (QuotError e) | Panic => Panic end.
(** preprocess.rs:163-181 and 284-458 [preprocess_prover], [preprocess_shared]: the outcome and the transcript; the transcript is
    seeded before the domain of size 8 n is looked for *)
Definition preprocess_prover (omega : F) (eta : option F) (n : nat) (c : composer F) (s : sigmas) (tr : transcript) : outcome quot_error (key F * (column -> list F)) * transcript :=
  match preprocess omega n c s, compute_sigma_polynomials omega n s with
  | Ok k, Ok sg => (match eta with Some _ => Ok (k, sg) | None => Err InvalidEvalDomainSize end, seed_transcript k n tr)
  | _, _ => (Panic, tr)
  end.
(** prover.rs:88-101 [preprocess]: the outcome and the new state *)
Definition prover_preprocess (omega : F) (eta : option F) (n : nat) (c : composer F) (s : sigmas) (p : prover) : outcome api_error unit * prover :=
  match p_key p with
  | Some _ => (Err CircuitAlreadyPreprocessed, p)
  | None => let (r, tr) := preprocess_prover omega eta n c s (p_tr p) in
            match r with Ok ks => (Ok tt, mk_prover (Some ks) tr) | Err e => (Err (QuotError e), mk_prover None tr) | Panic => (Panic, mk_prover None tr) end
  end.
(** prover.rs:621-639 [prove] *)
Definition prover_prove (ca cd : F) (hash : hash_fn) (omega g : F) (eta : option F) (n : nat) (c : composer F) (s : sigmas) (p : prover) : outcome api_error (proof F) * prover :=
  let (r, p') := match p_key p with Some _ => (Ok tt, p) | None => prover_preprocess omega eta n c s p end in
  (let! _ := r in
   let! ks := unwrap_opt (p_key p') in
   let! r := api (prove_fs ca cd hash omega g eta n c (fst ks) (snd ks) (p_tr p')) in
   Ok (fst r), p').
(** prover.rs:133-142 [clear], prover.rs:144-151 [key_transcript], verifier.rs:97-103 [key_transcript] *)
Definition prover_clear (p : prover) : prover := mk_prover None (new_transcript "plonk").
Definition prover_key_transcript (label bytes : string) (p : prover) : prover := mk_prover (p_key p) (p_tr p ++ [(label, MBytes bytes)]).
Definition verifier_key_transcript (label bytes : string) (v : verifier) : verifier := mk_verifier (v_key v) (v_tr v ++ [(label, MBytes bytes)]).
(** verifier.rs:85-95 [preprocess], with [preprocess_verifier] (preprocess.rs:266-282): not guarded *)
Definition verifier_preprocess (omega : F) (n : nat) (c : composer F) (s : sigmas) (v : verifier) : outcome api_error verifier :=
  let! k := lift (preprocess omega n c s) in Ok (mk_verifier (Some (k, n)) (seed_transcript k n (v_tr v))).
(** verifier.rs:106-119 [verify] *)
Definition verifier_verify (ca cd : F) (hash : hash_fn) (omega : option F) (tables : list (list F)) (v : verifier) (pub : list (nat * F)) (pf : proof F) : outcome verify_error unit :=
  let! kn := unwrap_opt (v_key v) in
  verify_fs ca cd hash omega (snd kn) (fst kn) tables (v_tr v) pub pf.
(** circuit.rs:262-287 [gen_proof]: the key comes from [compile], and the transcript is new *)
Definition gen_proof (ca cd : F) (hash : hash_fn) (omega g : F) (eta : option F) (n : nat) (c : composer F) (s : sigmas) (ks : key F * (column -> list F)) (label : string) :
    outcome api_error (proof F * list (nat * F)) :=
  let! r := fst (prover_prove ca cd hash omega g eta n c s (mk_prover (Some ks) (p_tr (new_prover label)))) in
  Ok (r, c_pi c).
(** circuit.rs:293-314 [verify_proof] *)
Definition verify_proof (ca cd : F) (hash : hash_fn) (omega : option F) (tables : list (list F)) (kn : key F * nat) (pf : proof F) (pub : list (nat * F)) (label : string) :
    outcome verify_error unit :=
  verifier_verify ca cd hash omega tables (mk_verifier (Some kn) (v_tr (new_verifier label))) pub pf.
(** circuit.rs:224-259 [compile] *)
Definition compile (omega : F) (eta : option F) (n : nat) (c : composer F) (s : sigmas) : outcome api_error ((key F * (column -> list F)) * (key F * nat)) :=
  let (r, p) := prover_preprocess omega eta n c s (new_prover "CircuitCompilation") in
  let! _ := r in
  let! v := verifier_preprocess omega n c s (new_verifier "CircuitCompilation") in
  let! pk := unwrap_opt (p_key p) in
  let! vk := unwrap_opt (v_key v) in
  Ok (pk, vk).
End PlonkTranscript.
Arguments msg : clear implicits.
Arguments transcript : clear implicits.
Arguments hash_fn : clear implicits.
Arguments prover : clear implicits.
Arguments verifier : clear implicits.

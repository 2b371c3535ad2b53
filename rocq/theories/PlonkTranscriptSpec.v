(** PlonkTranscriptSpec.v: the parts of a proof of plonk-core that a transcript should determine, and histories of calls. *)
From Verif Require Import Base Tools KZG Plonk PlonkPI PlonkProver PlonkQuot PlonkVerify PlonkTranscript.
From Coq Require Import String List.
Import ListNotations.
Local Open Scope F_scope.

Section PlonkTranscriptSpec.
Context {F : Type} {fo : FieldOps F} {po : PrimeFieldOps F}.

(** The proofs agree in everything but the commitment to z_2 and the two evaluations of the table. *)
Definition agree (p q : proof F) : Prop :=
  (forall col, pf_w p col = pf_w q col) /\ pf_f p = pf_f q /\ pf_h1 p = pf_h1 q /\ pf_h2 p = pf_h2 q /\ pf_z p = pf_z q /\
  (forall i, (i < 8)%nat -> nth i (pf_t p) [] = nth i (pf_t q) []) /\
  let e := pf_evals p in let e' := pf_evals q in
  e_a e = e_a e' /\ e_b e = e_b e' /\ e_c e = e_c e' /\ e_d e = e_d e' /\ e_sl e = e_sl e' /\ e_sr e = e_sr e' /\ e_so e = e_so e' /\ e_perm e = e_perm e' /\
  e_f e = e_f e' /\ e_qlookup e = e_qlookup e' /\ e_z2n e = e_z2n e' /\ e_h1 e = e_h1 e' /\ e_h1n e = e_h1n e' /\ e_h2 e = e_h2 e' /\ e_custom e = e_custom e'.
(** The keys agree in everything but the selector of lookups. *)
Definition keys_agree (k k' : key F) : Prop :=
  let s := k_sel k in let s' := k_sel k' in
  q_m s = q_m s' /\ q_l s = q_l s' /\ q_r s = q_r s' /\ q_o s = q_o s' /\ q_4 s = q_4 s' /\ q_c s = q_c s' /\ q_hl s = q_hl s' /\ q_hr s = q_hr s' /\ q_h4 s = q_h4 s' /\
  q_arith s = q_arith s' /\ q_range s = q_range s' /\ q_logic s = q_logic s' /\ q_fixed s = q_fixed s' /\ q_var s = q_var s' /\ forall col, k_sigma k col = k_sigma k' col.

(** Calls of a prover and of a verifier, for a circuit: the state afterwards, whatever the outcome. *)
Inductive call := CPreprocess | CKey (label bytes : string) | CUse.
Definition prover_call (ca cd : F) (hash : hash_fn F) (omega g : F) (eta : option F) (n : nat) (c : composer F) (s : sigmas) (p : prover F) (x : call) : prover F :=
  match x with
  | CPreprocess => snd (prover_preprocess omega eta n c s p)
  | CKey label bytes => prover_key_transcript label bytes p
  | CUse => snd (prover_prove ca cd hash omega g eta n c s p)
  end.
Definition verifier_call (omega : F) (n : nat) (c : composer F) (s : sigmas) (v : verifier F) (x : call) : verifier F :=
  match x with
  | CPreprocess => match verifier_preprocess omega n c s v with Ok v' => v' | _ => v end
  | CKey label bytes => verifier_key_transcript label bytes v
  | CUse => v
  end.
End PlonkTranscriptSpec.

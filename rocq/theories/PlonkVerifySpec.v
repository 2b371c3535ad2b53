(** PlonkVerifySpec.v: what the evaluations of a proof of plonk-core stand for. *)
From Verif Require Import Base Tools KZG Plonk PlonkProver PlonkQuot PlonkVerify.
From Coq Require Import String.
Local Open Scope F_scope.

Section PlonkVerifySpec.
Context {F : Type} {fo : FieldOps F} {po : PrimeFieldOps F}.

(** The evaluations that are opened are the values of the committed polynomials at x, and at x omega for the next gate. *)
Definition right_evals (omega : F) (k : key F) (P : polys F) (x : F) (e : evals F) (u : custom F) : Prop :=
  e_a e = peval (P_w P Left) x /\ e_b e = peval (P_w P Right) x /\ e_c e = peval (P_w P Output) x /\ e_d e = peval (P_w P Fourth) x /\
  e_sl e = peval (k_sigma k Left) x /\ e_sr e = peval (k_sigma k Right) x /\ e_so e = peval (k_sigma k Output) x /\ e_perm e = peval (P_z P) (x * omega) /\
  e_z2n e = peval (P_z2 P) (x * omega) /\ e_h1n e = peval (P_h1 P) (x * omega) /\ e_h2 e = peval (P_h2 P) x /\ e_f e = peval (P_f P) x /\
  e_t e = peval (P_t P) x /\ e_tn e = peval (P_t P) (x * omega) /\
  u_an u = peval (P_w P Left) (x * omega) /\ u_bn u = peval (P_w P Right) (x * omega) /\ u_dn u = peval (P_w P Fourth) (x * omega).
(** The evaluations of selectors are the values of the selectors of the key; the verifier opens none of them. *)
Definition right_sels (k : key F) (x : F) (u : custom F) : Prop :=
  u_qarith u = peval (q_arith (k_sel k)) x /\ u_qc u = peval (q_c (k_sel k)) x /\ u_ql u = peval (q_l (k_sel k)) x /\ u_qr u = peval (q_r (k_sel k)) x.
(** The four challenges of the permutation and of the lookup argument are distinct. *)
Definition distinct_challenges (ch : chal F) : Prop :=
  ch_beta ch <> ch_gamma ch /\ ch_beta ch <> ch_delta ch /\ ch_beta ch <> ch_eps ch /\ ch_gamma ch <> ch_delta ch /\ ch_gamma ch <> ch_eps ch /\ ch_delta ch <> ch_eps ch.
(** The labels that the verifier reads. *)
Definition labels : list string := ["q_arith_eval"; "q_c_eval"; "q_l_eval"; "q_r_eval"; "a_next_eval"; "b_next_eval"; "d_next_eval"]%string.
(** The evaluations with another value for the table. *)
Definition set_table_eval (e : evals F) (t : F) : evals F :=
  mk_evals (e_a e) (e_b e) (e_c e) (e_d e) (e_sl e) (e_sr e) (e_so e) (e_perm e) (e_qlookup e) (e_z2n e) (e_h1 e) (e_h1n e) (e_h2 e) (e_f e) t (e_tn e) (e_custom e).
End PlonkVerifySpec.

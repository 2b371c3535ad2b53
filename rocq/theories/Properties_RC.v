(** Properties_RC.v: the range-check argument (snarks/range_check.rs): what its prover does (C58).
    [H] is an arbitrary function from transcripts to challenges, the randomizers, trapdoor and
    generators are arbitrary, and the groups are arbitrary one-dimensional spaces with a
    non-degenerate pairing over a prime field.  The statement "the values are among 0, ..., range - 1"
    is [Forall (below range)], see RCSoundSpec. *)
From Verif Require Import Base Spec Tools KZG KZGProofs Snark RC RCSoundSpec RCSound RCComplete IntProofs Properties_Tools Properties_Snark.
Local Open Scope F_scope.

Section S.
Context {F G1 G2 GT : Type} {fo : FieldOps F} {fl : FieldLaws F} {pfo : PrimeFieldOps F} {pfl : PrimeFieldLaws F}
        {po : PairingOps F G1 G2 GT} {pl : PairingLaws F G1 G2 GT}.
Variable H : list (item F G1) -> F.

(** Whatever witness the prover was run with, a proof it returns is accepted by the verifier, for every
    random scalar of the verifier. *)
Theorem c58_returned_proofs_are_accepted d tau (g : G1) (h : G2) pp cs pk vk w d0 d1 d2 d3 d4 d5 pf rnd :
  g <> v0 -> h <> v0 ->
  setup d tau g h = Ok pp -> rc_index pp cs = Ok (pk, vk) ->
  rc_prove H pk w d0 d1 d2 d3 d4 d5 = Ok pf -> rc_verify H vk pf rnd = Ok tt.
Proof. apply rc_accepts. Qed.

(** But it never returns one: for every nonempty lookup, whatever the values -- in range or not -- a
    proof is returned only if the fifth blinding scalar or one of two challenges is zero.  So with a
    hash function without zero values and a nonzero blinding scalar, [prove] fails on every witness. *)
Theorem c58_proof_needs_a_zero d tau (g : G1) (h : G2) pp cs pk vk w d0 d1 d2 d3 d4 d5 pf :
  setup d tau g h = Ok pp -> rc_index pp cs = Ok (pk, vk) -> (1 <= rc_lookup_size cs)%nat ->
  rc_prove H pk w d0 d1 d2 d3 d4 d5 = Ok pf ->
  d4 = 0 \/
  rc_v_ch_alpha H vk (rc_cm_w_vec pf) (rc_cm_m_vec pf) (rc_cm_r_vec pf) (rc_cm_s_vec pf) (rc_cm_r_vec_tilde pf) = 0 \/
  rc_v_ch_omega H vk (rc_cm_w_vec pf) (rc_cm_m_vec pf) (rc_cm_r_vec pf) (rc_cm_s_vec pf) (rc_cm_r_vec_tilde pf) (rc_cm_t_vec_1 pf) = 0.
Proof. apply rc_fails. Qed.
Theorem c58_completeness_refuted d tau (g : G1) (h : G2) pp cs pk vk w d0 d1 d2 d3 d4 d5 :
  setup d tau g h = Ok pp -> rc_index pp cs = Ok (pk, vk) -> (1 <= rc_lookup_size cs)%nat ->
  d4 <> 0 -> (forall l, H l <> 0) ->
  forall pf, rc_prove H pk w d0 d1 d2 d3 d4 d5 <> Ok pf.
Proof.
  intros Hs Hi Hn Hd HH pf Hp. destruct (c58_proof_needs_a_zero _ _ _ _ _ _ _ _ _ _ _ _ _ _ _ _ Hs Hi Hn Hp) as [E|[E|E]].
  - exact (Hd E).
  - exact (HH _ E).
  - exact (HH _ E).
Qed.

(** Moreover, with more values than the range has members, the key holds a commitment to a displaced
    table, and the prover works with the right one: a proof is returned only if the product below
    vanishes.  Its last factor is the table 0, 1, 2, ... evaluated at the trapdoor. *)
Theorem c58_long_lookup_needs_a_zero d tau (g : G1) (h : G2) pp cs pk vk w d0 d1 d2 d3 d4 d5 pf :
  g <> v0 -> setup d tau g h = Ok pp -> rc_index pp cs = Ok (pk, vk) ->
  rc_prove H pk w d0 d1 d2 d3 d4 d5 = Ok pf ->
  rc_v_ch_alpha H vk (rc_cm_w_vec pf) (rc_cm_m_vec pf) (rc_cm_r_vec pf) (rc_cm_s_vec pf) (rc_cm_r_vec_tilde pf)
  * rc_pf_y_1 pf * (fpow tau (rc_lookup_size cs - rc_range_size cs) - 1)
  * peval (map (fun i => from_Z (Z.of_nat i)) (seq 0 (rc_range_size cs))) tau = 0.
Proof.
  intros Hg Hs Hi Hp. pose proof (rc_long H _ _ _ _ _ _ _ _ _ _ _ _ _ _ _ _ Hg Hs Hi Hp) as E.
  unfold rc_tab in E. exact E.
Qed.
End S.

(** Concrete runs: setup, index, prove and verify with blinding scalars 21, ..., 24, d4, 26. *)
Definition rc_run101 (a b d : nat) w d4 : outcome error unit :=
  let! pp := setup101 d in
  let! kv := rc_index (GT:=F101) pp (mkRCCS a b) in
  let! pf := rc_prove (GT:=F101) H101 (fst kv) w (f101 21) (f101 22) (f101 23) (f101 24) d4 (f101 26) in
  rc_verify (GT:=F101) H101 (snd kv) pf (f101 77).
(** the two values 2, 0 are among 0, 1, 2; proving this fails in a debug comparison, and works if the
    blinding scalar is zero; a value out of range makes the prover panic; three values among 0, 1 make
    it panic even with the zero blinding scalar. *)
Example c58_example : Forall (below 3) (l101 [2; 0]%Z) /\ Forall (below 2) (l101 [1; 0; 1]%Z) /\
  rc_run101 2 3 4 (l101 [2; 0]%Z) (f101 25) = Err VectorNotEqual /\
  rc_run101 1 1 4 (l101 [0]%Z) (f101 25) = Err PolynomialEvaluationUnexpected /\
  rc_run101 2 3 4 (l101 [2; 0]%Z) (f101 0) = Ok tt /\
  rc_run101 2 3 4 (l101 [2; 3]%Z) (f101 0) = Panic /\
  rc_run101 3 2 4 (l101 [1; 0; 1]%Z) (f101 0) = Panic.
Proof.
  split. { constructor; [exists 2%nat; split; [lia|reflexivity]|constructor; [exists 0%nat; split; [lia|reflexivity]|constructor]]. }
  split. { constructor; [exists 1%nat; split; [lia|reflexivity]|constructor; [exists 0%nat; split; [lia|reflexivity]|constructor; [exists 1%nat; split; [lia|reflexivity]|constructor]]]. }
  repeat split; vm_compute; reflexivity.
Qed.

Print Assumptions c58_returned_proofs_are_accepted.
Print Assumptions c58_proof_needs_a_zero.
Print Assumptions c58_completeness_refuted.
Print Assumptions c58_long_lookup_needs_a_zero.

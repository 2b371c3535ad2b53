(** Properties_R1.v: the argument for R1CS (voproof_r1cs).
    [H] is an arbitrary function from transcripts to challenges, the randomizers, trapdoor and
    generators are arbitrary, and the groups are arbitrary one-dimensional spaces with a
    non-degenerate pairing.  [r1_nnz cs] is the total number of matrix entries, [r1_lengths cs] says
    that the coordinate lists have matching lengths. *)
From Verif Require Import Base Spec Tools CS CSProofs CSExtra KZG KZGProofs Snark R1 R1Complete R1Top Properties_Snark.
Local Open Scope F_scope.

Section S.
Context {F G1 G2 GT : Type} {fo : FieldOps F} {fl : FieldLaws F}
        {po : PairingOps F G1 G2 GT} {pl : PairingLaws F G1 G2 GT}.
Variable H : list (item F G1) -> F.
Variable gamma : F.

(** ** C51: completeness *)
(** Whatever witness the prover was run with, a proof it returns is accepted by the verifier for the
    same instance, for every random scalar of the verifier. *)
Theorem c51_returned_proofs_are_accepted d beta (g : G1) (h : G2) pp cs pk vk x w d0 d1 d2 pf rnd :
  g <> v0 -> h <> v0 ->
  setup d beta g h = Ok pp -> r1_index gamma pp cs = Ok (pk, vk) ->
  r1_prove H gamma pk x w d0 d1 d2 = Ok pf -> r1_verify H gamma vk x pf rnd = Ok tt.
Proof. apply r1_accepts. Qed.
(** For a satisfied system with at least three matrix entries per row on average, and not too many
    rows, the prover returns a proof that is accepted, unless one of the events listed in
    [r1_unlucky] happened. *)
Theorem c51_complete d beta (g : G1) (h : G2) pp cs pk vk x w d0 d1 d2 :
  g <> v0 -> h <> v0 -> gamma <> 0 ->
  setup d beta g h = Ok pp -> r1_index gamma pp cs = Ok (pk, vk) ->
  (1 <= r_nrows cs)%nat -> (3 * r_nrows cs <= r1_nnz cs)%nat ->
  (4 * r_nrows cs <= r_ncols cs + r1_nnz cs + 1)%nat -> r1cs_shape cs ->
  length x = r_input_size cs -> (1 + length x + length w = r_ncols cs)%nat ->
  r1cs_holds (entries_of (r_arows cs) (r_acols cs) (r_avals cs)) (entries_of (r_brows cs) (r_bcols cs) (r_bvals cs))
             (entries_of (r_crows cs) (r_ccols cs) (r_cvals cs)) (r_nrows cs) (r_ncols cs) (1 :: x ++ w) ->
  (exists pf, r1_prove H gamma pk x w d0 d1 d2 = Ok pf /\
     forall rnd, r1_verify H gamma vk x pf rnd = Ok tt) \/
  r1_unlucky H gamma pk x w d0 d1 d2.
Proof. intros. eapply r1_complete; eauto; intros; lia. Qed.
(** ... and the keys exist as soon as the lists have matching lengths, there is a matrix entry, and
    the parameters are large enough. *)
Theorem c51_index_ok d beta (g : G1) (h : G2) pp cs :
  setup d beta g h = Ok pp -> r1_lengths cs -> (1 <= r1_nnz cs)%nat ->
  (r_nrows cs <= 2 * r_ncols cs + 2 * r1_nnz cs)%nat -> (2 * r_ncols cs + 2 * r1_nnz cs - r_nrows cs <= d)%nat ->
  (r1_nnz cs <= d + 1)%nat ->
  exists pk vk, r1_index gamma pp cs = Ok (pk, vk).
Proof. apply r1_index_ok. Qed.

(** ** C52: where this argument and the satisfaction check disagree *)
(** With fewer than three matrix entries per row on average, proving always panics. *)
Theorem c52_sparse_system_panics d beta (g : G1) (h : G2) pp cs pk vk x w d0 d1 d2 :
  setup d beta g h = Ok pp -> r1_index gamma pp cs = Ok (pk, vk) ->
  (r1_nnz cs < 3 * r_nrows cs)%nat -> r1_prove H gamma pk x w d0 d1 d2 = Panic.
Proof. apply r1_sparse_panic. Qed.
(** An assignment of the wrong length panics. *)
Theorem c52_wrong_length_panics d beta (g : G1) (h : G2) pp cs pk vk x w d0 d1 d2 :
  setup d beta g h = Ok pp -> r1_index gamma pp cs = Ok (pk, vk) ->
  (1 + length x + length w <> r_ncols cs)%nat -> r1_prove H gamma pk x w d0 d1 d2 = Panic.
Proof. apply r1_length_panic. Qed.

(** ** C53: the declared number of public inputs is not enforced on the instance *)
(** Whatever the length of the instance: entries after the declared number of inputs are not tied to
    anything, and missing ones count as zero; such instances are proved and accepted all the same. *)
Theorem c53_any_instance_length d beta (g : G1) (h : G2) pp cs pk vk x w d0 d1 d2 :
  g <> v0 -> h <> v0 -> gamma <> 0 ->
  setup d beta g h = Ok pp -> r1_index gamma pp cs = Ok (pk, vk) ->
  (1 <= r_nrows cs)%nat -> (3 * r_nrows cs <= r1_nnz cs)%nat ->
  (4 * r_nrows cs <= r_ncols cs + r1_nnz cs + 1)%nat -> r1cs_shape cs ->
  (r_input_size cs + 1 <= r_ncols cs)%nat -> (1 + length x + length w = r_ncols cs)%nat ->
  (forall i, (length x <= i < r_input_size cs)%nat -> coef (x ++ w) i = 0) ->
  r1cs_holds (entries_of (r_arows cs) (r_acols cs) (r_avals cs)) (entries_of (r_brows cs) (r_bcols cs) (r_bvals cs))
             (entries_of (r_crows cs) (r_ccols cs) (r_cvals cs)) (r_nrows cs) (r_ncols cs) (1 :: x ++ w) ->
  (exists pf, r1_prove H gamma pk x w d0 d1 d2 = Ok pf /\
     forall rnd, r1_verify H gamma vk x pf rnd = Ok tt) \/
  r1_unlucky H gamma pk x w d0 d1 d2.
Proof. apply r1_complete. Qed.
End S.

(** ** Non-vacuity and counterexamples: integers modulo 101, pairing e(a,b) = ab, a small hash *)
Definition r1_run cs x w d : outcome error unit :=
  let! pp := setup101 d in
  let! kv := r1_index (GT:=F101) (f101 2) pp cs in
  let! pf := r1_prove (GT:=F101) H101 (f101 2) (fst kv) x w (f101 21) (f101 22) (f101 23) in
  r1_verify (GT:=F101) H101 (f101 2) (snd kv) x pf (f101 77).
(** the row 1 * 1 = 1, three times (no inputs, no witness) *)
Definition r1cs_three : R1CS F101 :=
  mkR1CS [0;1;2]%nat [0;0;0]%nat (l101 [1;1;1]%Z) [0;1;2]%nat [0;0;0]%nat (l101 [1;1;1]%Z)
         [0;1;2]%nat [0;0;0]%nat (l101 [1;1;1]%Z) 3 1 0.
Example c51_example :
  f101 3 <> v0 /\ f101 5 <> v0 /\ r1cs_shape r1cs_example /\ (3 * r_nrows r1cs_example <= r1_nnz r1cs_example)%nat /\
  r1cs_satisfy (E:=error) r1cs_example [f101 9] [f101 3] = Ok true /\
  r1_run r1cs_example [f101 9] [f101 3] 11 = Ok tt.
Proof.
  split; [intros E; apply (f_equal (zval 101)) in E; vm_compute in E; discriminate|].
  split; [intros E; apply (f_equal (zval 101)) in E; vm_compute in E; discriminate|].
  split; [apply r1cs_example_ok|]. split; [vm_compute; lia|]. split; vm_compute; reflexivity.
Qed.
(** a wrong witness is refused by the prover's own check *)
Example c51_example_wrong_witness :
  r1_run r1cs_example [f101 9] [f101 4] 11 = Err PolynomialEvaluationUnexpected.
Proof. vm_compute. reflexivity. Qed.
(** The same satisfied row three times: enough matrix entries, but the prover cannot prove it, because
    a product of its polynomials is longer than the room reserved for it. *)
Theorem c52_many_rows_refuted : exists (cs : R1CS F101) x w d,
  r1cs_satisfy (E:=error) cs x w = Ok true /\ (3 * r_nrows cs <= r1_nnz cs)%nat /\ length x = r_input_size cs /\
  r1_run cs x w d = Err PolynomialEvaluationUnexpected.
Proof.
  exists r1cs_three, [], [], 17%nat. split; [vm_compute; reflexivity|]. split; [vm_compute; lia|].
  split; [reflexivity|]. vm_cast_no_check (@eq_refl (outcome error unit) (Err PolynomialEvaluationUnexpected)).
Qed.
(** An instance with no entry is accepted for a system with one public input, and so is one with two. *)
Example c53_example_short : r_input_size r1cs_example = 1%nat /\ r1_run r1cs_example [] (l101 [0; 0]%Z) 11 = Ok tt.
Proof. split; vm_compute; reflexivity. Qed.
Example c53_example_long : r1_run r1cs_example (l101 [9; 3]%Z) [] 11 = Ok tt.
Proof. vm_compute. reflexivity. Qed.
Example c52_example_sparse :
  let cs := mkR1CS [0]%nat [1]%nat (l101 [1]%Z) [0]%nat [1]%nat (l101 [1]%Z) [] [] [] 1 2 1 in
  r1cs_satisfy (E:=error) cs [f101 0] [] = Ok true /\ r1_run cs [f101 0] [] 30 = Panic.
Proof. split; vm_compute; reflexivity. Qed.

Print Assumptions c51_returned_proofs_are_accepted.
Print Assumptions c51_complete.
Print Assumptions c51_index_ok.
Print Assumptions c52_sparse_system_panics.
Print Assumptions c52_wrong_length_panics.
Print Assumptions c52_many_rows_refuted.
Print Assumptions c53_any_instance_length.

(** Properties_RP.v: the prover-efficient argument for R1CS (voproof_r1cs_prover_efficient).
    [H] is an arbitrary function from transcripts to challenges, the randomizers, trapdoor and
    generators are arbitrary, and the groups are arbitrary one-dimensional spaces with a
    non-degenerate pairing.  [r1_nnz cs] is the total number of matrix entries, [r1_lengths cs] says
    that the coordinate lists have matching lengths. *)
From Verif Require Import Base Spec Tools CS CSProofs CSExtra KZG KZGProofs Snark R1Complete RP RPComplete RPTop Properties_Snark.
Local Open Scope F_scope.

Section S.
Context {F G1 G2 GT : Type} {fo : FieldOps F} {fl : FieldLaws F}
        {po : PairingOps F G1 G2 GT} {pl : PairingLaws F G1 G2 GT}.
Variable H : list (item F G1) -> F.
Variable gamma : F.

(** ** C55: completeness *)
(** Whatever witness the prover was run with, a proof it returns is accepted by the verifier for the
    same instance, for every random scalar of the verifier. *)
Theorem c55_returned_proofs_are_accepted d beta (g : G1) (h : G2) pp cs pk vk x w d0 d1 d2 d3 pf rnd :
  g <> v0 -> h <> v0 ->
  setup d beta g h = Ok pp -> rp_index gamma pp cs = Ok (pk, vk) ->
  rp_prove H gamma pk x w d0 d1 d2 d3 = Ok pf -> rp_verify H gamma vk x pf rnd = Ok tt.
Proof. apply rp_accepts. Qed.
(** For a satisfied system with at least three matrix entries per row on average, no more columns than
    entries, and fewer public inputs than twice the rows, the prover returns a proof that is accepted,
    unless one of the events listed in [rp_unlucky] happened. *)
Theorem c55_complete d beta (g : G1) (h : G2) pp cs pk vk x w d0 d1 d2 d3 :
  g <> v0 -> h <> v0 -> gamma <> 0 ->
  setup d beta g h = Ok pp -> rp_index gamma pp cs = Ok (pk, vk) ->
  (1 <= r_nrows cs)%nat -> (3 * r_nrows cs <= r1_nnz cs)%nat -> (r_ncols cs <= r1_nnz cs)%nat ->
  (r_input_size cs + 1 <= 2 * r_nrows cs)%nat -> r1cs_shape cs ->
  length x = r_input_size cs -> (1 + length x + length w = r_ncols cs)%nat ->
  r1cs_holds (entries_of (r_arows cs) (r_acols cs) (r_avals cs)) (entries_of (r_brows cs) (r_bcols cs) (r_bvals cs))
             (entries_of (r_crows cs) (r_ccols cs) (r_cvals cs)) (r_nrows cs) (r_ncols cs) (1 :: x ++ w) ->
  (exists pf, rp_prove H gamma pk x w d0 d1 d2 d3 = Ok pf /\
     forall rnd, rp_verify H gamma vk x pf rnd = Ok tt) \/
  rp_unlucky H gamma pk x w d0 d1 d2 d3.
Proof. intros. eapply rp_complete; eauto; intros; lia. Qed.
(** ... and the keys exist as soon as the lists have matching lengths, there is a matrix entry, and
    the parameters are large enough. *)
Theorem c55_index_ok d beta (g : G1) (h : G2) pp cs :
  setup d beta g h = Ok pp -> r1_lengths cs -> (1 <= r1_nnz cs)%nat ->
  (2 * r_nrows cs + r1_nnz cs <= d)%nat ->
  exists pk vk, rp_index gamma pp cs = Ok (pk, vk).
Proof. apply rp_index_ok. Qed.

(** ** C56: where this argument and the satisfaction check disagree *)
(** With fewer than three matrix entries per row on average, proving always panics; *)
Theorem c56_sparse_system_panics d beta (g : G1) (h : G2) pp cs pk vk x w d0 d1 d2 d3 :
  setup d beta g h = Ok pp -> rp_index gamma pp cs = Ok (pk, vk) ->
  (r1_nnz cs < 3 * r_nrows cs)%nat -> rp_prove H gamma pk x w d0 d1 d2 d3 = Panic.
Proof. apply rp_sparse_panic. Qed.
(** so it does with more columns than matrix entries, *)
Theorem c56_wide_system_panics d beta (g : G1) (h : G2) pp cs pk vk x w d0 d1 d2 d3 :
  setup d beta g h = Ok pp -> rp_index gamma pp cs = Ok (pk, vk) ->
  (r1_nnz cs < r_ncols cs)%nat -> rp_prove H gamma pk x w d0 d1 d2 d3 = Panic.
Proof. apply rp_wide_panic. Qed.
(** and with an assignment of the wrong length. *)
Theorem c56_wrong_length_panics d beta (g : G1) (h : G2) pp cs pk vk x w d0 d1 d2 d3 :
  setup d beta g h = Ok pp -> rp_index gamma pp cs = Ok (pk, vk) ->
  (1 + length x + length w <> r_ncols cs)%nat -> rp_prove H gamma pk x w d0 d1 d2 d3 = Panic.
Proof. apply rp_length_panic. Qed.
(** The declared number of public inputs is not enforced: when every entry of the witness is zero (in
    particular when the whole assignment is passed as the instance) the instance may have any length. *)
Theorem c56_any_instance_length d beta (g : G1) (h : G2) pp cs pk vk x w d0 d1 d2 d3 :
  g <> v0 -> h <> v0 -> gamma <> 0 ->
  setup d beta g h = Ok pp -> rp_index gamma pp cs = Ok (pk, vk) ->
  (1 <= r_nrows cs)%nat -> (3 * r_nrows cs <= r1_nnz cs)%nat -> (r_ncols cs <= r1_nnz cs)%nat ->
  (r_input_size cs + 1 <= 2 * r_nrows cs)%nat -> r1cs_shape cs ->
  (r_input_size cs + 1 <= r_ncols cs)%nat -> (1 + length x + length w = r_ncols cs)%nat ->
  (forall i, coef w i = 0) ->
  r1cs_holds (entries_of (r_arows cs) (r_acols cs) (r_avals cs)) (entries_of (r_brows cs) (r_bcols cs) (r_bvals cs))
             (entries_of (r_crows cs) (r_ccols cs) (r_cvals cs)) (r_nrows cs) (r_ncols cs) (1 :: x ++ w) ->
  (exists pf, rp_prove H gamma pk x w d0 d1 d2 d3 = Ok pf /\
     forall rnd, rp_verify H gamma vk x pf rnd = Ok tt) \/
  rp_unlucky H gamma pk x w d0 d1 d2 d3.
Proof. intros. eapply rp_complete; eauto. Qed.
End S.

(** ** Non-vacuity and counterexamples: integers modulo 101, pairing e(a,b) = ab, a small hash *)
Definition rp_run cs x w d : outcome error unit :=
  let! pp := setup101 d in
  let! kv := rp_index (GT:=F101) (f101 2) pp cs in
  let! pf := rp_prove (GT:=F101) H101 (f101 2) (fst kv) x w (f101 21) (f101 22) (f101 23) (f101 24) in
  rp_verify (GT:=F101) H101 (f101 2) (snd kv) x pf (f101 77).
(** (1 + x1) x2 = w: two public inputs, one row *)
Definition r1cs_two_inputs : R1CS F101 :=
  mkR1CS [0;0]%nat [0;1]%nat (l101 [1;1]%Z) [0]%nat [2]%nat (l101 [1]%Z) [0]%nat [3]%nat (l101 [1]%Z) 1 4 2.
Example c55_example :
  f101 3 <> v0 /\ f101 5 <> v0 /\ r1cs_shape r1cs_example /\ (3 * r_nrows r1cs_example <= r1_nnz r1cs_example)%nat /\
  (r_ncols r1cs_example <= r1_nnz r1cs_example)%nat /\ (r_input_size r1cs_example + 1 <= 2 * r_nrows r1cs_example)%nat /\
  r1cs_satisfy (E:=error) r1cs_example [f101 9] [f101 3] = Ok true /\
  rp_run r1cs_example [f101 9] [f101 3] 6 = Ok tt.
Proof.
  split; [intros E; apply (f_equal (zval 101)) in E; vm_compute in E; discriminate|].
  split; [intros E; apply (f_equal (zval 101)) in E; vm_compute in E; discriminate|].
  split; [apply r1cs_example_ok|]. split; [vm_compute; lia|]. split; [vm_compute; lia|]. split; [vm_compute; lia|].
  split; vm_compute; reflexivity.
Qed.
(** a wrong witness is refused by the prover's own check *)
Example c55_example_wrong_witness :
  rp_run r1cs_example [f101 9] [f101 4] 6 = Err PolynomialEvaluationUnexpected.
Proof. vm_compute. reflexivity. Qed.
(** A satisfied system with two public inputs and one row, enough entries and columns: the prover
    cannot prove it, because the shifted witness is longer than the room reserved for it. *)
Theorem c56_many_inputs_refuted : exists (cs : R1CS F101) x w d,
  r1cs_satisfy (E:=error) cs x w = Ok true /\ (3 * r_nrows cs <= r1_nnz cs)%nat /\
  (r_ncols cs <= r1_nnz cs)%nat /\ length x = r_input_size cs /\
  rp_run cs x w d = Err PolynomialEvaluationUnexpected.
Proof.
  exists r1cs_two_inputs, (l101 [2; 3]%Z), (l101 [9]%Z), 7%nat. split; [vm_compute; reflexivity|]. split; [vm_compute; lia|].
  split; [vm_compute; lia|]. split; [reflexivity|]. vm_cast_no_check (@eq_refl (outcome error unit) (Err PolynomialEvaluationUnexpected)).
Qed.
Example c56_example_long : r_input_size r1cs_example = 1%nat /\ rp_run r1cs_example (l101 [9; 3]%Z) [] 6 = Ok tt.
Proof. split; vm_compute; reflexivity. Qed.
Example c56_example_sparse :
  let cs := mkR1CS [0]%nat [1]%nat (l101 [1]%Z) [0]%nat [1]%nat (l101 [1]%Z) [] [] [] 1 2 1 in
  r1cs_satisfy (E:=error) cs [f101 0] [] = Ok true /\ rp_run cs [f101 0] [] 30 = Panic.
Proof. split; vm_compute; reflexivity. Qed.
Example c56_example_wide :
  let cs := mkR1CS [0]%nat [1]%nat (l101 [1]%Z) [0]%nat [2]%nat (l101 [1]%Z) [0]%nat [3]%nat (l101 [1]%Z) 1 4 1 in
  r1cs_satisfy (E:=error) cs [f101 2] (l101 [3; 6]%Z) = Ok true /\ rp_run cs [f101 2] (l101 [3; 6]%Z) 30 = Panic.
Proof. split; vm_compute; reflexivity. Qed.

Print Assumptions c55_returned_proofs_are_accepted.
Print Assumptions c55_complete.
Print Assumptions c55_index_ok.
Print Assumptions c56_sparse_system_panics.
Print Assumptions c56_wide_system_panics.
Print Assumptions c56_wrong_length_panics.
Print Assumptions c56_any_instance_length.
Print Assumptions c56_many_inputs_refuted.

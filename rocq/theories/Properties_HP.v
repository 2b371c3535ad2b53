(** Properties_HP.v: the argument for Hadamard product relations (voproof_hpr).
    [H] is an arbitrary function from transcripts to challenges, the randomizers, trapdoor and
    generators are arbitrary, and the groups are arbitrary one-dimensional spaces with a
    non-degenerate pairing.  [hp_nnz cs] is the number of entries of the matrices A, B, C and of d,
    [hp_claimed cs] the number the reported sizes add up to (three times the entries of A, plus
    those of d), [hp_lengths cs] says that the coordinate lists have matching lengths and that d has
    no more entries than there are rows. *)
From Verif Require Import Base Spec Tools CS CSProofs CSExtra KZG KZGProofs Snark HP HPComplete HPTop Properties_Snark.
Local Open Scope F_scope.

Section S.
Context {F G1 G2 GT : Type} {fo : FieldOps F} {fl : FieldLaws F}
        {po : PairingOps F G1 G2 GT} {pl : PairingLaws F G1 G2 GT}.
Variable H : list (item F G1) -> F.
Variable gamma : F.

(** ** C60: completeness *)
(** Whatever witness the prover was run with, a proof it returns is accepted by the verifier for the
    same instance, for every random scalar of the verifier. *)
Theorem c60_returned_proofs_are_accepted d beta (g : G1) (h : G2) pp cs pk vk x wa wb wc d0 d1 d2 pf rnd :
  g <> v0 -> h <> v0 ->
  setup d beta g h = Ok pp -> hp_index gamma pp cs = Ok (pk, vk) ->
  (length (h_brows cs) + length (h_crows cs) = 2 * length (h_arows cs))%nat ->
  hp_prove H gamma pk x (wa, wb, wc) d0 d1 d2 = Ok pf -> hp_verify H gamma vk x pf rnd = Ok tt.
Proof. intros. eapply hp_accepts; eauto. unfold hp_nnz, hp_claimed. lia. Qed.
(** For a satisfied system in which A, B, C have equally many entries (or at least B and C together
    twice as many as A), with at least as many entries as rows, the prover returns a proof that is
    accepted, unless one of the events listed in [hp_unlucky] happened. *)
Theorem c60_complete d beta (g : G1) (h : G2) pp cs pk vk x wa wb wc d0 d1 d2 :
  g <> v0 -> h <> v0 -> gamma <> 0 ->
  setup d beta g h = Ok pp -> hp_index gamma pp cs = Ok (pk, vk) ->
  (1 <= h_nrows cs)%nat -> (1 <= h_ncols cs)%nat ->
  (length (h_brows cs) + length (h_crows cs) = 2 * length (h_arows cs))%nat ->
  (h_nrows cs <= hp_nnz cs)%nat -> hpr_shape cs ->
  length wa = h_ncols cs -> length wb = h_ncols cs -> length wc = h_ncols cs -> (length x <= h_nrows cs)%nat ->
  hpr_holds (entries_of (h_arows cs) (h_acols cs) (h_avals cs)) (entries_of (h_brows cs) (h_bcols cs) (h_bvals cs))
            (entries_of (h_crows cs) (h_ccols cs) (h_cvals cs)) (sparse_at (h_drows cs) (h_dvals cs))
            (h_nrows cs) (h_ncols cs) x wa wb wc ->
  (d0 <> 0 \/ exists i, (1 <= i)%nat /\ coef (wa ++ wb ++ wc) i <> 0) ->
  (exists pf, hp_prove H gamma pk x (wa, wb, wc) d0 d1 d2 = Ok pf /\
     forall rnd, hp_verify H gamma vk x pf rnd = Ok tt) \/
  hp_unlucky H gamma pk x (wa, wb, wc) d0 d1 d2.
Proof. intros. eapply hp_complete; eauto. unfold hp_nnz, hp_claimed. lia. Qed.
(** ... and the keys exist as soon as the lists have matching lengths, there is a matrix entry, and
    the parameters are large enough. *)
Theorem c60_index_ok d beta (g : G1) (h : G2) pp cs :
  setup d beta g h = Ok pp -> hp_lengths cs -> (1 <= hp_nnz cs <= d + 1)%nat ->
  (5 * h_ncols cs + 2 * hp_claimed cs + 2 <= d)%nat ->
  exists pk vk, hp_index gamma pp cs = Ok (pk, vk).
Proof. apply hp_index_ok. Qed.

(** ** C61: where this argument and the satisfaction check disagree *)
(** With fewer claimed entries than rows, proving always panics, even for satisfied systems; *)
Theorem c61_sparse_system_panics d beta (g : G1) (h : G2) pp cs pk vk x w d0 d1 d2 :
  setup d beta g h = Ok pp -> hp_index gamma pp cs = Ok (pk, vk) ->
  (3 * length (h_arows cs) + length (h_drows cs) < h_nrows cs)%nat -> hp_prove H gamma pk x w d0 d1 d2 = Panic.
Proof. apply hp_sparse_panic. Qed.
(** so it does with a witness longer than the padded vector. *)
Theorem c61_long_witness_panics d beta (g : G1) (h : G2) pp cs pk vk x wa wb wc d0 d1 d2 :
  setup d beta g h = Ok pp -> hp_index gamma pp cs = Ok (pk, vk) ->
  (3 * h_ncols cs + hp_claimed cs + 1 < length wa + length wb + length wc)%nat ->
  hp_prove H gamma pk x (wa, wb, wc) d0 d1 d2 = Panic.
Proof. apply hp_long_panic. Qed.
(** The three parts of the witness are only looked at as one list: where one part ends and the next
    begins makes no difference. *)
Theorem c61_only_the_concatenation_counts pk x wa wb wc wa' wb' wc' d0 d1 d2 :
  wa ++ wb ++ wc = wa' ++ wb' ++ wc' ->
  hp_prove (G2:=G2) (GT:=GT) H gamma pk x (wa, wb, wc) d0 d1 d2 = hp_prove H gamma pk x (wa', wb', wc') d0 d1 d2.
Proof. apply hp_concat_only. Qed.
End S.

(** ** Non-vacuity and counterexamples: integers modulo 101, pairing e(a,b) = ab, a small hash *)
Definition hp_run cs x w d : outcome error unit :=
  let! pp := setup101 d in
  let! kv := hp_index (GT:=F101) (f101 2) pp cs in
  let! pf := hp_prove (GT:=F101) H101 (f101 2) (fst kv) x w (f101 21) (f101 22) (f101 23) in
  hp_verify (GT:=F101) H101 (f101 2) (snd kv) x pf (f101 77).
(** w1 + 2 w2 + 3 w3 + 4 = x and w1 w2 = w3 *)
Definition hpr_one : HPR F101 :=
  mkHPR [0]%nat [0]%nat (l101 [1]%Z) [0]%nat [0]%nat (l101 [2]%Z) [0]%nat [0]%nat (l101 [3]%Z) [0]%nat (l101 [4]%Z) 1 1 1.
(** w1 + 4 = x and w1 w2 = w3: B and C are empty *)
Definition hpr_fewer : HPR F101 :=
  mkHPR [0]%nat [0]%nat (l101 [1]%Z) [] [] [] [] [] [] [0]%nat (l101 [4]%Z) 1 1 1.
(** w2 + w3 + 4 = x and w1 w2 = w3: A is empty *)
Definition hpr_more : HPR F101 :=
  mkHPR [] [] [] [0]%nat [0]%nat (l101 [1]%Z) [0]%nat [0]%nat (l101 [1]%Z) [0]%nat (l101 [4]%Z) 1 1 1.
Example c60_example :
  f101 3 <> v0 /\ f101 5 <> v0 /\ hpr_shape hpr_one /\ hp_lengths hpr_one /\
  (length (h_brows hpr_one) + length (h_crows hpr_one) = 2 * length (h_arows hpr_one))%nat /\
  (h_nrows hpr_one <= hp_nnz hpr_one)%nat /\
  hpr_satisfy (E:=error) hpr_one (l101 [30]%Z) (l101 [2]%Z) (l101 [3]%Z) (l101 [6]%Z) = Ok true /\
  hp_run hpr_one (l101 [30]%Z) (l101 [2]%Z, l101 [3]%Z, l101 [6]%Z) 15 = Ok tt.
Proof.
  split; [intros E; apply (f_equal (zval 101)) in E; vm_compute in E; discriminate|].
  split; [intros E; apply (f_equal (zval 101)) in E; vm_compute in E; discriminate|].
  split. { unfold hpr_shape, in_shape, entries_of, hpr_one. cbn. repeat split; intros; repeat match goal with H : _ \/ _ |- _ => destruct H | H : False |- _ => destruct H end;
    match goal with H : (_, _) = _ |- _ => injection H as <- end; lia. }
  split; [unfold hp_lengths; cbn; repeat split; lia|]. split; [reflexivity|]. split; [vm_compute; lia|].
  split; [vm_compute; reflexivity|]. vm_cast_no_check (@eq_refl (outcome error unit) (Ok tt)).
Qed.
(** a wrong witness is refused by the prover's own check *)
Example c60_example_wrong_witness :
  hp_run hpr_one (l101 [30]%Z) (l101 [2]%Z, l101 [3]%Z, l101 [7]%Z) 15 = Err PolynomialEvaluationUnexpected.
Proof. vm_cast_no_check (@eq_refl (outcome error unit) (Err PolynomialEvaluationUnexpected)). Qed.
(** Satisfied systems that cannot be proved because the sizes report the number of entries of A in
    place of those of B and C: with fewer entries than claimed, *)
Theorem c61_fewer_entries_refuted : exists (cs : HPR F101) x wa wb wc d,
  hpr_satisfy (E:=error) cs x wa wb wc = Ok true /\ (hp_nnz cs < hp_claimed cs)%nat /\ (h_nrows cs <= hp_nnz cs)%nat /\
  hp_run cs x (wa, wb, wc) d = Err PolynomialEvaluationUnexpected.
Proof.
  exists hpr_fewer, (l101 [6]%Z), (l101 [2]%Z), (l101 [3]%Z), (l101 [6]%Z), 15%nat. split; [vm_compute; reflexivity|]. split; [vm_compute; lia|].
  split; [vm_compute; lia|]. vm_cast_no_check (@eq_refl (outcome error unit) (Err PolynomialEvaluationUnexpected)).
Qed.
(** and with more. *)
Theorem c61_more_entries_refuted : exists (cs : HPR F101) x wa wb wc d,
  hpr_satisfy (E:=error) cs x wa wb wc = Ok true /\ (hp_claimed cs < hp_nnz cs)%nat /\ (h_nrows cs <= hp_claimed cs)%nat /\
  hp_run cs x (wa, wb, wc) d = Err PolynomialEvaluationUnexpected.
Proof.
  exists hpr_more, (l101 [13]%Z), (l101 [2]%Z), (l101 [3]%Z), (l101 [6]%Z), 15%nat. split; [vm_compute; reflexivity|]. split; [vm_compute; lia|].
  split; [vm_compute; lia|]. vm_cast_no_check (@eq_refl (outcome error unit) (Err PolynomialEvaluationUnexpected)).
Qed.
Example c61_example_sparse :
  let cs := mkHPR [] [] [] [] [] [] [] [] [] [0]%nat (l101 [0]%Z) 2 1 1 in
  hpr_satisfy (E:=error) cs (l101 [0]%Z) (l101 [2]%Z) (l101 [3]%Z) (l101 [6]%Z) = Ok true /\
  hp_run cs (l101 [0]%Z) (l101 [2]%Z, l101 [3]%Z, l101 [6]%Z) 15 = Panic.
Proof. split; vm_compute; reflexivity. Qed.
(** parts of lengths 0, 3, 0 instead of 1, 1, 1: the satisfaction check refuses them, the argument does not *)
Example c61_example_concat :
  hpr_satisfy (E:=error) hpr_one (l101 [30]%Z) [] (l101 [2; 3; 6]%Z) [] <> Ok true /\
  hp_run hpr_one (l101 [30]%Z) ([], l101 [2; 3; 6]%Z, []) 15 = Ok tt.
Proof. split; [vm_compute; discriminate|vm_cast_no_check (@eq_refl (outcome error unit) (Ok tt))]. Qed.

Print Assumptions c60_returned_proofs_are_accepted.
Print Assumptions c60_complete.
Print Assumptions c60_index_ok.
Print Assumptions c61_sparse_system_panics.
Print Assumptions c61_long_witness_panics.
Print Assumptions c61_only_the_concatenation_counts.
Print Assumptions c61_fewer_entries_refuted.
Print Assumptions c61_more_entries_refuted.

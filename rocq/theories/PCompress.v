(** PCompress.v: model of the precomputed constants of the Poseidon hash
    (plonk-hashing/src/poseidon/preprocessing.rs and constants.rs).

    Simplifications.  The round numbers and the round constants, which constants.rs takes from
    round_numbers.rs and round_constant.rs, are arguments. *)
From Verif Require Import Base Tools KZG PMatrix.
Local Open Scope F_scope.

Section PCompress.
Context {F : Type} {fo : FieldOps F} {po : PrimeFieldOps F}.
(** preprocessing.rs:21: a slice of the round constants *)
Definition round_keys (width : nat) (rc : list F) (r : nat) : outcome error (list F) :=
  let! _ := assert_ ((r + 1) * width <=? length rc)%nat in Ok (firstn width (skipn (r * width) rc)).
(** preprocessing.rs:60-70: the fold over the partial rounds, from the last to the first; [pushed] are the
    partial keys, the last one pushed at the head *)
Fixpoint push_back (width : nat) (rc : list F) (inverse_matrix : matrix F) (final_round : nat) (n : nat) (acc pushed : list F) : outcome error (list F * list F) :=
  match n with
  | O => Ok (acc, pushed)
  | S n' =>
    let! previous := round_keys width rc (final_round - 1) in
    let! inverted := right_apply inverse_matrix acc in
    let! x := get_ inverted 0 in
    push_back width rc inverse_matrix (final_round - 1) n' (vec_add previous (upd inverted 0 (fun _ => 0))) (x :: pushed)
  end.
(** preprocessing.rs:10-88 [compress_round_constants] *)
Definition compress_round_constants (width full_rounds partial_rounds : nat) (rc : list F) (mds_matrices : mds) : outcome error (list F) :=
  let inverse_matrix := m_inv mds_matrices in
  let half := (full_rounds / 2)%nat in
  let! k0 := round_keys width rc 0 in
  let! _ := assert_ (1 <=? half)%nat in
  let! first := collect (fun i => let! next := round_keys width rc (i + 1) in right_apply inverse_matrix next) (seq 0 (half - 1)) in
  let final_round := (half + partial_rounds)%nat in
  let! final_round_key := round_keys width rc final_round in
  let! (round_acc, partial_keys) := push_back width rc inverse_matrix final_round partial_rounds final_round_key [] in
  let! mid := right_apply inverse_matrix round_acc in
  let! last := collect (fun i => let! next := round_keys width rc (i + final_round) in right_apply inverse_matrix next) (seq 1 (half - 1)) in
  Ok (k0 ++ concat first ++ mid ++ partial_keys ++ concat last).

(** constants.rs:12-22 [PoseidonConstants] *)
Record pconstants := mk_pconstants { k_mds : @mds F; k_rc : list F; k_compressed : list F; k_pre_sparse : matrix F; k_sparse : list (@sparse F);
  k_tag : F; k_full : nat; k_half : nat; k_partial : nat }.
(** constants.rs:27-79 [generate]. The number 1 shifted for the domain tag is a 32-bit signed integer: shifting by
    32 or more panics, and so does subtracting 1 from the least integer. *)
Definition generate (width full partial : nat) (rc : list F) : outcome error pconstants :=
  let! _ := assert_ (1 <=? width)%nat in
  let arity := (width - 1)%nat in
  let! d := new_mds width in
  let! _ := assert_ (full mod 2 =? 0)%nat in
  let half := (full / 2)%nat in
  let! _ := assert_ (arity <=? 30)%nat in
  let tag := from_Z (2 ^ Z.of_nat arity - 1) in
  let! compressed := compress_round_constants width full partial rc d in
  let! (pre, sp) := factor_to_sparse_matrixes (m_ d) partial in
  let! _ := assert_ (width * (full + partial) <=? length rc)%nat in
  Ok (mk_pconstants d rc compressed pre sp tag full half partial).
End PCompress.

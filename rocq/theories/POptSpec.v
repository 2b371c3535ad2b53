(** POptSpec.v: the form of the Poseidon permutation for which constants are precomputed: keys are added only
    after the fifth powers, to the element 0 only in the partial rounds, and the matrices of the partial
    rounds have the identity but in the first row and column. *)
From Verif Require Import Base PoseidonSpec.
Local Open Scope F_scope.

Section POptSpec.
Context {F : Type} {fo : FieldOps F}.
Variables (W half partial : nat).
Variables (M pre : nat -> nat -> F)        (* the matrix, and that before the partial rounds *)
          (col row : nat -> nat -> F)      (* of the matrix of a partial round: the first column, and the first row but the first *)
          (c : nat -> F).                  (* the keys, in the order of use *)
Implicit Types s : nat -> F.

Fixpoint steps (n : nat) (f : nat -> (nat -> F) -> (nat -> F)) s : nat -> F := match n with O => s | S r => f r (steps r f s) end.
Definition full_step (m : nat -> nat -> F) (k : nat) s : nat -> F := mix W m (fun i => fifth (s i) + c (k + i)%nat).
Definition sparse_mix (j : nat) s (i : nat) : F :=
  match i with O => sumn W (fun l => s l * col j l) | S i' => s 0%nat * row j i' + s i end.
Definition partial_step (j : nat) s : nat -> F :=
  sparse_mix j (fun i => if (i =? 0)%nat then fifth (s 0%nat) + c ((half + 1) * W + j)%nat else s i).
Definition optimised s : nat -> F :=
  let s0 := fun i => s i + c i in
  let s1 := steps (half - 1) (fun r => full_step M ((r + 1) * W)) s0 in
  let s2 := full_step pre (half * W) s1 in
  let s3 := steps partial partial_step s2 in
  let s4 := steps (half - 1) (fun r => full_step M ((half + 1) * W + partial + r * W)) s3 in
  mix W M (fun i => fifth (s4 i)).
End POptSpec.

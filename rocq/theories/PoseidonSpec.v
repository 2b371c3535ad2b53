(** PoseidonSpec.v: the Poseidon permutation, in words of its definition and not of the code.
    A state has W elements; a round adds keys, raises to the fifth power all elements (in the first half
    and the last half rounds) or the element 0 (in the rounds between), and multiplies by a matrix. *)
From Verif Require Import Base.
Local Open Scope F_scope.

Section PoseidonSpec.
Context {F : Type} {fo : FieldOps F}.
Variables (W half partial : nat) (M : nat -> nat -> F) (key : nat -> nat -> F).
Implicit Types s y : nat -> F.

Definition fifth (x : F) : F := x * x * x * x * x.
Definition is_full (r : nat) : bool := ((r <? half) || (half + partial <=? r))%nat.
(** round r before the multiplication *)
Definition substitute (r : nat) s (i : nat) : F :=
  if is_full r || (i =? 0)%nat then fifth (s i + key r i) else s i + key r i.
(** the row vector y times the matrix *)
Definition mix y (j : nat) : F := sumn W (fun i => y i * M i j).
Definition one_round (r : nat) s : nat -> F := mix (substitute r s).
(** the state after the first n rounds *)
Fixpoint after (n : nat) s : nat -> F := match n with O => s | S r => one_round r (after r s) end.
Definition permutation s : nat -> F := after (2 * half + partial) s.
End PoseidonSpec.

Section Shape.
Context {F : Type} {fo : FieldOps F}.
(** the entries of a list of rows; the keys, W for each round *)
Definition entry (m : list (list F)) (i j : nat) : F := nth j (nth i m []) 0.
Definition round_key (W : nat) (rc : list F) (r i : nat) : F := nth (r * W + i) rc 0.
(** a square matrix of size W *)
Definition square (W : nat) (m : list (list F)) : Prop := length m = W /\ Forall (fun row => length row = W) m.
(** the state of a hash before the permutation: the tag, the inputs, and zeros *)
Definition initial (tag : F) (xs : list F) (i : nat) : F := nth i (tag :: xs) 0.
End Shape.

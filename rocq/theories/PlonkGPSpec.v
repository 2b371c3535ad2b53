(** PlonkGPSpec.v: what the permutation argument checks. *)
From Verif Require Import Base Tools KZG Plonk PlonkSpec PlonkPI PlonkSigmaSpec.
Local Open Scope F_scope.

Section PlonkGPSpec.
Context {F : Type} {fo : FieldOps F} {po : PrimeFieldOps F}.

(** The field element that stands for a wire: the columns are the cosets of the evaluation domain with
    the factors 1, 7, 13 and 17. *)
Definition factor (col : column) : F := match col with Left => 1 | Right => from_Z 7 | Output => from_Z 13 | Fourth => from_Z 17 end.
Definition wire_id (omega : F) (p : wire) : F := factor (fst p) * fpow omega (snd p).
Definition ids_distinct (omega : F) (n : nat) : Prop := NoDup (map (wire_id omega) (positions n)).

Definition over_columns (f : column -> F) : F := f Left * f Right * f Output * f Fourth.
(** The polynomial z, given by its values on the domain, is one at the first gate and satisfies the
    recurrence at every gate, cyclically; [w]: the values on the wires, [sg]: the values of the four
    permutation polynomials. *)
Definition grand_product (omega : F) (n : nat) (beta gamma : F) (w sg : column -> nat -> F) (z : nat -> F) : Prop :=
  z 0%nat = 1 /\
  forall i, (i < n)%nat ->
    z ((i + 1) mod n)%nat * over_columns (fun col => w col i + beta * sg col i + gamma)
    = z i * over_columns (fun col => w col i + beta * (factor col * fpow omega i) + gamma).
(** the values of the permutation polynomials *)
Definition sigma_values (omega : F) (s : sigmas) (col : column) (i : nat) : F := wire_id omega (sigma_at s (col, i)).
(** a vector for each column, read as a function of the column and the gate *)
Definition at_wire (l : column -> list F) (col : column) (i : nat) : F := nth i (l col) 0.
End PlonkGPSpec.

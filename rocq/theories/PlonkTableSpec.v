(** PlonkTableSpec.v: the four operations of the lookup tables on numbers of n bits. *)
From Verif Require Import Base Tools PlonkTable.
Local Open Scope F_scope.

Inductive op := Add | Mul | Xor | And.
Definition result (o : op) (n : nat) (a b : Z) : Z :=
  match o with Add => (a + b) mod 2 ^ Z.of_nat n | Mul => (a * b) mod 2 ^ Z.of_nat n | Xor => Z.lxor a b | And => Z.land a b end%Z.
Section PlonkTableSpec.
Context {F : Type} {fo : FieldOps F} {po : PrimeFieldOps F}.
(** the fourth element of the rows of an operation *)
Definition tag (o : op) : F := match o with Add => 0 | Mul => 1 | Xor => - (1) | And => 1 + 1 end.
Definition insert (o : op) : Z -> nat -> table F -> outcome table_error (table F) :=
  match o with Add => insert_multi_add | Mul => insert_multi_mul | Xor => insert_multi_xor | And => insert_multi_and end.
(** the row of two operands that are at least the lower bound and have at most n bits *)
Definition row_of (o : op) (lower : Z) (n : nat) (r : F * F * F * F) : Prop :=
  exists a b, (lower <= a < 2 ^ Z.of_nat n)%Z /\ (lower <= b < 2 ^ Z.of_nat n)%Z /\
    r = (from_Z a, from_Z b, from_Z (result o n a b), tag o).
(** several operations, one after the other *)
Fixpoint insert_all (l : list (op * Z * nat)) (t : table F) : outcome table_error (table F) :=
  match l with [] => Ok t | (o, lower, n) :: l' => let! t1 := insert o lower n t in insert_all l' t1 end.
(** no 64-bit overflow *)
Definition fits64 (o : op) (lower : Z) (n : nat) : Prop := (0 <= lower)%Z /\ (n < 64)%nat /\ (o = Mul -> (n <= 32)%nat \/ (2 ^ Z.of_nat n <= lower)%Z).
End PlonkTableSpec.

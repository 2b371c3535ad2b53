(** PlonkTable.v: model of the lookup tables of plonk-core (plonk-core/src/lookup/lookup_table.rs).

    Simplifications.  A table is the list of its rows.  The 64-bit integers are integers with assertions
    where an operation may overflow; a remainder by zero panics. *)
From Verif Require Import Base Tools.
Local Open Scope F_scope.

(** error.rs: of the errors only that of a missing row *)
Inductive table_error := ElementNotIndexed.

Section PlonkTable.
Context {F : Type} {fo : FieldOps F} {po : PrimeFieldOps F}.
Definition table : Type := list (F * F * F * F).
Definition u64 (x : Z) : outcome table_error Z := let! _ := assert_ (x <? 2 ^ 64)%Z in Ok x.
Definition rem_ (x m : Z) : outcome table_error Z := let! _ := assert_ (negb (m =? 0)%Z) in Ok (x mod m)%Z.
(** lookup_table.rs:42-44 [insert_row] *)
Definition insert_row (t : table) (a b c d : F) : table := t ++ [(a, b, c, d)].
(** lookup_table.rs:51-54 *)
Definition insert_add_row (a b upper_bound : Z) (t : table) : outcome table_error table :=
  let! s := u64 (a + b) in let! c := rem_ s upper_bound in Ok (insert_row t (from_Z a) (from_Z b) (from_Z c) 0).
(** lookup_table.rs:61-64 *)
Definition insert_mul_row (a b upper_bound : Z) (t : table) : outcome table_error table :=
  let! s := u64 (a * b) in let! c := rem_ s upper_bound in Ok (insert_row t (from_Z a) (from_Z b) (from_Z c) 1).
(** lookup_table.rs:71-74 *)
Definition insert_xor_row (a b upper_bound : Z) (t : table) : outcome table_error table :=
  let! c := rem_ (Z.lxor a b) upper_bound in Ok (insert_row t (from_Z a) (from_Z b) (from_Z c) (- (1))).
(** lookup_table.rs:81-84 *)
Definition insert_and_row (a b upper_bound : Z) (t : table) : outcome table_error table :=
  let! c := rem_ (Z.land a b) upper_bound in Ok (insert_row t (from_Z a) (from_Z b) (from_Z c) (from_Z 2)).
(** ranges and loops *)
Definition range_ (lower upper : Z) : list Z := map (fun k => lower + Z.of_nat k)%Z (seq 0 (Z.to_nat (upper - lower))).
Fixpoint loop {A B} (f : A -> B -> outcome table_error B) (l : list A) (t : B) : outcome table_error B :=
  match l with [] => Ok t | x :: l' => let! t1 := f x t in loop f l' t1 end.
(** lookup_table.rs:94-154: the four functions differ in the rows only; a power of two overflows from 64 on *)
Definition insert_multi (row : Z -> Z -> Z -> table -> outcome table_error table) (lower_bound : Z) (n : nat) (t : table) : outcome table_error table :=
  let! upper_bound := u64 (2 ^ Z.of_nat n) in
  loop (fun a => loop (fun b => row a b upper_bound) (range_ lower_bound upper_bound)) (range_ lower_bound upper_bound) t.
Definition insert_multi_add : Z -> nat -> table -> outcome table_error table := insert_multi insert_add_row.
Definition insert_multi_mul : Z -> nat -> table -> outcome table_error table := insert_multi insert_mul_row.
Definition insert_multi_xor : Z -> nat -> table -> outcome table_error table := insert_multi insert_xor_row.
Definition insert_multi_and : Z -> nat -> table -> outcome table_error table := insert_multi insert_and_row.
(** lookup_table.rs:172-181 [lookup] *)
Definition lookup (t : table) (a b d : F) : outcome table_error F :=
  match find (fun '(x, y, _, w) => feqb x a && feqb y b && feqb w d) t with
  | Some (_, _, z, _) => Ok z
  | None => Err ElementNotIndexed
  end.
(** lookup_table.rs:184-206 *)
Definition add_table (lower_bound : Z) (n : nat) : outcome table_error table := insert_multi_add lower_bound n [].
Definition xor_table (lower_bound : Z) (n : nat) : outcome table_error table := insert_multi_xor lower_bound n [].
Definition mul_table (lower_bound : Z) (n : nat) : outcome table_error table := insert_multi_mul lower_bound n [].
End PlonkTable.
Arguments table F : clear implicits.

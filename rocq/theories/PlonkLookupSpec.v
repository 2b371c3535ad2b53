(** PlonkLookupSpec.v: what the lookup argument checks. *)
From Verif Require Import Base Tools.
From Coq Require Import Permutation.
Local Open Scope F_scope.

Section PlonkLookupSpec.
Context {F : Type} {fo : FieldOps F}.
(** The polynomial z, given by its values on the domain, is one at the first gate and satisfies the
    recurrence at every gate, cyclically; [f]: the queries, [t]: the table, [h1], [h2]: the two halves of
    the sorted vector. *)
Definition lookup_product (n : nat) (dl eps : F) (f t h1 h2 z : nat -> F) : Prop :=
  z 0%nat = 1 /\
  forall i, (i < n)%nat -> let i' := ((i + 1) mod n)%nat in
    z i' * ((eps * (1 + dl) + h1 i + dl * h2 i) * (eps * (1 + dl) + h2 i + dl * h1 i'))
    = z i * ((1 + dl) * (eps + f i) * (eps * (1 + dl) + t i + dl * t i')).
(** The combination of the elements of a row. *)
Definition combined (zeta : F) (r : F * F * F * F) : F :=
  let '(a, b, c, d) := r in a + zeta * b + fpow zeta 2 * c + fpow zeta 3 * d.
(** A vector whose first part consists of runs of equal elements is sorted by the order of the table:
    the elements in the order of [d], each as often as it occurs in [l]. *)
Fixpoint runs (d : list (F * nat)) : list F := match d with [] => [] | (x, k) :: d' => repeat x k ++ runs d' end.
(** the elements at even and at odd places *)
Fixpoint interleave (a b : list F) : list F := match a, b with x :: a', y :: b' => x :: y :: interleave a' b' | x :: a', [] => [x] | [], _ => [] end.
(** The rows of the table, padded with the first one; the table without rows is the table with the zero row. *)
Definition padded_table (n : nat) (t : list (F * F * F * F)) : list (F * F * F * F) :=
  let r := match t with [] => [(0, 0, 0, 0)] | _ => t end in r ++ repeat (hd (0, 0, 0, 0) r) (n - length r).
End PlonkLookupSpec.

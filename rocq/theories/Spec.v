(** Spec.v: the small mathematical vocabulary used by the property statements.
    Nothing here refers to the model of the code. *)
From Verif Require Import Base.
Local Open Scope F_scope.

Section Spec.
Context {F : Type} {fo : FieldOps F}.

(** Coefficient i (0-based) of the polynomial with coefficient list l: zero beyond the end. *)
Definition coef (l : list F) (i : nat) : F := nth i l 0.
(** Coefficient at an integer position, zero at negative positions. *)
Definition coefZ (l : list F) (i : Z) : F := if (i <? 0)%Z then 0 else nth (Z.to_nat i) l 0.
(** Value at z of the polynomial with coefficient list l: sum l_i z^i. *)
Definition poly_value (l : list F) (z : F) : F := sumn (length l) (fun i => coef l i * fpow z i).
(** Coefficient k of the product of two polynomials. *)
Definition conv (u v : list F) (k : nat) : F := sumn (S k) (fun i => coef u i * coef v (k - i)).
(** The coefficients 1, a, ..., a^(n-1). *)
Definition powers (a : F) (n : nat) : list F := map (fpow a) (seq 0 n).

(** A sparse matrix: list of (row, column, value) entries; entries at the same place add up. *)
Definition entries := list (nat * nat * F).
Definition mat_at (m : entries) (r c : nat) : F :=
  fsum (map (fun e => let '(r', c', x) := e in if (r' =? r)%nat && (c' =? c)%nat then x else 0) m).
(** (M v)_r for a matrix with k columns *)
Definition mat_vec (m : entries) (k : nat) (v : list F) (r : nat) : F :=
  sumn k (fun c => mat_at m r c * coef v c).
Definition transpose (m : entries) : entries := map (fun e => let '(r, c, x) := e in (c, r, x)) m.
(** All entries lie in an h x k matrix. *)
Definition in_shape (m : entries) (h k : nat) : Prop :=
  forall r c x, In (r, c, x) m -> (r < h)%nat /\ (c < k)%nat.
(** The entries described by parallel row/column/value lists. *)
Definition entries_of (rows cols : list nat) (vals : list F) : entries :=
  combine (combine rows cols) vals.
End Spec.

(** *** Wires as a graph on positions *)
(** Two positions are connected by a list of pairs (equivalence closure). *)
Inductive connected (l : list (nat * nat)) : nat -> nat -> Prop :=
| conn_refl x : connected l x x
| conn_pair x y : In (x, y) l -> connected l x y
| conn_sym x y : connected l x y -> connected l y x
| conn_trans x y z : connected l x y -> connected l y z -> connected l x z.
(** Processing the list in order, no pair joins two positions that are already connected. *)
Inductive forest : list (nat * nat) -> Prop :=
| forest_nil : forest []
| forest_snoc l x y : forest l -> ~ connected l x y -> forest (l ++ [(x, y)]).
(** Every listed position is below n. *)
Definition pairs_below (n : nat) (l : list (nat * nat)) : Prop :=
  forall x y, In (x, y) l -> (x < n)%nat /\ (y < n)%nat.
Section SpecW.
Context {F : Type} {fo : FieldOps F}.
(** The values w respect all wires. *)
Definition respects (l : list (nat * nat)) (w : list F) : Prop :=
  forall x y, In (x, y) l -> coef w x = coef w y.
(** The first n powers of gamma are pairwise distinct. *)
Definition distinct_powers (gamma : F) (n : nat) : Prop :=
  forall i j, (i < n)%nat -> (j < n)%nat -> fpow gamma i = fpow gamma j -> i = j.
(** The values w are invariant under the permutation i -> j encoded by sigma_i = gamma^j. *)
Definition perm_invariant (gamma : F) (n : nat) (sigma w : list F) : Prop :=
  forall i j, (i < n)%nat -> (j < n)%nat -> coef sigma i = fpow gamma j -> coef w i = coef w j.
End SpecW.

(** *** Constraint systems, mathematically *)
Section SpecCS.
Context {F : Type} {fo : FieldOps F}.
(** (A z) o (B z) = C z for matrices with h rows and k columns *)
Definition r1cs_holds (A B C : entries (F:=F)) (h k : nat) (z : list F) : Prop :=
  forall r, (r < h)%nat -> mat_vec A k z r * mat_vec B k z r = mat_vec C k z r.
(** w1 o w2 = w3 and A w1 + B w2 + C w3 + d = (x,0...) *)
Definition hpr_holds (A B C : entries (F:=F)) (d : nat -> F) (h k : nat) (x w1 w2 w3 : list F) : Prop :=
  (forall i, (i < k)%nat -> coef w1 i * coef w2 i = coef w3 i) /\
  (forall r, (r < h)%nat ->
     mat_vec A k w1 r + mat_vec B k w2 r + mat_vec C k w3 r + d r = coef x r).
(** entry (r,c) of a matrix given row by row as lists of (value, column) pairs *)
Definition ark_at (m : list (list (F * nat))) (r c : nat) : F :=
  fsum (map (fun xc => if (snd xc =? c)%nat then fst xc else 0) (nth r m [])).
(** the vector described by sparse (position, value) pairs; repeated positions add up *)
Definition sparse_at (pos : list nat) (vals : list F) (r : nat) : F :=
  fsum (map (fun iv => if (fst iv =? r)%nat then snd iv else 0) (combine pos vals)).
(** arithmetic circuit layout: n = nmul + nadd + |consts| gates; left inputs a, right inputs b,
    outputs c; wire position i < 3n addresses a, then b, then c. *)
Definition pov_holds (consts : list F) (wires : list (nat * nat)) (nmul nadd : nat)
  (pos : list nat) (vals : list F) (a b c : list F) : Prop :=
  let w := a ++ b ++ c in
  (forall i, (i < nmul)%nat -> coef c i = coef a i * coef b i) /\
  (forall i, (nmul <= i < nmul + nadd)%nat -> coef c i = coef a i + coef b i) /\
  (forall i, (i < length consts)%nat -> coef c (nmul + nadd + i) = coef consts i) /\
  (forall x y, In (x, y) wires -> (x < length w)%nat /\ (y < length w)%nat /\ coef w x = coef w y) /\
  (forall i, (i < length pos)%nat -> (i < length vals)%nat ->
     (nth i pos 0%nat < length w)%nat /\ coef w (nth i pos 0%nat) = coef vals i).
End SpecCS.

(** *** Used columns of a family of matrices *)
Section SpecU.
Context {F : Type} {fo : FieldOps F}.
(** some non-zero entry sits in column c *)
Definition column_used (m : entries (F:=F)) (c : nat) : Prop :=
  exists r x, In (r, c, x) m /\ x <> 0.
(** every non-zero entry lies in the h x k matrix *)
Definition nonzero_in_shape (m : entries (F:=F)) (h k : nat) : Prop :=
  forall r c x, In (r, c, x) m -> x <> 0 -> (r < h)%nat /\ (c < k)%nat.
End SpecU.

(** PMatrixSpec.v: matrices over a field, by their entries. *)
From Verif Require Import Base.
Local Open Scope F_scope.

Section Spec.
Context {F : Type} {fo : FieldOps F}.
(** the entry in row [i] and column [j]; [r] rows of [c] entries *)
Definition at_ (m : list (list F)) (i j : nat) : F := nth j (nth i m []) 0.
Definition shape (r c : nat) (m : list (list F)) : Prop := length m = r /\ forall row, In row m -> length row = c.
Definition delta (i j : nat) : F := if Nat.eq_dec i j then 1 else 0.
(** [a] times [b] is the identity *)
Definition product_is_identity (n : nat) (a b : list (list F)) : Prop :=
  forall i j, (i < n)%nat -> (j < n)%nat -> sumn n (fun k => at_ a i k * at_ b k j) = delta i j.
(** a vector other than zero which the matrix takes to zero *)
Definition singular (n : nat) (m : list (list F)) : Prop :=
  exists x : nat -> F, (exists j, (j < n)%nat /\ x j <> 0) /\ forall i, (i < n)%nat -> sumn n (fun j => at_ m i j * x j) = 0.
End Spec.

Section SpecMds.
Context {F : Type} {fo : FieldOps F}.
(** every square submatrix, of the rows [rs] and the columns [cs], takes only zero to zero *)
Definition mds_matrix (n : nat) (m : list (list F)) : Prop :=
  forall (rs cs : list nat) (x : nat -> F), NoDup rs -> NoDup cs -> length rs = length cs ->
    (forall r, In r rs -> (r < n)%nat) -> (forall c, In c cs -> (c < n)%nat) ->
    (forall r, In r rs -> fsum (map (fun c => at_ m r c * x c) cs) = 0) -> forall c, In c cs -> x c = 0.
(** the entries in rows and columns other than the first *)
Definition is_minor (n : nat) (m h : list (list F)) : Prop :=
  shape (n - 1) (n - 1) h /\ forall i j, (i < n - 1)%nat -> (j < n - 1)%nat -> at_ h i j = at_ m (S i) (S j).
Definition symmetric (n : nat) (m : list (list F)) : Prop := forall i j, (i < n)%nat -> (j < n)%nat -> at_ m i j = at_ m j i.
End SpecMds.

Section SpecFactor.
Context {F : Type} {fo : FieldOps F}.
(** [p]: the first row and column of the identity, and the rest of [m] *)
Definition inner_part (n : nat) (m p : list (list F)) : Prop :=
  shape n n p /\ (forall j, (j < n)%nat -> at_ p 0 j = delta 0 j /\ at_ p j 0 = delta j 0) /\
  forall i j, (0 < i < n)%nat -> (0 < j < n)%nat -> at_ p i j = at_ m i j.
(** [s]: the first row of [m], any first column below it, and the rest of the identity *)
Definition outer_part (n : nat) (m s : list (list F)) : Prop :=
  shape n n s /\ (forall j, (j < n)%nat -> at_ s 0 j = at_ m 0 j) /\
  forall i j, (0 < i < n)%nat -> (0 < j < n)%nat -> at_ s i j = delta i j.
Definition product_is (n : nat) (a b m : list (list F)) : Prop :=
  forall i j, (i < n)%nat -> (j < n)%nat -> sumn n (fun k => at_ a i k * at_ b k j) = at_ m i j.
End SpecFactor.

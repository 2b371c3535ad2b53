(** PlonkSigmaSpec.v: values on the wires of a circuit, instead of values of its variables;
    public inputs. *)
From Verif Require Import Base Tools KZG Plonk PlonkSpec PlonkPI.
From Coq Require Import Sorted.
Local Open Scope F_scope.

Section PlonkSigmaSpec.
Context {F : Type} {fo : FieldOps F} {po : PrimeFieldOps F}.

(** *** Public inputs *)
(** The non-zero values with their positions, in increasing order. *)
Definition pi_wf (m : list (nat * F)) : Prop := StronglySorted lt (map fst m) /\ Forall (fun p => snd p <> 0) m.
(** an item of several field elements occupies consecutive positions *)
Definition item_at (p : nat) (vs : list F) : list (nat * F) := combine (seq p (length vs)) vs.
Definition flat (pos : list nat) (vals : list (list F)) : list (nat * F) :=
  concat (map (fun pv => item_at (fst pv) (snd pv)) (combine pos vals)).
(** no value, not even zero, comes after a non-zero value for the same position *)
Definition no_clash (l : list (nat * F)) : Prop := ForallOrdPairs (fun x y => fst x = fst y -> snd x = 0) l.
(** items of one field element *)
Definition singles (xs : list F) : list (option (list F)) := map (fun v => Some [v]) xs.

(** *** Wires *)
Variables ca cd : F.

(** every gate of the circuit of n gates holds of the values on its wires and on those of the next gate *)
Definition rows_hold (c : composer F) (n : nat) (w : column -> nat -> F) : Prop :=
  forall i, (i < n)%nat -> let i' := ((i + 1) mod n)%nat in
    row_ok ca cd (c_table c) (sel_at c i) (pi_get (c_pi c) i) (w Left i) (w Right i) (w Output i) (w Fourth i) (w Left i') (w Right i') (w Fourth i').

(** where the permutation sends a wire *)
Definition sigma_at (s : sigmas) (p : wire) : wire := nth (snd p) (s (fst p)) p.
(** the 4 n wires *)
Definition positions (n : nat) : list wire := flat_map (fun col => map (fun i => (col, i)) (seq 0 n)) [Left; Right; Output; Fourth].
(** the values on the wires are invariant under the permutation *)
Definition copies (s : sigmas) (n : nat) (w : column -> nat -> F) : Prop :=
  forall p, In p (positions n) -> w (fst (sigma_at s p)) (snd (sigma_at s p)) = w (fst p) (snd p).
End PlonkSigmaSpec.

(** SoundSpec.v: vocabulary for soundness statements. *)
From Verif Require Import Base Spec.
Local Open Scope F_scope.

Section SoundSpec.
Context {F : Type} {fo : FieldOps F}.
(** [most k P]: the property P holds of all field elements with at most k exceptions, that is, no
    k+1 different field elements violate it.  Used for challenges: a challenge is bad with
    probability at most k / |F|. *)
Definition most (k : nat) (P : F -> Prop) : Prop :=
  forall l : list F, NoDup l -> (forall x, In x l -> ~ P x) -> (length l <= k)%nat.
(** n consecutive coefficients of a polynomial, from coefficient b on. *)
Definition row (p : list F) (b n : nat) : list F := map (coef p) (seq b n).
End SoundSpec.

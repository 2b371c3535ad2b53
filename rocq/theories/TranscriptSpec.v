(** TranscriptSpec.v: what it means that a challenge depends on messages. *)
From Verif Require Import Base Tools KZG Snark Transcript TranscriptProofs.

Section S.
Context {F G1 A : Type} (ser_F : F -> list nat) (ser_G : G1 -> list nat).
(** the challenge computed by hashing bytes with [hb] *)
Definition by_hash (ch : (list (item F G1) -> F) -> A -> F) (hb : list nat -> F) (a : A) : F :=
  ch (fun l => hb (to_bytes ser_F ser_G l)) a.
(** The challenge is the hash of a byte string, and this string determines [view a]. *)
Definition binds {B} (ch : (list (item F G1) -> F) -> A -> F) (ok : A -> Prop) (view : A -> B) : Prop :=
  exists T : A -> list nat, (forall hb a, by_hash ch hb a = hb (T a)) /\
    forall a a', ok a -> ok a' -> T a = T a' -> view a = view a'.
(** Two challenges are never hashes of the same byte string. *)
Definition separate (ok : A -> Prop) (ch ch' : (list (item F G1) -> F) -> A -> F) : Prop :=
  exists T T' : A -> list nat, (forall hb a, by_hash ch hb a = hb (T a)) /\ (forall hb a, by_hash ch' hb a = hb (T' a)) /\
    forall a a', ok a -> ok a' -> T a <> T' a'.
End S.

(** serializations of fixed positive length that determine the element *)
Definition good_ser {X} (ser : X -> list nat) : Prop :=
  (exists k, (0 < k)%nat /\ forall a, length (ser a) = k) /\ forall a a', ser a = ser a' -> a = a'.

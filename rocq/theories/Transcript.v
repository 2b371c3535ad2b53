(** Transcript.v: the bytes that the arguments hash to obtain their challenges. *)
From Verif Require Import Base Tools KZG Snark.
Local Open Scope F_scope.

Section Transcript.
Context {F G1 : Type}.
(** The serialization of a field element and of a commitment (ark-serialize, uncompressed): two
    functions to byte strings of fixed lengths.  The bytes are natural numbers below 256. *)
Variable ser_F : F -> list nat.
Variable ser_G : G1 -> list nat.

(** little-endian, k bytes *)
Fixpoint le_bytes (k n : nat) : list nat :=
  match k with O => [] | S k' => (n mod 256)%nat :: le_bytes k' (n / 256)%nat end.

(** ark-serialize of u64 (8 bytes) and of vectors (a u64 with the length, then the elements) *)
Definition ser_item (i : item F G1) : list nat :=
  match i with
  | IF a => ser_F a
  | IG c => ser_G c
  | INs l => le_bytes 8 (length l) ++ flat_map (le_bytes 8) l
  | IFs l => le_bytes 8 (length l) ++ flat_map ser_F l
  end.

(** tools/mod.rs:1000-1019 [push_to_vec!], [to_bytes!]: one item after the other *)
Fixpoint to_bytes (l : list (item F G1)) : list nat :=
  match l with [] => [] | i :: l' => ser_item i ++ to_bytes l' end.
End Transcript.

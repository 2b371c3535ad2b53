(** GrainSpec.v: the Grain generator in self-shrinking mode, as the Poseidon paper describes it, by infinite
    sequences of bits. *)
From Verif Require Import Base Tools.

(** the [len] bits from [start] on are the binary digits of a number, the most significant first *)
Definition digits_at (b : nat -> bool) (start len : nat) (v : Z) : Prop :=
  forall i, (i < len)%nat -> b (start + i)%nat = Z.testbit v (Z.of_nat (len - 1 - i)).
(** the 80 bits that the generator starts from *)
Definition seeded (b : nat -> bool) (field sbox : Z) (field_size t r_f r_p : nat) : Prop :=
  digits_at b 0 2 field /\ digits_at b 2 4 sbox /\ digits_at b 6 12 (Z.of_nat field_size) /\ digits_at b 18 12 (Z.of_nat t) /\
  digits_at b 30 10 (Z.of_nat r_f) /\ digits_at b 40 10 (Z.of_nat r_p) /\ forall i, (50 <= i < 80)%nat -> b i = true.
(** each later bit is the sum of six earlier ones *)
Definition shift_register (b : nat -> bool) : Prop := forall n,
  b (n + 80)%nat = xorb (b (n + 62)%nat) (xorb (b (n + 51)%nat) (xorb (b (n + 38)%nat) (xorb (b (n + 23)%nat) (xorb (b (n + 13)%nat) (b n))))).
(** The first 160 bits made are dropped, and the rest is taken in pairs; [e] lists, in order, all pairs whose first bit is one. *)
Definition first_of (b : nat -> bool) (k : nat) : bool := b (240 + 2 * k)%nat.
Definition second_of (b : nat -> bool) (k : nat) : bool := b (241 + 2 * k)%nat.
Definition selected (b : nat -> bool) (e : nat -> nat) : Prop :=
  (forall i, first_of b (e i) = true) /\ (forall i, (e i < e (S i))%nat) /\ (forall k, first_of b k = true -> exists i, e i = k).
Definition output (b : nat -> bool) (e : nat -> nat) (i : nat) : bool := second_of b (e i).
(** the number of which the [n] outputs from [i] on are the binary digits, the most significant first *)
Fixpoint number (out : nat -> bool) (i n : nat) : Z :=
  match n with O => 0 | S n' => 2 * number out i n' + (if out (i + n')%nat then 1 else 0) end%Z.
(** the candidates, of [n] bits each, cut to [bits] bits, and those below [p] among the first [k] *)
Definition candidate (out : nat -> bool) (n : nat) (bits : Z) (j : nat) : Z := (number out (j * n) n mod 2 ^ bits)%Z.
Definition accepted (out : nat -> bool) (n : nat) (bits p : Z) (k : nat) : list Z :=
  filter (fun v => (v <? p)%Z) (map (candidate out n bits) (seq 0 k)).

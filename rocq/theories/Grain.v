(** Grain.v: model of the generator of the round constants of the Poseidon hash
    (plonk-hashing/src/poseidon/round_constant.rs).

    Simplifications.  A queue of bits is a list, the front first.  Bytes are integers.  Loops that need not
    end take the number of turns they may make, and give [Hang] if it is too small; that of the loop over the
    discarded bits is fixed, and it is proved that it suffices.  F::size_in_bits is the number of binary
    digits of the modulus, and a field of 249 to 256 bits has 32 bytes.  F::from_random_bytes (ark-ff 0.4.2)
    is modelled as it is documented: it clears the bits from that number on, and fails for integers that are
    not below the modulus. *)
From Verif Require Import Base Tools.
Local Open Scope F_scope.

Inductive hang := Hang.

(** round_constant.rs:76-81 [append_bits] *)
Definition append_bits (vec : list bool) (n : nat) (from : Z) : list bool :=
  vec ++ map (fun i => Z.testbit from (Z.of_nat i)) (rev (seq 0 n)).

(** round_constant.rs:119-121 *)
Definition bit_at (st : list bool) (i : nat) : outcome hang bool := unwrap_opt (nth_error st i).
(** round_constant.rs:111-117 *)
Definition generate_new_bit (st : list bool) : outcome hang (bool * list bool) :=
  let! b62 := bit_at st 62 in let! b51 := bit_at st 51 in let! b38 := bit_at st 38 in
  let! b23 := bit_at st 23 in let! b13 := bit_at st 13 in let! b0 := bit_at st 0 in
  let new_bit := xorb (xorb (xorb (xorb (xorb b62 b51) b38) b23) b13) b0 in
  Ok (new_bit, skipn 1 st ++ [new_bit]).
Fixpoint clock (n : nat) (st : list bool) : outcome hang (list bool) :=
  match n with O => Ok st | S n' => let! (_, st1) := generate_new_bit st in clock n' st1 end.
(** round_constant.rs:90-109 *)
Definition new_grain (initial_sequence : list bool) : outcome hang (list bool) :=
  let! _ := assert_ (length initial_sequence =? 80)%nat in
  let! g := clock 160 initial_sequence in
  let! _ := assert_ (80 =? length g)%nat in Ok g.
(** round_constant.rs:154-164: the loop of [next], and [next] *)
Fixpoint skip_pairs (turns : nat) (new_bit : bool) (st : list bool) : outcome hang (list bool) :=
  if new_bit then Ok st
  else match turns with
       | O => Err Hang
       | S turns' =>
         let! (_, st1) := generate_new_bit st in
         let! (b, st2) := generate_new_bit st1 in skip_pairs turns' b st2
       end.
Definition next (st : list bool) : outcome hang (bool * list bool) :=
  let! (b, st1) := generate_new_bit st in
  let! st2 := skip_pairs 200 b st1 in generate_new_bit st2.
(** round_constant.rs:123-135: the accumulator is a byte, so that a shift drops its first bit *)
Fixpoint next_byte (bit_count : nat) (acc : Z) (st : list bool) : outcome hang (Z * list bool) :=
  match bit_count with
  | O => Ok (acc, st)
  | S n => let! (b, st1) := next st in next_byte n ((acc * 2) mod 256 + (if b then 1 else 0))%Z st1
  end.
Fixpoint next_bytes (n : nat) (st : list bool) : outcome hang (list Z * list bool) :=
  match n with
  | O => Ok ([], st)
  | S n' => let! (x, st1) := next_byte 8 0 st in let! (xs, st2) := next_bytes n' st1 in Ok (x :: xs, st2)
  end.
(** round_constant.rs:137-153 *)
Definition get_next_bytes (field_size result_len : nat) (st : list bool) : outcome hang (list Z * list bool) :=
  let remainder_bits := (field_size mod 8)%nat in
  let! (x, st1) := if (0 <? remainder_bits)%nat then next_byte remainder_bits 0 st else next_byte 8 0 st in
  let! (xs, st2) := next_bytes (result_len - 1) st1 in Ok (x :: xs, st2).

Section Constants.
Context {F : Type} {po : PrimeFieldOps F}.
Definition size_in_bits : Z := (Z.log2 (modulus (F := F)) + 1)%Z.
(** the integer of which the bytes are given, the least significant first *)
Definition of_le_bytes (bytes : list Z) : Z := fold_right (fun x v => x + 256 * v)%Z 0%Z bytes.
Definition from_random_bytes (bytes : list Z) : option F :=
  let v := (of_le_bytes bytes mod 2 ^ size_in_bits)%Z in
  if (v <? modulus (F := F))%Z then Some (from_Z v) else None.
(** round_constant.rs:44-67: the loops over the constants and over the candidates *)
Fixpoint draw (turns num field_size : nat) (st : list bool) : outcome hang (list F) :=
  match num, turns with
  | O, _ => Ok []
  | S _, O => Err Hang
  | S num', S turns' =>
    let! (repr, st1) := get_next_bytes field_size 32 st in
    match from_random_bytes (rev repr) with
    | Some f => let! l := draw turns' num' field_size st1 in Ok (f :: l)
    | None => draw turns' num field_size st1
    end
  end.
(** round_constant.rs:12-74 [generate_constants]; the number of constants is computed in 16 bits *)
Definition generate_constants (turns : nat) (field sbox : Z) (field_size t r_f r_p : nat) : outcome hang (list F) :=
  let! _ := assert_ ((size_in_bits + 8 - 1) / 8 =? 32)%Z in
  let! _ := assert_ ((field_size + 7) / 8 =? 32)%nat in
  let! _ := assert_ (Z.of_nat (r_f + r_p) <? 65536)%Z in
  let! _ := assert_ (Z.of_nat ((r_f + r_p) * t) <? 65536)%Z in
  let s1 := append_bits [] 2 field in
  let s2 := append_bits s1 4 sbox in
  let s3 := append_bits s2 12 (Z.of_nat field_size) in
  let s4 := append_bits s3 12 (Z.of_nat t) in
  let s5 := append_bits s4 10 (Z.of_nat r_f) in
  let s6 := append_bits s5 10 (Z.of_nat r_p) in
  let s7 := append_bits s6 30 (2 ^ 30 - 1)%Z in
  let! grain := new_grain s7 in
  if (field =? 1)%Z then draw turns ((r_f + r_p) * t) field_size grain else Panic.
End Constants.

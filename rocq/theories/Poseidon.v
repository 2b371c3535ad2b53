(** Poseidon.v: model of the Poseidon hash of plonk-hashing (plonk-hashing/src/poseidon/).

    Simplifications.  An array of the constant width WIDTH is a list of that length; of the constants
    (constants.rs:11-22) only the five fields that the hash reads are kept, and the matrix is its list
    of rows.  The trait of the arithmetic of a hash is a record; COM is the type of the object that its
    functions change (nothing, or the builder of circuits), and V that of the elements. *)
From Verif Require Import Base Tools KZG Plonk.
Local Open Scope F_scope.

(** poseidon/mod.rs:12-16 [PoseidonError] *)
Inductive poseidon_error := FullBuffer.

Section Poseidon.
Context {F : Type} {fo : FieldOps F}.

(** constants.rs:11-22 [PoseidonConstants] *)
Record constants := mk_constants {
  pc_m : list (list F);        (* mds_matrices.m *)
  pc_rc : list F;              (* round_constants *)
  pc_tag : F;                  (* domain_tag *)
  pc_half : nat;               (* half_full_rounds *)
  pc_partial : nat }.          (* partial_rounds *)

(** poseidon_ref.rs:117-125: the required methods of [PoseidonRefSpec] *)
Record arith (COM V : Type) := mk_arith {
  o_alloc : F -> COM -> outcome error (V * COM);
  o_zero : COM -> outcome error (V * COM);
  o_add : V -> V -> COM -> outcome error (V * COM);
  o_addi : V -> F -> COM -> outcome error (V * COM);
  o_mul : V -> V -> COM -> outcome error (V * COM);
  o_muli : V -> F -> COM -> outcome error (V * COM) }.
Arguments mk_arith {COM V}.
Arguments o_alloc {COM V}. Arguments o_zero {COM V}. Arguments o_add {COM V}.
Arguments o_addi {COM V}. Arguments o_mul {COM V}. Arguments o_muli {COM V}.

Section Hash.
Context {COM V : Type}.
Variable A : arith COM V.
Implicit Types (c : COM) (st : list V).

(** poseidon_ref.rs:111-115 [power_of_5] *)
Definition power_of_5 (x : V) c : outcome error (V * COM) :=
  let! (x2, c1) := o_mul A x x c in
  let! (x4, c2) := o_mul A x2 x2 c1 in
  o_mul A x4 x c2.
(** poseidon_ref.rs:94-109 [quintic_s_box] *)
Definition quintic_s_box (x : V) (pre post : option F) c : outcome error (V * COM) :=
  let! (y, c1) := match pre with Some k => o_addi A x k c | None => Ok (x, c) end in
  let! (z, c2) := power_of_5 y c1 in
  match post with Some k => o_addi A z k c2 | None => Ok (z, c2) end.
(** poseidon_ref.rs:33-35: the loop of [full_round] over the zip of the state and the round keys *)
Fixpoint s_boxes st (keys : list F) c : outcome error (list V * COM) :=
  match st, keys with
  | x :: st', k :: keys' =>
    let! (y, c1) := quintic_s_box x (Some k) None c in
    let! (ys, c2) := s_boxes st' keys' c1 in Ok (y :: ys, c2)
  | _, _ => Ok (st, c)
  end.
(** poseidon_ref.rs:65-71: the loop of [add_round_constants] *)
Fixpoint add_keys st (keys : list F) c : outcome error (list V * COM) :=
  match st, keys with
  | x :: st', k :: keys' =>
    let! (y, c1) := o_addi A x k c in
    let! (ys, c2) := add_keys st' keys' c1 in Ok (y :: ys, c2)
  | _, _ => Ok (st, c)
  end.
(** poseidon_ref.rs:84-88: the loop of [product_mds] over the rows, from row i on *)
Fixpoint mds_entry st (j i : nat) (rows : list (list F)) (val : V) c : outcome error (V * COM) :=
  match rows with
  | [] => Ok (val, c)
  | row :: rows' =>
    let! x := unwrap_opt (nth_error st i) in
    let! k := unwrap_opt (nth_error row j) in
    let! (tmp, c1) := o_muli A x k c in
    let! (val1, c2) := o_add A val tmp c1 in
    mds_entry st j (S i) rows' val1 c2
  end.
(** poseidon_ref.rs:83-89: the loop over the entries of the result *)
Fixpoint mds_entries st (rows : list (list F)) (zero : V) (js : list nat) c : outcome error (list V * COM) :=
  match js with
  | [] => Ok ([], c)
  | j :: js' =>
    let! (y, c1) := mds_entry st j 0 rows zero c in
    let! (ys, c2) := mds_entries st rows zero js' c1 in Ok (y :: ys, c2)
  end.
(** poseidon_ref.rs:76-91 [product_mds] *)
Definition product_mds (pc : constants) st c : outcome error (list V * COM) :=
  let! (zero, c1) := o_zero A c in
  mds_entries st (pc_m pc) zero (seq 0 (length st)) c1.
(** poseidon_ref.rs:21-40 [full_round].  A round takes and returns the offset into the constants. *)
Definition full_round (pc : constants) (off : nat) st c : outcome error (nat * list V * COM) :=
  let! (st1, c1) := s_boxes st (skipn off (pc_rc pc)) c in
  let! (st2, c2) := product_mds pc st1 c1 in
  Ok ((off + length st)%nat, st2, c2).
(** poseidon_ref.rs:42-57 [partial_round], 59-74 [add_round_constants] *)
Definition partial_round (pc : constants) (off : nat) st c : outcome error (nat * list V * COM) :=
  let! (st1, c1) := add_keys st (skipn off (pc_rc pc)) c in
  match st1 with
  | [] => Panic
  | x :: rest =>
    let! (y, c2) := quintic_s_box x None None c1 in
    let! (st2, c3) := product_mds pc (y :: rest) c2 in
    Ok ((off + length st)%nat, st2, c3)
  end.

(** poseidon_ref.rs:128-139 [PoseidonRef] ([current_round] is never read) *)
Record hasher := mk_hasher { h_off : nat; h_elements : list V; h_pos : nat; h_constants : constants }.

(** poseidon_ref.rs:142-152 [new] *)
Definition new (width : nat) (pc : constants) c : outcome error (hasher * COM) :=
  let! (zero, c1) := o_zero A c in
  let! (tag, c2) := o_alloc A (pc_tag pc) c1 in
  match repeat zero width with
  | [] => Panic
  | _ :: rest => Ok (mk_hasher 0 (tag :: rest) 1 pc, c2)
  end.
(** poseidon_ref.rs:158-164 [reset] *)
Fixpoint zero_all (l : list V) c : outcome error (list V * COM) :=
  match l with
  | [] => Ok ([], c)
  | _ :: l' => let! (z, c1) := o_zero A c in let! (zs, c2) := zero_all l' c1 in Ok (z :: zs, c2)
  end.
Definition reset (h : hasher) c : outcome error (hasher * COM) :=
  match h_elements h with
  | [] => Panic
  | _ :: rest =>
    let! (zs, c1) := zero_all rest c in
    let! (tag, c2) := o_alloc A (pc_tag (h_constants h)) c1 in
    Ok (mk_hasher 0 (tag :: zs) 1 (h_constants h), c2)
  end.
(** poseidon_ref.rs:168-179 [input] *)
Definition input (x : V) (h : hasher) : outcome poseidon_error (nat * hasher) :=
  if (length (h_elements h) <=? h_pos h)%nat then Err FullBuffer
  else Ok (h_pos h, mk_hasher (h_off h) (upd (h_elements h) (h_pos h) (fun _ => x)) (S (h_pos h)) (h_constants h)).

(** The rounds are arguments: an implementation of the trait may override them. *)
Definition round_fn := constants -> nat -> list V -> COM -> outcome error (nat * list V * COM).
Fixpoint rounds (n : nat) (r : round_fn) (pc : constants) (off : nat) st c : outcome error (nat * list V * COM) :=
  match n with
  | O => Ok (off, st, c)
  | S n' => let! (off1, st1, c1) := r pc off st c in rounds n' r pc off1 st1 c1
  end.
(** poseidon_ref.rs:182-225 [output_hash] *)
Definition output_hash_with (full part : round_fn) (h : hasher) c : outcome error (V * hasher * COM) :=
  let pc := h_constants h in
  let! (off1, st1, c1) := full pc (h_off h) (h_elements h) c in
  let! (off2, st2, c2) := rounds (pc_half pc - 1) full pc off1 st1 c1 in
  let! (off3, st3, c3) := part pc off2 st2 c2 in
  let! (off4, st4, c4) := rounds (pc_partial pc - 1) part pc off3 st3 c3 in
  let! (off5, st5, c5) := rounds (pc_half pc) full pc off4 st4 c4 in
  let! y := unwrap_opt (nth_error st5 1) in
  Ok (y, mk_hasher off5 st5 (h_pos h) pc, c5).
Definition output_hash : hasher -> COM -> outcome error (V * hasher * COM) := output_hash_with full_round partial_round.
End Hash.

(** poseidon_ref.rs:228-259 [NativeSpecRef] *)
Definition native : arith unit F := mk_arith
  (fun v c => Ok (v, c)) (fun c => Ok (0, c)) (fun x y c => Ok (x + y, c)) (fun x k c => Ok (x + k, c))
  (fun x y c => Ok (x * y, c)) (fun x k c => Ok (x * k, c)).
(** poseidon_ref.rs:261-306 [PlonkSpecRef] *)
Definition plonk : arith (composer F) nat := mk_arith
  (fun v c => Ok (add_input v c))
  (fun c => Ok (c_zero c, c))
  (fun x y c => arithmetic_gate (with_add 1 1 (gate_of x y None)) c)
  (fun x k c => arithmetic_gate (with_const k (with_add 1 0 (gate_of x (c_zero c) None))) c)
  (fun x y c => arithmetic_gate (with_mul 1 (gate_of x y None)) c)
  (fun x k c => arithmetic_gate (with_add k 0 (gate_of x (c_zero c) None)) c).

(** zprize_constraints.rs:241-276: the arithmetic of [PlonkSpecZZ]; [mul] and [muli] are unimplemented *)
Definition plonk_zz : arith (composer F) nat := mk_arith
  (o_alloc plonk) (o_zero plonk) (o_add plonk) (o_addi plonk)
  (fun _ _ _ => Panic) (fun _ _ _ => Panic).
(** the row i of the matrix and the key of the next round, as the argument of an affine gate *)
Definition zz_coefficients (m : list (list F)) (i : nat) (key : F) : outcome error (F * F * F * F * F) :=
  let! row := unwrap_opt (nth_error m i) in
  let! a := unwrap_opt (nth_error row 0) in let! b := unwrap_opt (nth_error row 1) in let! d := unwrap_opt (nth_error row 2) in
  Ok (a, b, d, key, - (1)).
(** zprize_constraints.rs:130-191, for the width 3 only: [full_round] of [PlonkSpecZZ] *)
Definition full_round_zz (pc : constants) (off : nat) (st : list nat) (c : composer F) : outcome error (nat * list nat * composer F) :=
  let keys := skipn off (pc_rc pc) in
  match st with
  | [x; y; z] =>
    let! (x1, y1, z1, c3) :=
      if (off =? 0)%nat then
        let! k0 := unwrap_opt (nth_error keys 0) in let! (x1, c1) := o_addi plonk_zz x k0 c in
        let! k1 := unwrap_opt (nth_error keys 1) in let! (y1, c2) := o_addi plonk_zz y k1 c1 in
        let! k2 := unwrap_opt (nth_error keys 2) in let! (z1, c3) := o_addi plonk_zz z k2 c2 in
        Ok (x1, y1, z1, c3)
      else Ok (x, y, z, c) in
    let! (k0, k1, k2) :=
      if (length keys =? 3)%nat then Ok (0, 0, 0)
      else let! k0 := unwrap_opt (nth_error keys 3) in let! k1 := unwrap_opt (nth_error keys 4) in
           let! k2 := unwrap_opt (nth_error keys 5) in Ok (k0, k1, k2) in
    let! s0 := zz_coefficients (pc_m pc) 0 k0 in let! (x2, c4) := full_affine_transform_gate (x1, y1, z1) s0 c3 in
    let! s1 := zz_coefficients (pc_m pc) 1 k1 in let! (y2, c5) := full_affine_transform_gate (x1, y1, z1) s1 c4 in
    let! s2 := zz_coefficients (pc_m pc) 2 k2 in let! (z2, c6) := full_affine_transform_gate (x1, y1, z1) s2 c5 in
    Ok ((off + 3)%nat, [x2; y2; z2], c6)
  | _ => Panic
  end.
(** zprize_constraints.rs:193-239, for the width 3 only: [partial_round] of [PlonkSpecZZ] *)
Definition partial_round_zz (pc : constants) (off : nat) (st : list nat) (c : composer F) : outcome error (nat * list nat * composer F) :=
  let keys := skipn off (pc_rc pc) in
  match st with
  | [x; y; z] =>
    let! k0 := unwrap_opt (nth_error keys 3) in
    let! s0 := zz_coefficients (pc_m pc) 0 k0 in let! (x2, c4) := partial_affine_transform_gate (x, y, z) s0 c in
    let! k1 := unwrap_opt (nth_error keys 4) in
    let! s1 := zz_coefficients (pc_m pc) 1 k1 in let! (y2, c5) := partial_affine_transform_gate (x, y, z) s1 c4 in
    let! k2 := unwrap_opt (nth_error keys 5) in
    let! s2 := zz_coefficients (pc_m pc) 2 k2 in let! (z2, c6) := partial_affine_transform_gate (x, y, z) s2 c5 in
    Ok ((off + 3)%nat, [x2; y2; z2], c6)
  | _ => Panic
  end.
(** zprize_constraints.rs:22-118 [PoseidonZZRef]: as [PoseidonRef] *)
Definition output_hash_zz : hasher (V:=nat) -> composer F -> outcome error (nat * hasher * composer F) :=
  output_hash_with full_round_zz partial_round_zz.
End Poseidon.
Arguments constants F : clear implicits.
Arguments hasher F V : clear implicits.
Arguments arith F COM V : clear implicits.
Arguments o_alloc {F COM V}. Arguments o_zero {F COM V}. Arguments o_add {F COM V}.
Arguments o_addi {F COM V}. Arguments o_mul {F COM V}. Arguments o_muli {F COM V}.

(** Plonk.v: model of the circuit builder of plonk-core
    (plonk-core/src/constraint_system/ and plonk-core/src/proof_system/pi.rs).

    Simplifications.  The fifteen selector vectors, onto which every function pushes the same number of
    entries, are one list of records; the four vectors of wires are four lists.  The hash map from
    variables to values, and the one from variables to wires, are lists indexed by the variable:
    [add_input] is the only function that adds variables, and numbers them 0, 1, 2, ...  A [None]
    witness in [arithmetic_gate] is a panic.  The type of curves enters as its two coefficients. *)
From Verif Require Import Base Tools KZG.
Local Open Scope F_scope.

Section Plonk.
Context {F : Type} {fo : FieldOps F} {po : PrimeFieldOps F}.

(** variable.rs:27-38 [WireData]: a column and the number of a gate. *)
Inductive column := Left | Right | Output | Fourth.
Definition wire : Type := column * nat.

(** composer.rs:66-100: the selectors of one gate. *)
Record sel := mkSel { q_m : F; q_l : F; q_r : F; q_o : F; q_4 : F; q_c : F; q_hl : F; q_hr : F; q_h4 : F;
  q_arith : F; q_range : F; q_logic : F; q_fixed : F; q_var : F; q_lookup : F }.

(** composer.rs:56-128 [StandardComposer] *)
Record composer := mkComposer {
  c_n : nat; c_sel : list sel;
  c_wl : list nat; c_wr : list nat; c_wo : list nat; c_w4 : list nat;
  c_pi : list (nat * F); c_pos : list nat;
  c_table : list (F * F * F * F);
  c_zero : nat; c_vals : list F; c_map : list (list wire) }.

Definition set_n v (c : composer) := mkComposer v (c_sel c) (c_wl c) (c_wr c) (c_wo c) (c_w4 c) (c_pi c) (c_pos c) (c_table c) (c_zero c) (c_vals c) (c_map c).
Definition set_sel v (c : composer) := mkComposer (c_n c) v (c_wl c) (c_wr c) (c_wo c) (c_w4 c) (c_pi c) (c_pos c) (c_table c) (c_zero c) (c_vals c) (c_map c).
Definition set_wires l r o f (c : composer) := mkComposer (c_n c) (c_sel c) l r o f (c_pi c) (c_pos c) (c_table c) (c_zero c) (c_vals c) (c_map c).
Definition set_pi p q (c : composer) := mkComposer (c_n c) (c_sel c) (c_wl c) (c_wr c) (c_wo c) (c_w4 c) p q (c_table c) (c_zero c) (c_vals c) (c_map c).
Definition set_table v (c : composer) := mkComposer (c_n c) (c_sel c) (c_wl c) (c_wr c) (c_wo c) (c_w4 c) (c_pi c) (c_pos c) v (c_zero c) (c_vals c) (c_map c).
Definition set_zero v (c : composer) := mkComposer (c_n c) (c_sel c) (c_wl c) (c_wr c) (c_wo c) (c_w4 c) (c_pi c) (c_pos c) (c_table c) v (c_vals c) (c_map c).
Definition set_vars v m (c : composer) := mkComposer (c_n c) (c_sel c) (c_wl c) (c_wr c) (c_wo c) (c_w4 c) (c_pi c) (c_pos c) (c_table c) (c_zero c) v m.

Definition push_sels (ss : list sel) (c : composer) : composer := set_sel (c_sel c ++ ss) c.
Definition push_wires (l r o f : nat) (c : composer) : composer :=
  set_wires (c_wl c ++ [l]) (c_wr c ++ [r]) (c_wo c ++ [o]) (c_w4 c ++ [f]) c.
Definition push_wire (col : column) (v : nat) (c : composer) : composer :=
  match col with
  | Left => set_wires (c_wl c ++ [v]) (c_wr c) (c_wo c) (c_w4 c) c
  | Right => set_wires (c_wl c) (c_wr c ++ [v]) (c_wo c) (c_w4 c) c
  | Output => set_wires (c_wl c) (c_wr c) (c_wo c ++ [v]) (c_w4 c) c
  | Fourth => set_wires (c_wl c) (c_wr c) (c_wo c) (c_w4 c ++ [v]) c
  end.
(** [self.n += k] *)
Definition add_n (k : nat) (c : composer) : composer := set_n (c_n c + k)%nat c.

(** all selectors off *)
Definition no_sel : sel := mkSel 0 0 0 0 0 0 0 0 0 0 0 0 0 0 0.
(** an arithmetic gate without powers *)
Definition arith_sel (m l r o f k : F) : sel := mkSel m l r o f k 0 0 0 1 0 0 0 0 0.

(** *** Variables *)
(** permutation/mod.rs:44-54 [new_variable], composer.rs:256-264 [add_input] *)
Definition add_input (s : F) (c : composer) : nat * composer :=
  (length (c_map c), set_vars (c_vals c ++ [s]) (c_map c ++ [[]]) c).
(** [self.variables.get(&v).unwrap()], [self.variables[&v]], composer.rs:810-815 [value_of_var] *)
Definition value (c : composer) (v : nat) : outcome error F := unwrap_opt (nth_error (c_vals c) v).
(** permutation/mod.rs:91-98 [add_variable_to_map] *)
Definition add_variable_to_map (v : nat) (w : wire) (c : composer) : outcome error composer :=
  let! _ := assert_ (v <? length (c_map c))%nat in
  Ok (set_vars (c_vals c) (upd (c_map c) v (fun ws => ws ++ [w])) c).
(** permutation/mod.rs:68-89 [add_variables_to_map] *)
Definition add_variables_to_map (v1 v2 v3 v4 i : nat) (c : composer) : outcome error composer :=
  let! c1 := add_variable_to_map v1 (Left, i) c in
  let! c2 := add_variable_to_map v2 (Right, i) c1 in
  let! c3 := add_variable_to_map v3 (Output, i) c2 in
  add_variable_to_map v4 (Fourth, i) c3.

(** *** Public inputs *)
(** [BTreeMap::insert] on a key that is not there *)
Fixpoint pi_put (pos : nat) (v : F) (m : list (nat * F)) : list (nat * F) :=
  match m with
  | [] => [(pos, v)]
  | (k, u) :: m' => if (pos <? k)%nat then (pos, v) :: m else (k, u) :: pi_put pos v m'
  end.
(** pi.rs:47-54 [insert] *)
Definition pi_insert (pos : nat) (v : F) (m : list (nat * F)) : outcome error (list (nat * F)) :=
  if existsb (fun p => (fst p =? pos)%nat) m then Panic
  else if feqb v 0 then Ok m else Ok (pi_put pos v m).
(** composer.rs:156-163 [add_pi] with pi.rs:57-84 [add_input], [extend] for one field element *)
Definition add_pi (pos : nat) (v : F) (c : composer) : outcome error composer :=
  let! m := pi_insert pos v (c_pi c) in Ok (set_pi m (c_pos c ++ [pos]) c).
Definition add_pi_opt (v : option F) (c : composer) : outcome error composer :=
  match v with Some v => add_pi (c_n c) v c | None => Ok c end.

(** *** Arithmetic gates *)
(** one gate: wires and selectors are pushed, the public input is inserted, the wires are registered *)
Definition add_gate (a b o f : nat) (s : sel) (pi : option F) (c : composer) : outcome error composer :=
  let! c1 := add_pi_opt pi (push_sels [s] (push_wires a b o f c)) in
  let! c2 := add_variables_to_map a b o f (c_n c1) c1 in
  Ok (add_n 1 c2).

(** composer.rs:275-322 [poly_gate] *)
Definition poly_gate (a b o : nat) (m l r q k : F) (pi : option F) (c : composer) : outcome error composer :=
  add_gate a b o (c_zero c) (arith_sel m l r q 0 k) pi c.
(** composer.rs:328-340 [constrain_to_constant] *)
Definition constrain_to_constant (a : nat) (k : F) (pi : option F) (c : composer) : outcome error composer :=
  poly_gate a a a 0 1 0 0 (- k) pi c.
(** composer.rs:344-356 [assert_equal] *)
Definition assert_equal (a b : nat) (c : composer) : outcome error composer :=
  poly_gate a b (c_zero c) 0 1 (- (1)) 0 0 None c.
(** composer.rs:196-200 [add_witness_to_circuit_description] *)
Definition add_witness_to_circuit_description (v : F) (c : composer) : outcome error (nat * composer) :=
  let '(x, c1) := add_input v c in
  let! c2 := constrain_to_constant x v None c1 in Ok (x, c2).

(** arithmetic.rs:14-43 [ArithmeticGate] and its default *)
Record gate := mkGate { g_witness : option (nat * nat * option nat); g_fan_in_3 : option (F * nat);
  g_mul : F; g_add : F * F; g_out : F; g_const : F; g_pi : option F }.
Definition gate_of (a b : nat) (o : option nat) : gate := mkGate (Some (a, b, o)) None 0 (0, 0) (- (1)) 0 None.
(** arithmetic.rs:52-85: the methods of the gate builder *)
Definition with_mul m g := mkGate (g_witness g) (g_fan_in_3 g) m (g_add g) (g_out g) (g_const g) (g_pi g).
Definition with_add l r g := mkGate (g_witness g) (g_fan_in_3 g) (g_mul g) (l, r) (g_out g) (g_const g) (g_pi g).
Definition with_fan_in_3 q v g := mkGate (g_witness g) (Some (q, v)) (g_mul g) (g_add g) (g_out g) (g_const g) (g_pi g).
Definition with_out q g := mkGate (g_witness g) (g_fan_in_3 g) (g_mul g) (g_add g) q (g_const g) (g_pi g).
Definition with_const k g := mkGate (g_witness g) (g_fan_in_3 g) (g_mul g) (g_add g) (g_out g) k (g_pi g).
Definition with_pi p g := mkGate (g_witness g) (g_fan_in_3 g) (g_mul g) (g_add g) (g_out g) (g_const g) (Some p).

(** arithmetic.rs:98-164 [arithmetic_gate]: the value of a missing output is computed here *)
Definition arithmetic_gate (g : gate) (c : composer) : outcome error (nat * composer) :=
  match g_witness g with
  | None => Panic
  | Some (a, b, o) =>
    let '(q4, w4) := match g_fan_in_3 g with Some qv => qv | None => (0, c_zero c) end in
    let! oc := match o with
      | Some o => Ok (o, c)
      | None =>
        let! va := value c a in let! vb := value c b in let! v4 := value c w4 in
        Ok (add_input ((g_mul g * (va * vb) + fst (g_add g) * va + snd (g_add g) * vb + g_const g + q4 * v4 +
          match g_pi g with Some p => p | None => 0 end) * (- g_out g)) c)
      end in
    let '(o, c1) := oc in
    let! c2 := add_gate a b o w4 (arith_sel (g_mul g) (fst (g_add g)) (snd (g_add g)) (g_out g) q4 (g_const g)) (g_pi g) c1 in
    Ok (o, c2)
  end.

(** boolean.rs:25-62 [boolean_gate] *)
Definition boolean_gate (a : nat) (c : composer) : outcome error (nat * composer) :=
  let! c1 := add_gate a a a (c_zero c) (arith_sel 1 0 0 (- (1)) 0 0) None c in Ok (a, c1).

(** composer.rs:360-386 [is_zero_with_output] *)
Definition is_zero_with_output (a : nat) (c : composer) : outcome error (nat * composer) :=
  let! va := value c a in
  let y_value := match inverse va with Some i => i | None => 1 end in
  let '(y, c1) := add_input y_value c in
  let '(b, c2) := add_input (1 - va * y_value) c1 in
  let! (_, c3) := arithmetic_gate (with_mul 1 (gate_of a b (Some (c_zero c)))) c2 in
  let! (_, c4) := arithmetic_gate (with_const (- (1)) (with_fan_in_3 1 b (with_mul 1 (gate_of a y (Some (c_zero c)))))) c3 in
  Ok (b, c4).
(** composer.rs:390-394 [is_eq_with_output] *)
Definition is_eq_with_output (a b : nat) (c : composer) : outcome error (nat * composer) :=
  let! (d, c1) := arithmetic_gate (with_add 1 (- (1)) (gate_of a b None)) c in
  is_zero_with_output d c1.

(** composer.rs:406-433 [conditional_select] *)
Definition conditional_select (bit a b : nat) (c : composer) : outcome error (nat * composer) :=
  let! (ba, c1) := arithmetic_gate (with_mul 1 (gate_of bit a None)) c in
  let! (nb, c2) := arithmetic_gate (with_const 1 (with_add (- (1)) 0 (gate_of bit (c_zero c) None))) c1 in
  let! (nbb, c3) := arithmetic_gate (with_mul 1 (gate_of nb b None)) c2 in
  arithmetic_gate (with_add 1 1 (gate_of nbb ba None)) c3.
(** composer.rs:444-447 [conditional_select_zero] *)
Definition conditional_select_zero (bit v : nat) (c : composer) : outcome error (nat * composer) :=
  arithmetic_gate (with_mul 1 (gate_of bit v None)) c.
(** composer.rs:458-478 [conditional_select_one] *)
Definition conditional_select_one (bit v : nat) (c : composer) : outcome error (nat * composer) :=
  let! vv := value c v in let! vb := value c bit in
  let '(f, c1) := add_input (1 - vb + vb * vv) c in
  let! c2 := poly_gate bit v f 1 (- (1)) 0 (- (1)) 1 None c1 in
  Ok (f, c2).

(** composer.rs:556-633 [add_blinding_factors], the random field elements being given *)
Definition blinding_row (r1 r2 r3 r4 : F) (c : composer) : outcome error (nat * nat * composer) :=
  let '(v1, c1) := add_input r1 c in let '(v2, c2) := add_input r2 c1 in
  let '(v3, c3) := add_input r3 c2 in let '(v4, c4) := add_input r4 c3 in
  let! c5 := add_gate v1 v2 v3 v4 no_sel None c4 in Ok (v1, v2, c5).
Definition add_blinding_factors (r : F * F * F * F) (s : F * F * F * F) (c : composer) : outcome error composer :=
  let '(r1, r2, r3, r4) := r in let '(s1, s2, s3, s4) := s in
  let! (_, _, c1) := blinding_row r1 r2 r3 r4 c in
  let! (v1, v2, c2) := blinding_row s1 s2 s3 s4 c1 in
  add_gate v1 v2 (c_zero c2) (c_zero c2) no_sel None c2.

(** composer.rs:206-244 [with_expected_size], composer.rs:190-192 [new] *)
Definition new_composer (r s : F * F * F * F) : outcome error composer :=
  let c0 := mkComposer 0 [] [] [] [] [] [] [] [] 0 [] [] in
  let! (z, c1) := add_witness_to_circuit_description 0 c0 in
  add_blinding_factors r s (set_zero z c1).

(** composer.rs:483-535 [add_dummy_constraints] *)
Definition add_dummy_constraints (c : composer) : outcome error composer :=
  let '(six, c1) := add_input (from_Z 6) c in let '(one, c2) := add_input 1 c1 in
  let '(seven, c3) := add_input (from_Z 7) c2 in let '(m20, c4) := add_input (- from_Z 20) c3 in
  let! c5 := add_gate six seven m20 one (mkSel (from_Z 1) (from_Z 2) (from_Z 3) (from_Z 4) 1 (from_Z 4) 0 0 0 1 0 0 0 0 1) None c4 in
  add_gate m20 six seven (c_zero c) (mkSel 1 1 1 1 0 (from_Z 127) 0 0 0 1 0 0 0 0 1) None c5.
(** composer.rs:541-550 [add_dummy_lookup_table] *)
Definition add_dummy_lookup_table (c : composer) : composer :=
  set_table (c_table c ++ [(from_Z 6, from_Z 7, - from_Z 20, 1); (- from_Z 20, from_Z 6, from_Z 7, 0); (from_Z 3, 1, from_Z 4, from_Z 9)]) c.
(** lookup/lookup_table.rs [insert_row] on the table of the composer *)
Definition insert_row (r : F * F * F * F) (c : composer) : composer := set_table (c_table c ++ [r]) c.

(** *** Poseidon gates *)
(** [a / b]: a panic for zero divisors *)
Definition div_or_panic (a b : F) : outcome error F := if feqb b 0 then Panic else Ok (a / b).
(** hash.rs:20-67 [full_affine_transform_gate] *)
Definition full_affine_transform_gate (vs : nat * nat * nat) (ss : F * F * F * F * F) (c : composer) : outcome error (nat * composer) :=
  let '(x, y, z) := vs in let '(s0, s1, s2, s3, s4) := ss in
  let! vx := value c x in let! vy := value c y in let! vz := value c z in
  let! v := div_or_panic (s0 * fpow vx 5 + s1 * fpow vy 5 + s2 * fpow vz 5 + s3) (- s4) in
  let '(o, c1) := add_input v c in
  let! c2 := add_gate x y o z (mkSel 0 0 0 s4 0 s3 s0 s1 s2 1 0 0 0 0 0) None c1 in
  Ok (o, c2).
(** hash.rs:72-117 [partial_affine_transform_gate] *)
Definition partial_affine_transform_gate (vs : nat * nat * nat) (ss : F * F * F * F * F) (c : composer) : outcome error (nat * composer) :=
  let '(x, y, z) := vs in let '(s0, s1, s2, s3, s4) := ss in
  let! vx := value c x in let! vy := value c y in let! vz := value c z in
  let! v := div_or_panic (s0 * fpow vx 5 + s1 * vy + s2 * vz + s3) (- s4) in
  let '(o, c1) := add_input v c in
  let! c2 := add_gate x y o z (mkSel 0 0 s1 s4 s2 s3 s0 0 0 1 0 0 0 0 0) None c1 in
  Ok (o, c2).

(** *** Lookup gate: lookup.rs:18-69 *)
Definition lookup_gate (a b o : nat) (d : option nat) (pi : option F) (c : composer) : outcome error (nat * composer) :=
  let d := match d with Some d => d | None => c_zero c end in
  let! c1 := add_gate a b o d (mkSel 0 0 0 0 0 0 0 0 0 0 0 0 0 0 1) pi c in
  Ok (o, c1).

(** *** Range gate *)
(** [x.into_bigint().to_bits_le()] for integers of [size] bits *)
Definition to_bits_le (size : nat) (x : F) : list bool := map (fun i => Z.testbit (to_Z x) (Z.of_nat i)) (seq 0 size).
Definition bit_Z (b : bool) : Z := if b then 1 else 0.
(** range.rs:30-54: the closure [add_wire] *)
Definition add_wire (i v : nat) (c : composer) : outcome error composer :=
  let col := match (i mod 4)%nat with 0 => Fourth | 1 => Output | 2 => Right | _ => Left end%nat in
  add_variable_to_map v (col, c_n c + i / 4)%nat (push_wire col v c).
(** range.rs:128-131 *)
Fixpoint pad_wires (is : list nat) (c : composer) : outcome error composer :=
  match is with
  | [] => Ok c
  | i :: is' => let! c1 := add_wire i (c_zero c) c in pad_wires is' c1
  end.
(** range.rs:133-149: one wire per pair of bits, from the highest; the list of accumulators in reverse *)
Fixpoint quad_wires (bits : list bool) (num_quads : nat) (is : list nat) (acc : F) (accs : list nat) (c : composer) :
    outcome error (list nat * composer) :=
  match is with
  | [] => Ok (accs, c)
  | i :: is' =>
    let bit_index := (2 * (num_quads - i))%nat in
    let! b0 := unwrap_opt (nth_error bits bit_index) in
    let! b1 := unwrap_opt (nth_error bits (bit_index + 1)) in
    let acc' := from_Z 4 * acc + from_Z (bit_Z b0 + 2 * bit_Z b1) in
    let '(v, c1) := add_input acc' c in
    let! c2 := add_wire i v c1 in
    quad_wires bits num_quads is' acc' (v :: accs) c2
  end.
Definition range_sel : sel := mkSel 0 0 0 0 0 0 0 0 0 0 1 0 0 0 0.
(** range.rs:27-194 [range_gate]; [size] is the number of bits of the integers of the field *)
Definition range_gate (size : nat) (witness num_bits : nat) (c : composer) : outcome error composer :=
  let! _ := assert_ (num_bits mod 2 =? 0)%nat in
  let! x := value c witness in
  let bits := to_bits_le size x in
  let num_gates := (num_bits / 8 + (if (num_bits mod 8 =? 0)%nat then 0 else 1))%nat in
  let num_quads := (num_gates * 4)%nat in
  let pad := (1 + (2 * num_quads - num_bits) / 2)%nat in
  let used_gates := (num_gates + 1)%nat in
  let! c1 := pad_wires (seq 0 pad) c in
  let! (accs, c2) := quad_wires bits num_quads (seq pad (num_quads + 1 - pad)) 0 [] c1 in
  let c3 := push_sels (repeat range_sel num_gates ++ [no_sel]) c2 in
  let c4 := add_n used_gates c3 in
  let c5 := set_wires (c_wl c4 ++ [c_zero c]) (c_wr c4 ++ [c_zero c]) (c_wo c4 ++ [c_zero c]) (c_w4 c4) c4 in
  match accs with
  | [] => Panic
  | last :: _ => assert_equal last witness c5
  end.

(** *** Logic gates *)
(** logic.rs:56-70: [to_bits_be().skip(256 - num_bits)] *)
Definition high_bits (size num_bits : nat) (x : F) : outcome error (list bool) :=
  if (256 <? num_bits)%nat then Panic
  else let l := skipn (256 - num_bits) (rev (to_bits_le size x)) in
       let! _ := assert_ (num_bits <=? length l)%nat in Ok l.
Definition lop (xor : bool) (x y : Z) : Z := if xor then Z.lxor x y else Z.land x y.
(** the two bits at positions 2i and 2i + 1, high bit first *)
Definition quad_at (bits : list bool) (i : nat) : outcome error Z :=
  let! h := unwrap_opt (nth_error bits (2 * i)) in
  let! l := unwrap_opt (nth_error bits (2 * i + 1)) in
  Ok (2 * bit_Z h + bit_Z l)%Z.
Definition below_4 (x : F) : bool := (to_Z x <? to_Z (from_Z 4))%Z.
(** logic.rs:104-219: the loop over the quads *)
Fixpoint logic_rows (xor : bool) (ab bb : list bool) (is : list nat) (la ra oa : F) (c : composer) : outcome error composer :=
  match is with
  | [] => Ok c
  | i :: is' =>
    let! lq := quad_at ab i in
    let! rq := quad_at bb i in
    let la' := la * from_Z 4 + from_Z lq in
    let ra' := ra * from_Z 4 + from_Z rq in
    let oa' := oa * from_Z 4 + from_Z (lop xor lq rq) in
    let! _ := assert_ (below_4 (la' - la * from_Z 4)) in
    let! _ := assert_ (below_4 (ra' - ra * from_Z 4)) in
    let! _ := assert_ (below_4 (oa' - oa * from_Z 4)) in
    let '(va, c1) := add_input la' c in
    let '(vb, c2) := add_input ra' c1 in
    let '(vc, c3) := add_input (from_Z (lq * rq)) c2 in
    let '(v4, c4) := add_input oa' c3 in
    let! c5 := add_variable_to_map va (Left, c_n c4) c4 in
    let! c6 := add_variable_to_map vb (Right, c_n c4) c5 in
    let! c7 := add_variable_to_map v4 (Fourth, c_n c4) c6 in
    let! c8 := add_variable_to_map vc (Output, c_n c4 - 1)%nat c7 in
    logic_rows xor ab bb is' la' ra' oa' (add_n 1 (push_wires va vb vc v4 c8))
  end.
Definition logic_sel (xor : bool) : sel :=
  let q := if xor then - (1) else 1 in mkSel 0 0 0 0 0 q 0 0 0 0 0 q 0 0 0.
(** logic.rs:36-316 [logic_gate] *)
Definition logic_gate (size : nat) (a b num_bits : nat) (xor : bool) (c : composer) : outcome error (nat * composer) :=
  let! _ := assert_ (num_bits mod 2 =? 0)%nat in
  let num_quads := (num_bits / 2)%nat in
  let! va := value c a in
  let! ab := high_bits size num_bits va in
  let! vb := value c b in
  let! bb := high_bits size num_bits vb in
  let z := c_zero c in
  let! c1 := add_variable_to_map z (Left, c_n c) c in
  let! c2 := add_variable_to_map z (Right, c_n c) c1 in
  let! c3 := add_variable_to_map z (Fourth, c_n c) c2 in
  let c4 := add_n 1 (set_wires (c_wl c3 ++ [z]) (c_wr c3 ++ [z]) (c_wo c3) (c_w4 c3 ++ [z]) c3) in
  let! c5 := logic_rows xor ab bb (seq 0 num_quads) 0 0 0 c4 in
  let! c6 := add_variable_to_map z (Output, c_n c5 - 1)%nat c5 in
  let c7 := push_wire Output z c6 in
  let c8 := push_sels (repeat (logic_sel xor) num_quads ++ [no_sel]) c7 in
  Ok (nth (length (c_w4 c8) - 1) (c_w4 c8) 0%nat, c8).
(** logic.rs:324-326, 335-337 [xor_gate], [and_gate] *)
Definition xor_gate size a b num_bits c := logic_gate size a b num_bits true c.
Definition and_gate size a b num_bits c := logic_gate size a b num_bits false c.

(** *** Curve points *)
(** [ca], [cd]: the coefficients of the curve a x^2 + y^2 = 1 + d x^2 y^2; ark-ec's affine addition *)
Definition te_add (ca cd : F) (p q : F * F) : F * F :=
  let '(x1, y1) := p in let '(x2, y2) := q in
  let k := cd * (x1 * x2 * (y1 * y2)) in
  ((x1 * y2 + y1 * x2) / (1 + k), (y1 * y2 - ca * (x1 * x2)) / (1 - k)).

(** curve_addition/variable_base_gate.rs:26-103 [point_addition_gate]; [chk] is the test made by the
    constructor of affine points *)
Definition var_add_sel : sel := mkSel 0 0 0 0 0 0 0 0 0 0 0 0 0 1 0.
Definition point_addition_gate (ca cd : F) (chk : F * F -> bool) (p q : nat * nat) (c : composer) : outcome error (nat * nat * composer) :=
  let '(x1, y1) := p in let '(x2, y2) := q in
  let! vx1 := value c x1 in let! vy1 := value c y1 in let! vx2 := value c x2 in let! vy2 := value c y2 in
  let! _ := assert_ (chk (vx1, vy1)) in
  let! _ := assert_ (chk (vx2, vy2)) in
  let '(vx3, vy3) := te_add ca cd (vx1, vy1) (vx2, vy2) in
  let '(xy, c1) := add_input (vx1 * vy2) c in
  let '(x3, c2) := add_input vx3 c1 in
  let '(y3, c3) := add_input vy3 c2 in
  let c4 := push_wires x3 y3 (c_zero c) xy (push_wires x1 y1 x2 y2 c3) in
  let c5 := push_sels [var_add_sel; no_sel] c4 in
  let! c6 := add_variables_to_map x1 y1 x2 y2 (c_n c5) c5 in
  let c7 := add_n 1 c6 in
  let! c8 := add_variables_to_map x3 y3 (c_zero c) xy (c_n c7) c7 in
  Ok (x3, y3, add_n 1 c8).

(** ecc/mod.rs:58-61 [identity] *)
Definition point_identity (c : composer) : outcome error (nat * nat * composer) :=
  let! (one, c1) := add_witness_to_circuit_description 1 c in Ok (c_zero c1, one, c1).
(** ecc/mod.rs:119-122 [assert_equal_point] *)
Definition assert_equal_point (p q : nat * nat) (c : composer) : outcome error composer :=
  let! c1 := assert_equal (fst p) (fst q) c in assert_equal (snd p) (snd q) c1.
(** ecc/mod.rs:106-109 [assert_equal_public_point] *)
Definition assert_equal_public_point (p : nat * nat) (v : F * F) (c : composer) : outcome error composer :=
  let! c1 := constrain_to_constant (fst p) 0 (Some (- fst v)) c in
  constrain_to_constant (snd p) 0 (Some (- snd v)) c1.
(** ecc/mod.rs:81-83 [add_affine] *)
Definition add_affine (v : F * F) (c : composer) : nat * nat * composer :=
  let '(x, c1) := add_input (fst v) c in let '(y, c2) := add_input (snd v) c1 in (x, y, c2).
(** ecc/mod.rs:87-92 [add_public_affine] *)
Definition add_public_affine (v : F * F) (c : composer) : outcome error (nat * nat * composer) :=
  let '(x, y, c1) := add_affine v c in
  let! c2 := assert_equal_public_point (x, y) v c1 in Ok (x, y, c2).
(** ecc/mod.rs:96-101 [add_affine_to_circuit_description] *)
Definition add_affine_to_circuit_description (v : F * F) (c : composer) : outcome error (nat * nat * composer) :=
  let! (x, c1) := add_witness_to_circuit_description (fst v) c in
  let! (y, c2) := add_witness_to_circuit_description (snd v) c1 in Ok (x, y, c2).
(** ecc/mod.rs:137-147 [conditional_point_select] *)
Definition conditional_point_select (p1 p0 : nat * nat) (bit : nat) (c : composer) : outcome error (nat * nat * composer) :=
  let! (x, c1) := conditional_select bit (fst p1) (fst p0) c in
  let! (y, c2) := conditional_select bit (snd p1) (snd p0) c1 in Ok (x, y, c2).
(** ecc/mod.rs:157-170 [conditional_point_neg] *)
Definition conditional_point_neg (bit : nat) (p : nat * nat) (c : composer) : outcome error (nat * nat * composer) :=
  let! (nx, c1) := arithmetic_gate (with_add (- (1)) 0 (gate_of (fst p) (c_zero c) None)) c in
  let! (x, c2) := conditional_select bit nx (fst p) c1 in Ok (x, snd p, c2).
(** ecc/mod.rs:184-189 [conditional_select_identity] *)
Definition conditional_select_identity (bit : nat) (p : nat * nat) (c : composer) : outcome error (nat * nat * composer) :=
  let! (x, c1) := conditional_select_zero bit (fst p) c in
  let! (y, c2) := conditional_select_one bit (snd p) c1 in Ok (x, y, c2).

(** *** Scalar multiplication *)
(** [F::MODULUS_BIT_SIZE] *)
Definition modulus_bits : nat := Z.to_nat (Z.log2 (modulus (F:=F)) + 1).
(** variable_base.rs:54-60 *)
Fixpoint add_inputs (vs : list F) (c : composer) : list nat * composer :=
  match vs with
  | [] => ([], c)
  | v :: vs' => let '(x, c1) := add_input v c in let '(xs, c2) := add_inputs vs' c1 in (x :: xs, c2)
  end.
(** variable_base.rs:69-82 *)
Fixpoint decompose_rows (bits : list nat) (power : nat) (acc : nat) (c : composer) : outcome error (nat * composer) :=
  match bits with
  | [] => Ok (acc, c)
  | bit :: bits' =>
    let! (_, c1) := boolean_gate bit c in
    let! (acc', c2) := arithmetic_gate (with_add (fpow (from_Z 2) power) 1 (gate_of bit acc None)) c1 in
    decompose_rows bits' (power + 1) acc' c2
  end.
(** variable_base.rs:50-87 [scalar_decomposition] *)
Definition scalar_decomposition (size : nat) (w : nat) (x : F) (c : composer) : outcome error (list nat * composer) :=
  let '(all, c1) := add_inputs (map (fun b => from_Z (bit_Z b)) (to_bits_le size x)) c in
  let! _ := assert_ (modulus_bits <=? length all)%nat in
  let bits := firstn modulus_bits all in
  let! (acc, c2) := decompose_rows bits 0 (c_zero c1) c1 in
  let! c3 := assert_equal acc w c2 in
  Ok (bits, c3).
(** variable_base.rs:35-43 *)
Fixpoint double_and_add (ca cd : F) (chk : F * F -> bool) (bits : list nat) (p result : nat * nat) (c : composer) : outcome error (nat * nat * composer) :=
  match bits with
  | [] => Ok (result, c)
  | bit :: bits' =>
    let! (r1, c1) := point_addition_gate ca cd chk result result c in
    let! (q, c2) := conditional_select_identity bit p c1 in
    let! (r2, c3) := point_addition_gate ca cd chk r1 q c2 in
    double_and_add ca cd chk bits' p r2 c3
  end.
(** variable_base.rs:21-46 [variable_base_scalar_mul] *)
Definition variable_base_scalar_mul (size : nat) (ca cd : F) (chk : F * F -> bool) (w : nat) (p : nat * nat) (c : composer) : outcome error (nat * nat * composer) :=
  let! x := value c w in
  let! (bits, c1) := scalar_decomposition size w x c in
  let! (id, c2) := point_identity c1 in
  double_and_add ca cd chk (rev bits) p id c2.

(** ark-ff [find_wnaf(2)]: the signed digits of the non-adjacent form, lowest first *)
Fixpoint find_wnaf (fuel : nat) (e : Z) : list Z :=
  match fuel with
  | O => []
  | S fuel' => if (e =? 0)%Z then [] else
      let z := (if Z.odd e then if (e mod 4 =? 1)%Z then 1 else -1 else 0)%Z in
      z :: find_wnaf fuel' ((e - z) / 2)%Z
  end.
(** fixed_base.rs:17-31 [compute_wnaf_point_multiples]: g, 2g, 4g, ... *)
Fixpoint point_multiples (ca cd : F) (g : F * F) (n : nat) : list (F * F) :=
  match n with O => [] | S n' => g :: point_multiples ca cd (te_add ca cd g g) n' end.
(** fixed_base.rs:77-104: the values of the accumulators, from the highest digit; [base] is the multiple
    of the generator for each digit *)
Fixpoint wnaf_values (ca cd : F) (digits : list Z) (base : list (F * F)) (s : F) (p : F * F) :
    outcome error (list (F * (F * F)) * list F) :=
  match digits, base with
  | [], _ => Ok ([], [])
  | _, [] => Panic
  | e :: ds, g :: gs =>
    let q := if (e =? 0)%Z then (0, 1) else if (e =? 1)%Z then g else (- fst g, snd g) in
    let s' := from_Z 2 * s + from_Z e in
    let p' := te_add ca cd p q in
    let! (rest, alphas) := wnaf_values ca cd ds gs s' p' in
    Ok ((s', p') :: rest, fst q * snd q :: alphas)
  end.
(** curve_addition/fixed_base_gate.rs:73-111 [fixed_group_add] *)
Definition fixed_sel (g : F * F) : sel := mkSel 0 (fst g) (snd g) 0 0 (fst g * snd g) 0 0 0 0 0 0 1 0 0.
(** fixed_base.rs:106-142: one row per digit *)
Fixpoint wnaf_rows (first : bool) (accs : list (F * (F * F))) (alphas : list F) (base : list (F * F)) (c : composer) : outcome error composer :=
  match accs, alphas, base with
  | (s, (px, py)) :: accs', al :: alphas', g :: base' =>
    let '(x, c1) := add_input px c in let '(y, c2) := add_input py c1 in let '(b, c3) := add_input s c2 in
    let! c4 := if first then
        let! d1 := constrain_to_constant x 0 None c3 in
        let! d2 := constrain_to_constant y 1 None d1 in
        constrain_to_constant b 0 None d2
      else Ok c3 in
    let '(a, c5) := add_input al c4 in
    let! c6 := add_gate x y a b (fixed_sel g) None c5 in
    wnaf_rows false accs' alphas' base' c6
  | _, _, _ => Ok c
  end.
(** fixed_base.rs:46-166 [fixed_base_scalar_mul] *)
Definition fixed_base_scalar_mul (size : nat) (ca cd : F) (scalar : nat) (g : F * F) (c : composer) : outcome error (nat * nat * composer) :=
  let num_bits := modulus_bits in
  let base := rev (point_multiples ca cd g num_bits) in
  let! x := value c scalar in
  let wnaf := find_wnaf (size + 1) (to_Z x) in
  let! _ := assert_ (length wnaf <=? num_bits)%nat in
  let lead := (num_bits - length wnaf)%nat in
  let! (vals, alphas) := wnaf_values ca cd (rev wnaf) (skipn lead base) 0 (0, 1) in
  let accs := repeat (0, (0, 1)) (lead + 1) ++ vals in
  let! c1 := wnaf_rows true (firstn num_bits accs) (repeat 0 lead ++ alphas) base c in
  let! (s, (px, py)) := unwrap_opt (nth_error accs num_bits) in
  let '(x3, c2) := add_input px c1 in let '(y3, c3) := add_input py c2 in let '(b, c4) := add_input s c3 in
  let! (_, c5) := arithmetic_gate (with_out 0 (with_fan_in_3 0 b (gate_of x3 y3 (Some (c_zero c))))) c4 in
  let! c6 := assert_equal b scalar c5 in
  Ok (x3, y3, c6).

(** *** Size and padding *)
(** [usize::next_power_of_two]: the least power of two that is not less *)
Definition next_power_of_two (n : nat) : nat := if (n <=? 1)%nat then 1 else (2 ^ (Nat.log2 (n - 1) + 1))%nat.
(** composer.rs:139-146 [total_size], [circuit_bound] *)
Definition circuit_bound (c : composer) : nat := next_power_of_two (Nat.max (c_n c) (length (c_table c))).
(** preprocess.rs:108-141 [check_poly_same_len] *)
Definition check_poly_same_len (c : composer) : bool :=
  let k := length (c_sel c) in
  (length (c_wl c) =? k)%nat && (length (c_wr c) =? k)%nat && (length (c_wo c) =? k)%nat && (length (c_w4 c) =? k)%nat.
(** preprocess.rs:62-93 [pad] *)
Definition pad_composer (diff : nat) (c : composer) : composer :=
  let zs := repeat (c_zero c) diff in
  add_n diff (set_sel (c_sel c ++ repeat no_sel diff) (set_wires (c_wl c ++ zs) (c_wr c ++ zs) (c_wo c ++ zs) (c_w4 c ++ zs) c)).
(** pi.rs:88-93 [as_evals], for positions below n and n a power of two (a panic otherwise) *)
Fixpoint pi_get (m : list (nat * F)) (i : nat) : F :=
  match m with [] => 0 | (k, v) :: m' => if (k =? i)%nat then v else pi_get m' i end.
Definition as_evals (m : list (nat * F)) (n : nat) : list F := map (pi_get m) (seq 0 n).
End Plonk.
Arguments sel : clear implicits.
Arguments composer : clear implicits.
Arguments gate : clear implicits.

(** PlonkProver.v: model of the arguments of the plonk-core prover: the permutation argument, the lookup
    argument and the numerator of the quotient polynomial.

    Simplification: a polynomial of degree below n is represented by its values on the evaluation domain
    1, omega, ..., omega^(n-1), so that the calls of [fft] and [ifft], which are inverse to each other,
    disappear; [omega] and [n] are arguments.  The terms of the quotient are functions of the values of the
    polynomials at a point X and at the next point omega X; the code computes them on a coset of a larger
    domain and divides by the vanishing polynomial, which gives a polynomial exactly when the terms vanish
    on the evaluation domain. *)
From Verif Require Import Base Tools KZG Plonk PlonkPI.
Local Open Scope F_scope.

(** plonk-core/src/error.rs [Error::ElementNotIndexed], the only error of these functions *)
Inductive lookup_error := ElementNotIndexed.

Section PlonkProver.
Context {F : Type} {fo : FieldOps F} {po : PrimeFieldOps F}.
(** [map] with a function that may panic or fail *)
Fixpoint map_out {E A B : Type} (f : A -> outcome E B) (l : list A) : outcome E (list B) :=
  match l with
  | [] => Ok []
  | x :: l' => let! y := f x in let! ys := map_out f l' in Ok (y :: ys)
  end.

(** *** Permutation argument *)
(** permutation/constants.rs:12-22 [K1], [K2], [K3]; the column of the left wires has the factor 1 *)
Definition coset (col : column) : F :=
  match col with Left => 1 | Right => from_Z 7 | Output => from_Z 13 | Fourth => from_Z 17 end.
(** permutation/mod.rs:136-166 [compute_permutation_lagrange]; [roots[index]] panics for index >= n *)
Definition compute_permutation_lagrange (omega : F) (n : nat) (sigma : list wire) : outcome error (list F) :=
  map_out (fun x : wire => if (snd x <? n)%nat then Ok (match fst x with Left => fpow omega (snd x) | col => coset col * fpow omega (snd x) end) else Panic) sigma.
(** permutation/mod.rs:170-205 [compute_sigma_polynomials], from the result of [compute_sigma_permutations] *)
Definition compute_sigma_polynomials (omega : F) (n : nat) (s : sigmas) : outcome error (column -> list F) :=
  let! _ := assert_ ((length (s Left) =? n) && (length (s Right) =? n) && (length (s Output) =? n) && (length (s Fourth) =? n))%nat in
  let! l := compute_permutation_lagrange omega n (s Left) in
  let! r := compute_permutation_lagrange omega n (s Right) in
  let! o := compute_permutation_lagrange omega n (s Output) in
  let! f := compute_permutation_lagrange omega n (s Fourth) in
  Ok (fun col => match col with Left => l | Right => r | Output => o | Fourth => f end).
(** permutation/mod.rs:609-615 *)
Definition numerator_irreducible (root w k beta gamma : F) : F := w + beta * k * root + gamma.
Definition denominator_irreducible (w sigma beta gamma : F) : F := w + beta * sigma + gamma.
Definition columns : list column := [Left; Right; Output; Fourth].
Definition product (l : list F) : F := fold_left fmul l 1.
(** permutation/mod.rs:667-690: the factor of a gate; the division panics for a zero denominator *)
Definition gate_ratio (omega beta gamma : F) (wires sig : column -> list F) (i : nat) : outcome error F :=
  let num := product (map (fun col => numerator_irreducible (fpow omega i) (nth i (wires col) 0) (coset col) beta gamma) columns) in
  let den := product (map (fun col => denominator_irreducible (nth i (wires col) 0) (nth i (sig col) 0) beta gamma) columns) in
  let! d := unwrap_opt (inverse den) in
  Ok (num * d).
(** the running products, starting with the given one *)
Fixpoint accumulate (state : F) (l : list F) : list F :=
  state :: match l with [] => [] | s :: l' => accumulate (state * s) l' end.
(** permutation/mod.rs:620-717 [compute_permutation_poly]; [izip] stops at the end of the shortest vector
    and [z.remove(n)] panics if there are fewer than n + 1 products *)
Definition compute_permutation_poly (omega : F) (n : nat) (wires : column -> list F) (beta gamma : F) (sig : column -> list F) : outcome error (list F) :=
  let m := fold_left Nat.min (map (fun col => Nat.min (length (wires col)) (length (sig col))) columns) n in
  let! rs := map_out (gate_ratio omega beta gamma wires sig) (seq 0 m) in
  let z := accumulate 1 rs in
  if (n <? length z)%nat then
    let z1 := firstn n z ++ skipn (n + 1) z in
    let! _ := assert_ (n =? length z1)%nat in Ok z1
  else Panic.

(** *** Terms of the quotient *)
(** The four wire values at a point and the three at the next point, as far as they are used. *)
Record vals := mk_vals { v_a : F; v_b : F; v_c : F; v_d : F; v_a' : F; v_b' : F; v_d' : F }.

(** widget/arithmetic.rs:61-72 [compute_quotient_i] (SBOX_ALPHA = 5) *)
Definition arithmetic_term (s : sel F) (v : vals) : F :=
  (v_a v * v_b v * q_m s + v_a v * q_l s + v_b v * q_r s + v_c v * q_o s + v_d v * q_4 s
   + fpow (v_a v) 5 * q_hl s + fpow (v_b v) 5 * q_hr s + fpow (v_d v) 5 * q_h4 s + q_c s) * q_arith s.
(** widget/range.rs:66-74, widget/logic.rs:95-103 [delta] *)
Definition delta4 (f : F) : F := f * (f - 1) * (f - from_Z 2) * (f - from_Z 3).
(** widget/range.rs:47-62 [constraints] *)
Definition range_constraints (sep : F) (v : vals) : F :=
  let kappa := sep * sep in
  let kappa_sq := kappa * kappa in
  let kappa_cu := kappa_sq * kappa in
  let b_1 := delta4 (v_c v - from_Z 4 * v_d v) in
  let b_2 := delta4 (v_b v - from_Z 4 * v_c v) * kappa in
  let b_3 := delta4 (v_a v - from_Z 4 * v_b v) * kappa_sq in
  let b_4 := delta4 (v_d' v - from_Z 4 * v_a v) * kappa_cu in
  (b_1 + b_2 + b_3 + b_4) * sep.
(** widget/logic.rs:114-133 [delta_xor_and] *)
Definition delta_xor_and (a b w c qc : F) : F :=
  let f := w * (w * (from_Z 4 * w - from_Z 18 * (a + b) + from_Z 81) + from_Z 18 * (a * a + b * b) - from_Z 81 * (a + b) + from_Z 83) in
  let e := from_Z 3 * (a + b + c) - from_Z 2 * f in
  qc * (from_Z 9 * c - from_Z 3 * (a + b)) + e.
(** widget/logic.rs:65-91 [constraints] *)
Definition logic_constraints (sep qc : F) (v : vals) : F :=
  let kappa := sep * sep in
  let kappa_sq := kappa * kappa in
  let kappa_cu := kappa_sq * kappa in
  let kappa_qu := kappa_cu * kappa in
  let a := v_a' v - from_Z 4 * v_a v in
  let b := v_b' v - from_Z 4 * v_b v in
  let d := v_d' v - from_Z 4 * v_d v in
  let w := v_c v in
  (delta4 a + delta4 b * kappa + delta4 d * kappa_sq + (w - a * b) * kappa_cu + delta_xor_and a b w d qc * kappa_qu) * sep.
(** widget/ecc/fixed_base_scalar_mul.rs:88-155 [constraints], [extract_bit], [check_bit_consistency];
    [ca], [cd]: the coefficients of the embedded curve *)
Definition fixed_constraints (ca cd sep ql qr qc : F) (v : vals) : F :=
  let kappa := sep * sep in
  let kappa_sq := kappa * kappa in
  let kappa_cu := kappa_sq * kappa in
  let bit := v_d' v - v_d v - v_d v in
  let bit_consistency := bit * (bit - 1) * (bit + 1) in
  let y_alpha := bit * bit * (qr - 1) + 1 in
  let x_alpha := ql * bit in
  let xy_consistency := (bit * qc - v_c v) * kappa in
  let x_acc := (v_a' v + v_a' v * v_c v * v_a v * v_b v * cd - (x_alpha * v_b v + y_alpha * v_a v)) * kappa_sq in
  let y_acc := (v_b' v - v_b' v * v_c v * v_a v * v_b v * cd - (y_alpha * v_b v - ca * x_alpha * v_a v)) * kappa_cu in
  (bit_consistency + x_acc + y_acc + xy_consistency) * sep.
(** widget/ecc/curve_addition.rs:62-98 [constraints] *)
Definition var_constraints (ca cd sep : F) (v : vals) : F :=
  let x_1 := v_a v in let x_3 := v_a' v in let y_1 := v_b v in let y_3 := v_b' v in
  let x_2 := v_c v in let y_2 := v_d v in let x1_y2 := v_d' v in
  let kappa := sep * sep in
  let xy_consistency := x_1 * y_2 - x1_y2 in
  let y1_x2 := y_1 * x_2 in
  let x3_consistency := (x1_y2 + y1_x2 - (x_3 + x_3 * cd * x1_y2 * y1_x2)) * kappa in
  let y3_consistency := (y_1 * y_2 - ca * (x_1 * x_2) - (y_3 - y_3 * cd * x1_y2 * y1_x2)) * (kappa * kappa) in
  (xy_consistency + x3_consistency + y3_consistency) * sep.
(** The separation challenges of the gates. *)
Record seps := mk_seps { s_range : F; s_logic : F; s_fixed : F; s_var : F }.
(** quotient_poly.rs:209-294 [compute_gate_constraint_satisfiability], at one point; widget/mod.rs [quotient_term] *)
Definition gate_term (ca cd : F) (e : seps) (s : sel F) (pi : F) (v : vals) : F :=
  arithmetic_term s v + pi
  + q_range s * range_constraints (s_range e) v
  + q_logic s * logic_constraints (s_logic e) (q_c s) v
  + q_fixed s * fixed_constraints ca cd (s_fixed e) (q_l s) (q_r s) (q_c s) v
  + q_var s * var_constraints ca cd (s_var e) v.
(** proof_system/permutation.rs:61-152 [compute_quotient_i]; [x]: the point, [l1]: the first Lagrange
    polynomial at the point, which the code multiplies with alpha^2 (quotient_poly.rs:315) *)
Definition permutation_term (alpha beta gamma x l1 : F) (v : vals) (sl sr so sf z z' : F) : F :=
  (v_a v + beta * x + gamma) * (v_b v + beta * coset Right * x + gamma) * (v_c v + beta * coset Output * x + gamma)
    * (v_d v + beta * coset Fourth * x + gamma) * z * alpha
  + - ((v_a v + beta * sl + gamma) * (v_b v + beta * sr + gamma) * (v_c v + beta * so + gamma) * (v_d v + beta * sf + gamma) * z' * alpha)
  + (z - 1) * (l1 * (alpha * alpha)).
(** util.rs:151-170 [lc]: v_0 + challenge v_1 + ... ; panics for the challenges 0 and 1 *)
Definition lc (values : list F) (challenge : F) : outcome error F :=
  let! _ := assert_ (negb (feqb challenge 0)) in
  let! _ := assert_ (negb (feqb challenge 1)) in
  match rev values with
  | [] => Panic
  | kth :: rest => Ok (fold_left (fun acc v => acc * challenge + v) rest kth)
  end.
(** widget/lookup.rs:98-152 [compute_quotient_i] *)
Definition lookup_term (dl eps zeta sep ql : F) (v : vals) (f t t' h1 h1' h2 z2 z2' l1 : F) : outcome error F :=
  let sep_sq := sep * sep in
  let sep_cu := sep_sq * sep in
  let one_plus := dl + 1 in
  let eps1 := eps * one_plus in
  let! tuple := lc [v_a v; v_b v; v_c v; v_d v] zeta in
  let a := ql * (tuple - f) * sep in
  let b := z2 * one_plus * (eps + f) * (eps1 + t + dl * t') * sep_sq in
  let c := - z2' * (eps1 + h1 + dl * h2) * (eps1 + h2 + dl * h1') * sep_sq in
  let d := (z2 - 1) * l1 * sep_cu in
  Ok (a + b + c + d).

(** *** Lookup argument *)
(** lookup/multiset.rs:60-70 [pad]; n: u32 *)
Definition pad_set (n : nat) (l : list F) : outcome error (list F) :=
  let! _ := assert_ (is_power_of_two n) in
  let l1 := match l with [] => [0] | _ => l end in
  Ok (if (length l1 <? n)%nat then l1 ++ repeat (nth 0 l1 0) (n - length l1) else l1).
(** lookup/lookup_table.rs:157-168 [vec_to_multiset] *)
Definition table_columns (t : list (F * F * F * F)) : list (list F) :=
  [map (fun r => fst (fst (fst r))) t; map (fun r => snd (fst (fst r))) t; map (fun r => snd (fst r)) t; map snd t].
(** lookup/multiset.rs:194-200 [compress]: the sum of sets is elementwise, so that the elements of
    the result are the combinations of the elements of the columns *)
Definition compress (cols : list (list F)) (zeta : F) : outcome error (list F) :=
  match cols with
  | [] => Panic
  | c0 :: rest =>
    let! _ := assert_ (forallb (fun c => length c =? length c0)%nat rest) in
    let! _ := assert_ (negb (feqb zeta 0)) in
    let! _ := assert_ (negb (feqb zeta 1)) in
    map_out (fun i => lc (map (fun c => nth i c 0) cols) zeta) (seq 0 (length c0))
  end.
(** lookup/multiset.rs:121-164 [combine_split]; the IndexMap keeps the order of insertion *)
Fixpoint count_up (x : F) (m : list (F * nat)) : option (list (F * nat)) :=
  match m with
  | [] => None
  | (y, k) :: m' => if feqb x y then Some ((y, k + 1)%nat :: m') else option_map (cons (y, k)) (count_up x m')
  end.
Definition count_table (t : list F) (m : list (F * nat)) : list (F * nat) :=
  fold_left (fun m x => match count_up x m with Some m' => m' | None => m ++ [(x, 1%nat)] end) t m.
Fixpoint count_queries (f : list F) (m : list (F * nat)) : outcome lookup_error (list (F * nat)) :=
  match f with
  | [] => Ok m
  | x :: f' => match count_up x m with Some m' => count_queries f' m' | None => Err ElementNotIndexed end
  end.
Fixpoint split_counts (m : list (F * nat)) (parity : bool) (evens odds : list F) : list F * list F :=
  match m with
  | [] => (evens, odds)
  | (x, k) :: m' =>
    let e1 := evens ++ repeat x (k / 2) in
    let o1 := odds ++ repeat x (k / 2) in
    if (k mod 2 =? 1)%nat then
      if parity then split_counts m' false e1 (o1 ++ [x]) else split_counts m' true (e1 ++ [x]) o1
    else split_counts m' parity e1 o1
  end.
Definition combine_split (t f : list F) : outcome lookup_error (list F * list F) :=
  let! m := count_queries f (count_table t []) in Ok (split_counts m false [] []).
(** permutation/mod.rs:767-787 [lookup_ratio] *)
Definition lookup_ratio (dl eps f t t' h1 h1' h2 : F) : outcome error F :=
  let one_plus := 1 + dl in
  let eps1 := eps * one_plus in
  let! d := unwrap_opt (inverse ((eps1 + h1 + h2 * dl) * (eps1 + h2 + h1' * dl))) in
  Ok (one_plus * (eps + f) * (eps1 + t + dl * t') * d).
(** the vector that starts with the second element and ends with the first; [t[1..]], [t[0]] panic for the empty vector *)
Definition rotate (l : list F) : outcome error (list F) := match l with [] => Panic | x :: l' => Ok (l' ++ [x]) end.
(** permutation/mod.rs:720-765 [compute_lookup_permutation_poly] *)
Definition compute_lookup_permutation_poly (n : nat) (f t h1 h2 : list F) (dl eps : F) : outcome error (list F) :=
  let! _ := assert_ ((length f =? n) && (length t =? n) && (length h1 =? n) && (length h2 =? n))%nat in
  let! t' := rotate t in
  let! h1' := rotate h1 in
  let! rs := map_out (fun i => lookup_ratio dl eps (nth i f 0) (nth i t 0) (nth i t' 0) (nth i h1 0) (nth i h1' 0) (nth i h2 0)) (seq 0 n) in
  Ok (removelast (accumulate 1 rs)).
(** prover.rs:220-276: the queries; where the lookup selector is zero the query is the first row of the table *)
Definition query_columns (t0 : F) (qs : list F) (wires : column -> list F) : list (list F) :=
  let m := fold_left Nat.min (map (fun col => length (wires col)) columns) (length qs) in
  let sel_of i := feqb (nth i qs 0) 0 in
  [map (fun i => if sel_of i then t0 else nth i (wires Left) 0) (seq 0 m);
   map (fun i => if sel_of i then 0 else nth i (wires Right) 0) (seq 0 m);
   map (fun i => if sel_of i then 0 else nth i (wires Output) 0) (seq 0 m);
   map (fun i => if sel_of i then 0 else nth i (wires Fourth) 0) (seq 0 m)].
(** lookup/preprocess.rs:40-66 [preprocess] (the padded columns) and prover.rs:220-231 *)
Definition compressed_table (n : nat) (table : list (F * F * F * F)) (zeta : F) : outcome error (list F) :=
  let! cols := map_out (pad_set n) (table_columns table) in compress cols zeta.
(** prover.rs:214-290: the compressed table, the compressed queries and the two halves of the sorted vector;
    [wires] and [qs] are padded to the domain; [unwrap] on the result of [combine_split] *)
Definition lookup_round (n : nat) (table : list (F * F * F * F)) (qs : list F) (wires : column -> list F) (zeta : F) :
    outcome error (list F * list F * list F * list F) :=
  let! t := compressed_table n table zeta in
  let! t0 := unwrap_opt (nth_error t 0) in
  let! f := compress (query_columns t0 qs wires) zeta in
  match combine_split t f with
  | Ok (h1, h2) => Ok (t, f, h1, h2)
  | _ => Panic
  end.
End PlonkProver.
Arguments vals : clear implicits.
Arguments seps : clear implicits.

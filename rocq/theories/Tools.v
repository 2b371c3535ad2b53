(** Tools.v: model of voproof/src/tools/mod.rs (functions and macros).
    Lists are vectors; [nat] is used for u64/usize indices into vectors, [Z] for i64 values. *)
From Verif Require Import Base.
Local Open Scope F_scope.

(** Contract of ark-ff prime fields: canonical representatives. *)
Class PrimeFieldOps (F : Type) := {
  modulus : Z;              (* F::MODULUS *)
  from_Z : Z -> F;          (* F::from / from_bigint on values below the modulus *)
  to_Z : F -> Z }.          (* into_bigint *)
Class PrimeFieldLaws (F : Type) {fo : FieldOps F} {po : PrimeFieldOps F} := {
  modulus_gt1 : (1 < modulus)%Z;
  to_Z_range : forall x, (0 <= to_Z x < modulus)%Z;
  from_to_Z : forall x, from_Z (to_Z x) = x;
  to_from_Z : forall i, to_Z (from_Z i) = (i mod modulus)%Z;
  from_Z_0 : from_Z 0 = 0;
  from_Z_1 : from_Z 1 = 1;
  from_Z_add : forall i j, from_Z (i + j)%Z = from_Z i + from_Z j;
  from_Z_mul : forall i j, from_Z (i * j)%Z = from_Z i * from_Z j }.

Section Tools.
Context {F : Type} {fo : FieldOps F}.

(** *** Integer conversions *)
Section PF.
Context {po : PrimeFieldOps F}.

(** tools/mod.rs:10-12 [to_field]: [from_bigint] is [None] for values not below the modulus. *)
Definition to_field {E} (i : Z) : outcome E F :=
  if (i <? modulus)%Z then Ok (from_Z i) else Panic.

(** num_bigint [to_u64_digits]: little endian base-2^64 digits, no leading zero (external contract). *)
Fixpoint u64_digits_fuel (fuel : nat) (z : Z) : list Z :=
  match fuel with
  | O => []
  | S k => if (z =? 0)%Z then [] else (z mod 2 ^ 64)%Z :: u64_digits_fuel k (z / 2 ^ 64)%Z
  end.
Definition u64_digits (z : Z) : list Z := u64_digits_fuel (Z.to_nat (Z.log2 z + 2)) z.

(** tools/mod.rs:14-24 [to_int] *)
Definition to_int {E} (e : F) : outcome E Z :=
  match u64_digits (to_Z e) with
  | [] => Ok 0%Z
  | [d] => Ok d
  | _ => Panic
  end.

(** tools/mod.rs:26-33 [try_to_int] *)
Definition try_to_int (e : F) : option Z :=
  match u64_digits (to_Z e) with
  | [] => Some 0%Z
  | [d] => Some d
  | _ => None
  end.

(** tools/mod.rs:65-67 [custom_add_fi]: [b as u64] is the two's complement cast of an i64. *)
Definition custom_add_fi {E} (a : F) (b : Z) : outcome E F :=
  let! x := to_field (b mod 2 ^ 64)%Z in Ok (a + x).

(** tools/mod.rs:1343-1353 [fmt_field]: which of the three textual forms is printed, and with
    which number ([v.to_string()] is an opaque string of the element). *)
Inductive fmt_form := FmtPos (n : Z) | FmtNeg (n : Z) | FmtRaw (x : F).
Definition fmt_field (v : F) : fmt_form :=
  match try_to_int v with
  | Some x => FmtPos x
  | None => match try_to_int (- v) with Some x => FmtNeg x | None => FmtRaw v end
  end.
End PF.

(** tools/mod.rs:77-85 [power]; [x.pow(&[e as u64])] is exponentiation by a natural (ark-ff). *)
Definition power (a : F) (e : Z) : F :=
  if is_zero a || is_one a then a
  else if (e <? 0)%Z then fpow (finv a) (Z.to_nat (- e))
  else fpow a (Z.to_nat e).

(** tools/mod.rs:103-105, one iteration of the loop of [sparse_mvp]: both indexings are checked. *)
Definition mvp_step {E} (right : list F) (res : outcome E (list F)) (e : nat * nat * F)
  : outcome E (list F) :=
  let! res := res in
  let '(r, c, v) := e in
  match nth_error right c with
  | None => Panic
  | Some x => if (r <? length res)%nat then Ok (upd res r (fun y => y + x * v)) else Panic
  end.

(** tools/mod.rs:90-107 [sparse_mvp]; [zip] truncates to the shortest list. *)
Definition sparse_mvp {E} (h k : Z) (rows cols : list nat) (vals right : list F)
  : outcome E (list F) :=
  if (h <=? 0)%Z then Panic else
  if (k <=? 0)%Z then Panic else
  if negb (Z.of_nat (length right) =? k)%Z then Panic else
  fold_left (mvp_step right) (combine (combine rows cols) vals)
            (Ok (repeat 0 (Z.to_nat h))).

(** tools/mod.rs:992-998 [define_left_sparse_mvp_vector]: rows and columns exchanged. *)
Definition left_sparse_mvp {E} (mat : list nat * list nat * list F) (v : list F) (h k : Z)
  : outcome E (list F) :=
  let '(rows, cols, vals) := mat in sparse_mvp k h cols rows vals v.

(** tools/mod.rs:144-148 [evaluate_sparse] *)
Definition evaluate_sparse (x : F) (coeffs : list F) (indices : list nat) : F :=
  fold_left (fun y ci => y + fst ci * power x (Z.of_nat (snd ci))) (combine coeffs indices) 0.

(** tools/mod.rs:150-154 [evaluate_short] *)
Definition evaluate_short (x : F) (coeffs : list F) : F :=
  fold_left (fun y ic => y + snd ic * power x (Z.of_nat (fst ic)))
            (combine (seq 0 (length coeffs)) coeffs) 0.

(** tools/mod.rs:156-164 [PowerVectorIterator] *)
Record power_iterator := mkPI {
  pi_start : nat; pi_end : nat; pi_alpha : F; pi_length : nat; pi_shifted : nat;
  pi_i : nat; pi_curr : option F }.

(** tools/mod.rs:166-189 [PowerVectorIterator::next] *)
Definition pi_next (s : power_iterator) : option F * power_iterator :=
  if (pi_end s <=? pi_start s)%nat || (pi_end s <=? pi_i s)%nat then (None, s) else
  let '(ret, curr) :=
    if (pi_i s <? pi_shifted s)%nat || (pi_length s + pi_shifted s <=? pi_i s)%nat
    then (0, pi_curr s)
    else match pi_curr s with
         | Some c => (c, Some c)
         | None => let c := power (pi_alpha s) (Z.of_nat (pi_i s - pi_shifted s)) in (c, Some c)
         end in
  let curr' := match curr with Some c => Some (c * pi_alpha s) | None => None end in
  (Some ret, mkPI (pi_start s) (pi_end s) (pi_alpha s) (pi_length s) (pi_shifted s)
                  (S (pi_i s)) curr').

(** tools/mod.rs:191-210 [power_iter] *)
Definition power_iter {E} (start end_ : nat) (alpha : F) (len shifted : nat)
  : outcome E power_iterator :=
  if (end_ <=? start)%nat then Panic
  else Ok (mkPI start end_ alpha len shifted start None).

(** Calling [next] until [None] ([Iterator::collect]); fuel bounds the number of calls. *)
Fixpoint pi_collect (fuel : nat) (s : power_iterator) : option (list F) :=
  match fuel with
  | O => None
  | S k => match pi_next s with
           | (None, _) => Some []
           | (Some x, s') => match pi_collect k s' with Some l => Some (x :: l) | None => None end
           end
  end.

(** tools/mod.rs:286-295 [zero_pad!]: [n as usize - u.len()] underflows when n < len. *)
Definition zero_pad {E} (u : list F) (n : nat) : outcome E (list F) :=
  if (n <? length u)%nat then Panic else Ok (u ++ repeat 0 (n - length u)).

(** tools/mod.rs:297-304 [zero_pad_and_concat!] *)
Definition zero_pad_and_concat {E} (u : list F) (n : nat) (vs : list (list F)) : outcome E (list F) :=
  let! p := zero_pad u n in Ok (p ++ concat vs).

(** tools/mod.rs:341-368 [concat_matrix_vertically!] *)
Definition concat_matrix_vertically (h : nat)
  (arows brows crows acols bcols ccols : list nat) (avals bvals cvals : list F)
  : list nat * list nat * list F :=
  (arows ++ map (fun i => (i + h)%nat) brows ++ map (fun i => (i + h * 2)%nat) crows,
   acols ++ bcols ++ ccols,
   avals ++ bvals ++ cvals).

(** tools/mod.rs:370-401 [concat_matrix_horizontally!] *)
Definition concat_matrix_horizontally (k : nat)
  (arows brows crows acols bcols ccols : list nat) (avals bvals cvals : list F)
  (drows : list nat) (dvals : list F)
  : list nat * list nat * list F :=
  (arows ++ brows ++ crows ++ drows,
   map (fun i => (i + 1)%nat) acols ++ map (fun i => (i + k + 1)%nat) bcols
     ++ map (fun i => (i + k * 2 + 1)%nat) ccols ++ map (fun _ => 0%nat) (seq 0 (length dvals)),
   avals ++ bvals ++ cvals ++ dvals).

(** tools/mod.rs:403-412 [delta!] *)
Definition delta (i j : Z) : F := if (i =? j)%Z then 1 else 0.

(** tools/mod.rs:414-425 [multi_delta!] *)
Definition multi_delta (i : Z) (cjs : list (F * Z)) : F :=
  fold_left (fun s cj => if (i =? snd cj)%Z then s + fst cj else s) cjs 0.

(** tools/mod.rs:427-440 [linear_combination!] *)
Definition linear_combination (i : F) (cjs : list (F * F)) : F :=
  fold_left (fun s cj => s + fst cj * snd cj) cjs i.

(** tools/mod.rs:504-517 [power_linear_combination!] *)
Definition power_linear_combination (alpha : F) (l : list F) : F :=
  fst (fold_left (fun sc a => (fst sc + snd sc * a, snd sc * alpha)) l (0, 1)).

(** tools/mod.rs:519-528 [vector_index!] (1-based, zero outside) *)
Definition vidx (v : list F) (i : Z) : F :=
  if (1 <=? i)%Z && (i <=? Z.of_nat (length v))%Z then nth (Z.to_nat (i - 1)) v 0 else 0.

(** tools/mod.rs:530-539 [power_vector_index!] *)
Definition power_vidx (a : F) (n i : Z) : F :=
  if (1 <=? i)%Z && (i <=? n)%Z then power a (i - 1) else 0.

(** tools/mod.rs:541-550 [range_index!] *)
Definition range_index (s e i : Z) : F :=
  if (s <=? i)%Z && (i <=? e)%Z then 1 else 0.

(** the range [1..=n] *)
Definition zrange (n : Z) : list Z := map Z.of_nat (seq 1 (Z.to_nat n)).

(** tools/mod.rs:552-560 [expression_vector!] *)
Definition expression_vector (e : Z -> F) (n : Z) : list F := map e (zrange n).

(** tools/mod.rs:569-578 [define_expression_vector_inverse!] *)
Definition expression_vector_inverse (e : Z -> F) (n : Z) : list F :=
  batch_inversion (expression_vector e n).

(** tools/mod.rs:580-587 [add_expression_vector_to_vector!] *)
Definition add_expression_vector_to_vector (u : list F) (e : Z -> F) : list F :=
  fold_left (fun u i => upd u (Z.to_nat (i - 1)) (fun x => x + e i))
            (zrange (Z.of_nat (length u))) u.

(** tools/mod.rs:589-596 [add_vector_to_vector!] *)
Definition add_vector_to_vector (u v : list F) : list F :=
  add_expression_vector_to_vector u (fun i => vidx v i).

(** [Iterator::scan] with a closure that always returns the new state. *)
Fixpoint scan {A B} (f : A -> B -> A) (acc : A) (l : list B) : list A :=
  match l with [] => [] | x :: l' => let a := f acc x in a :: scan f a l' end.

(** tools/mod.rs:598-616 [accumulate_vector!] *)
Definition accumulate_vector (init : F) (e : Z -> F) (n : Z) (op : F -> F -> F) : list F :=
  scan (fun acc i => op acc (e i)) init (zrange n).

(** tools/mod.rs:675-680 [vector_concat!], 682-689 [vector_concat_skip!] *)
Definition vector_concat (us : list (list F)) : list F := concat us.
Definition vector_concat_skip (m : nat) (u : list F) (vs : list (list F)) : list F :=
  skipn m u ++ concat vs.

(** tools/mod.rs:691-708 [define_concat_subvec!]: [aj - ai] underflows when aj < ai. *)
Definition concat_subvec {E} (a : list F) (ai aj : nat) (b : list F) (bi bj : nat)
  : outcome E (list F) :=
  if (aj <? ai)%nat then Panic else
  if (bj <? bi)%nat then Panic else
  Ok (firstn (aj - ai) (skipn ai a) ++ firstn (bj - bi) (skipn bi b)).

(** tools/mod.rs:770-790 [vector_reverse_omega!] *)
Fixpoint scale_powers (op omega : F) (v : list F) : list F :=
  match v with [] => [] | c :: v' => c * op :: scale_powers (op * omega) omega v' end.
Definition vector_reverse_omega (v : list F) (omega : F) : list F :=
  rev (scale_powers 1 omega v).

(** tools/mod.rs:800-805 [int_array_to_power_vector!] *)
Definition int_array_to_power_vector (v : list nat) (gamma : F) : list F :=
  map (fun i => power gamma (Z.of_nat i)) v.

(** tools/mod.rs:837-842 [compute_density!] *)
Definition compute_density (v : list F) : nat := length (filter (fun a => negb (is_zero a)) v).

(** tools/mod.rs:854-865 [define_hadamard_vector!] *)
Definition hadamard_vector (u v : list F) : list F := map (fun ab => fst ab * snd ab) (combine u v).

(** tools/mod.rs:887-900 [define_concat_neg_vector!] *)
Definition concat_neg_vector (u v : list F) : list F := u ++ map fopp v.

(** tools/mod.rs:920-938 [define_uwinverse_vector!] *)
Definition uwinverse_vector (mu : F) (u : list F) (nu : F) (w : list F) : list F :=
  batch_inversion (map (fun uw => (mu - fst uw) * (nu - snd uw)) (combine u w)).

(** tools/mod.rs:902-918 [define_concat_uwinverse_vector!] *)
Definition concat_uwinverse_vector (v : list F) (mu : F) (u : list F) (nu : F) (w : list F) : list F :=
  v ++ uwinverse_vector mu u nu w.

(** *** Polynomials (contract of ark-poly [DensePolynomial]) *)

(** [DensePolynomial::from_coefficients_vec]: trailing zero coefficients are dropped. *)
Fixpoint strip (l : list F) : list F :=
  match l with
  | [] => []
  | x :: l' => match strip l' with
               | [] => if is_zero x then [] else [x]
               | s => x :: s
               end
  end.

(** [Polynomial::evaluate]: Horner evaluation. *)
Fixpoint peval (l : list F) (z : F) : F :=
  match l with [] => 0 | c :: l' => c + z * peval l' z end.

Fixpoint padd (u v : list F) : list F :=
  match u, v with
  | [], _ => v
  | _, [] => u
  | a :: u', b :: v' => (a + b) :: padd u' v'
  end.
Definition pscale (c : F) (u : list F) : list F := map (fmul c) u.
(** product of polynomials, by convolution of the coefficients *)
Fixpoint pmul (u v : list F) : list F :=
  match u with
  | [] => []
  | a :: u' => padd (pscale a v) (0 :: pmul u' v)
  end.

(** tools/mod.rs:1030-1039 [vector_mul!] *)
Definition vector_mul (u v : list F) : list F := strip (pmul (strip u) (strip v)).

(** tools/mod.rs:1057-1089 [vector_poly_mul!] and 1091-1098 [vector_poly_mul_no_dict!] (.coeffs).
    Simplification: the FFT based product (domain of size at least |u|+|v|, hence larger than the
    degree of the product) is the convolution product; the evaluation cache of [get_eval!] holds
    the evaluations of the same polynomial for each size. *)
Definition vector_poly_mul (u v : list F) (omega : F) : list F :=
  strip (pmul (strip (vector_reverse_omega u omega)) (strip v)).

(** tools/mod.rs:1161-1199 [vector_power_mul!]; n is non-negative ([n as usize]). *)
Definition vector_power_mul (v : list F) (alpha : F) (n : nat) : list F :=
  let alpha_power := power alpha (Z.of_nat n) in
  scan (fun acc i => acc * alpha + vidx v i - vidx v (i - Z.of_nat n) * alpha_power)
       0 (zrange (Z.of_nat (n + length v) - 1)).

(** tools/mod.rs:1208-1261 [power_power_mul!]; the closure's three registers are
    (acc, beta_power, late_beta_power). *)
Definition ppm_step (alpha alpha_power beta : F) (n m : nat) (st : F * F * F) (i : Z) : F * F * F :=
  let '(acc, bp, lbp) := st in
  let acc' := acc * alpha + bp - lbp * alpha_power in
  let bp' := if (Z.of_nat m <=? i)%Z then 0 else bp * beta in
  let lbp' := if (i <? Z.of_nat n)%Z then 0 else if (i =? Z.of_nat n)%Z then 1 else lbp * beta in
  (acc', bp', lbp').
Definition power_power_mul (alpha : F) (n : nat) (beta : F) (m : nat) : list F :=
  map (fun st => fst (fst st))
      (scan (ppm_step alpha (power alpha (Z.of_nat n)) beta n m) (0, 1, 0)
            (zrange (Z.of_nat (n + m) - 1))).

(** tools/mod.rs:1270-1287 [eval_vector_expression!]: terms are produced left to right with a running power. *)
Definition eval_vector_expression (z : F) (e : Z -> F) (n : Z) : F :=
  fst (fold_left (fun sp i => (fst sp + e i * snd sp, snd sp * z)) (zrange n) (0, 1)).

(** tools/mod.rs:1301-1306 [eval_vector_as_poly!] *)
Definition eval_vector_as_poly (v : list F) (z : F) : F :=
  eval_vector_expression z (fun i => vidx v i) (Z.of_nat (length v)).

(** tools/mod.rs:1385-1399 [check_vector_eq!]: true iff no error is returned. *)
Definition check_vector_eq (u v : list F) : bool :=
  (length u =? length v)%nat && forallb (fun ab => feqb (fst ab) (snd ab)) (combine u v).

(** tools/mod.rs:1412-1421 [eval_sparse_vector!] *)
Definition eval_sparse_vector (z : F) (indices : list nat) (vals : list F) : F :=
  fsum (map (fun ia => power z (Z.of_nat (fst ia)) * snd ia) (combine indices vals)).

(** tools/mod.rs:1423-1431 [eval_sparse_zero_one_vector!] *)
Definition eval_sparse_zero_one_vector (z : F) (indices : list nat) : F :=
  fsum (map (fun i => power z (Z.of_nat i)) indices).

(** indexed assignment [v[i] = a] *)
Definition assign {E} (v : list F) (i : nat) (a : F) : outcome E (list F) :=
  if (i <? length v)%nat then Ok (upd v i (fun _ => a)) else Panic.

(** tools/mod.rs:1433-1444 [define_sparse_vector!] *)
Definition sparse_vector {E} (indices : list nat) (vals : list F) (n : nat) : outcome E (list F) :=
  fold_left (fun v ia => let! v := v in assign v (fst ia) (snd ia))
            (combine indices vals) (Ok (repeat 0 n)).

(** tools/mod.rs:1446-1457 [define_sparse_zero_one_vector!] *)
Definition sparse_zero_one_vector {E} (indices : list nat) (n : nat) : outcome E (list F) :=
  fold_left (fun v i => let! v := v in assign v i 1) indices (Ok (repeat 0 n)).

(** tools/mod.rs:1465-1469: swap of two positions (indexing is checked). *)
Definition swap_at {E A} (v : list A) (i j : nat) : outcome E (list A) :=
  match nth_error v i, nth_error v j with
  | Some a, Some b => Ok (upd (upd v i (fun _ => b)) j (fun _ => a))
  | _, _ => Panic
  end.

(** tools/mod.rs:1459-1473 [define_permutation_vector_from_wires!] *)
Definition permutation_vector_from_wires {E} (gamma : F) (pairs : list (nat * nat)) (n : nat)
  : outcome E (list F) :=
  match inverse gamma with
  | None => Panic
  | Some gi =>
    fold_left (fun v ij => let! v := v in swap_at v (fst ij) (snd ij)) pairs
              (Ok (accumulate_vector gi (fun _ => gamma) (Z.of_nat n) fmul))
  end.

End Tools.

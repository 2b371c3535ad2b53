(** Properties_Tools.v: property theorems about the tool library (C01-C10, C34, C36-C38). *)
From Coq Require Import Permutation.
From Verif Require Import Base Spec Tools ToolsProofs ToolsProofs2 MatProofs PermProofs IntProofs.
Local Open Scope F_scope.

(** ** C01 power *)
Theorem c01_power_nat {F} {fo : FieldOps F} {fl : FieldLaws F} (a : F) (n : nat) :
  a <> 0 -> power a (Z.of_nat n) = fpow a n.
Proof. exact (power_nat a n). Qed.
Theorem c01_power_neg {F} {fo : FieldOps F} {fl : FieldLaws F} (a : F) (n : nat) :
  a <> 0 -> power a (- Z.of_nat n) * fpow a n = 1.
Proof. exact (power_neg_spec a n). Qed.
Theorem c01_power_positive_exponent {F} {fo : FieldOps F} {fl : FieldLaws F} (a : F) (n : nat) :
  (0 < n)%nat -> power a (Z.of_nat n) = fpow a n.
Proof. exact (power_pos a n). Qed.
(** at zero the function always returns zero: wrong for the exponent 0 *)
Theorem c01_power_zero {F} {fo : FieldOps F} {fl : FieldLaws F} (e : Z) : power (0 : F) e = 0.
Proof. exact (power_0 e). Qed.
Theorem c01_power_zero_refuted : exists a : F101, power a 0 <> fpow a 0.
Proof. exists (f101 0). intros H. vm_compute in H. discriminate. Qed.
Example c01_example : power (f101 3) 5 = f101 41 /\ power (f101 3) (-1) = f101 34 /\ f101 3 <> 0.
Proof. repeat split; try (vm_compute; reflexivity). intros H; vm_compute in H; discriminate. Qed.

(** ** C02 sparse evaluation *)
Theorem c02_evaluate_short {F} {fo : FieldOps F} {fl : FieldLaws F} (x : F) (c : list F) :
  x <> 0 -> evaluate_short x c = poly_value c x.
Proof. exact (evaluate_short_ok x c). Qed.
Theorem c02_evaluate_sparse {F} {fo : FieldOps F} {fl : FieldLaws F} (x : F) (c : list F) (idx : list nat) :
  x <> 0 -> evaluate_sparse x c idx = fsum (map (fun ci => fst ci * fpow x (snd ci)) (combine c idx)).
Proof. exact (evaluate_sparse_ok x c idx). Qed.
Theorem c02_at_zero {F} {fo : FieldOps F} {fl : FieldLaws F} (c : list F) (idx : list nat) :
  evaluate_short 0 c = 0 /\ evaluate_sparse 0 c idx = 0.
Proof. exact (conj (evaluate_short_0 c) (evaluate_sparse_0 c idx)). Qed.
Theorem c02_at_zero_refuted : exists (x : F101) c, evaluate_short x c <> poly_value c x.
Proof. exists (f101 0), [f101 7; f101 1]. intros H. vm_compute in H. discriminate. Qed.
Example c02_example :
  evaluate_short (f101 2) [f101 1; f101 5; f101 3] = f101 23 /\
  evaluate_sparse (f101 2) [f101 1; f101 5] [6%nat; 0%nat] = f101 69 /\ f101 2 <> 0.
Proof. repeat split; try (vm_compute; reflexivity). intros H; vm_compute in H; discriminate. Qed.

(** ** C03 sparse matrix-vector product *)
Theorem c03_sparse_mvp_iff {F} {fo : FieldOps F} {fl : FieldLaws F} {E}
  (h k : Z) rows cols (vals right res : list F) :
  sparse_mvp (E:=E) h k rows cols vals right = Ok res <->
  (0 < h)%Z /\ (0 < k)%Z /\ Z.of_nat (length right) = k /\
  in_shape (entries_of rows cols vals) (Z.to_nat h) (Z.to_nat k) /\
  res = map (mat_vec (entries_of rows cols vals) (Z.to_nat k) right) (seq 0 (Z.to_nat h)).
Proof. exact (sparse_mvp_iff h k rows cols vals right res). Qed.
(** it never returns an error value: whenever the right-hand side above fails, it panics *)
Theorem c03_sparse_mvp_no_err {F} {fo : FieldOps F} {fl : FieldLaws F} {E}
  (h k : Z) rows cols (vals right : list F) (e : E) :
  sparse_mvp h k rows cols vals right <> Err e.
Proof. exact (sparse_mvp_no_err h k rows cols vals right e). Qed.
Theorem c03_left_product {F} {fo : FieldOps F} {fl : FieldLaws F} {E}
  (h k : Z) rows cols (vals v res : list F) :
  left_sparse_mvp (E:=E) (rows, cols, vals) v h k = Ok res <->
  (0 < h)%Z /\ (0 < k)%Z /\ Z.of_nat (length v) = h /\
  in_shape (transpose (entries_of rows cols vals)) (Z.to_nat k) (Z.to_nat h) /\
  res = map (mat_vec (transpose (entries_of rows cols vals)) (Z.to_nat h) v) (seq 0 (Z.to_nat k)).
Proof. exact (left_sparse_mvp_iff h k rows cols vals v res). Qed.
(** <u, M v> = <M^T u, v> *)
Theorem c03_adjoint {F} {fo : FieldOps F} {fl : FieldLaws F} (m : entries (F:=F)) h k (u v : list F) :
  sumn h (fun r => coef u r * mat_vec m k v r) = sumn k (fun c => coef v c * mat_vec (transpose m) h u c).
Proof. exact (mat_vec_adjoint m h k u v). Qed.
Example c03_example :
  sparse_mvp (E:=unit) 2 2 [0%nat; 1%nat; 1%nat; 1%nat] [0%nat; 0%nat; 1%nat; 1%nat] [f101 2; f101 3; f101 4; f101 5] [f101 10; f101 1]
  = Ok [f101 20; f101 39]
  /\ sparse_mvp (E:=unit) 2 2 [2%nat] [0%nat] [f101 2] [f101 10; f101 1] = Panic.
Proof. split; vm_compute; reflexivity. Qed.

(** ** C04 stacking *)
Theorem c04_vertical {F} {fo : FieldOps F} {fl : FieldLaws F}
  h k arows brows crows acols bcols ccols (avals bvals cvals : list F) r c :
  length arows = length avals -> length acols = length avals ->
  length brows = length bvals -> length bcols = length bvals ->
  length crows = length cvals -> length ccols = length cvals ->
  in_shape (entries_of arows acols avals) h k ->
  in_shape (entries_of brows bcols bvals) h k ->
  in_shape (entries_of crows ccols cvals) h k ->
  let '(rows, cols, vals) :=
    concat_matrix_vertically h arows brows crows acols bcols ccols avals bvals cvals in
  mat_at (entries_of rows cols vals) r c =
    if (r <? h)%nat then mat_at (entries_of arows acols avals) r c
    else if (r <? 2 * h)%nat then mat_at (entries_of brows bcols bvals) (r - h) c
    else mat_at (entries_of crows ccols cvals) (r - 2 * h) c.
Proof. exact (vertical_at h k arows brows crows acols bcols ccols avals bvals cvals r c). Qed.
Theorem c04_horizontal {F} {fo : FieldOps F} {fl : FieldLaws F}
  h k arows brows crows acols bcols ccols (avals bvals cvals : list F) drows (dvals : list F) r c :
  length arows = length avals -> length acols = length avals ->
  length brows = length bvals -> length bcols = length bvals ->
  length crows = length cvals -> length ccols = length cvals ->
  length drows = length dvals ->
  in_shape (entries_of arows acols avals) h k ->
  in_shape (entries_of brows bcols bvals) h k ->
  in_shape (entries_of crows ccols cvals) h k ->
  let '(rows, cols, vals) :=
    concat_matrix_horizontally k arows brows crows acols bcols ccols avals bvals cvals drows dvals in
  mat_at (entries_of rows cols vals) r c =
    if (c <? 1)%nat then mat_at (entries_of drows (map (fun _ => 0%nat) drows) dvals) r 0
    else if (c <? 1 + k)%nat then mat_at (entries_of arows acols avals) r (c - 1)
    else if (c <? 1 + 2 * k)%nat then mat_at (entries_of brows bcols bvals) r (c - 1 - k)
    else mat_at (entries_of crows ccols cvals) r (c - 1 - 2 * k).
Proof. exact (horizontal_at h k arows brows crows acols bcols ccols avals bvals cvals drows dvals r c). Qed.
Example c04_example :
  let A := entries_of [0%nat; 1%nat] [1%nat; 0%nat] [f101 2; f101 3] in
  in_shape A 2 2 /\ mat_at A 1 0 = f101 3.
Proof.
  split; [|vm_compute; reflexivity].
  intros r c x [H|[H|[]]]; injection H as <- <- <-; lia.
Qed.

(** ** C05 power iterator *)
Theorem c05_power_iter {F} {fo : FieldOps F} {fl : FieldLaws F} {E} start end_ (alpha : F) len sh :
  alpha <> 0 ->
  (power_iter (E:=E) start end_ alpha len sh = Panic /\ (end_ <= start)%nat) \/
  (exists it, power_iter (E:=E) start end_ alpha len sh = Ok it /\ (start < end_)%nat /\
    pi_collect (S (end_ - start)) it
    = Some (map (fun j => if (sh <=? j)%nat && (j <? sh + len)%nat then fpow alpha (j - sh) else 0)
                (seq start (end_ - start)))).
Proof. exact (power_iter_ok start end_ alpha len sh). Qed.
Theorem c05_alpha_zero_refuted : exists it : power_iterator (F:=F101),
  power_iter (E:=unit) 0 2 (f101 0) 2 0 = Ok it /\ pi_collect 3 it = Some [0; 0] /\ fpow (f101 0) 0 = 1.
Proof. eexists. split; [reflexivity|]. split; vm_compute; reflexivity. Qed.
Example c05_example : exists it, power_iter (E:=unit) 1 6 (f101 2) 3 2 = Ok it /\
  pi_collect 6 it = Some [f101 0; f101 1; f101 2; f101 4; f101 0].
Proof. eexists. split; [reflexivity|]. vm_compute; reflexivity. Qed.

(** ** C06 vector_power_mul *)
Theorem c06_vector_power_mul {F} {fo : FieldOps F} {fl : FieldLaws F} (v : list F) (alpha : F) (n : nat) :
  length (vector_power_mul v alpha n) = (n + length v - 1)%nat /\
  ((0 < n)%nat -> forall k, coef (vector_power_mul v alpha n) k = conv (powers alpha n) v k).
Proof. exact (conj (vector_power_mul_length v alpha n) (fun Hn k => coef_vector_power_mul v alpha n k Hn)). Qed.
Example c06_example : vector_power_mul [f101 5; f101 7] (f101 2) 3 = [f101 5; f101 17; f101 34; f101 28].
Proof. vm_compute; reflexivity. Qed.

(** ** C07 power_power_mul *)
Theorem c07_power_power_mul {F} {fo : FieldOps F} {fl : FieldLaws F} (alpha beta : F) (n m : nat) :
  length (power_power_mul alpha n beta m) = (n + m - 1)%nat /\
  ((0 < n)%nat -> (0 < m)%nat -> forall k,
     coef (power_power_mul alpha n beta m) k = conv (powers alpha n) (powers beta m) k).
Proof.
  exact (conj (power_power_mul_length alpha n beta m) (fun Hn Hm k => coef_power_power_mul alpha n beta m k Hn Hm)).
Qed.
Example c07_example : power_power_mul (f101 2) 2 (f101 2) 3 = [f101 1; f101 4; f101 8; f101 8].
Proof. vm_compute; reflexivity. Qed.

(** ** C08 vector_reverse_omega, vector_poly_mul *)
Theorem c08_reverse_omega {F} {fo : FieldOps F} {fl : FieldLaws F} (v : list F) (om : F) :
  length (vector_reverse_omega v om) = length v /\
  (forall i, (i < length v)%nat ->
    coef (vector_reverse_omega v om) i = coef v (length v - 1 - i) * fpow om (length v - 1 - i)).
Proof. exact (conj (reverse_omega_length v om) (coef_reverse_omega v om)). Qed.
Theorem c08_vector_poly_mul {F} {fo : FieldOps F} {fl : FieldLaws F} (u v : list F) (om : F) k :
  coef (vector_poly_mul u v om) k = conv (vector_reverse_omega u om) v k.
Proof. exact (coef_vector_poly_mul u v om k). Qed.
(** X * (product) = X^|u| f_u(omega/X) f_v(X) at every non-zero point *)
Theorem c08_vector_poly_mul_value {F} {fo : FieldOps F} {fl : FieldLaws F} (u v : list F) (om z : F) :
  z <> 0 ->
  z * poly_value (vector_poly_mul u v om) z = fpow z (length u) * poly_value u (om / z) * poly_value v z.
Proof. exact (vector_poly_mul_value u v om z). Qed.
Example c08_example :
  vector_poly_mul [f101 1; f101 2] [f101 3; f101 4] (f101 5) = [f101 30; f101 43; f101 4].
Proof. vm_compute; reflexivity. Qed.

(** ** C09 vector expressions *)
Theorem c09_eval_expression {F} {fo : FieldOps F} {fl : FieldLaws F} (z : F) (e : Z -> F) (n : Z) :
  eval_vector_expression z e n = sumn (Z.to_nat n) (fun i => e (Z.of_nat (S i)) * fpow z i).
Proof. exact (eval_vector_expression_sum z e n). Qed.
Theorem c09_eval_as_poly {F} {fo : FieldOps F} {fl : FieldLaws F} (v : list F) (z : F) :
  eval_vector_as_poly v z = poly_value v z.
Proof. exact (eval_vector_as_poly_value v z). Qed.
Theorem c09_expression_vector {F} {fo : FieldOps F} {fl : FieldLaws F} (e : Z -> F) (n : Z) :
  length (expression_vector e n) = Z.to_nat n /\
  (forall i, (i < Z.to_nat n)%nat -> coef (expression_vector e n) i = e (Z.of_nat (S i))).
Proof. exact (conj (expression_vector_length e n) (nth_expression_vector e n)). Qed.
Theorem c09_add_expression {F} {fo : FieldOps F} {fl : FieldLaws F} (u : list F) (e : Z -> F) :
  length (add_expression_vector_to_vector u e) = length u /\
  (forall i, (i < length u)%nat ->
     coef (add_expression_vector_to_vector u e) i = coef u i + e (Z.of_nat (S i))).
Proof. exact (conj (add_expression_vector_length u e) (coef_add_expression_vector u e)). Qed.
Theorem c09_add_vector {F} {fo : FieldOps F} {fl : FieldLaws F} (u v : list F) :
  length (add_vector_to_vector u v) = length u /\
  (forall i, (i < length u)%nat -> coef (add_vector_to_vector u v) i = coef u i + coef v i).
Proof. exact (add_vector_ok u v). Qed.
Theorem c09_accumulate_sum {F} {fo : FieldOps F} {fl : FieldLaws F} (init : F) (e : Z -> F) (n : Z) i :
  (i < Z.to_nat n)%nat ->
  coef (accumulate_vector init e n fadd) i = init + sumn (S i) (fun j => e (Z.of_nat (S j))).
Proof. exact (accumulate_plus init e n i). Qed.
Theorem c09_accumulate_product {F} {fo : FieldOps F} {fl : FieldLaws F} (init : F) (e : Z -> F) (n : Z) i :
  (i < Z.to_nat n)%nat ->
  coef (accumulate_vector init e n fmul) i = init * prodn (S i) (fun j => e (Z.of_nat (S j))).
Proof. exact (accumulate_mul init e n i). Qed.
Theorem c09_vector_index {F} {fo : FieldOps F} {fl : FieldLaws F} (v : list F) (i : Z) :
  vidx v i = coefZ v (i - 1).
Proof. exact (vidx_coefZ v i). Qed.
Example c09_example :
  eval_vector_expression (f101 0) (fun i => f101 (i + 4)) 3 = f101 5 /\
  accumulate_vector (f101 1) (fun i => f101 i) 4 fmul = [f101 1; f101 2; f101 6; f101 24].
Proof. split; vm_compute; reflexivity. Qed.

(** ** C10 permutation vector *)
Theorem c10_permutation {F} {fo : FieldOps F} {fl : FieldLaws F} {E} (gamma : F) l n :
  gamma <> 0 -> pairs_below n l ->
  exists sigma, permutation_vector_from_wires (E:=E) gamma l n = Ok sigma /\
    Permutation (powers gamma n) sigma.
Proof. exact (pvw_permutation gamma l n). Qed.
Theorem c10_panics {F} {fo : FieldOps F} {fl : FieldLaws F} {E} (gamma : F) l n :
  gamma = 0 \/ ~ pairs_below n l -> permutation_vector_from_wires (E:=E) gamma l n = Panic.
Proof. exact (pvw_panic gamma l n). Qed.
Theorem c10_forest_exact {F} {fo : FieldOps F} {fl : FieldLaws F} {E} (gamma : F) l n (w : list F) :
  gamma <> 0 -> distinct_powers gamma n -> pairs_below n l ->
  exists sigma, permutation_vector_from_wires (E:=E) gamma l n = Ok sigma /\
    (respects l w -> perm_invariant gamma n sigma w) /\
    (forest l -> perm_invariant gamma n sigma w -> respects l w).
Proof. exact (pvw_respects gamma l n w). Qed.
(** a pair listed twice in a row is cancelled *)
Theorem c10_duplicate_cancels {F} {fo : FieldOps F} {fl : FieldLaws F} {E} (gamma : F) l i j n :
  (i < n)%nat -> (j < n)%nat -> pairs_below n l ->
  permutation_vector_from_wires (E:=E) gamma (l ++ [(i, j); (i, j)]) n
  = permutation_vector_from_wires gamma l n.
Proof. exact (pvw_duplicate gamma l i j n). Qed.
(** hence without the forest hypothesis the permutation does not enforce the wires *)
Theorem c10_cycle_refuted : exists (gamma : F101) l n (w sigma : list F101),
  gamma <> 0 /\ distinct_powers gamma n /\ pairs_below n l /\
  permutation_vector_from_wires (E:=unit) gamma l n = Ok sigma /\
  perm_invariant gamma n sigma w /\ ~ respects l w.
Proof. exact perm_cycle_counterexample. Qed.
Example c10_example :
  permutation_vector_from_wires (E:=unit) (f101 2) [(0%nat, 2%nat); (2%nat, 3%nat)] 4
  = Ok [f101 4; f101 2; f101 8; f101 1]
  /\ distinct_powers (f101 2) 4 /\ forest [(0%nat, 2%nat); (2%nat, 3%nat)] /\ pairs_below 4 [(0%nat, 2%nat); (2%nat, 3%nat)].
Proof. exact perm_example. Qed.

(** ** C34 integers and field elements *)
Theorem c34_round_trip {F} {fo : FieldOps F} {fl : FieldLaws F} {po : PrimeFieldOps F} {pl : PrimeFieldLaws F} {E} (i : Z) :
  (0 <= i < 2 ^ 64)%Z ->
  (let! x := to_field (F:=F) (E:=E) i in to_int x) = if (i <? modulus)%Z then Ok i else Panic.
Proof. exact (to_int_to_field i). Qed.
Theorem c34_try_to_int {F} {fo : FieldOps F} {fl : FieldLaws F} {po : PrimeFieldOps F} {pl : PrimeFieldLaws F} (x : F) (n : Z) :
  try_to_int x = Some n <-> (0 <= n < 2 ^ 64)%Z /\ (n < modulus)%Z /\ x = from_Z n.
Proof. exact (try_to_int_iff x n). Qed.
Theorem c34_to_int_panics {F} {fo : FieldOps F} {fl : FieldLaws F} {po : PrimeFieldOps F} {pl : PrimeFieldLaws F} {E} (x : F) :
  to_int (E:=E) x = match try_to_int x with Some n => Ok n | None => Panic end.
Proof. exact (to_int_try x). Qed.
Example c34_example : to_int (E:=unit) (f101 77) = Ok 77%Z /\ to_field (F:=F101) (E:=unit) 101 = Panic.
Proof. split; vm_compute; reflexivity. Qed.

(** ** C36 textual form *)
Theorem c36_fmt_field {F} {fo : FieldOps F} {fl : FieldLaws F} {po : PrimeFieldOps F} {pl : PrimeFieldLaws F} (v : F) :
  match fmt_field v with FmtPos n => v = from_Z n | FmtNeg n => v = - from_Z n | FmtRaw x => v = x end.
Proof. exact (fmt_field_spec v). Qed.
Theorem c36_fmt_field_injective {F} {fo : FieldOps F} {fl : FieldLaws F} {po : PrimeFieldOps F} {pl : PrimeFieldLaws F} (v w : F) :
  fmt_field v = fmt_field w -> v = w.
Proof. exact (fmt_field_inj v w). Qed.

(** ** C37 adding an i64 to a field element *)
Theorem c37_custom_add {F} {fo : FieldOps F} {fl : FieldLaws F} {po : PrimeFieldOps F} {pl : PrimeFieldLaws F} {E} (a : F) (b : Z) :
  (- 2 ^ 63 <= b < 2 ^ 63)%Z -> (2 ^ 64 <= modulus (F:=F))%Z ->
  custom_add_fi (E:=E) a b = Ok (a + from_Z b + (if (b <? 0)%Z then from_Z (2 ^ 64) else 0)).
Proof. exact (custom_add_fi_spec a b). Qed.

(** ** C38 sparse vectors *)
Theorem c38_sparse_vector {F} {fo : FieldOps F} {fl : FieldLaws F} {E} idx (vals : list F) n :
  NoDup idx -> (forall i, In i idx -> (i < n)%nat) ->
  exists r, sparse_vector (E:=E) idx vals n = Ok r /\ length r = n /\
    forall k, coef r k = sparse_at idx vals k.
Proof. exact (sparse_vector_ok idx vals n). Qed.
Theorem c38_eval_sparse_vector {F} {fo : FieldOps F} {fl : FieldLaws F} {E} (z : F) idx (vals : list F) n :
  z <> 0 -> NoDup idx -> (forall i, In i idx -> (i < n)%nat) ->
  exists r, sparse_vector (E:=E) idx vals n = Ok r /\ eval_sparse_vector z idx vals = poly_value r z.
Proof. exact (eval_sparse_vector_value z idx vals n). Qed.
(** with a repeated index the two disagree *)
Theorem c38_duplicate_refuted : exists (z : F101) idx vals n r,
  z <> 0 /\ sparse_vector (E:=unit) idx vals n = Ok r /\ eval_sparse_vector z idx vals <> poly_value r z.
Proof. exact sparse_duplicate_counterexample. Qed.
Theorem c38_zero_one {F} {fo : FieldOps F} {fl : FieldLaws F} {E} (z : F) idx n :
  sparse_zero_one_vector (F:=F) (E:=E) idx n = sparse_vector idx (map (fun _ => 1) idx) n /\
  eval_sparse_zero_one_vector z idx = eval_sparse_vector z idx (map (fun _ => 1) idx).
Proof. exact (conj (sparse_zero_one_eq idx n) (eval_sparse_zero_one_eq z idx)). Qed.
Example c38_example : sparse_vector (E:=unit) [2%nat; 0%nat] [f101 5; f101 6] 4 = Ok [f101 6; f101 0; f101 5; f101 0]
  /\ NoDup [2%nat; 0%nat].
Proof. split; [vm_compute; reflexivity|]. repeat constructor; cbn; intuition discriminate. Qed.

(** ** C39 small vector macros *)
Theorem c39_linear_combinations {F} {fo : FieldOps F} {fl : FieldLaws F} (a alpha : F) (cjs : list (F * F)) (l : list F) :
  linear_combination a cjs = a + fsum (map (fun cj => fst cj * snd cj) cjs) /\
  power_linear_combination alpha l = poly_value l alpha.
Proof. exact (conj (linear_combination_spec a cjs) (power_linear_combination_value alpha l)). Qed.
Theorem c39_multi_delta {F} {fo : FieldOps F} {fl : FieldLaws F} (i : Z) (cjs : list (F * Z)) :
  multi_delta i cjs = fsum (map (fun cj => if (i =? snd cj)%Z then fst cj else 0) cjs).
Proof. exact (multi_delta_sum i cjs). Qed.
Theorem c39_zero_pad {F} {fo : FieldOps F} {fl : FieldLaws F} {E} (u : list F) n :
  ((length u <= n)%nat -> exists r, zero_pad (E:=E) u n = Ok r /\ length r = n /\ forall i, coef r i = coef u i)
  /\ ((n < length u)%nat -> zero_pad (E:=E) u n = Panic).
Proof. exact (conj (zero_pad_ok u n) (zero_pad_panic u n)). Qed.
Theorem c39_hadamard {F} {fo : FieldOps F} {fl : FieldLaws F} (u v : list F) :
  length (hadamard_vector u v) = Nat.min (length u) (length v) /\
  forall i, coef (hadamard_vector u v) i =
    if (i <? Nat.min (length u) (length v))%nat then coef u i * coef v i else 0.
Proof. exact (conj (hadamard_length u v) (coef_hadamard u v)). Qed.
Theorem c39_uwinverse {F} {fo : FieldOps F} {fl : FieldLaws F} (mu nu : F) (u w : list F) i :
  (i < length u)%nat -> (i < length w)%nat -> (mu - coef u i) * (nu - coef w i) <> 0 ->
  coef (uwinverse_vector mu u nu w) i * ((mu - coef u i) * (nu - coef w i)) = 1.
Proof. exact (coef_uwinverse mu u nu w i). Qed.
Theorem c39_check_vector_eq {F} {fo : FieldOps F} {fl : FieldLaws F} (u v : list F) :
  check_vector_eq u v = true <-> u = v.
Proof. exact (check_vector_eq_spec u v). Qed.
Theorem c39_density {F} {fo : FieldOps F} {fl : FieldLaws F} (v : list F) :
  compute_density v = length (filter (fun i => negb (feqb (coef v i) 0)) (seq 0 (length v))).
Proof. exact (compute_density_spec v). Qed.
Example c39_example : power_linear_combination (f101 2) [f101 1; f101 1; f101 3] = f101 15 /\
  multi_delta 4 [(f101 2, 4%Z); (f101 9, 5%Z); (f101 3, 4%Z)] = f101 5 /\
  zero_pad (E:=unit) [f101 2] 3 = Ok [f101 2; f101 0; f101 0].
Proof. repeat split; vm_compute; reflexivity. Qed.

Print Assumptions c01_power_nat. Print Assumptions c03_sparse_mvp_iff. Print Assumptions c10_forest_exact.

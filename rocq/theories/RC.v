(** RC.v: model of voproof/src/snarks/range_check.rs (lookup argument for ranges) and of
    voproof/src/cs/range.rs.  The long index expressions are transcribed mechanically from the
    Rust text (one Definition per Rust binding, named rc_<binding>).  [H] is the hash oracle, the
    randomizers are arguments.  Printing is not modelled. *)
From Verif Require Import Base Tools KZG Snark.
Local Open Scope F_scope.

Section RC.
Context {F G1 G2 GT : Type} {fo : FieldOps F} {po : PairingOps F G1 G2 GT}.

(** cs/range.rs:3-8 [RangeCheck], 20-24 [RangeCheckSize], 28-35 [get_size]: the system is its size.
    The instance (37-48) has no data; the witness (50-53) is a vector. *)
Record rc_cs := mkRCCS { rc_lookup_size : nat; rc_range_size : nat }.

(** *** Values in scope.  Each record adds the bindings of one round to the previous one. *)
(** public data of a run (lines 117-140, 1285-1305) *)
Record rc_pub := mkRCPub { rc_nsize : Z; rc_range : Z; rc_cap_d : Z }.
(** bindings of lines 141-161; [rc_pk_t_vec] is [pk.t_vec] *)
Record rc_s1 := mkRCS1 {
  rc_s1_pub :> rc_pub; rc_pk_t_vec : list F; rc_w_vec : list F; rc_m_vec : list F }.
(** line 168 *)
Record rc_s2 := mkRCS2 { rc_s2_s1 :> rc_s1; rc_beta : F }.
(** lines 169-213 *)
Record rc_s3 := mkRCS3 { rc_s3_s2 :> rc_s2; rc_r_vec : list F; rc_s_vec : list F; rc_beta_1 : F }.
(** lines 226-238 *)
Record rc_s4 := mkRCS4 { rc_s4_s3 :> rc_s3; rc_r_vec_tilde : list F; rc_alpha : F }.
(** lines 242-278 *)
Record rc_s5 := mkRCS5 { rc_s5_s4 :> rc_s4; rc_t_vec_1 : list F; rc_omega : F }.
(** snarks/range_check.rs:142 [n] *)
Definition rc_n (e : rc_pub) : Z := (Z.max (rc_nsize e) (rc_range e))%Z.
(** lines 150-160 [m_vec]: how many of the first [nsize] values equal entry i of the table; the
    indexing [pk.t_vec[i]] panics when the table is shorter than [range] (never the case for keys
    made by [index]).  [to_field(1)] is 1. *)
Definition rc_count (w : list F) (t : F) : F :=
  fold_left (fun acc x => if feqb x t then acc + 1 else acc) w 0.
Definition rc_m_of (nsize range : nat) (w_vec t_vec : list F) : list F :=
  map (fun i => rc_count (firstn nsize w_vec) (nth i t_vec 0)) (seq 0 range).
(** lines 169-177 [r_vec] *)
Definition rc_r_of (nsize : nat) (w_vec : list F) (beta : F) : list F :=
  batch_inversion (map (fun x => x + beta) (firstn nsize w_vec)).
(** lines 185-197 [s_vec] *)
Definition rc_s_of (range : nat) (t_vec m_vec : list F) (beta : F) : list F :=
  map (fun ab => fst ab * snd ab)
      (combine (batch_inversion (map (fun x => x + beta) (firstn range t_vec))) m_vec).
(** snarks/range_check.rs:214-225 [r_vec_1], entry i (from 1) *)
Definition rc_r_vec_1_at (e : rc_s3) (i : Z) : F := power_linear_combination (rc_beta_1 e)
  [(((vidx (rc_r_vec e) i) * (range_index 1%Z (rc_nsize e) i)) - ((vidx (rc_s_vec e) i)
  * (range_index 1%Z (rc_range e) i)))].
Definition rc_r_vec_1 (e : rc_s3) : list F := expression_vector (rc_r_vec_1_at e) (rc_n e).
(** snarks/range_check.rs:226 [r_vec_tilde] before the randomizer *)
Definition rc_r_acc (e : rc_s3) : list F :=
  accumulate_vector 0 (fun i => vidx (rc_r_vec_1 e) i) (Z.of_nat (length (rc_r_vec_1 e))) fadd.
(** snarks/range_check.rs:228 [maxshift] *)
Definition rc_maxshift (e : rc_pub) : Z := (0)%Z.
(** snarks/range_check.rs:239 [c] *)
Definition rc_c (e : rc_s4) : F := - rc_alpha e.
(** snarks/range_check.rs:240 [c_1] *)
Definition rc_c_1 (e : rc_s4) : F := power (rc_alpha e) 2%Z.
(** snarks/range_check.rs:241 [c_2] *)
Definition rc_c_2 (e : rc_s4) : F := - power (rc_alpha e) 2%Z.
(** snarks/range_check.rs:242-266 [t_vec_1]: entry i of the expression following the randomizer *)
Definition rc_t_vec_1_at (e : rc_s4) (i : Z) : F := rc_alpha e * vidx (rc_s_vec e) (minus_i64 (i +
  rc_n e) 1)%Z * (rc_beta e * range_index 1%Z (rc_range e) (minus_i64 (i + rc_n e) 1)%Z +
  vidx (rc_pk_t_vec e) (minus_i64 (i + rc_n e) 1)%Z) + rc_c e * vidx (rc_m_vec e) (minus_i64 (i +
  rc_n e) 1)%Z * range_index 1%Z (rc_range e) (i + rc_n e)%Z + rc_c_1 e * vidx (rc_r_vec e)
  (minus_i64 (i + rc_n e) 1)%Z * range_index 1%Z (rc_nsize e) (i + rc_n e)%Z + rc_c_2 e
  * range_index 1%Z (rc_n e) (minus_i64 (i + rc_n e) 1)%Z * (vidx (rc_r_vec_tilde e) (minus_i64 (i +
  rc_n e) 1)%Z - vidx (rc_r_vec_tilde e) (minus_i64 (i + rc_n e) 2)%Z) + rc_c_2 e
  * vidx (rc_s_vec e) (minus_i64 (i + rc_n e) 1)%Z * range_index 1%Z (rc_range e) (i + rc_n e)%Z +
  vidx (rc_r_vec e) (minus_i64 (i + rc_n e) 1)%Z * (rc_beta e * range_index 1%Z (rc_nsize e)
  (minus_i64 (i + rc_n e) 1)%Z + vidx (rc_w_vec e) (minus_i64 (i + rc_n e) 1)%Z) - range_index 1%Z
  (rc_nsize e) (minus_i64 (i + rc_n e) 1)%Z * range_index 1%Z (rc_nsize e) (i + rc_n e)%Z.
Definition rc_t_vec_1_tail (e : rc_s4) : list F := expression_vector (rc_t_vec_1_at e)
  (rc_maxshift e + 2)%Z.
(** snarks/range_check.rs:279 [sum_vec] *)
Definition rc_sum_vec_0 (e : rc_s5) : list F := repeat 0 (Z.to_nat (rc_maxshift e + rc_n e + 1)%Z).
(** snarks/range_check.rs:280-283 [hcheck_vec] *)
Definition rc_hcheck_vec_0 (e : rc_s5) : list F := repeat 0 (Z.to_nat (2 * rc_maxshift e + 2
  * rc_n e + 1)%Z).
(** snarks/range_check.rs:284-291 [sum_vec], addition 1: entry i *)
Definition rc_sum_vec_add_1 (e : rc_s5) (i : Z) : F := (vidx (rc_r_vec e) (minus_i64 i 1)%Z)
  * (rc_beta e * range_index 1%Z (rc_nsize e) (minus_i64 i 1)%Z + vidx (rc_w_vec e) (minus_i64 i
  1)%Z).
Definition rc_sum_vec_1 (e : rc_s5) : list F := add_expression_vector_to_vector (rc_sum_vec_0 e)
  (rc_sum_vec_add_1 e).
(** snarks/range_check.rs:294-302 [v_vec] *)
Definition rc_v_vec (e : rc_s5) : list F := vector_poly_mul (rc_r_vec e) (rc_w_vec e) (rc_omega e).
(** snarks/range_check.rs:294-302 [shiftlength] *)
Definition rc_shiftlength (e : rc_s5) : Z := (Z.of_nat (length (rc_r_vec e)) - 1)%Z.
(** snarks/range_check.rs:303 [v_vec_1] *)
Definition rc_v_vec_1 (e : rc_s5) : list F := vector_reverse_omega (rc_r_vec e) (rc_omega e).
(** snarks/range_check.rs:303 [shiftlength_1] *)
Definition rc_shiftlength_1 (e : rc_s5) : Z := (Z.of_nat (length (rc_r_vec e)) - 1)%Z.
(** snarks/range_check.rs:304 [v_vec_2] *)
Definition rc_v_vec_2 (e : rc_s5) : list F := vector_power_mul (rc_v_vec_1 e) 1 (Z.to_nat
  (rc_nsize e)).
(** snarks/range_check.rs:306-312 [atimesb_vec], entry i (from 1) *)
Definition rc_atimesb_vec_at (e : rc_s5) (i : Z) : F := rc_beta e * vidx (rc_v_vec_2 e)
  (minus_i64 (i - rc_maxshift e - rc_n e) (1 - rc_shiftlength_1 e))%Z + vidx (rc_v_vec e)
  (minus_i64 (i - rc_maxshift e - rc_n e) (1 - rc_shiftlength e))%Z.
Definition rc_atimesb_vec (e : rc_s5) : list F := expression_vector (rc_atimesb_vec_at e) (2
  * rc_maxshift e + 2 * rc_n e + 1)%Z.
(** snarks/range_check.rs:313-322 [abnaive_vec], left factor, entry i *)
Definition rc_abnaive_vec_left (e : rc_s5) (i : Z) : F := vidx (rc_r_vec e) (minus_i64 i 1)%Z.
(** snarks/range_check.rs:313-322 [abnaive_vec], right factor, entry i *)
Definition rc_abnaive_vec_right (e : rc_s5) (i : Z) : F := rc_beta e * range_index 1%Z (rc_nsize e)
  (minus_i64 i 1)%Z + vidx (rc_w_vec e) (minus_i64 i 1)%Z.
(** snarks/range_check.rs:313-322 [abnaive_vec] *)
Definition rc_abnaive_vec (e : rc_s5) : list F := vector_poly_mul (expression_vector
  (rc_abnaive_vec_left e) (rc_maxshift e + rc_n e + 1)%Z) (expression_vector
  (rc_abnaive_vec_right e) (rc_maxshift e + rc_n e + 1)%Z) (rc_omega e).
(** snarks/range_check.rs:323 [hcheck_vec] *)
Definition rc_hcheck_vec_1 (e : rc_s5) : list F := add_vector_to_vector (rc_hcheck_vec_0 e)
  (rc_abnaive_vec e).
(** snarks/range_check.rs:324-328 check "The 1'th convolution is incorrect" *)
Definition rc_check_1 (e : rc_s5) : outcome error unit := let! p := zero_pad (rc_abnaive_vec e)
  (Z.to_nat (2 * rc_maxshift e + 2 * rc_n e + 1)%Z) in check_vector_eq_o (rc_atimesb_vec e) p.
(** snarks/range_check.rs:329-336 [sum_vec], addition 2: entry i *)
Definition rc_sum_vec_add_2 (e : rc_s5) (i : Z) : F := (- range_index 1%Z (rc_nsize e) (minus_i64 i
  1)%Z) * (range_index 1%Z (rc_nsize e) (minus_i64 i 1)%Z).
Definition rc_sum_vec_2 (e : rc_s5) : list F := add_expression_vector_to_vector (rc_sum_vec_1 e)
  (rc_sum_vec_add_2 e).
(** snarks/range_check.rs:337 [c_3] *)
Definition rc_c_3 (e : rc_s5) : F := power (rc_omega e) (- 1)%Z.
(** snarks/range_check.rs:338 [v_vec_3] *)
Definition rc_v_vec_3 (e : rc_s5) : list F := power_power_mul (rc_c_3 e) (Z.to_nat (rc_nsize e)) 1
  (Z.to_nat (rc_nsize e)).
(** snarks/range_check.rs:340 [c_4] *)
Definition rc_c_4 (e : rc_s5) : F := - power (rc_omega e) (rc_nsize e - 1)%Z.
(** snarks/range_check.rs:341-346 [atimesb_vec_1], entry i (from 1) *)
Definition rc_atimesb_vec_1_at (e : rc_s5) (i : Z) : F := rc_c_4 e * vidx (rc_v_vec_3 e)
  (minus_i64 (i - rc_maxshift e - rc_n e) (2 - rc_nsize e))%Z.
Definition rc_atimesb_vec_1 (e : rc_s5) : list F := expression_vector (rc_atimesb_vec_1_at e) (2
  * rc_maxshift e + 2 * rc_n e + 1)%Z.
(** snarks/range_check.rs:347-360 [abnaive_vec_1], left factor, entry i *)
Definition rc_abnaive_vec_1_left (e : rc_s5) (i : Z) : F := - range_index 1%Z (rc_nsize e)
  (minus_i64 i 1)%Z.
(** snarks/range_check.rs:347-360 [abnaive_vec_1], right factor, entry i *)
Definition rc_abnaive_vec_1_right (e : rc_s5) (i : Z) : F := range_index 1%Z (rc_nsize e)
  (minus_i64 i 1)%Z.
(** snarks/range_check.rs:347-360 [abnaive_vec_1] *)
Definition rc_abnaive_vec_1 (e : rc_s5) : list F := vector_poly_mul (expression_vector
  (rc_abnaive_vec_1_left e) (rc_maxshift e + rc_n e + 1)%Z) (expression_vector
  (rc_abnaive_vec_1_right e) (rc_maxshift e + rc_n e + 1)%Z) (rc_omega e).
(** snarks/range_check.rs:361 [hcheck_vec] *)
Definition rc_hcheck_vec_2 (e : rc_s5) : list F := add_vector_to_vector (rc_hcheck_vec_1 e)
  (rc_abnaive_vec_1 e).
(** snarks/range_check.rs:362-366 check "The 2'th convolution is incorrect" *)
Definition rc_check_2 (e : rc_s5) : outcome error unit := let! p := zero_pad (rc_abnaive_vec_1 e)
  (Z.to_nat (2 * rc_maxshift e + 2 * rc_n e + 1)%Z) in check_vector_eq_o (rc_atimesb_vec_1 e) p.
(** snarks/range_check.rs:367-374 [sum_vec], addition 3: entry i *)
Definition rc_sum_vec_add_3 (e : rc_s5) (i : Z) : F := (rc_alpha e * vidx (rc_s_vec e) (minus_i64 i
  1)%Z) * (rc_beta e * range_index 1%Z (rc_range e) (minus_i64 i 1)%Z + vidx (rc_pk_t_vec e)
  (minus_i64 i 1)%Z).
Definition rc_sum_vec_3 (e : rc_s5) : list F := add_expression_vector_to_vector (rc_sum_vec_2 e)
  (rc_sum_vec_add_3 e).
(** snarks/range_check.rs:377-385 [v_vec_4] *)
Definition rc_v_vec_4 (e : rc_s5) : list F := vector_poly_mul (rc_s_vec e) (rc_pk_t_vec e)
  (rc_omega e).
(** snarks/range_check.rs:377-385 [shiftlength_2] *)
Definition rc_shiftlength_2 (e : rc_s5) : Z := (Z.of_nat (length (rc_s_vec e)) - 1)%Z.
(** snarks/range_check.rs:386 [v_vec_5] *)
Definition rc_v_vec_5 (e : rc_s5) : list F := vector_reverse_omega (rc_s_vec e) (rc_omega e).
(** snarks/range_check.rs:386 [shiftlength_3] *)
Definition rc_shiftlength_3 (e : rc_s5) : Z := (Z.of_nat (length (rc_s_vec e)) - 1)%Z.
(** snarks/range_check.rs:387 [v_vec_6] *)
Definition rc_v_vec_6 (e : rc_s5) : list F := vector_power_mul (rc_v_vec_5 e) 1 (Z.to_nat
  (rc_range e)).
(** snarks/range_check.rs:389 [c_5] *)
Definition rc_c_5 (e : rc_s5) : F := rc_alpha e * rc_beta e.
(** snarks/range_check.rs:390-396 [atimesb_vec_2], entry i (from 1) *)
Definition rc_atimesb_vec_2_at (e : rc_s5) (i : Z) : F := rc_alpha e * vidx (rc_v_vec_4 e)
  (minus_i64 (i - rc_maxshift e - rc_n e) (1 - rc_shiftlength_2 e))%Z + rc_c_5 e
  * vidx (rc_v_vec_6 e) (minus_i64 (i - rc_maxshift e - rc_n e) (1 - rc_shiftlength_3 e))%Z.
Definition rc_atimesb_vec_2 (e : rc_s5) : list F := expression_vector (rc_atimesb_vec_2_at e) (2
  * rc_maxshift e + 2 * rc_n e + 1)%Z.
(** snarks/range_check.rs:397-410 [abnaive_vec_2], left factor, entry i *)
Definition rc_abnaive_vec_2_left (e : rc_s5) (i : Z) : F := rc_alpha e * vidx (rc_s_vec e)
  (minus_i64 i 1)%Z.
(** snarks/range_check.rs:397-410 [abnaive_vec_2], right factor, entry i *)
Definition rc_abnaive_vec_2_right (e : rc_s5) (i : Z) : F := rc_beta e * range_index 1%Z
  (rc_range e) (minus_i64 i 1)%Z + vidx (rc_pk_t_vec e) (minus_i64 i 1)%Z.
(** snarks/range_check.rs:397-410 [abnaive_vec_2] *)
Definition rc_abnaive_vec_2 (e : rc_s5) : list F := vector_poly_mul (expression_vector
  (rc_abnaive_vec_2_left e) (rc_maxshift e + rc_n e + 1)%Z) (expression_vector
  (rc_abnaive_vec_2_right e) (rc_maxshift e + rc_n e + 1)%Z) (rc_omega e).
(** snarks/range_check.rs:411 [hcheck_vec] *)
Definition rc_hcheck_vec_3 (e : rc_s5) : list F := add_vector_to_vector (rc_hcheck_vec_2 e)
  (rc_abnaive_vec_2 e).
(** snarks/range_check.rs:412-416 check "The 3'th convolution is incorrect" *)
Definition rc_check_3 (e : rc_s5) : outcome error unit := let! p := zero_pad (rc_abnaive_vec_2 e)
  (Z.to_nat (2 * rc_maxshift e + 2 * rc_n e + 1)%Z) in check_vector_eq_o (rc_atimesb_vec_2 e) p.
(** snarks/range_check.rs:417-424 [sum_vec], addition 4: entry i *)
Definition rc_sum_vec_add_4 (e : rc_s5) (i : Z) : F := (rc_c e * vidx (rc_m_vec e) (minus_i64 i
  1)%Z) * (range_index 1%Z (rc_range e) (minus_i64 i 1)%Z).
Definition rc_sum_vec_4 (e : rc_s5) : list F := add_expression_vector_to_vector (rc_sum_vec_3 e)
  (rc_sum_vec_add_4 e).
(** snarks/range_check.rs:425 [v_vec_7] *)
Definition rc_v_vec_7 (e : rc_s5) : list F := vector_reverse_omega (rc_m_vec e) (rc_omega e).
(** snarks/range_check.rs:425 [shiftlength_4] *)
Definition rc_shiftlength_4 (e : rc_s5) : Z := (Z.of_nat (length (rc_m_vec e)) - 1)%Z.
(** snarks/range_check.rs:426 [v_vec_8] *)
Definition rc_v_vec_8 (e : rc_s5) : list F := vector_power_mul (rc_v_vec_7 e) 1 (Z.to_nat
  (rc_range e)).
(** snarks/range_check.rs:428-433 [atimesb_vec_3], entry i (from 1) *)
Definition rc_atimesb_vec_3_at (e : rc_s5) (i : Z) : F := rc_c e * vidx (rc_v_vec_8 e) (minus_i64 (i
  - rc_maxshift e - rc_n e) (1 - rc_shiftlength_4 e))%Z.
Definition rc_atimesb_vec_3 (e : rc_s5) : list F := expression_vector (rc_atimesb_vec_3_at e) (2
  * rc_maxshift e + 2 * rc_n e + 1)%Z.
(** snarks/range_check.rs:434-447 [abnaive_vec_3], left factor, entry i *)
Definition rc_abnaive_vec_3_left (e : rc_s5) (i : Z) : F := rc_c e * vidx (rc_m_vec e) (minus_i64 i
  1)%Z.
(** snarks/range_check.rs:434-447 [abnaive_vec_3], right factor, entry i *)
Definition rc_abnaive_vec_3_right (e : rc_s5) (i : Z) : F := range_index 1%Z (rc_range e)
  (minus_i64 i 1)%Z.
(** snarks/range_check.rs:434-447 [abnaive_vec_3] *)
Definition rc_abnaive_vec_3 (e : rc_s5) : list F := vector_poly_mul (expression_vector
  (rc_abnaive_vec_3_left e) (rc_maxshift e + rc_n e + 1)%Z) (expression_vector
  (rc_abnaive_vec_3_right e) (rc_maxshift e + rc_n e + 1)%Z) (rc_omega e).
(** snarks/range_check.rs:448 [hcheck_vec] *)
Definition rc_hcheck_vec_4 (e : rc_s5) : list F := add_vector_to_vector (rc_hcheck_vec_3 e)
  (rc_abnaive_vec_3 e).
(** snarks/range_check.rs:449-453 check "The 4'th convolution is incorrect" *)
Definition rc_check_4 (e : rc_s5) : outcome error unit := let! p := zero_pad (rc_abnaive_vec_3 e)
  (Z.to_nat (2 * rc_maxshift e + 2 * rc_n e + 1)%Z) in check_vector_eq_o (rc_atimesb_vec_3 e) p.
(** snarks/range_check.rs:454-461 [sum_vec], addition 5: entry i *)
Definition rc_sum_vec_add_5 (e : rc_s5) (i : Z) : F := (rc_c_1 e * vidx (rc_r_vec e) (minus_i64 i
  1)%Z) * (range_index 1%Z (rc_nsize e) (minus_i64 i 1)%Z).
Definition rc_sum_vec_5 (e : rc_s5) : list F := add_expression_vector_to_vector (rc_sum_vec_4 e)
  (rc_sum_vec_add_5 e).
(** snarks/range_check.rs:462 [v_vec_9] *)
Definition rc_v_vec_9 (e : rc_s5) : list F := vector_reverse_omega (rc_r_vec e) (rc_omega e).
(** snarks/range_check.rs:462 [shiftlength_5] *)
Definition rc_shiftlength_5 (e : rc_s5) : Z := (Z.of_nat (length (rc_r_vec e)) - 1)%Z.
(** snarks/range_check.rs:463 [v_vec_10] *)
Definition rc_v_vec_10 (e : rc_s5) : list F := vector_power_mul (rc_v_vec_9 e) 1 (Z.to_nat
  (rc_nsize e)).
(** snarks/range_check.rs:465-470 [atimesb_vec_4], entry i (from 1) *)
Definition rc_atimesb_vec_4_at (e : rc_s5) (i : Z) : F := rc_c_1 e * vidx (rc_v_vec_10 e)
  (minus_i64 (i - rc_maxshift e - rc_n e) (1 - rc_shiftlength_5 e))%Z.
Definition rc_atimesb_vec_4 (e : rc_s5) : list F := expression_vector (rc_atimesb_vec_4_at e) (2
  * rc_maxshift e + 2 * rc_n e + 1)%Z.
(** snarks/range_check.rs:471-484 [abnaive_vec_4], left factor, entry i *)
Definition rc_abnaive_vec_4_left (e : rc_s5) (i : Z) : F := rc_c_1 e * vidx (rc_r_vec e)
  (minus_i64 i 1)%Z.
(** snarks/range_check.rs:471-484 [abnaive_vec_4], right factor, entry i *)
Definition rc_abnaive_vec_4_right (e : rc_s5) (i : Z) : F := range_index 1%Z (rc_nsize e)
  (minus_i64 i 1)%Z.
(** snarks/range_check.rs:471-484 [abnaive_vec_4] *)
Definition rc_abnaive_vec_4 (e : rc_s5) : list F := vector_poly_mul (expression_vector
  (rc_abnaive_vec_4_left e) (rc_maxshift e + rc_n e + 1)%Z) (expression_vector
  (rc_abnaive_vec_4_right e) (rc_maxshift e + rc_n e + 1)%Z) (rc_omega e).
(** snarks/range_check.rs:485 [hcheck_vec] *)
Definition rc_hcheck_vec_5 (e : rc_s5) : list F := add_vector_to_vector (rc_hcheck_vec_4 e)
  (rc_abnaive_vec_4 e).
(** snarks/range_check.rs:486-490 check "The 5'th convolution is incorrect" *)
Definition rc_check_5 (e : rc_s5) : outcome error unit := let! p := zero_pad (rc_abnaive_vec_4 e)
  (Z.to_nat (2 * rc_maxshift e + 2 * rc_n e + 1)%Z) in check_vector_eq_o (rc_atimesb_vec_4 e) p.
(** snarks/range_check.rs:491-498 [sum_vec], addition 6: entry i *)
Definition rc_sum_vec_add_6 (e : rc_s5) (i : Z) : F := (rc_c_2 e * vidx (rc_s_vec e) (minus_i64 i
  1)%Z) * (range_index 1%Z (rc_range e) (minus_i64 i 1)%Z).
Definition rc_sum_vec_6 (e : rc_s5) : list F := add_expression_vector_to_vector (rc_sum_vec_5 e)
  (rc_sum_vec_add_6 e).
(** snarks/range_check.rs:499 [v_vec_11] *)
Definition rc_v_vec_11 (e : rc_s5) : list F := vector_reverse_omega (rc_s_vec e) (rc_omega e).
(** snarks/range_check.rs:499 [shiftlength_6] *)
Definition rc_shiftlength_6 (e : rc_s5) : Z := (Z.of_nat (length (rc_s_vec e)) - 1)%Z.
(** snarks/range_check.rs:500 [v_vec_12] *)
Definition rc_v_vec_12 (e : rc_s5) : list F := vector_power_mul (rc_v_vec_11 e) 1 (Z.to_nat
  (rc_range e)).
(** snarks/range_check.rs:502-507 [atimesb_vec_5], entry i (from 1) *)
Definition rc_atimesb_vec_5_at (e : rc_s5) (i : Z) : F := rc_c_2 e * vidx (rc_v_vec_12 e)
  (minus_i64 (i - rc_maxshift e - rc_n e) (1 - rc_shiftlength_6 e))%Z.
Definition rc_atimesb_vec_5 (e : rc_s5) : list F := expression_vector (rc_atimesb_vec_5_at e) (2
  * rc_maxshift e + 2 * rc_n e + 1)%Z.
(** snarks/range_check.rs:508-521 [abnaive_vec_5], left factor, entry i *)
Definition rc_abnaive_vec_5_left (e : rc_s5) (i : Z) : F := rc_c_2 e * vidx (rc_s_vec e)
  (minus_i64 i 1)%Z.
(** snarks/range_check.rs:508-521 [abnaive_vec_5], right factor, entry i *)
Definition rc_abnaive_vec_5_right (e : rc_s5) (i : Z) : F := range_index 1%Z (rc_range e)
  (minus_i64 i 1)%Z.
(** snarks/range_check.rs:508-521 [abnaive_vec_5] *)
Definition rc_abnaive_vec_5 (e : rc_s5) : list F := vector_poly_mul (expression_vector
  (rc_abnaive_vec_5_left e) (rc_maxshift e + rc_n e + 1)%Z) (expression_vector
  (rc_abnaive_vec_5_right e) (rc_maxshift e + rc_n e + 1)%Z) (rc_omega e).
(** snarks/range_check.rs:522 [hcheck_vec] *)
Definition rc_hcheck_vec_6 (e : rc_s5) : list F := add_vector_to_vector (rc_hcheck_vec_5 e)
  (rc_abnaive_vec_5 e).
(** snarks/range_check.rs:523-527 check "The 6'th convolution is incorrect" *)
Definition rc_check_6 (e : rc_s5) : outcome error unit := let! p := zero_pad (rc_abnaive_vec_5 e)
  (Z.to_nat (2 * rc_maxshift e + 2 * rc_n e + 1)%Z) in check_vector_eq_o (rc_atimesb_vec_5 e) p.
(** snarks/range_check.rs:528-535 [sum_vec], addition 7: entry i *)
Definition rc_sum_vec_add_7 (e : rc_s5) (i : Z) : F := (rc_c_2 e * range_index 1%Z (rc_n e)
  (minus_i64 i 1)%Z) * (vidx (rc_r_vec_tilde e) (minus_i64 i 1)%Z - vidx (rc_r_vec_tilde e)
  (minus_i64 i 2)%Z).
Definition rc_sum_vec_7 (e : rc_s5) : list F := add_expression_vector_to_vector (rc_sum_vec_6 e)
  (rc_sum_vec_add_7 e).
(** snarks/range_check.rs:536 [v_vec_13] *)
Definition rc_v_vec_13 (e : rc_s5) : list F := vector_power_mul (rc_r_vec_tilde e) (rc_c_3 e)
  (Z.to_nat (Z.max (rc_nsize e) (rc_range e))).
(** snarks/range_check.rs:538 [c_6] *)
Definition rc_c_6 (e : rc_s5) : F := - power (rc_alpha e) 2%Z * power (rc_omega e) (Z.max
  (rc_nsize e) (rc_range e) - 1)%Z.
(** snarks/range_check.rs:539 [c_7] *)
Definition rc_c_7 (e : rc_s5) : F := power (rc_alpha e) 2%Z * power (rc_omega e) (Z.max (rc_nsize e)
  (rc_range e) - 1)%Z.
(** snarks/range_check.rs:540-554 [atimesb_vec_6], entry i (from 1) *)
Definition rc_atimesb_vec_6_at (e : rc_s5) (i : Z) : F := rc_c_6 e * vidx (rc_v_vec_13 e)
  (minus_i64 (i - rc_maxshift e - rc_n e) (2 - Z.max (rc_nsize e) (rc_range e)))%Z + rc_c_7 e
  * vidx (rc_v_vec_13 e) (minus_i64 (i - rc_maxshift e - rc_n e) (3 - Z.max (rc_nsize e)
  (rc_range e)))%Z.
Definition rc_atimesb_vec_6 (e : rc_s5) : list F := expression_vector (rc_atimesb_vec_6_at e) (2
  * rc_maxshift e + 2 * rc_n e + 1)%Z.
(** snarks/range_check.rs:555-568 [abnaive_vec_6], left factor, entry i *)
Definition rc_abnaive_vec_6_left (e : rc_s5) (i : Z) : F := rc_c_2 e * range_index 1%Z (rc_n e)
  (minus_i64 i 1)%Z.
(** snarks/range_check.rs:555-568 [abnaive_vec_6], right factor, entry i *)
Definition rc_abnaive_vec_6_right (e : rc_s5) (i : Z) : F := vidx (rc_r_vec_tilde e) (minus_i64 i
  1)%Z - vidx (rc_r_vec_tilde e) (minus_i64 i 2)%Z.
(** snarks/range_check.rs:555-568 [abnaive_vec_6] *)
Definition rc_abnaive_vec_6 (e : rc_s5) : list F := vector_poly_mul (expression_vector
  (rc_abnaive_vec_6_left e) (rc_maxshift e + rc_n e + 1)%Z) (expression_vector
  (rc_abnaive_vec_6_right e) (rc_maxshift e + rc_n e + 1)%Z) (rc_omega e).
(** snarks/range_check.rs:569 [hcheck_vec] *)
Definition rc_hcheck_vec_7 (e : rc_s5) : list F := add_vector_to_vector (rc_hcheck_vec_6 e)
  (rc_abnaive_vec_6 e).
(** snarks/range_check.rs:570-574 check "The 7'th convolution is incorrect" *)
Definition rc_check_7 (e : rc_s5) : outcome error unit := let! p := zero_pad (rc_abnaive_vec_6 e)
  (Z.to_nat (2 * rc_maxshift e + 2 * rc_n e + 1)%Z) in check_vector_eq_o (rc_atimesb_vec_6 e) p.
(** snarks/range_check.rs:575-582 [sum_vec], addition 8: entry i *)
Definition rc_sum_vec_add_8 (e : rc_s5) (i : Z) : F := (power (rc_alpha e) 3%Z * delta i (rc_n e))
  * (vidx (rc_r_vec_tilde e) (minus_i64 i 1)%Z).
Definition rc_sum_vec_8 (e : rc_s5) : list F := add_expression_vector_to_vector (rc_sum_vec_7 e)
  (rc_sum_vec_add_8 e).
(** snarks/range_check.rs:584 [c_8] *)
Definition rc_c_8 (e : rc_s5) : F := power (rc_alpha e) 3%Z * power (rc_omega e) (Z.max (rc_nsize e)
  (rc_range e) - 1)%Z.
(** snarks/range_check.rs:585-590 [atimesb_vec_7], entry i (from 1) *)
Definition rc_atimesb_vec_7_at (e : rc_s5) (i : Z) : F := rc_c_8 e * vidx (rc_r_vec_tilde e)
  (minus_i64 (i - rc_maxshift e - rc_n e) (2 - rc_n e))%Z.
Definition rc_atimesb_vec_7 (e : rc_s5) : list F := expression_vector (rc_atimesb_vec_7_at e) (2
  * rc_maxshift e + 2 * rc_n e + 1)%Z.
(** snarks/range_check.rs:591-600 [abnaive_vec_7], left factor, entry i *)
Definition rc_abnaive_vec_7_left (e : rc_s5) (i : Z) : F := power (rc_alpha e) 3%Z * delta i
  (rc_n e).
(** snarks/range_check.rs:591-600 [abnaive_vec_7], right factor, entry i *)
Definition rc_abnaive_vec_7_right (e : rc_s5) (i : Z) : F := vidx (rc_r_vec_tilde e) (minus_i64 i
  1)%Z.
(** snarks/range_check.rs:591-600 [abnaive_vec_7] *)
Definition rc_abnaive_vec_7 (e : rc_s5) : list F := vector_poly_mul (expression_vector
  (rc_abnaive_vec_7_left e) (rc_maxshift e + rc_n e + 1)%Z) (expression_vector
  (rc_abnaive_vec_7_right e) (rc_maxshift e + rc_n e + 1)%Z) (rc_omega e).
(** snarks/range_check.rs:601 [hcheck_vec] *)
Definition rc_hcheck_vec_8 (e : rc_s5) : list F := add_vector_to_vector (rc_hcheck_vec_7 e)
  (rc_abnaive_vec_7 e).
(** snarks/range_check.rs:602-606 check "The 8'th convolution is incorrect" *)
Definition rc_check_8 (e : rc_s5) : outcome error unit := let! p := zero_pad (rc_abnaive_vec_7 e)
  (Z.to_nat (2 * rc_maxshift e + 2 * rc_n e + 1)%Z) in check_vector_eq_o (rc_atimesb_vec_7 e) p.
(** snarks/range_check.rs:607-614 [sum_vec], addition 9: entry i *)
Definition rc_sum_vec_add_9 (e : rc_s5) (i : Z) : F := (- range_index 1%Z (rc_maxshift e + 1)%Z
  (minus_i64 i (rc_n e + 1))%Z) * (vidx (rc_t_vec_1 e) (minus_i64 i (rc_n e))%Z).
Definition rc_sum_vec_9 (e : rc_s5) : list F := add_expression_vector_to_vector (rc_sum_vec_8 e)
  (rc_sum_vec_add_9 e).
(** snarks/range_check.rs:615 [v_vec_14] *)
Definition rc_v_vec_14 (e : rc_s5) : list F := vector_power_mul (rc_t_vec_1 e) (rc_c_3 e) (Z.to_nat
  1%Z).
(** snarks/range_check.rs:617 [c_9] *)
Definition rc_c_9 (e : rc_s5) : F := - power (rc_omega e) (Z.max (rc_nsize e) (rc_range e)).
(** snarks/range_check.rs:618-623 [atimesb_vec_8], entry i (from 1) *)
Definition rc_atimesb_vec_8_at (e : rc_s5) (i : Z) : F := rc_c_9 e * vidx (rc_v_vec_14 e)
  (minus_i64 (i - rc_maxshift e - rc_n e) 0)%Z.
Definition rc_atimesb_vec_8 (e : rc_s5) : list F := expression_vector (rc_atimesb_vec_8_at e) (2
  * rc_maxshift e + 2 * rc_n e + 1)%Z.
(** snarks/range_check.rs:624-637 [abnaive_vec_8], left factor, entry i *)
Definition rc_abnaive_vec_8_left (e : rc_s5) (i : Z) : F := - range_index 1%Z (rc_maxshift e + 1)%Z
  (minus_i64 i (rc_n e + 1))%Z.
(** snarks/range_check.rs:624-637 [abnaive_vec_8], right factor, entry i *)
Definition rc_abnaive_vec_8_right (e : rc_s5) (i : Z) : F := vidx (rc_t_vec_1 e) (minus_i64 i
  (rc_n e))%Z.
(** snarks/range_check.rs:624-637 [abnaive_vec_8] *)
Definition rc_abnaive_vec_8 (e : rc_s5) : list F := vector_poly_mul (expression_vector
  (rc_abnaive_vec_8_left e) (rc_maxshift e + rc_n e + 1)%Z) (expression_vector
  (rc_abnaive_vec_8_right e) (rc_maxshift e + rc_n e + 1)%Z) (rc_omega e).
(** snarks/range_check.rs:638 [hcheck_vec] *)
Definition rc_hcheck_vec_9 (e : rc_s5) : list F := add_vector_to_vector (rc_hcheck_vec_8 e)
  (rc_abnaive_vec_8 e).
(** snarks/range_check.rs:639-643 check "The 9'th convolution is incorrect" *)
Definition rc_check_9 (e : rc_s5) : outcome error unit := let! p := zero_pad (rc_abnaive_vec_8 e)
  (Z.to_nat (2 * rc_maxshift e + 2 * rc_n e + 1)%Z) in check_vector_eq_o (rc_atimesb_vec_8 e) p.
(** snarks/range_check.rs:646-654 [v_vec_15] *)
Definition rc_v_vec_15 (e : rc_s5) : list F := vector_poly_mul (rc_r_vec e) (rc_w_vec e)
  (rc_omega e).
(** snarks/range_check.rs:646-654 [shiftlength_7] *)
Definition rc_shiftlength_7 (e : rc_s5) : Z := (Z.of_nat (length (rc_r_vec e)) - 1)%Z.
(** snarks/range_check.rs:655 [v_vec_16] *)
Definition rc_v_vec_16 (e : rc_s5) : list F := vector_reverse_omega (rc_r_vec e) (rc_omega e).
(** snarks/range_check.rs:655 [shiftlength_8] *)
Definition rc_shiftlength_8 (e : rc_s5) : Z := (Z.of_nat (length (rc_r_vec e)) - 1)%Z.
(** snarks/range_check.rs:658-666 [v_vec_17] *)
Definition rc_v_vec_17 (e : rc_s5) : list F := vector_poly_mul (rc_s_vec e) (rc_pk_t_vec e)
  (rc_omega e).
(** snarks/range_check.rs:658-666 [shiftlength_9] *)
Definition rc_shiftlength_9 (e : rc_s5) : Z := (Z.of_nat (length (rc_s_vec e)) - 1)%Z.
(** snarks/range_check.rs:667 [v_vec_18] *)
Definition rc_v_vec_18 (e : rc_s5) : list F := vector_reverse_omega (rc_s_vec e) (rc_omega e).
(** snarks/range_check.rs:667 [shiftlength_10] *)
Definition rc_shiftlength_10 (e : rc_s5) : Z := (Z.of_nat (length (rc_s_vec e)) - 1)%Z.
(** snarks/range_check.rs:668 [v_vec_19] *)
Definition rc_v_vec_19 (e : rc_s5) : list F := vector_reverse_omega (rc_m_vec e) (rc_omega e).
(** snarks/range_check.rs:668 [shiftlength_11] *)
Definition rc_shiftlength_11 (e : rc_s5) : Z := (Z.of_nat (length (rc_m_vec e)) - 1)%Z.
(** snarks/range_check.rs:669 [v_vec_20] *)
Definition rc_v_vec_20 (e : rc_s5) : list F := vector_power_mul (rc_v_vec_16 e) 1 (Z.to_nat
  (rc_nsize e)).
(** snarks/range_check.rs:670 [v_vec_21] *)
Definition rc_v_vec_21 (e : rc_s5) : list F := vector_power_mul (rc_v_vec_18 e) 1 (Z.to_nat
  (rc_range e)).
(** snarks/range_check.rs:671 [v_vec_22] *)
Definition rc_v_vec_22 (e : rc_s5) : list F := vector_power_mul (rc_v_vec_19 e) 1 (Z.to_nat
  (rc_range e)).
(** snarks/range_check.rs:672 [v_vec_23] *)
Definition rc_v_vec_23 (e : rc_s5) : list F := vector_power_mul (rc_r_vec_tilde e) (rc_c_3 e)
  (Z.to_nat (Z.max (rc_nsize e) (rc_range e))).
(** snarks/range_check.rs:673 [v_vec_24] *)
Definition rc_v_vec_24 (e : rc_s5) : list F := vector_power_mul (rc_t_vec_1 e) (rc_c_3 e) (Z.to_nat
  1%Z).
(** snarks/range_check.rs:674 [v_vec_25] *)
Definition rc_v_vec_25 (e : rc_s5) : list F := power_power_mul (rc_c_3 e) (Z.to_nat (rc_nsize e)) 1
  (Z.to_nat (rc_nsize e)).
(** snarks/range_check.rs:676-684 summand 1 of [h_osum] *)
Definition rc_osum_at_1 (e : rc_s5) (i : Z) : F := (vidx (rc_r_vec e) (minus_i64 i 1)%Z)
  * (rc_beta e * range_index 1%Z (rc_nsize e) (minus_i64 i 1)%Z + vidx (rc_w_vec e) (minus_i64 i
  1)%Z).
Definition rc_osum_1 (e : rc_s5) : F := eval_vector_expression (rc_omega e) (rc_osum_at_1 e)
  (rc_maxshift e + rc_n e + 1)%Z.
(** snarks/range_check.rs:685-693 summand 2 of [h_osum] *)
Definition rc_osum_at_2 (e : rc_s5) (i : Z) : F := (- range_index 1%Z (rc_nsize e) (minus_i64 i
  1)%Z) * (range_index 1%Z (rc_nsize e) (minus_i64 i 1)%Z).
Definition rc_osum_2 (e : rc_s5) : F := eval_vector_expression (rc_omega e) (rc_osum_at_2 e)
  (rc_maxshift e + rc_n e + 1)%Z.
(** snarks/range_check.rs:694-702 summand 3 of [h_osum] *)
Definition rc_osum_at_3 (e : rc_s5) (i : Z) : F := (rc_alpha e * vidx (rc_s_vec e) (minus_i64 i
  1)%Z) * (rc_beta e * range_index 1%Z (rc_range e) (minus_i64 i 1)%Z + vidx (rc_pk_t_vec e)
  (minus_i64 i 1)%Z).
Definition rc_osum_3 (e : rc_s5) : F := eval_vector_expression (rc_omega e) (rc_osum_at_3 e)
  (rc_maxshift e + rc_n e + 1)%Z.
(** snarks/range_check.rs:703-711 summand 4 of [h_osum] *)
Definition rc_osum_at_4 (e : rc_s5) (i : Z) : F := (rc_c e * vidx (rc_m_vec e) (minus_i64 i 1)%Z)
  * (range_index 1%Z (rc_range e) (minus_i64 i 1)%Z).
Definition rc_osum_4 (e : rc_s5) : F := eval_vector_expression (rc_omega e) (rc_osum_at_4 e)
  (rc_maxshift e + rc_n e + 1)%Z.
(** snarks/range_check.rs:712-720 summand 5 of [h_osum] *)
Definition rc_osum_at_5 (e : rc_s5) (i : Z) : F := (rc_c_1 e * vidx (rc_r_vec e) (minus_i64 i 1)%Z)
  * (range_index 1%Z (rc_nsize e) (minus_i64 i 1)%Z).
Definition rc_osum_5 (e : rc_s5) : F := eval_vector_expression (rc_omega e) (rc_osum_at_5 e)
  (rc_maxshift e + rc_n e + 1)%Z.
(** snarks/range_check.rs:721-729 summand 6 of [h_osum] *)
Definition rc_osum_at_6 (e : rc_s5) (i : Z) : F := (rc_c_2 e * vidx (rc_s_vec e) (minus_i64 i 1)%Z)
  * (range_index 1%Z (rc_range e) (minus_i64 i 1)%Z).
Definition rc_osum_6 (e : rc_s5) : F := eval_vector_expression (rc_omega e) (rc_osum_at_6 e)
  (rc_maxshift e + rc_n e + 1)%Z.
(** snarks/range_check.rs:730-738 summand 7 of [h_osum] *)
Definition rc_osum_at_7 (e : rc_s5) (i : Z) : F := (rc_c_2 e * range_index 1%Z (rc_n e) (minus_i64 i
  1)%Z) * (vidx (rc_r_vec_tilde e) (minus_i64 i 1)%Z - vidx (rc_r_vec_tilde e) (minus_i64 i 2)%Z).
Definition rc_osum_7 (e : rc_s5) : F := eval_vector_expression (rc_omega e) (rc_osum_at_7 e)
  (rc_maxshift e + rc_n e + 1)%Z.
(** snarks/range_check.rs:739-747 summand 8 of [h_osum] *)
Definition rc_osum_at_8 (e : rc_s5) (i : Z) : F := (power (rc_alpha e) 3%Z * delta i (rc_n e))
  * (vidx (rc_r_vec_tilde e) (minus_i64 i 1)%Z).
Definition rc_osum_8 (e : rc_s5) : F := eval_vector_expression (rc_omega e) (rc_osum_at_8 e)
  (rc_maxshift e + rc_n e + 1)%Z.
(** snarks/range_check.rs:748-756 summand 9 of [h_osum] *)
Definition rc_osum_at_9 (e : rc_s5) (i : Z) : F := (- range_index 1%Z (rc_maxshift e + 1)%Z
  (minus_i64 i (rc_n e + 1))%Z) * (vidx (rc_t_vec_1 e) (minus_i64 i (rc_n e))%Z).
Definition rc_osum_9 (e : rc_s5) : F := eval_vector_expression (rc_omega e) (rc_osum_at_9 e)
  (rc_maxshift e + rc_n e + 1)%Z.
(** lines 675-756 [h_osum] *)
Definition rc_h_osum (e : rc_s5) : F := 0 + rc_osum_1 e + rc_osum_2 e + rc_osum_3 e + rc_osum_4 e + rc_osum_5 e + rc_osum_6 e + rc_osum_7 e + rc_osum_8 e + rc_osum_9 e.
(** snarks/range_check.rs:757 the two sides of the assertion *)
Definition rc_assert_10_l (e : rc_s5) : F := rc_h_osum e.
Definition rc_assert_10_r (e : rc_s5) : F := 0.
Definition rc_check_10 (e : rc_s5) : outcome error unit := assert_ (feqb (rc_assert_10_l e) (rc_assert_10_r e)).
(** snarks/range_check.rs:758-762 check "sum of hadamards not zero" *)
Definition rc_check_11 (e : rc_s5) : outcome error unit := check_vector_eq_o (rc_sum_vec_9 e)
  (repeat 0 (Z.to_nat (rc_n e + 1)%Z)).
(** snarks/range_check.rs:763 [c_10] *)
Definition rc_c_10 (e : rc_s5) : F := power (rc_alpha e) 2%Z + rc_beta e.
(** snarks/range_check.rs:764 [c_11] *)
Definition rc_c_11 (e : rc_s5) : F := rc_alpha e * (- rc_alpha e + rc_beta e).
(** snarks/range_check.rs:765-787 [h_vec], entry i (from 1) *)
Definition rc_h_vec_at (e : rc_s5) (i : Z) : F := rc_alpha e * vidx (rc_v_vec_17 e) (minus_i64 (i
  - rc_maxshift e - rc_n e) (1 - rc_shiftlength_9 e))%Z + rc_c e * vidx (rc_v_vec_22 e)
  (minus_i64 (i - rc_maxshift e - rc_n e) (1 - rc_shiftlength_11 e))%Z + rc_c_10 e
  * vidx (rc_v_vec_20 e) (minus_i64 (i - rc_maxshift e - rc_n e) (1 - rc_shiftlength_8 e))%Z +
  rc_c_11 e * vidx (rc_v_vec_21 e) (minus_i64 (i - rc_maxshift e - rc_n e) (1
  - rc_shiftlength_10 e))%Z + rc_c_4 e * vidx (rc_v_vec_25 e) (minus_i64 (i - rc_maxshift e
  - rc_n e) (2 - rc_nsize e))%Z + rc_c_6 e * vidx (rc_v_vec_23 e) (minus_i64 (i - rc_maxshift e
  - rc_n e) (2 - Z.max (rc_nsize e) (rc_range e)))%Z + rc_c_7 e * vidx (rc_v_vec_23 e) (minus_i64 (i
  - rc_maxshift e - rc_n e) (3 - Z.max (rc_nsize e) (rc_range e)))%Z + rc_c_8 e
  * vidx (rc_r_vec_tilde e) (minus_i64 (i - rc_maxshift e - rc_n e) (2 - rc_n e))%Z + rc_c_9 e
  * vidx (rc_v_vec_24 e) (minus_i64 (i - rc_maxshift e - rc_n e) 0)%Z + vidx (rc_v_vec_15 e)
  (minus_i64 (i - rc_maxshift e - rc_n e) (1 - rc_shiftlength_7 e))%Z.
Definition rc_h_vec (e : rc_s5) : list F := expression_vector (rc_h_vec_at e) (2 * rc_maxshift e + 2
  * rc_n e + 1)%Z.
(** snarks/range_check.rs:788 check "h is not expected" *)
Definition rc_check_12 (e : rc_s5) : outcome error unit := check_vector_eq_o (rc_h_vec e)
  (rc_hcheck_vec_9 e).
(** snarks/range_check.rs:789-811 [h_vec_1], entry i (from 1) *)
Definition rc_h_vec_1_at (e : rc_s5) (i : Z) : F := rc_alpha e * vidx (rc_v_vec_17 e) (minus_i64 (i
  - rc_maxshift e - rc_n e) (1 - rc_shiftlength_9 e))%Z + rc_c e * vidx (rc_v_vec_22 e)
  (minus_i64 (i - rc_maxshift e - rc_n e) (1 - rc_shiftlength_11 e))%Z + rc_c_10 e
  * vidx (rc_v_vec_20 e) (minus_i64 (i - rc_maxshift e - rc_n e) (1 - rc_shiftlength_8 e))%Z +
  rc_c_11 e * vidx (rc_v_vec_21 e) (minus_i64 (i - rc_maxshift e - rc_n e) (1
  - rc_shiftlength_10 e))%Z + rc_c_4 e * vidx (rc_v_vec_25 e) (minus_i64 (i - rc_maxshift e
  - rc_n e) (2 - rc_nsize e))%Z + rc_c_6 e * vidx (rc_v_vec_23 e) (minus_i64 (i - rc_maxshift e
  - rc_n e) (2 - Z.max (rc_nsize e) (rc_range e)))%Z + rc_c_7 e * vidx (rc_v_vec_23 e) (minus_i64 (i
  - rc_maxshift e - rc_n e) (3 - Z.max (rc_nsize e) (rc_range e)))%Z + rc_c_8 e
  * vidx (rc_r_vec_tilde e) (minus_i64 (i - rc_maxshift e - rc_n e) (2 - rc_n e))%Z + rc_c_9 e
  * vidx (rc_v_vec_24 e) (minus_i64 (i - rc_maxshift e - rc_n e) 0)%Z + vidx (rc_v_vec_15 e)
  (minus_i64 (i - rc_maxshift e - rc_n e) (1 - rc_shiftlength_7 e))%Z.
Definition rc_h_vec_1 (e : rc_s5) : list F := expression_vector (rc_h_vec_1_at e) (rc_maxshift e +
  rc_n e)%Z.
(** snarks/range_check.rs:812-826 [h_vec_2], entry i (from 1) *)
Definition rc_h_vec_2_at (e : rc_s5) (i : Z) : F := rc_alpha e * vidx (rc_v_vec_17 e) (minus_i64 (i
  + 1) (1 - rc_shiftlength_9 e))%Z + rc_c e * vidx (rc_v_vec_22 e) (minus_i64 (i + 1) (1
  - rc_shiftlength_11 e))%Z + rc_c_10 e * vidx (rc_v_vec_20 e) (minus_i64 (i + 1) (1
  - rc_shiftlength_8 e))%Z + rc_c_11 e * vidx (rc_v_vec_21 e) (minus_i64 (i + 1) (1
  - rc_shiftlength_10 e))%Z + rc_c_4 e * vidx (rc_v_vec_25 e) (minus_i64 (i + 1) (2 - rc_nsize e))%Z
  + rc_c_6 e * vidx (rc_v_vec_23 e) (minus_i64 (i + 1) (2 - Z.max (rc_nsize e) (rc_range e)))%Z +
  rc_c_7 e * vidx (rc_v_vec_23 e) (minus_i64 (i + 1) (3 - Z.max (rc_nsize e) (rc_range e)))%Z +
  rc_c_8 e * vidx (rc_r_vec_tilde e) (minus_i64 (i + 1) (2 - rc_n e))%Z + rc_c_9 e
  * vidx (rc_v_vec_24 e) (minus_i64 (i + 1) 0)%Z + vidx (rc_v_vec_15 e) (minus_i64 (i + 1) (1
  - rc_shiftlength_7 e))%Z.
Definition rc_h_vec_2 (e : rc_s5) : list F := expression_vector (rc_h_vec_2_at e) (rc_maxshift e +
  rc_n e)%Z.
(** snarks/range_check.rs:827-831 check "h != h1 || 0 || h2" *)
Definition rc_check_13 (e : rc_s5) : outcome error unit := check_vector_eq_o (rc_h_vec e)
  (vector_concat [(rc_h_vec_1 e); [0]; (rc_h_vec_2 e)]).
(** snarks/range_check.rs:832-844 the two sides of the assertion *)
Definition rc_assert_14_l (e : rc_s5) : F := rc_alpha e * vidx (rc_v_vec_17 e) (minus_i64 1 (1
  - rc_shiftlength_9 e))%Z + rc_c e * vidx (rc_v_vec_22 e) (minus_i64 1 (1 - rc_shiftlength_11 e))%Z
  + rc_c_10 e * vidx (rc_v_vec_20 e) (minus_i64 1 (1 - rc_shiftlength_8 e))%Z + rc_c_11 e
  * vidx (rc_v_vec_21 e) (minus_i64 1 (1 - rc_shiftlength_10 e))%Z + rc_c_4 e * vidx (rc_v_vec_25 e)
  (minus_i64 1 (2 - rc_nsize e))%Z + rc_c_6 e * vidx (rc_v_vec_23 e) (minus_i64 1 (2 - Z.max
  (rc_nsize e) (rc_range e)))%Z + rc_c_7 e * vidx (rc_v_vec_23 e) (minus_i64 1 (3 - Z.max
  (rc_nsize e) (rc_range e)))%Z + rc_c_8 e * vidx (rc_r_vec_tilde e) (minus_i64 1 (2 - rc_n e))%Z +
  rc_c_9 e * vidx (rc_v_vec_24 e) (minus_i64 1 0)%Z + vidx (rc_v_vec_15 e) (minus_i64 1 (1
  - rc_shiftlength_7 e))%Z.
Definition rc_assert_14_r (e : rc_s5) : F := 0.
Definition rc_check_14 (e : rc_s5) : outcome error unit := assert_ (feqb (rc_assert_14_l e) (rc_assert_14_r e)).

(** *** The evaluation round: lines 860-1171 of [prove] and the same bindings of [verify].
    [rc_ctx] holds what both sides know after the challenge z. *)
Record rc_ctx := mkRCCtx {
  rc_ctx_pub :> rc_pub; rc_q_beta : F; rc_q_alpha : F; rc_q_omega : F; rc_q_z : F; rc_q_y : F; rc_q_y_1 : F; rc_q_y_2 : F }.
(** snarks/range_check.rs:860 [y] *)
Definition rc_y (e : rc_s5) (z : F) : F := eval_vector_expression (rc_omega e / z) (fun i =>
  vidx (rc_r_vec e) i) (rc_n e + 1)%Z.
(** snarks/range_check.rs:861 [y_1] *)
Definition rc_y_1 (e : rc_s5) (z : F) : F := eval_vector_expression (rc_omega e / z) (fun i =>
  vidx (rc_s_vec e) i) (rc_n e + 1)%Z.
(** snarks/range_check.rs:862 [y_2] *)
Definition rc_y_2 (e : rc_s5) (z : F) : F := eval_vector_expression (rc_omega e / z) (fun i =>
  vidx (rc_m_vec e) i) (rc_n e + 1)%Z.
(** snarks/range_check.rs:1144 [c_14] *)
Definition rc_p_c_14 (e : rc_ctx) : F := power 1 2%Z * rc_q_y e.
(** snarks/range_check.rs:1145-1156 [c_15] *)
Definition rc_p_c_15 (e : rc_ctx) : F := power 1 2%Z * (rc_q_z e * (1 - power (rc_q_z e)
  (rc_nsize e)) * (1 - power (rc_q_omega e / rc_q_z e) (rc_nsize e)) + (rc_q_omega e - 1 * rc_q_z e)
  * (power (rc_q_alpha e) 2%Z * (rc_q_y e * (1 - power (rc_q_z e) (rc_nsize e)) - rc_q_y_1 e * (1
  - power (rc_q_z e) (rc_range e))) + rc_q_alpha e * (rc_q_beta e * rc_q_y_1 e * (1
  - power (rc_q_z e) (rc_range e)) - rc_q_y_2 e * (1 - power (rc_q_z e) (rc_range e))) + rc_q_beta e
  * rc_q_y e * (1 - power (rc_q_z e) (rc_nsize e)))) / ((rc_q_omega e - 1 * rc_q_z e) * (1
  - rc_q_z e)).
(** snarks/range_check.rs:1157 [c_19] *)
Definition rc_p_c_19 (e : rc_ctx) : F := rc_q_alpha e * power 1 2%Z * rc_q_y_1 e.
(** snarks/range_check.rs:1158-1165 [c_25] *)
Definition rc_p_c_25 (e : rc_ctx) : F := power (rc_q_alpha e) 2%Z * 1 * (rc_q_alpha e
  * power (rc_q_omega e / rc_q_z e) (Z.max (rc_nsize e) (rc_range e) - 1)%Z * (rc_q_omega e - 1
  * rc_q_z e) + rc_q_z e * (1 - rc_q_z e) * (1 - power (rc_q_omega e / rc_q_z e) (Z.max (rc_nsize e)
  (rc_range e)))) / (rc_q_omega e - 1 * rc_q_z e).
(** snarks/range_check.rs:1166-1169 [c_28] *)
Definition rc_p_c_28 (e : rc_ctx) : F := - power (rc_q_z e) (rc_n e - 1)%Z * power (rc_q_omega e
  / rc_q_z e) (Z.max (rc_nsize e) (rc_range e)).
(** snarks/range_check.rs:1170 [c_29] *)
Definition rc_p_c_29 (e : rc_ctx) : F := - power (rc_q_z e) (- rc_cap_d e)%Z.
(** snarks/range_check.rs:1171 [c_30] *)
Definition rc_p_c_30 (e : rc_ctx) : F := - rc_q_z e.

(** the same bindings in [verify] *)
(** snarks/range_check.rs:1351 [c_14] *)
Definition rc_v_c_14 (e : rc_ctx) : F := power 1 2%Z * rc_q_y e.
(** snarks/range_check.rs:1352-1363 [c_15] *)
Definition rc_v_c_15 (e : rc_ctx) : F := power 1 2%Z * (rc_q_z e * (1 - power (rc_q_z e)
  (rc_nsize e)) * (1 - power (rc_q_omega e / rc_q_z e) (rc_nsize e)) + (rc_q_omega e - 1 * rc_q_z e)
  * (power (rc_q_alpha e) 2%Z * (rc_q_y e * (1 - power (rc_q_z e) (rc_nsize e)) - rc_q_y_1 e * (1
  - power (rc_q_z e) (rc_range e))) + rc_q_alpha e * (rc_q_beta e * rc_q_y_1 e * (1
  - power (rc_q_z e) (rc_range e)) - rc_q_y_2 e * (1 - power (rc_q_z e) (rc_range e))) + rc_q_beta e
  * rc_q_y e * (1 - power (rc_q_z e) (rc_nsize e)))) / ((rc_q_omega e - 1 * rc_q_z e) * (1
  - rc_q_z e)).
(** snarks/range_check.rs:1364 [c_19] *)
Definition rc_v_c_19 (e : rc_ctx) : F := rc_q_alpha e * power 1 2%Z * rc_q_y_1 e.
(** snarks/range_check.rs:1365-1372 [c_25] *)
Definition rc_v_c_25 (e : rc_ctx) : F := power (rc_q_alpha e) 2%Z * 1 * (rc_q_alpha e
  * power (rc_q_omega e / rc_q_z e) (Z.max (rc_nsize e) (rc_range e) - 1)%Z * (rc_q_omega e - 1
  * rc_q_z e) + rc_q_z e * (1 - rc_q_z e) * (1 - power (rc_q_omega e / rc_q_z e) (Z.max (rc_nsize e)
  (rc_range e)))) / (rc_q_omega e - 1 * rc_q_z e).
(** snarks/range_check.rs:1373-1376 [c_28] *)
Definition rc_v_c_28 (e : rc_ctx) : F := - power (rc_q_z e) (rc_n e - 1)%Z * power (rc_q_omega e
  / rc_q_z e) (Z.max (rc_nsize e) (rc_range e)).
(** snarks/range_check.rs:1377 [c_29] *)
Definition rc_v_c_29 (e : rc_ctx) : F := - power (rc_q_z e) (- rc_cap_d e)%Z.
(** snarks/range_check.rs:1378 [c_30] *)
Definition rc_v_c_30 (e : rc_ctx) : F := - rc_q_z e.

(** *** Assertions of the prover on the evaluations (lines 863-1143) *)
(** snarks/range_check.rs:863 [naive_vec_g] *)
Definition rc_naive_vec_g_0 (e : rc_s5) (q : rc_ctx) : list F := repeat 0 (Z.to_nat (rc_cap_d e)).
(** snarks/range_check.rs:864-872 the two sides of the assertion *)
Definition rc_assert_15_l (e : rc_s5) (q : rc_ctx) : F := 1 * rc_q_y q.
Definition rc_assert_15_r (e : rc_s5) (q : rc_ctx) : F := eval_vector_expression (rc_omega e
  / rc_q_z q) (fun i => vidx (rc_r_vec e) (minus_i64 i 1)%Z) (rc_maxshift e + rc_n e + 1)%Z.
Definition rc_check_15 (e : rc_s5) (q : rc_ctx) : outcome error unit := assert_ (feqb (rc_assert_15_l e q) (rc_assert_15_r e q)).
(** snarks/range_check.rs:873 [c_12] *)
Definition rc_c_12 (e : rc_s5) (q : rc_ctx) : F := 1 * rc_q_y q.
(** snarks/range_check.rs:874 [c_13] *)
Definition rc_c_13 (e : rc_s5) (q : rc_ctx) : F := rc_beta e * 1 * rc_q_y q.
(** snarks/range_check.rs:875-880 [naive_vec_g], addition 1: entry i *)
Definition rc_naive_vec_g_add_1 (e : rc_s5) (q : rc_ctx) (i : Z) : F := rc_c_12 e q
  * vidx (rc_w_vec e) (minus_i64 i 1)%Z + rc_c_13 e q * range_index 1%Z (rc_nsize e) (minus_i64 i
  1)%Z.
Definition rc_naive_vec_g_1 (e : rc_s5) (q : rc_ctx) : list F := add_expression_vector_to_vector
  (rc_naive_vec_g_0 e q) (rc_naive_vec_g_add_1 e q).
(** snarks/range_check.rs:881-889 the two sides of the assertion *)
Definition rc_assert_16_l (e : rc_s5) (q : rc_ctx) : F := 1 * rc_q_z q * (1 - power (rc_omega e
  / rc_q_z q) (rc_nsize e)) / (rc_omega e - 1 * rc_q_z q).
Definition rc_assert_16_r (e : rc_s5) (q : rc_ctx) : F := eval_vector_expression (rc_omega e
  / rc_q_z q) (fun i => - range_index 1%Z (rc_nsize e) (minus_i64 i 1)%Z) (rc_maxshift e + rc_n e +
  1)%Z.
Definition rc_check_16 (e : rc_s5) (q : rc_ctx) : outcome error unit := assert_ (feqb (rc_assert_16_l e q) (rc_assert_16_r e q)).
(** snarks/range_check.rs:890-893 [c_16] *)
Definition rc_c_16 (e : rc_s5) (q : rc_ctx) : F := 1 * rc_q_z q * (1 - power (rc_omega e / rc_q_z q)
  (rc_nsize e)) / (rc_omega e - 1 * rc_q_z q).
(** snarks/range_check.rs:894-898 [naive_vec_g], addition 2: entry i *)
Definition rc_naive_vec_g_add_2 (e : rc_s5) (q : rc_ctx) (i : Z) : F := rc_c_16 e q
  * range_index 1%Z (rc_nsize e) (minus_i64 i 1)%Z.
Definition rc_naive_vec_g_2 (e : rc_s5) (q : rc_ctx) : list F := add_expression_vector_to_vector
  (rc_naive_vec_g_1 e q) (rc_naive_vec_g_add_2 e q).
(** snarks/range_check.rs:899-907 the two sides of the assertion *)
Definition rc_assert_17_l (e : rc_s5) (q : rc_ctx) : F := rc_alpha e * 1 * rc_q_y_1 q.
Definition rc_assert_17_r (e : rc_s5) (q : rc_ctx) : F := eval_vector_expression (rc_omega e
  / rc_q_z q) (fun i => rc_alpha e * vidx (rc_s_vec e) (minus_i64 i 1)%Z) (rc_maxshift e + rc_n e +
  1)%Z.
Definition rc_check_17 (e : rc_s5) (q : rc_ctx) : outcome error unit := assert_ (feqb (rc_assert_17_l e q) (rc_assert_17_r e q)).
(** snarks/range_check.rs:908 [c_17] *)
Definition rc_c_17 (e : rc_s5) (q : rc_ctx) : F := rc_alpha e * 1 * rc_q_y_1 q.
(** snarks/range_check.rs:909 [c_18] *)
Definition rc_c_18 (e : rc_s5) (q : rc_ctx) : F := rc_alpha e * rc_beta e * 1 * rc_q_y_1 q.
(** snarks/range_check.rs:910-915 [naive_vec_g], addition 3: entry i *)
Definition rc_naive_vec_g_add_3 (e : rc_s5) (q : rc_ctx) (i : Z) : F := rc_c_17 e q
  * vidx (rc_pk_t_vec e) (minus_i64 i 1)%Z + rc_c_18 e q * range_index 1%Z (rc_range e) (minus_i64 i
  1)%Z.
Definition rc_naive_vec_g_3 (e : rc_s5) (q : rc_ctx) : list F := add_expression_vector_to_vector
  (rc_naive_vec_g_2 e q) (rc_naive_vec_g_add_3 e q).
(** snarks/range_check.rs:916-924 the two sides of the assertion *)
Definition rc_assert_18_l (e : rc_s5) (q : rc_ctx) : F := - rc_alpha e * 1 * rc_q_y_2 q.
Definition rc_assert_18_r (e : rc_s5) (q : rc_ctx) : F := eval_vector_expression (rc_omega e
  / rc_q_z q) (fun i => rc_c e * vidx (rc_m_vec e) (minus_i64 i 1)%Z) (rc_maxshift e + rc_n e +
  1)%Z.
Definition rc_check_18 (e : rc_s5) (q : rc_ctx) : outcome error unit := assert_ (feqb (rc_assert_18_l e q) (rc_assert_18_r e q)).
(** snarks/range_check.rs:925 [c_20] *)
Definition rc_c_20 (e : rc_s5) (q : rc_ctx) : F := - rc_alpha e * 1 * rc_q_y_2 q.
(** snarks/range_check.rs:926-930 [naive_vec_g], addition 4: entry i *)
Definition rc_naive_vec_g_add_4 (e : rc_s5) (q : rc_ctx) (i : Z) : F := rc_c_20 e q
  * range_index 1%Z (rc_range e) (minus_i64 i 1)%Z.
Definition rc_naive_vec_g_4 (e : rc_s5) (q : rc_ctx) : list F := add_expression_vector_to_vector
  (rc_naive_vec_g_3 e q) (rc_naive_vec_g_add_4 e q).
(** snarks/range_check.rs:931-939 the two sides of the assertion *)
Definition rc_assert_19_l (e : rc_s5) (q : rc_ctx) : F := power (rc_alpha e) 2%Z * 1 * rc_q_y q.
Definition rc_assert_19_r (e : rc_s5) (q : rc_ctx) : F := eval_vector_expression (rc_omega e
  / rc_q_z q) (fun i => rc_c_1 e * vidx (rc_r_vec e) (minus_i64 i 1)%Z) (rc_maxshift e + rc_n e +
  1)%Z.
Definition rc_check_19 (e : rc_s5) (q : rc_ctx) : outcome error unit := assert_ (feqb (rc_assert_19_l e q) (rc_assert_19_r e q)).
(** snarks/range_check.rs:940 [c_21] *)
Definition rc_c_21 (e : rc_s5) (q : rc_ctx) : F := power (rc_alpha e) 2%Z * 1 * rc_q_y q.
(** snarks/range_check.rs:941-945 [naive_vec_g], addition 5: entry i *)
Definition rc_naive_vec_g_add_5 (e : rc_s5) (q : rc_ctx) (i : Z) : F := rc_c_21 e q
  * range_index 1%Z (rc_nsize e) (minus_i64 i 1)%Z.
Definition rc_naive_vec_g_5 (e : rc_s5) (q : rc_ctx) : list F := add_expression_vector_to_vector
  (rc_naive_vec_g_4 e q) (rc_naive_vec_g_add_5 e q).
(** snarks/range_check.rs:946-954 the two sides of the assertion *)
Definition rc_assert_20_l (e : rc_s5) (q : rc_ctx) : F := - power (rc_alpha e) 2%Z * 1 * rc_q_y_1 q.
Definition rc_assert_20_r (e : rc_s5) (q : rc_ctx) : F := eval_vector_expression (rc_omega e
  / rc_q_z q) (fun i => rc_c_2 e * vidx (rc_s_vec e) (minus_i64 i 1)%Z) (rc_maxshift e + rc_n e +
  1)%Z.
Definition rc_check_20 (e : rc_s5) (q : rc_ctx) : outcome error unit := assert_ (feqb (rc_assert_20_l e q) (rc_assert_20_r e q)).
(** snarks/range_check.rs:955 [c_22] *)
Definition rc_c_22 (e : rc_s5) (q : rc_ctx) : F := - power (rc_alpha e) 2%Z * 1 * rc_q_y_1 q.
(** snarks/range_check.rs:956-960 [naive_vec_g], addition 6: entry i *)
Definition rc_naive_vec_g_add_6 (e : rc_s5) (q : rc_ctx) (i : Z) : F := rc_c_22 e q
  * range_index 1%Z (rc_range e) (minus_i64 i 1)%Z.
Definition rc_naive_vec_g_6 (e : rc_s5) (q : rc_ctx) : list F := add_expression_vector_to_vector
  (rc_naive_vec_g_5 e q) (rc_naive_vec_g_add_6 e q).
(** snarks/range_check.rs:961-970 the two sides of the assertion *)
Definition rc_assert_21_l (e : rc_s5) (q : rc_ctx) : F := power (rc_alpha e) 2%Z * 1 * rc_q_z q * (1
  - power (rc_omega e / rc_q_z q) (Z.max (rc_nsize e) (rc_range e))) / (rc_omega e - 1 * rc_q_z q).
Definition rc_assert_21_r (e : rc_s5) (q : rc_ctx) : F := eval_vector_expression (rc_omega e
  / rc_q_z q) (fun i => rc_c_2 e * range_index 1%Z (rc_n e) (minus_i64 i 1)%Z) (rc_maxshift e +
  rc_n e + 1)%Z.
Definition rc_check_21 (e : rc_s5) (q : rc_ctx) : outcome error unit := assert_ (feqb (rc_assert_21_l e q) (rc_assert_21_r e q)).
(** snarks/range_check.rs:971-975 [c_23] *)
Definition rc_c_23 (e : rc_s5) (q : rc_ctx) : F := power (rc_alpha e) 2%Z * 1 * rc_q_z q * (1
  - power (rc_omega e / rc_q_z q) (Z.max (rc_nsize e) (rc_range e))) / (rc_omega e - 1 * rc_q_z q).
(** snarks/range_check.rs:976-980 [c_24] *)
Definition rc_c_24 (e : rc_s5) (q : rc_ctx) : F := power (rc_alpha e) 2%Z * 1 * rc_q_z q * (1
  - power (rc_omega e / rc_q_z q) (Z.max (rc_nsize e) (rc_range e))) / (- rc_omega e + 1
  * rc_q_z q).
(** snarks/range_check.rs:981-986 [naive_vec_g], addition 7: entry i *)
Definition rc_naive_vec_g_add_7 (e : rc_s5) (q : rc_ctx) (i : Z) : F := rc_c_23 e q
  * vidx (rc_r_vec_tilde e) (minus_i64 i 1)%Z + rc_c_24 e q * vidx (rc_r_vec_tilde e) (minus_i64 i
  2)%Z.
Definition rc_naive_vec_g_7 (e : rc_s5) (q : rc_ctx) : list F := add_expression_vector_to_vector
  (rc_naive_vec_g_6 e q) (rc_naive_vec_g_add_7 e q).
(** snarks/range_check.rs:987-995 the two sides of the assertion *)
Definition rc_assert_22_l (e : rc_s5) (q : rc_ctx) : F := power (rc_alpha e) 3%Z * power (rc_omega e
  / rc_q_z q) (Z.max (rc_nsize e) (rc_range e) - 1)%Z.
Definition rc_assert_22_r (e : rc_s5) (q : rc_ctx) : F := eval_vector_expression (rc_omega e
  / rc_q_z q) (fun i => power (rc_alpha e) 3%Z * delta i (rc_n e)) (rc_maxshift e + rc_n e + 1)%Z.
Definition rc_check_22 (e : rc_s5) (q : rc_ctx) : outcome error unit := assert_ (feqb (rc_assert_22_l e q) (rc_assert_22_r e q)).
(** snarks/range_check.rs:996-999 [c_26] *)
Definition rc_c_26 (e : rc_s5) (q : rc_ctx) : F := power (rc_alpha e) 3%Z * power (rc_omega e
  / rc_q_z q) (Z.max (rc_nsize e) (rc_range e) - 1)%Z.
(** snarks/range_check.rs:1000-1004 [naive_vec_g], addition 8: entry i *)
Definition rc_naive_vec_g_add_8 (e : rc_s5) (q : rc_ctx) (i : Z) : F := rc_c_26 e q
  * vidx (rc_r_vec_tilde e) (minus_i64 i 1)%Z.
Definition rc_naive_vec_g_8 (e : rc_s5) (q : rc_ctx) : list F := add_expression_vector_to_vector
  (rc_naive_vec_g_7 e q) (rc_naive_vec_g_add_8 e q).
(** snarks/range_check.rs:1005-1013 the two sides of the assertion *)
Definition rc_assert_23_l (e : rc_s5) (q : rc_ctx) : F := - power (rc_omega e / rc_q_z q) (Z.max
  (rc_nsize e) (rc_range e)).
Definition rc_assert_23_r (e : rc_s5) (q : rc_ctx) : F := eval_vector_expression (rc_omega e
  / rc_q_z q) (fun i => - range_index 1%Z (rc_maxshift e + 1)%Z (minus_i64 i (rc_n e + 1))%Z)
  (rc_maxshift e + rc_n e + 1)%Z.
Definition rc_check_23 (e : rc_s5) (q : rc_ctx) : outcome error unit := assert_ (feqb (rc_assert_23_l e q) (rc_assert_23_r e q)).
(** snarks/range_check.rs:1014 [c_27] *)
Definition rc_c_27 (e : rc_s5) (q : rc_ctx) : F := - power (rc_omega e / rc_q_z q) (Z.max
  (rc_nsize e) (rc_range e)).
(** snarks/range_check.rs:1015-1019 [naive_vec_g], addition 9: entry i *)
Definition rc_naive_vec_g_add_9 (e : rc_s5) (q : rc_ctx) (i : Z) : F := rc_c_27 e q
  * vidx (rc_t_vec_1 e) (minus_i64 i (rc_n e))%Z.
Definition rc_naive_vec_g_9 (e : rc_s5) (q : rc_ctx) : list F := add_expression_vector_to_vector
  (rc_naive_vec_g_8 e q) (rc_naive_vec_g_add_9 e q).
(** snarks/range_check.rs:1020-1027 [naive_vec_g], addition 10: entry i *)
Definition rc_naive_vec_g_add_10 (e : rc_s5) (q : rc_ctx) (i : Z) : F := (vidx (rc_h_vec_1 e)
  (minus_i64 i (rc_cap_d e - rc_maxshift e - rc_n e + 1))%Z) * (- power (rc_q_z q)
  (- rc_cap_d e)%Z).
Definition rc_naive_vec_g_10 (e : rc_s5) (q : rc_ctx) : list F := add_expression_vector_to_vector
  (rc_naive_vec_g_9 e q) (rc_naive_vec_g_add_10 e q).
(** snarks/range_check.rs:1028 [naive_vec_g], addition 11: entry i *)
Definition rc_naive_vec_g_add_11 (e : rc_s5) (q : rc_ctx) (i : Z) : F := (vidx (rc_h_vec_2 e) i)
  * (- rc_q_z q).
Definition rc_naive_vec_g_11 (e : rc_s5) (q : rc_ctx) : list F := add_expression_vector_to_vector
  (rc_naive_vec_g_10 e q) (rc_naive_vec_g_add_11 e q).
(** snarks/range_check.rs:1029-1143 the two sides of the assertion *)
Definition rc_assert_24_l (e : rc_s5) (q : rc_ctx) : F := linear_combination 0
  [((eval_vector_expression (rc_omega e / rc_q_z q) (fun i => vidx (rc_r_vec e) (minus_i64 i 1)%Z)
  (rc_maxshift e + rc_n e + 1)%Z), (eval_vector_expression (rc_q_z q) (fun i => rc_beta e
  * range_index 1%Z (rc_nsize e) (minus_i64 i 1)%Z + vidx (rc_w_vec e) (minus_i64 i 1)%Z)
  (rc_maxshift e + rc_n e + 1)%Z)); ((eval_vector_expression (rc_omega e / rc_q_z q) (fun i =>
  - range_index 1%Z (rc_nsize e) (minus_i64 i 1)%Z) (rc_maxshift e + rc_n e + 1)%Z),
  (eval_vector_expression (rc_q_z q) (fun i => range_index 1%Z (rc_nsize e) (minus_i64 i 1)%Z)
  (rc_maxshift e + rc_n e + 1)%Z)); ((eval_vector_expression (rc_omega e / rc_q_z q) (fun i =>
  rc_alpha e * vidx (rc_s_vec e) (minus_i64 i 1)%Z) (rc_maxshift e + rc_n e + 1)%Z),
  (eval_vector_expression (rc_q_z q) (fun i => rc_beta e * range_index 1%Z (rc_range e) (minus_i64 i
  1)%Z + vidx (rc_pk_t_vec e) (minus_i64 i 1)%Z) (rc_maxshift e + rc_n e + 1)%Z));
  ((eval_vector_expression (rc_omega e / rc_q_z q) (fun i => rc_c e * vidx (rc_m_vec e) (minus_i64 i
  1)%Z) (rc_maxshift e + rc_n e + 1)%Z), (eval_vector_expression (rc_q_z q) (fun i =>
  range_index 1%Z (rc_range e) (minus_i64 i 1)%Z) (rc_maxshift e + rc_n e + 1)%Z));
  ((eval_vector_expression (rc_omega e / rc_q_z q) (fun i => rc_c_1 e * vidx (rc_r_vec e)
  (minus_i64 i 1)%Z) (rc_maxshift e + rc_n e + 1)%Z), (eval_vector_expression (rc_q_z q) (fun i =>
  range_index 1%Z (rc_nsize e) (minus_i64 i 1)%Z) (rc_maxshift e + rc_n e + 1)%Z));
  ((eval_vector_expression (rc_omega e / rc_q_z q) (fun i => rc_c_2 e * vidx (rc_s_vec e)
  (minus_i64 i 1)%Z) (rc_maxshift e + rc_n e + 1)%Z), (eval_vector_expression (rc_q_z q) (fun i =>
  range_index 1%Z (rc_range e) (minus_i64 i 1)%Z) (rc_maxshift e + rc_n e + 1)%Z));
  ((eval_vector_expression (rc_omega e / rc_q_z q) (fun i => rc_c_2 e * range_index 1%Z (rc_n e)
  (minus_i64 i 1)%Z) (rc_maxshift e + rc_n e + 1)%Z), (eval_vector_expression (rc_q_z q) (fun i =>
  vidx (rc_r_vec_tilde e) (minus_i64 i 1)%Z - vidx (rc_r_vec_tilde e) (minus_i64 i 2)%Z)
  (rc_maxshift e + rc_n e + 1)%Z)); ((eval_vector_expression (rc_omega e / rc_q_z q) (fun i =>
  power (rc_alpha e) 3%Z * delta i (rc_n e)) (rc_maxshift e + rc_n e + 1)%Z),
  (eval_vector_expression (rc_q_z q) (fun i => vidx (rc_r_vec_tilde e) (minus_i64 i 1)%Z)
  (rc_maxshift e + rc_n e + 1)%Z)); ((eval_vector_expression (rc_omega e / rc_q_z q) (fun i =>
  - range_index 1%Z (rc_maxshift e + 1)%Z (minus_i64 i (rc_n e + 1))%Z) (rc_maxshift e + rc_n e +
  1)%Z), (eval_vector_expression (rc_q_z q) (fun i => vidx (rc_t_vec_1 e) (minus_i64 i (rc_n e))%Z)
  (rc_maxshift e + rc_n e + 1)%Z))].
Definition rc_assert_24_r (e : rc_s5) (q : rc_ctx) : F := (eval_vector_as_poly (rc_h_vec e)
  (rc_q_z q)) * (power (rc_q_z q) (- rc_maxshift e - rc_n e)%Z).
Definition rc_check_24 (e : rc_s5) (q : rc_ctx) : outcome error unit := assert_ (feqb (rc_assert_24_l e q) (rc_assert_24_r e q)).
(** snarks/range_check.rs:1172-1192 [g_vec], entry i before the addition of line 1193 *)
Definition rc_g_at (e : rc_s5) (q : rc_ctx) (i : Z) : F := linear_combination 0 [((rc_p_c_14 q),
  (vidx (rc_w_vec e) i)); ((rc_p_c_19 q), (vidx (rc_pk_t_vec e) i)); ((rc_p_c_25 q),
  (vidx (rc_r_vec_tilde e) i)); ((rc_p_c_28 q), (vidx (rc_t_vec_1 e) i)); ((rc_p_c_29 q),
  (vidx (rc_h_vec_1 e) (- rc_cap_d e + i + rc_maxshift e + rc_n e)%Z)); ((rc_p_c_30 q),
  (vidx (rc_h_vec_2 e) i))].
Definition rc_g_vec (e : rc_s5) (q : rc_ctx) : outcome error (list F) := add_to_first_item
  (expression_vector (rc_g_at e q) (rc_cap_d e)) (rc_p_c_15 q).

(** the checks of lines 324-844, in order *)
Definition rc_checks_1 (e : rc_s5) : outcome error unit :=
  let! _ := rc_check_1 e in
  let! _ := rc_check_2 e in
  let! _ := rc_check_3 e in
  let! _ := rc_check_4 e in
  let! _ := rc_check_5 e in
  let! _ := rc_check_6 e in
  let! _ := rc_check_7 e in
  let! _ := rc_check_8 e in
  let! _ := rc_check_9 e in
  let! _ := rc_check_10 e in
  let! _ := rc_check_11 e in
  let! _ := rc_check_12 e in
  let! _ := rc_check_13 e in
  let! _ := rc_check_14 e in
  Ok tt.
(** divisors and assertions of lines 860-1143, in order; [power(z, -cap_d)] does not divide; lines 881,
    890, 961, 971 divide by omega - z, line 976 by z - omega *)
Definition rc_checks_2 (e : rc_s5) (q : rc_ctx) : outcome error unit :=
  let! _ := nonzero (rc_q_z q) in
  let! _ := rc_check_15 e q in
  let! _ := nonzero (rc_q_omega q - 1 * rc_q_z q) in
  let! _ := rc_check_16 e q in
  let! _ := rc_check_17 e q in
  let! _ := rc_check_18 e q in
  let! _ := rc_check_19 e q in
  let! _ := rc_check_20 e q in
  let! _ := rc_check_21 e q in
  let! _ := nonzero (- rc_q_omega q + 1 * rc_q_z q) in
  let! _ := rc_check_22 e q in
  let! _ := rc_check_23 e q in
  let! _ := rc_check_24 e q in
  Ok tt.
(** divisors of c_15, c_25 in evaluation order (lines 1145-1165, and in verify): the verifier
    divides omega by z first *)
Definition rc_divisors (q : rc_ctx) : outcome error unit :=
  let! _ := nonzero (rc_q_z q) in
  let! _ := nonzero ((rc_q_omega q - 1 * rc_q_z q) * (1 - rc_q_z q)) in
  nonzero (rc_q_omega q - 1 * rc_q_z q).
(** *** Keys, proofs, transcripts *)
(** lines 12-18 *)
Record rc_vk := mkRCVK { rc_vk_cm_t_vec : G1; rc_vk_kzg_vk : verifier_key G1 G2; rc_vk_size : rc_cs; rc_vk_degree_bound : nat }.
(** lines 4-10 *)
Record rc_pk := mkRCPK { rc_pk_verifier_key : rc_vk; rc_pk_powers : list G1; rc_pk_max_degree : nat; rc_pk_t : list F }.
(** lines 20-35 *)
Record rc_proof := mkRCProof {
  rc_cm_w_vec : G1; rc_cm_m_vec : G1; rc_cm_r_vec : G1; rc_cm_s_vec : G1; rc_cm_r_vec_tilde : G1;
  rc_cm_t_vec_1 : G1; rc_cm_h_vec_1 : G1; rc_cm_h_vec_2 : G1;
  rc_pf_y : F; rc_pf_y_1 : F; rc_pf_y_2 : F; rc_cap_w : G1; rc_cap_w_1 : G1 }.

Variable H : list (item F G1) -> F.
(** snarks/range_check.rs:168 challenge [beta] of prove *)
Definition rc_p_ch_beta (vk : rc_vk) (cm_w_vec cm_m_vec : G1) : F := H [IF 1; IG (rc_vk_cm_t_vec
  vk); IG cm_w_vec; IG cm_m_vec].
(** snarks/range_check.rs:205-213 challenge [beta_1] of prove *)
Definition rc_p_ch_beta_1 (vk : rc_vk) (cm_w_vec cm_m_vec cm_r_vec cm_s_vec : G1) : F := H [IF 1; IG
  (rc_vk_cm_t_vec vk); IG cm_w_vec; IG cm_m_vec; IG cm_r_vec; IG cm_s_vec].
(** snarks/range_check.rs:229-238 challenge [alpha] of prove *)
Definition rc_p_ch_alpha (vk : rc_vk) (cm_w_vec cm_m_vec cm_r_vec cm_s_vec cm_r_vec_tilde : G1) : F
  := H [IF 1; IG (rc_vk_cm_t_vec vk); IG cm_w_vec; IG cm_m_vec; IG cm_r_vec; IG cm_s_vec; IG
  cm_r_vec_tilde].
(** snarks/range_check.rs:268-278 challenge [omega] of prove *)
Definition rc_p_ch_omega (vk : rc_vk) (cm_w_vec cm_m_vec cm_r_vec cm_s_vec cm_r_vec_tilde cm_t_vec_1
  : G1) : F := H [IF 1; IG (rc_vk_cm_t_vec vk); IG cm_w_vec; IG cm_m_vec; IG cm_r_vec; IG cm_s_vec;
  IG cm_r_vec_tilde; IG cm_t_vec_1].
(** snarks/range_check.rs:847-859 challenge [z] of prove *)
Definition rc_p_ch_z (vk : rc_vk) (cm_w_vec cm_m_vec cm_r_vec cm_s_vec cm_r_vec_tilde cm_t_vec_1
  cm_h_vec_1 cm_h_vec_2 : G1) : F := H [IF 1; IG (rc_vk_cm_t_vec vk); IG cm_w_vec; IG cm_m_vec; IG
  cm_r_vec; IG cm_s_vec; IG cm_r_vec_tilde; IG cm_t_vec_1; IG cm_h_vec_1; IG cm_h_vec_2].
(** snarks/range_check.rs:1226-1244 challenge [rand_xi] of prove *)
Definition rc_p_ch_rand_xi (vk : rc_vk) (cm_w_vec cm_m_vec cm_r_vec cm_s_vec cm_r_vec_tilde
  cm_t_vec_1 cm_h_vec_1 cm_h_vec_2 cm_g : G1) (omega y y_1 y_2 z : F) : F := H [IF 1; IG
  (rc_vk_cm_t_vec vk); IG cm_w_vec; IG cm_m_vec; IG cm_r_vec; IG cm_s_vec; IG cm_r_vec_tilde; IG
  cm_t_vec_1; IG cm_h_vec_1; IG cm_h_vec_2; IG cm_g; IF (omega / z); IF y; IF y_1; IF y_2; IF z].
(** snarks/range_check.rs:1245-1263 challenge [rand_xi_2] of prove *)
Definition rc_p_ch_rand_xi_2 (vk : rc_vk) (cm_w_vec cm_m_vec cm_r_vec cm_s_vec cm_r_vec_tilde
  cm_t_vec_1 cm_h_vec_1 cm_h_vec_2 cm_g : G1) (omega y y_1 y_2 z : F) : F := H [IF (1 + 1); IG
  (rc_vk_cm_t_vec vk); IG cm_w_vec; IG cm_m_vec; IG cm_r_vec; IG cm_s_vec; IG cm_r_vec_tilde; IG
  cm_t_vec_1; IG cm_h_vec_1; IG cm_h_vec_2; IG cm_g; IF (omega / z); IF y; IF y_1; IF y_2; IF z].
(** snarks/range_check.rs:1307 challenge [beta] of verify *)
Definition rc_v_ch_beta (vk : rc_vk) (cm_w_vec cm_m_vec : G1) : F := H [IF 1; IG (rc_vk_cm_t_vec
  vk); IG cm_w_vec; IG cm_m_vec].
(** snarks/range_check.rs:1308-1316 challenge [beta_1] of verify *)
Definition rc_v_ch_beta_1 (vk : rc_vk) (cm_w_vec cm_m_vec cm_r_vec cm_s_vec : G1) : F := H [IF 1; IG
  (rc_vk_cm_t_vec vk); IG cm_w_vec; IG cm_m_vec; IG cm_r_vec; IG cm_s_vec].
(** snarks/range_check.rs:1317-1326 challenge [alpha] of verify *)
Definition rc_v_ch_alpha (vk : rc_vk) (cm_w_vec cm_m_vec cm_r_vec cm_s_vec cm_r_vec_tilde : G1) : F
  := H [IF 1; IG (rc_vk_cm_t_vec vk); IG cm_w_vec; IG cm_m_vec; IG cm_r_vec; IG cm_s_vec; IG
  cm_r_vec_tilde].
(** snarks/range_check.rs:1327-1337 challenge [omega] of verify *)
Definition rc_v_ch_omega (vk : rc_vk) (cm_w_vec cm_m_vec cm_r_vec cm_s_vec cm_r_vec_tilde cm_t_vec_1
  : G1) : F := H [IF 1; IG (rc_vk_cm_t_vec vk); IG cm_w_vec; IG cm_m_vec; IG cm_r_vec; IG cm_s_vec;
  IG cm_r_vec_tilde; IG cm_t_vec_1].
(** snarks/range_check.rs:1338-1350 challenge [z] of verify *)
Definition rc_v_ch_z (vk : rc_vk) (cm_w_vec cm_m_vec cm_r_vec cm_s_vec cm_r_vec_tilde cm_t_vec_1
  cm_h_vec_1 cm_h_vec_2 : G1) : F := H [IF 1; IG (rc_vk_cm_t_vec vk); IG cm_w_vec; IG cm_m_vec; IG
  cm_r_vec; IG cm_s_vec; IG cm_r_vec_tilde; IG cm_t_vec_1; IG cm_h_vec_1; IG cm_h_vec_2].
(** snarks/range_check.rs:1398-1416 challenge [rand_xi] of verify *)
Definition rc_v_ch_rand_xi (vk : rc_vk) (cm_w_vec cm_m_vec cm_r_vec cm_s_vec cm_r_vec_tilde
  cm_t_vec_1 cm_h_vec_1 cm_h_vec_2 cm_g : G1) (omega y y_1 y_2 z : F) : F := H [IF 1; IG
  (rc_vk_cm_t_vec vk); IG cm_w_vec; IG cm_m_vec; IG cm_r_vec; IG cm_s_vec; IG cm_r_vec_tilde; IG
  cm_t_vec_1; IG cm_h_vec_1; IG cm_h_vec_2; IG cm_g; IF (omega / z); IF y; IF y_1; IF y_2; IF z].
(** snarks/range_check.rs:1417-1435 challenge [rand_xi_2] of verify *)
Definition rc_v_ch_rand_xi_2 (vk : rc_vk) (cm_w_vec cm_m_vec cm_r_vec cm_s_vec cm_r_vec_tilde
  cm_t_vec_1 cm_h_vec_1 cm_h_vec_2 cm_g : G1) (omega y y_1 y_2 z : F) : F := H [IF (1 + 1); IG
  (rc_vk_cm_t_vec vk); IG cm_w_vec; IG cm_m_vec; IG cm_r_vec; IG cm_s_vec; IG cm_r_vec_tilde; IG
  cm_t_vec_1; IG cm_h_vec_1; IG cm_h_vec_2; IG cm_g; IF (omega / z); IF y; IF y_1; IF y_2; IF z].
(** snarks/range_check.rs:1194-1210 [cm_g] *)
Definition rc_p_cm_g (vk : rc_vk) (q : rc_ctx) (cm_w_vec cm_r_vec_tilde cm_t_vec_1 cm_h_vec_1
  cm_h_vec_2 : G1) : G1 := commitment_linear_combination (vk_g (rc_vk_kzg_vk vk)) (rc_p_c_15 q)
  [(cm_w_vec, (rc_p_c_14 q)); ((rc_vk_cm_t_vec vk), (rc_p_c_19 q)); (cm_r_vec_tilde, (rc_p_c_25 q));
  (cm_t_vec_1, (rc_p_c_28 q)); (cm_h_vec_1, (rc_p_c_29 q)); (cm_h_vec_2, (rc_p_c_30 q))].
(** snarks/range_check.rs:1379-1395 [cm_g] *)
Definition rc_v_cm_g (vk : rc_vk) (q : rc_ctx) (cm_w_vec cm_r_vec_tilde cm_t_vec_1 cm_h_vec_1
  cm_h_vec_2 : G1) : G1 := commitment_linear_combination (vk_g (rc_vk_kzg_vk vk)) (rc_v_c_15 q)
  [(cm_w_vec, (rc_v_c_14 q)); ((rc_vk_cm_t_vec vk), (rc_v_c_19 q)); (cm_r_vec_tilde, (rc_v_c_25 q));
  (cm_t_vec_1, (rc_v_c_28 q)); (cm_h_vec_1, (rc_v_c_29 q)); (cm_h_vec_2, (rc_v_c_30 q))].

(** lines 46-48 [get_max_degree] *)
Definition rc_get_max_degree (size : rc_cs) : nat :=
  Z.to_nat (Z.max (Z.of_nat (rc_lookup_size size)) (Z.of_nat (rc_range_size size))).

(** lines 60-63 [setup]: KZG setup with the sampled trapdoor and generators *)
Definition rc_setup (size : nat) (beta : F) (g : G1) (h : G2) := setup size beta g h.

(** lines 81-86 the table 0, ..., range - 1; [to_field] panics for values not below the modulus *)
Fixpoint rc_table {pf : PrimeFieldOps F} (i : Z) (k : nat) : outcome error (list F) :=
  match k with
  | O => Ok []
  | S k => let! x := to_field i in let! r := rc_table (i + 1) k in Ok (x :: r)
  end.
(** lines 65-115 [index] *)
Definition rc_index {pf : PrimeFieldOps F} (pp : universal_params G1 G2) (cs : rc_cs) : outcome error (rc_pk * rc_vk) :=
  let max_degree := rc_get_max_degree cs in
  let cap_d := length (up_powers_of_g pp) in
  let! _ := assert_ (max_degree <? cap_d)%nat in
  let powers_of_g := up_powers_of_g pp in
  let! t_vec := rc_table 0 (rc_range_size cs) in
  let! cm_t_vec := commit_vector powers_of_g t_vec (Z.of_nat (rc_lookup_size cs)) in
  let! kvk := kzg_vk pp in
  let vk := mkRCVK cm_t_vec kvk cs cap_d in
  Ok (mkRCPK vk powers_of_g max_degree t_vec, vk).

(** lines 117-140 of [prove], 1285-1305 of [verify] *)
Definition rc_pub_of (vk : rc_vk) : rc_pub :=
  mkRCPub (Z.of_nat (rc_lookup_size (rc_vk_size vk))) (Z.of_nat (rc_range_size (rc_vk_size vk)))
          (Z.of_nat (rc_vk_degree_bound vk)).

(** lines 141-162: witness and multiplicities *)
Definition rc_round1 (pk : rc_pk) (w : list F) (delta_vec delta_vec_1 : list F)
  : outcome error (rc_s1 * (G1 * G1)) :=
  let e := rc_pub_of (rc_pk_verifier_key pk) in
  let! w_vec := zero_pad_and_concat w (Z.to_nat (rc_n e)) [delta_vec] in
  let! cm_w_vec := commit_vector (rc_pk_powers pk) w_vec (rc_n e + 1)%Z in
  let! _ := assert_ ((rc_nsize e =? 0)%Z || (Z.to_nat (rc_range e) <=? length (rc_pk_t pk))%nat) in
  let! m_vec := zero_pad_and_concat (rc_m_of (Z.to_nat (rc_nsize e)) (Z.to_nat (rc_range e)) w_vec (rc_pk_t pk))
                  (Z.to_nat (rc_n e)) [delta_vec_1] in
  let! cm_m_vec := commit_vector (rc_pk_powers pk) m_vec (rc_n e + 1)%Z in
  Ok (mkRCS1 e (rc_pk_t pk) w_vec m_vec, (cm_w_vec, cm_m_vec)).

(** lines 169-199: the inverses *)
Definition rc_round2 (pk : rc_pk) (e : rc_s2) (delta_vec_2 delta_vec_3 : list F)
  : outcome error (list F * list F * (G1 * G1)) :=
  let! r_vec := zero_pad_and_concat (rc_r_of (Z.to_nat (rc_nsize e)) (rc_w_vec e) (rc_beta e))
                  (Z.to_nat (rc_n e)) [delta_vec_2] in
  let! cm_r_vec := commit_vector (rc_pk_powers pk) r_vec (rc_n e + 1)%Z in
  let! _ := assert_ (Z.to_nat (rc_range e) <=? length (rc_pk_t_vec e))%nat in
  let! s_vec := zero_pad_and_concat (rc_s_of (Z.to_nat (rc_range e)) (rc_pk_t_vec e) (rc_m_vec e) (rc_beta e))
                  (Z.to_nat (rc_n e)) [delta_vec_3] in
  let! cm_s_vec := commit_vector (rc_pk_powers pk) s_vec (rc_n e + 1)%Z in
  Ok (r_vec, s_vec, (cm_r_vec, cm_s_vec)).

(** lines 214-227 *)
Definition rc_round3 (pk : rc_pk) (e : rc_s3) (delta_vec_4 : list F) : outcome error (list F * G1) :=
  let r_vec_tilde := vector_concat [rc_r_acc e; delta_vec_4] in
  let! cm_r_vec_tilde := commit_vector (rc_pk_powers pk) r_vec_tilde (rc_n e + 1)%Z in
  Ok (r_vec_tilde, cm_r_vec_tilde).

(** lines 242-267 *)
Definition rc_round4 (pk : rc_pk) (e : rc_s4) (delta_vec_5 : list F) : outcome error (list F * G1) :=
  let t_vec_1 := vector_concat [delta_vec_5; rc_t_vec_1_tail e] in
  let! cm_t_vec_1 := commit_vector (rc_pk_powers pk) t_vec_1 (rc_maxshift e + 2)%Z in
  Ok (t_vec_1, cm_t_vec_1).

(** lines 279-846 *)
Definition rc_round5 (pk : rc_pk) (e : rc_s5) : outcome error (G1 * G1) :=
  let! _ := rc_checks_1 e in
  let! cm_h_vec_1 := commit_vector (rc_pk_powers pk) (rc_h_vec_1 e) (rc_cap_d e) in
  let! cm_h_vec_2 := commit_vector (rc_pk_powers pk) (rc_h_vec_2 e) (rc_maxshift e + rc_n e)%Z in
  Ok (cm_h_vec_1, cm_h_vec_2).

(** the values known after the challenge z (lines 860-862) *)
Definition rc_ctx_of (e : rc_s5) (z : F) : rc_ctx :=
  mkRCCtx e (rc_beta e) (rc_alpha e) (rc_omega e) z (rc_y e z) (rc_y_1 e z) (rc_y_2 e z).

(** lines 860-1223: the combined polynomial; its commitment is compared with the linear combination
    of the commitments, and it is checked to vanish at z *)
Definition rc_round6 (pk : rc_pk) (e : rc_s5) (z : F) (cm_w_vec cm_r_vec_tilde cm_t_vec_1 cm_h_vec_1 cm_h_vec_2 : G1)
  : outcome error (rc_ctx * list F * G1) :=
  let q := rc_ctx_of e z in
  let! _ := rc_checks_2 e q in
  let! _ := rc_divisors q in
  let! g_vec := rc_g_vec e q in
  let cm_g := rc_p_cm_g (rc_pk_verifier_key pk) q cm_w_vec cm_r_vec_tilde cm_t_vec_1 cm_h_vec_1 cm_h_vec_2 in
  let! c := commit_vector (rc_pk_powers pk) g_vec (rc_cap_d e) in
  let! _ := assert_ (veqb cm_g c) in
  let! _ := check_poly_eval (strip (rc_naive_vec_g_11 e q)) z 0 in
  let! _ := check_poly_eval (strip g_vec) z 0 in
  Ok (q, g_vec, cm_g).

(** lines 116-1283 [prove]; the six randomizer vectors are sampled with one element each *)
Definition rc_prove (pk : rc_pk) (w : list F) (d0 d1 d2 d3 d4 d5 : F) : outcome error rc_proof :=
  let vk := rc_pk_verifier_key pk in
  let! (s1, (cm_w_vec, cm_m_vec)) := rc_round1 pk w [d0] [d1] in
  let s2 := mkRCS2 s1 (rc_p_ch_beta vk cm_w_vec cm_m_vec) in
  let! (r_vec, s_vec, (cm_r_vec, cm_s_vec)) := rc_round2 pk s2 [d2] [d3] in
  let s3 := mkRCS3 s2 r_vec s_vec (rc_p_ch_beta_1 vk cm_w_vec cm_m_vec cm_r_vec cm_s_vec) in
  let! (r_vec_tilde, cm_r_vec_tilde) := rc_round3 pk s3 [d4] in
  let s4 := mkRCS4 s3 r_vec_tilde (rc_p_ch_alpha vk cm_w_vec cm_m_vec cm_r_vec cm_s_vec cm_r_vec_tilde) in
  let! (t_vec_1, cm_t_vec_1) := rc_round4 pk s4 [d5] in
  let omega := rc_p_ch_omega vk cm_w_vec cm_m_vec cm_r_vec cm_s_vec cm_r_vec_tilde cm_t_vec_1 in
  let s5 := mkRCS5 s4 t_vec_1 omega in
  let! (cm_h_vec_1, cm_h_vec_2) := rc_round5 pk s5 in
  let z := rc_p_ch_z vk cm_w_vec cm_m_vec cm_r_vec cm_s_vec cm_r_vec_tilde cm_t_vec_1 cm_h_vec_1 cm_h_vec_2 in
  let! (q, g_vec, cm_g) := rc_round6 pk s5 z cm_w_vec cm_r_vec_tilde cm_t_vec_1 cm_h_vec_1 cm_h_vec_2 in
  let y := rc_q_y q in
  let y_1 := rc_q_y_1 q in
  let y_2 := rc_q_y_2 q in
  let rand_xi := rc_p_ch_rand_xi vk cm_w_vec cm_m_vec cm_r_vec cm_s_vec cm_r_vec_tilde cm_t_vec_1 cm_h_vec_1
                   cm_h_vec_2 cm_g omega y y_1 y_2 z in
  let rand_xi_2 := rc_p_ch_rand_xi_2 vk cm_w_vec cm_m_vec cm_r_vec cm_s_vec cm_r_vec_tilde cm_t_vec_1 cm_h_vec_1
                     cm_h_vec_2 cm_g omega y y_1 y_2 z in
  let! (cap_w, cap_w_1) := batch_open (rc_pk_powers pk)
                             [strip (rc_r_vec s5); strip (rc_s_vec s5); strip (rc_m_vec s5)] [strip g_vec]
                             (omega / z) z rand_xi rand_xi_2 in
  Ok (mkRCProof cm_w_vec cm_m_vec cm_r_vec cm_s_vec cm_r_vec_tilde cm_t_vec_1 cm_h_vec_1 cm_h_vec_2 y y_1 y_2
        cap_w cap_w_1).

(** lines 1284-1459 [verify]; [randomizer] is the random scalar of [batch_check] *)
Definition rc_verify (vk : rc_vk) (pf : rc_proof) (randomizer : F) : outcome error unit :=
  let cm_w_vec := rc_cm_w_vec pf in
  let cm_m_vec := rc_cm_m_vec pf in
  let cm_r_vec := rc_cm_r_vec pf in
  let cm_s_vec := rc_cm_s_vec pf in
  let cm_r_vec_tilde := rc_cm_r_vec_tilde pf in
  let cm_t_vec_1 := rc_cm_t_vec_1 pf in
  let cm_h_vec_1 := rc_cm_h_vec_1 pf in
  let cm_h_vec_2 := rc_cm_h_vec_2 pf in
  let y := rc_pf_y pf in
  let y_1 := rc_pf_y_1 pf in
  let y_2 := rc_pf_y_2 pf in
  let beta := rc_v_ch_beta vk cm_w_vec cm_m_vec in
  let alpha := rc_v_ch_alpha vk cm_w_vec cm_m_vec cm_r_vec cm_s_vec cm_r_vec_tilde in
  let omega := rc_v_ch_omega vk cm_w_vec cm_m_vec cm_r_vec cm_s_vec cm_r_vec_tilde cm_t_vec_1 in
  let z := rc_v_ch_z vk cm_w_vec cm_m_vec cm_r_vec cm_s_vec cm_r_vec_tilde cm_t_vec_1 cm_h_vec_1 cm_h_vec_2 in
  let q := mkRCCtx (rc_pub_of vk) beta alpha omega z y y_1 y_2 in
  let! _ := rc_divisors q in
  let cm_g := rc_v_cm_g vk q cm_w_vec cm_r_vec_tilde cm_t_vec_1 cm_h_vec_1 cm_h_vec_2 in
  let z1 := omega / z in
  let z2 := z in
  let rand_xi := rc_v_ch_rand_xi vk cm_w_vec cm_m_vec cm_r_vec cm_s_vec cm_r_vec_tilde cm_t_vec_1 cm_h_vec_1
                   cm_h_vec_2 cm_g omega y y_1 y_2 z in
  let rand_xi_2 := rc_v_ch_rand_xi_2 vk cm_w_vec cm_m_vec cm_r_vec cm_s_vec cm_r_vec_tilde cm_t_vec_1 cm_h_vec_1
                     cm_h_vec_2 cm_g omega y y_1 y_2 z in
  if batch_check (rc_vk_kzg_vk vk) [cm_r_vec; cm_s_vec; cm_m_vec] [cm_g] z1 z2 rand_xi rand_xi_2
       [y; y_1; y_2] [0] (rc_cap_w pf) (rc_cap_w_1 pf) randomizer
  then Ok tt else Err VerificationFail.

End RC.
Arguments rc_s1 F : clear implicits.
Arguments rc_s2 F : clear implicits.
Arguments rc_s3 F : clear implicits.
Arguments rc_s4 F : clear implicits.
Arguments rc_s5 F : clear implicits.
Arguments rc_ctx F : clear implicits.
Arguments rc_vk G1 G2 : clear implicits.
Arguments rc_pk F G1 G2 : clear implicits.
Arguments rc_proof F G1 : clear implicits.

(** Fib.v: model of voproof/src/snarks/fibonacci.rs (generalised Fibonacci argument) and of
    voproof/src/cs/fibonacci.rs.  The long index expressions are transcribed mechanically from the
    Rust text (one Definition per Rust binding, named fb_<binding>).  [H] is the hash oracle, the
    randomizers are arguments.  Printing is not modelled. *)
From Verif Require Import Base Tools KZG Snark.
Local Open Scope F_scope.

Section Fib.
Context {F G1 G2 GT : Type} {fo : FieldOps F} {po : PairingOps F G1 G2 GT}.

(** cs/fibonacci.rs:3-7 [Fibonacci]; 16-19 and 23-27: the size is [n] *)
Record fib_cs := mkFibCS { fib_n : nat; fib_t : list F }.
(** cs/fibonacci.rs:29-34 [FibonacciInstance] *)
Record fib_instance := mkFibIns { fib_a : F; fib_b : F; fib_c : F }.

(** *** Values in scope.  Each record adds the bindings of one round to the previous one. *)
(** public data of a run (lines 107-119, 983-1002) *)
Record fb_pub := mkFBPub { fb_n : Z; fb_cap_d : Z; fb_a : F; fb_b : F; fb_c : F }.
(** bindings of lines 120-143; [fb_pk_t_vec] is [pk.t_vec] *)
Record fb_s1 := mkFBS1 {
  fb_s1_pub :> fb_pub; fb_pk_t_vec : list F; fb_w_vec : list F; fb_r_vec : list F }.
(** lines 144-146 *)
Record fb_s2 := mkFBS2 { fb_s2_s1 :> fb_s1; fb_alpha : F }.
(** lines 147-167 *)
Record fb_s3 := mkFBS3 { fb_s3_s2 :> fb_s2; fb_t_vec_1 : list F; fb_omega : F }.
(** snarks/fibonacci.rs:119 [n_1] *)
Definition fb_n_1 (e : fb_pub) : Z := (fb_n e)%Z.
(** snarks/fibonacci.rs:144 [maxshift] *)
Definition fb_maxshift (e : fb_s2) : Z := (2)%Z.
(** snarks/fibonacci.rs:146 [c_1] *)
Definition fb_c_1 (e : fb_s2) : F := - fb_alpha e.
(** snarks/fibonacci.rs:147-158 [t_vec_1]: entry i of the expression following the randomizer *)
Definition fb_t_vec_1_at (e : fb_s2) (i : Z) : F := fb_alpha e * vidx (fb_r_vec e) (minus_i64 (i +
  fb_n_1 e) 1)%Z * range_index 1%Z (fb_n e) (i + fb_n_1 e)%Z + fb_c_1 e * vidx (fb_w_vec e)
  (minus_i64 (i + fb_n_1 e) 2)%Z * vidx (fb_pk_t_vec e) (i + fb_n_1 e)%Z.
Definition fb_t_vec_1_tail (e : fb_s2) : list F := expression_vector (fb_t_vec_1_at e)
  (fb_maxshift e + 2)%Z.
(** snarks/fibonacci.rs:168 [sum_vec] *)
Definition fb_sum_vec_0 (e : fb_s3) : list F := repeat 0 (Z.to_nat (fb_maxshift e + fb_n_1 e +
  1)%Z).
(** snarks/fibonacci.rs:169-172 [hcheck_vec] *)
Definition fb_hcheck_vec_0 (e : fb_s3) : list F := repeat 0 (Z.to_nat (2 * fb_maxshift e + 2
  * fb_n_1 e + 1)%Z).
(** snarks/fibonacci.rs:173 [c_2] *)
Definition fb_c_2 (e : fb_s3) : F := - fb_b e.
(** snarks/fibonacci.rs:174-183 [sum_vec], addition 1: entry i *)
Definition fb_sum_vec_add_1 (e : fb_s3) (i : Z) : F := (- fb_a e * delta i 1%Z + fb_c_2 e
  * vidx (fb_pk_t_vec e) (minus_i64 i 1)%Z + vidx (fb_w_vec e) (minus_i64 i 1)%Z) * (delta i 1%Z).
Definition fb_sum_vec_1 (e : fb_s3) : list F := add_expression_vector_to_vector (fb_sum_vec_0 e)
  (fb_sum_vec_add_1 e).
(** snarks/fibonacci.rs:184 [v_vec] *)
Definition fb_v_vec (e : fb_s3) : list F := vector_reverse_omega (fb_w_vec e) (fb_omega e).
(** snarks/fibonacci.rs:184 [shiftlength] *)
Definition fb_shiftlength (e : fb_s3) : Z := (Z.of_nat (length (fb_w_vec e)) - 1)%Z.
(** snarks/fibonacci.rs:185 [v_vec_1] *)
Definition fb_v_vec_1 (e : fb_s3) : list F := vector_reverse_omega (fb_pk_t_vec e) (fb_omega e).
(** snarks/fibonacci.rs:185 [shiftlength_1] *)
Definition fb_shiftlength_1 (e : fb_s3) : Z := (Z.of_nat (length (fb_pk_t_vec e)) - 1)%Z.
(** snarks/fibonacci.rs:187-194 [atimesb_vec], entry i (from 1) *)
Definition fb_atimesb_vec_at (e : fb_s3) (i : Z) : F := - fb_a e * delta (i - fb_maxshift e
  - fb_n_1 e)%Z 1%Z + fb_c_2 e * vidx (fb_v_vec_1 e) (minus_i64 (i - fb_maxshift e - fb_n_1 e) (1
  - fb_shiftlength_1 e))%Z + vidx (fb_v_vec e) (minus_i64 (i - fb_maxshift e - fb_n_1 e) (1
  - fb_shiftlength e))%Z.
Definition fb_atimesb_vec (e : fb_s3) : list F := expression_vector (fb_atimesb_vec_at e) (2
  * fb_maxshift e + 2 * fb_n_1 e + 1)%Z.
(** snarks/fibonacci.rs:195-206 [abnaive_vec], left factor, entry i *)
Definition fb_abnaive_vec_left (e : fb_s3) (i : Z) : F := - fb_a e * delta i 1%Z + fb_c_2 e
  * vidx (fb_pk_t_vec e) (minus_i64 i 1)%Z + vidx (fb_w_vec e) (minus_i64 i 1)%Z.
(** snarks/fibonacci.rs:195-206 [abnaive_vec], right factor, entry i *)
Definition fb_abnaive_vec_right (e : fb_s3) (i : Z) : F := delta i 1%Z.
(** snarks/fibonacci.rs:195-206 [abnaive_vec] *)
Definition fb_abnaive_vec (e : fb_s3) : list F := vector_poly_mul (expression_vector
  (fb_abnaive_vec_left e) (fb_maxshift e + fb_n_1 e + 1)%Z) (expression_vector
  (fb_abnaive_vec_right e) (fb_maxshift e + fb_n_1 e + 1)%Z) (fb_omega e).
(** snarks/fibonacci.rs:207 [hcheck_vec] *)
Definition fb_hcheck_vec_1 (e : fb_s3) : list F := add_vector_to_vector (fb_hcheck_vec_0 e)
  (fb_abnaive_vec e).
(** snarks/fibonacci.rs:208-212 check "The 1'th convolution is incorrect" *)
Definition fb_check_1 (e : fb_s3) : outcome error unit := let! p := zero_pad (fb_abnaive_vec e)
  (Z.to_nat (2 * fb_maxshift e + 2 * fb_n_1 e + 1)%Z) in check_vector_eq_o (fb_atimesb_vec e) p.
(** snarks/fibonacci.rs:213-220 [sum_vec], addition 2: entry i *)
Definition fb_sum_vec_add_2 (e : fb_s3) (i : Z) : F := (fb_alpha e * vidx (fb_r_vec e) (minus_i64 i
  1)%Z) * (range_index 1%Z (fb_n e) (minus_i64 i 1)%Z).
Definition fb_sum_vec_2 (e : fb_s3) : list F := add_expression_vector_to_vector (fb_sum_vec_1 e)
  (fb_sum_vec_add_2 e).
(** snarks/fibonacci.rs:221 [v_vec_2] *)
Definition fb_v_vec_2 (e : fb_s3) : list F := vector_reverse_omega (fb_r_vec e) (fb_omega e).
(** snarks/fibonacci.rs:221 [shiftlength_2] *)
Definition fb_shiftlength_2 (e : fb_s3) : Z := (Z.of_nat (length (fb_r_vec e)) - 1)%Z.
(** snarks/fibonacci.rs:222 [v_vec_3] *)
Definition fb_v_vec_3 (e : fb_s3) : list F := vector_power_mul (fb_v_vec_2 e) 1 (Z.to_nat (fb_n e)).
(** snarks/fibonacci.rs:224-229 [atimesb_vec_1], entry i (from 1) *)
Definition fb_atimesb_vec_1_at (e : fb_s3) (i : Z) : F := fb_alpha e * vidx (fb_v_vec_3 e)
  (minus_i64 (i - fb_maxshift e - fb_n_1 e) (1 - fb_shiftlength_2 e))%Z.
Definition fb_atimesb_vec_1 (e : fb_s3) : list F := expression_vector (fb_atimesb_vec_1_at e) (2
  * fb_maxshift e + 2 * fb_n_1 e + 1)%Z.
(** snarks/fibonacci.rs:230-239 [abnaive_vec_1], left factor, entry i *)
Definition fb_abnaive_vec_1_left (e : fb_s3) (i : Z) : F := fb_alpha e * vidx (fb_r_vec e)
  (minus_i64 i 1)%Z.
(** snarks/fibonacci.rs:230-239 [abnaive_vec_1], right factor, entry i *)
Definition fb_abnaive_vec_1_right (e : fb_s3) (i : Z) : F := range_index 1%Z (fb_n e) (minus_i64 i
  1)%Z.
(** snarks/fibonacci.rs:230-239 [abnaive_vec_1] *)
Definition fb_abnaive_vec_1 (e : fb_s3) : list F := vector_poly_mul (expression_vector
  (fb_abnaive_vec_1_left e) (fb_maxshift e + fb_n_1 e + 1)%Z) (expression_vector
  (fb_abnaive_vec_1_right e) (fb_maxshift e + fb_n_1 e + 1)%Z) (fb_omega e).
(** snarks/fibonacci.rs:240 [hcheck_vec] *)
Definition fb_hcheck_vec_2 (e : fb_s3) : list F := add_vector_to_vector (fb_hcheck_vec_1 e)
  (fb_abnaive_vec_1 e).
(** snarks/fibonacci.rs:241-245 check "The 2'th convolution is incorrect" *)
Definition fb_check_2 (e : fb_s3) : outcome error unit := let! p := zero_pad (fb_abnaive_vec_1 e)
  (Z.to_nat (2 * fb_maxshift e + 2 * fb_n_1 e + 1)%Z) in check_vector_eq_o (fb_atimesb_vec_1 e) p.
(** snarks/fibonacci.rs:246-253 [sum_vec], addition 3: entry i *)
Definition fb_sum_vec_add_3 (e : fb_s3) (i : Z) : F := (fb_c_1 e * vidx (fb_w_vec e) (minus_i64 i
  2)%Z) * (vidx (fb_pk_t_vec e) (minus_i64 i 1)%Z).
Definition fb_sum_vec_3 (e : fb_s3) : list F := add_expression_vector_to_vector (fb_sum_vec_2 e)
  (fb_sum_vec_add_3 e).
(** snarks/fibonacci.rs:256-264 [v_vec_4] *)
Definition fb_v_vec_4 (e : fb_s3) : list F := vector_poly_mul (fb_w_vec e) (fb_pk_t_vec e)
  (fb_omega e).
(** snarks/fibonacci.rs:256-264 [shiftlength_3] *)
Definition fb_shiftlength_3 (e : fb_s3) : Z := (Z.of_nat (length (fb_w_vec e)) - 1)%Z.
(** snarks/fibonacci.rs:266 [c_3] *)
Definition fb_c_3 (e : fb_s3) : F := - fb_alpha e * fb_omega e.
(** snarks/fibonacci.rs:267-272 [atimesb_vec_2], entry i (from 1) *)
Definition fb_atimesb_vec_2_at (e : fb_s3) (i : Z) : F := fb_c_3 e * vidx (fb_v_vec_4 e)
  (minus_i64 (i - fb_maxshift e - fb_n_1 e) (- fb_shiftlength_3 e))%Z.
Definition fb_atimesb_vec_2 (e : fb_s3) : list F := expression_vector (fb_atimesb_vec_2_at e) (2
  * fb_maxshift e + 2 * fb_n_1 e + 1)%Z.
(** snarks/fibonacci.rs:273-286 [abnaive_vec_2], left factor, entry i *)
Definition fb_abnaive_vec_2_left (e : fb_s3) (i : Z) : F := fb_c_1 e * vidx (fb_w_vec e)
  (minus_i64 i 2)%Z.
(** snarks/fibonacci.rs:273-286 [abnaive_vec_2], right factor, entry i *)
Definition fb_abnaive_vec_2_right (e : fb_s3) (i : Z) : F := vidx (fb_pk_t_vec e) (minus_i64 i 1)%Z.
(** snarks/fibonacci.rs:273-286 [abnaive_vec_2] *)
Definition fb_abnaive_vec_2 (e : fb_s3) : list F := vector_poly_mul (expression_vector
  (fb_abnaive_vec_2_left e) (fb_maxshift e + fb_n_1 e + 1)%Z) (expression_vector
  (fb_abnaive_vec_2_right e) (fb_maxshift e + fb_n_1 e + 1)%Z) (fb_omega e).
(** snarks/fibonacci.rs:287 [hcheck_vec] *)
Definition fb_hcheck_vec_3 (e : fb_s3) : list F := add_vector_to_vector (fb_hcheck_vec_2 e)
  (fb_abnaive_vec_2 e).
(** snarks/fibonacci.rs:288-292 check "The 3'th convolution is incorrect" *)
Definition fb_check_3 (e : fb_s3) : outcome error unit := let! p := zero_pad (fb_abnaive_vec_2 e)
  (Z.to_nat (2 * fb_maxshift e + 2 * fb_n_1 e + 1)%Z) in check_vector_eq_o (fb_atimesb_vec_2 e) p.
(** snarks/fibonacci.rs:293 [c_4] *)
Definition fb_c_4 (e : fb_s3) : F := power (fb_alpha e) 2%Z.
(** snarks/fibonacci.rs:294 [c_5] *)
Definition fb_c_5 (e : fb_s3) : F := - power (fb_alpha e) 2%Z.
(** snarks/fibonacci.rs:295-304 [sum_vec], addition 4: entry i *)
Definition fb_sum_vec_add_4 (e : fb_s3) (i : Z) : F := (- power (fb_alpha e) 2%Z * fb_b e * delta i
  2%Z + fb_c_4 e * vidx (fb_w_vec e) (minus_i64 i 1)%Z + fb_c_5 e * vidx (fb_r_vec e) (minus_i64 i
  1)%Z) * (delta i 2%Z).
Definition fb_sum_vec_4 (e : fb_s3) : list F := add_expression_vector_to_vector (fb_sum_vec_3 e)
  (fb_sum_vec_add_4 e).
(** snarks/fibonacci.rs:305 [v_vec_5] *)
Definition fb_v_vec_5 (e : fb_s3) : list F := vector_reverse_omega (fb_w_vec e) (fb_omega e).
(** snarks/fibonacci.rs:305 [shiftlength_4] *)
Definition fb_shiftlength_4 (e : fb_s3) : Z := (Z.of_nat (length (fb_w_vec e)) - 1)%Z.
(** snarks/fibonacci.rs:306 [v_vec_6] *)
Definition fb_v_vec_6 (e : fb_s3) : list F := vector_reverse_omega (fb_r_vec e) (fb_omega e).
(** snarks/fibonacci.rs:306 [shiftlength_5] *)
Definition fb_shiftlength_5 (e : fb_s3) : Z := (Z.of_nat (length (fb_r_vec e)) - 1)%Z.
(** snarks/fibonacci.rs:308-315 [atimesb_vec_3], entry i (from 1) *)
Definition fb_atimesb_vec_3_at (e : fb_s3) (i : Z) : F := - power (fb_alpha e) 2%Z * fb_b e
  * fb_omega e * delta (i - fb_maxshift e - fb_n_1 e)%Z 1%Z + fb_c_4 e * vidx (fb_v_vec_5 e)
  (minus_i64 (i - fb_maxshift e - fb_n_1 e) (2 - fb_shiftlength_4 e))%Z + fb_c_5 e
  * vidx (fb_v_vec_6 e) (minus_i64 (i - fb_maxshift e - fb_n_1 e) (2 - fb_shiftlength_5 e))%Z.
Definition fb_atimesb_vec_3 (e : fb_s3) : list F := expression_vector (fb_atimesb_vec_3_at e) (2
  * fb_maxshift e + 2 * fb_n_1 e + 1)%Z.
(** snarks/fibonacci.rs:316-327 [abnaive_vec_3], left factor, entry i *)
Definition fb_abnaive_vec_3_left (e : fb_s3) (i : Z) : F := - power (fb_alpha e) 2%Z * fb_b e
  * delta i 2%Z + fb_c_4 e * vidx (fb_w_vec e) (minus_i64 i 1)%Z + fb_c_5 e * vidx (fb_r_vec e)
  (minus_i64 i 1)%Z.
(** snarks/fibonacci.rs:316-327 [abnaive_vec_3], right factor, entry i *)
Definition fb_abnaive_vec_3_right (e : fb_s3) (i : Z) : F := delta i 2%Z.
(** snarks/fibonacci.rs:316-327 [abnaive_vec_3] *)
Definition fb_abnaive_vec_3 (e : fb_s3) : list F := vector_poly_mul (expression_vector
  (fb_abnaive_vec_3_left e) (fb_maxshift e + fb_n_1 e + 1)%Z) (expression_vector
  (fb_abnaive_vec_3_right e) (fb_maxshift e + fb_n_1 e + 1)%Z) (fb_omega e).
(** snarks/fibonacci.rs:328 [hcheck_vec] *)
Definition fb_hcheck_vec_4 (e : fb_s3) : list F := add_vector_to_vector (fb_hcheck_vec_3 e)
  (fb_abnaive_vec_3 e).
(** snarks/fibonacci.rs:329-333 check "The 4'th convolution is incorrect" *)
Definition fb_check_4 (e : fb_s3) : outcome error unit := let! p := zero_pad (fb_abnaive_vec_3 e)
  (Z.to_nat (2 * fb_maxshift e + 2 * fb_n_1 e + 1)%Z) in check_vector_eq_o (fb_atimesb_vec_3 e) p.
(** snarks/fibonacci.rs:334 [c_6] *)
Definition fb_c_6 (e : fb_s3) : F := power (fb_alpha e) 3%Z.
(** snarks/fibonacci.rs:335-342 [sum_vec], addition 5: entry i *)
Definition fb_sum_vec_add_5 (e : fb_s3) (i : Z) : F := (- power (fb_alpha e) 3%Z * fb_c e * delta i
  (fb_n e) + fb_c_6 e * vidx (fb_w_vec e) (minus_i64 i 1)%Z) * (delta i (fb_n e)).
Definition fb_sum_vec_5 (e : fb_s3) : list F := add_expression_vector_to_vector (fb_sum_vec_4 e)
  (fb_sum_vec_add_5 e).
(** snarks/fibonacci.rs:343 [v_vec_7] *)
Definition fb_v_vec_7 (e : fb_s3) : list F := vector_reverse_omega (fb_w_vec e) (fb_omega e).
(** snarks/fibonacci.rs:343 [shiftlength_6] *)
Definition fb_shiftlength_6 (e : fb_s3) : Z := (Z.of_nat (length (fb_w_vec e)) - 1)%Z.
(** snarks/fibonacci.rs:345-351 [atimesb_vec_4], entry i (from 1) *)
Definition fb_atimesb_vec_4_at (e : fb_s3) (i : Z) : F := - power (fb_alpha e) 3%Z * fb_c e
  * power (fb_omega e) (fb_n e - 1)%Z * delta (i - fb_maxshift e - fb_n_1 e)%Z 1%Z + fb_c_6 e
  * vidx (fb_v_vec_7 e) (minus_i64 (i - fb_maxshift e - fb_n_1 e) (fb_n e - fb_shiftlength_6 e))%Z.
Definition fb_atimesb_vec_4 (e : fb_s3) : list F := expression_vector (fb_atimesb_vec_4_at e) (2
  * fb_maxshift e + 2 * fb_n_1 e + 1)%Z.
(** snarks/fibonacci.rs:352-361 [abnaive_vec_4], left factor, entry i *)
Definition fb_abnaive_vec_4_left (e : fb_s3) (i : Z) : F := - power (fb_alpha e) 3%Z * fb_c e
  * delta i (fb_n e) + fb_c_6 e * vidx (fb_w_vec e) (minus_i64 i 1)%Z.
(** snarks/fibonacci.rs:352-361 [abnaive_vec_4], right factor, entry i *)
Definition fb_abnaive_vec_4_right (e : fb_s3) (i : Z) : F := delta i (fb_n e).
(** snarks/fibonacci.rs:352-361 [abnaive_vec_4] *)
Definition fb_abnaive_vec_4 (e : fb_s3) : list F := vector_poly_mul (expression_vector
  (fb_abnaive_vec_4_left e) (fb_maxshift e + fb_n_1 e + 1)%Z) (expression_vector
  (fb_abnaive_vec_4_right e) (fb_maxshift e + fb_n_1 e + 1)%Z) (fb_omega e).
(** snarks/fibonacci.rs:362 [hcheck_vec] *)
Definition fb_hcheck_vec_5 (e : fb_s3) : list F := add_vector_to_vector (fb_hcheck_vec_4 e)
  (fb_abnaive_vec_4 e).
(** snarks/fibonacci.rs:363-367 check "The 5'th convolution is incorrect" *)
Definition fb_check_5 (e : fb_s3) : outcome error unit := let! p := zero_pad (fb_abnaive_vec_4 e)
  (Z.to_nat (2 * fb_maxshift e + 2 * fb_n_1 e + 1)%Z) in check_vector_eq_o (fb_atimesb_vec_4 e) p.
(** snarks/fibonacci.rs:368 [c_7] *)
Definition fb_c_7 (e : fb_s3) : F := power (fb_alpha e) 4%Z.
(** snarks/fibonacci.rs:369 [c_8] *)
Definition fb_c_8 (e : fb_s3) : F := - power (fb_alpha e) 4%Z.
(** snarks/fibonacci.rs:370-379 [sum_vec], addition 6: entry i *)
Definition fb_sum_vec_add_6 (e : fb_s3) (i : Z) : F := (fb_c_7 e * vidx (fb_w_vec e) (minus_i64 i
  1)%Z + fb_c_8 e * vidx (fb_r_vec e) (minus_i64 i 1)%Z + fb_c_8 e * vidx (fb_w_vec e) (minus_i64 i
  3)%Z) * (range_index 1%Z (fb_n e) (minus_i64 i 1)%Z - delta i 2%Z - delta i 1%Z).
Definition fb_sum_vec_6 (e : fb_s3) : list F := add_expression_vector_to_vector (fb_sum_vec_5 e)
  (fb_sum_vec_add_6 e).
(** snarks/fibonacci.rs:380 [v_vec_8] *)
Definition fb_v_vec_8 (e : fb_s3) : list F := vector_reverse_omega (fb_w_vec e) (fb_omega e).
(** snarks/fibonacci.rs:380 [shiftlength_7] *)
Definition fb_shiftlength_7 (e : fb_s3) : Z := (Z.of_nat (length (fb_w_vec e)) - 1)%Z.
(** snarks/fibonacci.rs:381 [v_vec_9] *)
Definition fb_v_vec_9 (e : fb_s3) : list F := vector_reverse_omega (fb_r_vec e) (fb_omega e).
(** snarks/fibonacci.rs:381 [shiftlength_8] *)
Definition fb_shiftlength_8 (e : fb_s3) : Z := (Z.of_nat (length (fb_r_vec e)) - 1)%Z.
(** snarks/fibonacci.rs:382 [v_vec_10] *)
Definition fb_v_vec_10 (e : fb_s3) : list F := vector_power_mul (fb_v_vec_8 e) 1 (Z.to_nat
  (fb_n e)).
(** snarks/fibonacci.rs:383 [v_vec_11] *)
Definition fb_v_vec_11 (e : fb_s3) : list F := vector_power_mul (fb_v_vec_9 e) 1 (Z.to_nat
  (fb_n e)).
(** snarks/fibonacci.rs:385 [c_9] *)
Definition fb_c_9 (e : fb_s3) : F := power (fb_alpha e) 4%Z * power (fb_omega e) 2%Z.
(** snarks/fibonacci.rs:386 [c_10] *)
Definition fb_c_10 (e : fb_s3) : F := - power (fb_alpha e) 4%Z * power (fb_omega e) 2%Z.
(** snarks/fibonacci.rs:387-400 [atimesb_vec_5], entry i (from 1) *)
Definition fb_atimesb_vec_5_at (e : fb_s3) (i : Z) : F := fb_c_10 e * vidx (fb_v_vec_10 e)
  (minus_i64 (i - fb_maxshift e - fb_n_1 e) (- fb_shiftlength_7 e - 1))%Z + fb_c_7 e
  * vidx (fb_v_vec_9 e) (minus_i64 (i - fb_maxshift e - fb_n_1 e) (1 - fb_shiftlength_8 e))%Z +
  fb_c_7 e * vidx (fb_v_vec_9 e) (minus_i64 (i - fb_maxshift e - fb_n_1 e) (2
  - fb_shiftlength_8 e))%Z + fb_c_7 e * vidx (fb_v_vec_10 e) (minus_i64 (i - fb_maxshift e
  - fb_n_1 e) (1 - fb_shiftlength_7 e))%Z + fb_c_8 e * vidx (fb_v_vec_8 e) (minus_i64 (i
  - fb_maxshift e - fb_n_1 e) (1 - fb_shiftlength_7 e))%Z + fb_c_8 e * vidx (fb_v_vec_8 e)
  (minus_i64 (i - fb_maxshift e - fb_n_1 e) (2 - fb_shiftlength_7 e))%Z + fb_c_8 e
  * vidx (fb_v_vec_11 e) (minus_i64 (i - fb_maxshift e - fb_n_1 e) (1 - fb_shiftlength_8 e))%Z +
  fb_c_9 e * vidx (fb_v_vec_8 e) (minus_i64 (i - fb_maxshift e - fb_n_1 e) (- fb_shiftlength_7 e
  - 1))%Z + fb_c_9 e * vidx (fb_v_vec_8 e) (minus_i64 (i - fb_maxshift e - fb_n_1 e)
  (- fb_shiftlength_7 e))%Z.
Definition fb_atimesb_vec_5 (e : fb_s3) : list F := expression_vector (fb_atimesb_vec_5_at e) (2
  * fb_maxshift e + 2 * fb_n_1 e + 1)%Z.
(** snarks/fibonacci.rs:401-416 [abnaive_vec_5], left factor, entry i *)
Definition fb_abnaive_vec_5_left (e : fb_s3) (i : Z) : F := fb_c_7 e * vidx (fb_w_vec e)
  (minus_i64 i 1)%Z + fb_c_8 e * vidx (fb_r_vec e) (minus_i64 i 1)%Z + fb_c_8 e * vidx (fb_w_vec e)
  (minus_i64 i 3)%Z.
(** snarks/fibonacci.rs:401-416 [abnaive_vec_5], right factor, entry i *)
Definition fb_abnaive_vec_5_right (e : fb_s3) (i : Z) : F := range_index 1%Z (fb_n e) (minus_i64 i
  1)%Z - delta i 2%Z - delta i 1%Z.
(** snarks/fibonacci.rs:401-416 [abnaive_vec_5] *)
Definition fb_abnaive_vec_5 (e : fb_s3) : list F := vector_poly_mul (expression_vector
  (fb_abnaive_vec_5_left e) (fb_maxshift e + fb_n_1 e + 1)%Z) (expression_vector
  (fb_abnaive_vec_5_right e) (fb_maxshift e + fb_n_1 e + 1)%Z) (fb_omega e).
(** snarks/fibonacci.rs:417 [hcheck_vec] *)
Definition fb_hcheck_vec_6 (e : fb_s3) : list F := add_vector_to_vector (fb_hcheck_vec_5 e)
  (fb_abnaive_vec_5 e).
(** snarks/fibonacci.rs:418-422 check "The 6'th convolution is incorrect" *)
Definition fb_check_6 (e : fb_s3) : outcome error unit := let! p := zero_pad (fb_abnaive_vec_5 e)
  (Z.to_nat (2 * fb_maxshift e + 2 * fb_n_1 e + 1)%Z) in check_vector_eq_o (fb_atimesb_vec_5 e) p.
(** snarks/fibonacci.rs:423-430 [sum_vec], addition 7: entry i *)
Definition fb_sum_vec_add_7 (e : fb_s3) (i : Z) : F := (- range_index 1%Z (fb_maxshift e + 1)%Z
  (minus_i64 i (fb_n_1 e + 1))%Z) * (vidx (fb_t_vec_1 e) (minus_i64 i (fb_n_1 e))%Z).
Definition fb_sum_vec_7 (e : fb_s3) : list F := add_expression_vector_to_vector (fb_sum_vec_6 e)
  (fb_sum_vec_add_7 e).
(** snarks/fibonacci.rs:431 [c_11] *)
Definition fb_c_11 (e : fb_s3) : F := power (fb_omega e) (- 1)%Z.
(** snarks/fibonacci.rs:432 [v_vec_12] *)
Definition fb_v_vec_12 (e : fb_s3) : list F := vector_power_mul (fb_t_vec_1 e) (fb_c_11 e) (Z.to_nat
  3%Z).
(** snarks/fibonacci.rs:434 [c_12] *)
Definition fb_c_12 (e : fb_s3) : F := - power (fb_omega e) (fb_n e + 2)%Z.
(** snarks/fibonacci.rs:435-440 [atimesb_vec_6], entry i (from 1) *)
Definition fb_atimesb_vec_6_at (e : fb_s3) (i : Z) : F := fb_c_12 e * vidx (fb_v_vec_12 e)
  (minus_i64 (i - fb_maxshift e - fb_n_1 e) (- 2))%Z.
Definition fb_atimesb_vec_6 (e : fb_s3) : list F := expression_vector (fb_atimesb_vec_6_at e) (2
  * fb_maxshift e + 2 * fb_n_1 e + 1)%Z.
(** snarks/fibonacci.rs:441-454 [abnaive_vec_6], left factor, entry i *)
Definition fb_abnaive_vec_6_left (e : fb_s3) (i : Z) : F := - range_index 1%Z (fb_maxshift e + 1)%Z
  (minus_i64 i (fb_n_1 e + 1))%Z.
(** snarks/fibonacci.rs:441-454 [abnaive_vec_6], right factor, entry i *)
Definition fb_abnaive_vec_6_right (e : fb_s3) (i : Z) : F := vidx (fb_t_vec_1 e) (minus_i64 i
  (fb_n_1 e))%Z.
(** snarks/fibonacci.rs:441-454 [abnaive_vec_6] *)
Definition fb_abnaive_vec_6 (e : fb_s3) : list F := vector_poly_mul (expression_vector
  (fb_abnaive_vec_6_left e) (fb_maxshift e + fb_n_1 e + 1)%Z) (expression_vector
  (fb_abnaive_vec_6_right e) (fb_maxshift e + fb_n_1 e + 1)%Z) (fb_omega e).
(** snarks/fibonacci.rs:455 [hcheck_vec] *)
Definition fb_hcheck_vec_7 (e : fb_s3) : list F := add_vector_to_vector (fb_hcheck_vec_6 e)
  (fb_abnaive_vec_6 e).
(** snarks/fibonacci.rs:456-460 check "The 7'th convolution is incorrect" *)
Definition fb_check_7 (e : fb_s3) : outcome error unit := let! p := zero_pad (fb_abnaive_vec_6 e)
  (Z.to_nat (2 * fb_maxshift e + 2 * fb_n_1 e + 1)%Z) in check_vector_eq_o (fb_atimesb_vec_6 e) p.
(** snarks/fibonacci.rs:461 [v_vec_13] *)
Definition fb_v_vec_13 (e : fb_s3) : list F := vector_reverse_omega (fb_w_vec e) (fb_omega e).
(** snarks/fibonacci.rs:461 [shiftlength_9] *)
Definition fb_shiftlength_9 (e : fb_s3) : Z := (Z.of_nat (length (fb_w_vec e)) - 1)%Z.
(** snarks/fibonacci.rs:462 [v_vec_14] *)
Definition fb_v_vec_14 (e : fb_s3) : list F := vector_reverse_omega (fb_pk_t_vec e) (fb_omega e).
(** snarks/fibonacci.rs:462 [shiftlength_10] *)
Definition fb_shiftlength_10 (e : fb_s3) : Z := (Z.of_nat (length (fb_pk_t_vec e)) - 1)%Z.
(** snarks/fibonacci.rs:463 [v_vec_15] *)
Definition fb_v_vec_15 (e : fb_s3) : list F := vector_reverse_omega (fb_r_vec e) (fb_omega e).
(** snarks/fibonacci.rs:463 [shiftlength_11] *)
Definition fb_shiftlength_11 (e : fb_s3) : Z := (Z.of_nat (length (fb_r_vec e)) - 1)%Z.
(** snarks/fibonacci.rs:466-474 [v_vec_16] *)
Definition fb_v_vec_16 (e : fb_s3) : list F := vector_poly_mul (fb_w_vec e) (fb_pk_t_vec e)
  (fb_omega e).
(** snarks/fibonacci.rs:466-474 [shiftlength_12] *)
Definition fb_shiftlength_12 (e : fb_s3) : Z := (Z.of_nat (length (fb_w_vec e)) - 1)%Z.
(** snarks/fibonacci.rs:475 [v_vec_17] *)
Definition fb_v_vec_17 (e : fb_s3) : list F := vector_power_mul (fb_v_vec_13 e) 1 (Z.to_nat
  (fb_n e)).
(** snarks/fibonacci.rs:476 [v_vec_18] *)
Definition fb_v_vec_18 (e : fb_s3) : list F := vector_power_mul (fb_v_vec_15 e) 1 (Z.to_nat
  (fb_n e)).
(** snarks/fibonacci.rs:477 [v_vec_19] *)
Definition fb_v_vec_19 (e : fb_s3) : list F := vector_power_mul (fb_t_vec_1 e) (fb_c_11 e) (Z.to_nat
  3%Z).
(** snarks/fibonacci.rs:479-489 summand 1 of [h_osum] *)
Definition fb_osum_at_1 (e : fb_s3) (i : Z) : F := (- fb_a e * delta i 1%Z + fb_c_2 e
  * vidx (fb_pk_t_vec e) (minus_i64 i 1)%Z + vidx (fb_w_vec e) (minus_i64 i 1)%Z) * (delta i 1%Z).
Definition fb_osum_1 (e : fb_s3) : F := eval_vector_expression (fb_omega e) (fb_osum_at_1 e)
  (fb_maxshift e + fb_n_1 e + 1)%Z.
(** snarks/fibonacci.rs:490-498 summand 2 of [h_osum] *)
Definition fb_osum_at_2 (e : fb_s3) (i : Z) : F := (fb_alpha e * vidx (fb_r_vec e) (minus_i64 i
  1)%Z) * (range_index 1%Z (fb_n e) (minus_i64 i 1)%Z).
Definition fb_osum_2 (e : fb_s3) : F := eval_vector_expression (fb_omega e) (fb_osum_at_2 e)
  (fb_maxshift e + fb_n_1 e + 1)%Z.
(** snarks/fibonacci.rs:499-507 summand 3 of [h_osum] *)
Definition fb_osum_at_3 (e : fb_s3) (i : Z) : F := (fb_c_1 e * vidx (fb_w_vec e) (minus_i64 i 2)%Z)
  * (vidx (fb_pk_t_vec e) (minus_i64 i 1)%Z).
Definition fb_osum_3 (e : fb_s3) : F := eval_vector_expression (fb_omega e) (fb_osum_at_3 e)
  (fb_maxshift e + fb_n_1 e + 1)%Z.
(** snarks/fibonacci.rs:508-518 summand 4 of [h_osum] *)
Definition fb_osum_at_4 (e : fb_s3) (i : Z) : F := (- power (fb_alpha e) 2%Z * fb_b e * delta i 2%Z
  + fb_c_4 e * vidx (fb_w_vec e) (minus_i64 i 1)%Z + fb_c_5 e * vidx (fb_r_vec e) (minus_i64 i 1)%Z)
  * (delta i 2%Z).
Definition fb_osum_4 (e : fb_s3) : F := eval_vector_expression (fb_omega e) (fb_osum_at_4 e)
  (fb_maxshift e + fb_n_1 e + 1)%Z.
(** snarks/fibonacci.rs:519-527 summand 5 of [h_osum] *)
Definition fb_osum_at_5 (e : fb_s3) (i : Z) : F := (- power (fb_alpha e) 3%Z * fb_c e * delta i
  (fb_n e) + fb_c_6 e * vidx (fb_w_vec e) (minus_i64 i 1)%Z) * (delta i (fb_n e)).
Definition fb_osum_5 (e : fb_s3) : F := eval_vector_expression (fb_omega e) (fb_osum_at_5 e)
  (fb_maxshift e + fb_n_1 e + 1)%Z.
(** snarks/fibonacci.rs:528-538 summand 6 of [h_osum] *)
Definition fb_osum_at_6 (e : fb_s3) (i : Z) : F := (fb_c_7 e * vidx (fb_w_vec e) (minus_i64 i 1)%Z +
  fb_c_8 e * vidx (fb_r_vec e) (minus_i64 i 1)%Z + fb_c_8 e * vidx (fb_w_vec e) (minus_i64 i 3)%Z)
  * (range_index 1%Z (fb_n e) (minus_i64 i 1)%Z - delta i 2%Z - delta i 1%Z).
Definition fb_osum_6 (e : fb_s3) : F := eval_vector_expression (fb_omega e) (fb_osum_at_6 e)
  (fb_maxshift e + fb_n_1 e + 1)%Z.
(** snarks/fibonacci.rs:539-547 summand 7 of [h_osum] *)
Definition fb_osum_at_7 (e : fb_s3) (i : Z) : F := (- range_index 1%Z (fb_maxshift e + 1)%Z
  (minus_i64 i (fb_n_1 e + 1))%Z) * (vidx (fb_t_vec_1 e) (minus_i64 i (fb_n_1 e))%Z).
Definition fb_osum_7 (e : fb_s3) : F := eval_vector_expression (fb_omega e) (fb_osum_at_7 e)
  (fb_maxshift e + fb_n_1 e + 1)%Z.
(** lines 478-547 [h_osum] *)
Definition fb_h_osum (e : fb_s3) : F := 0 + fb_osum_1 e + fb_osum_2 e + fb_osum_3 e + fb_osum_4 e + fb_osum_5 e + fb_osum_6 e + fb_osum_7 e.
(** snarks/fibonacci.rs:548 the two sides of the assertion *)
Definition fb_assert_8_l (e : fb_s3) : F := fb_h_osum e.
Definition fb_assert_8_r (e : fb_s3) : F := 0.
Definition fb_check_8 (e : fb_s3) : outcome error unit := assert_ (feqb (fb_assert_8_l e) (fb_assert_8_r e)).
(** snarks/fibonacci.rs:549-553 check "sum of hadamards not zero" *)
Definition fb_check_9 (e : fb_s3) : outcome error unit := check_vector_eq_o (fb_sum_vec_7 e) (repeat
  0 (Z.to_nat (fb_n_1 e + 3)%Z)).
(** snarks/fibonacci.rs:554 [c_13] *)
Definition fb_c_13 (e : fb_s3) : F := 1 - power (fb_alpha e) 4%Z.
(** snarks/fibonacci.rs:555 [c_14] *)
Definition fb_c_14 (e : fb_s3) : F := - power (fb_alpha e) 4%Z + power (fb_alpha e) 2%Z.
(** snarks/fibonacci.rs:556 [c_15] *)
Definition fb_c_15 (e : fb_s3) : F := power (fb_alpha e) 4%Z - power (fb_alpha e) 2%Z.
(** snarks/fibonacci.rs:557 [c_16] *)
Definition fb_c_16 (e : fb_s3) : F := - power (fb_alpha e) 4%Z + fb_alpha e.
(** snarks/fibonacci.rs:558-577 [h_vec], entry i (from 1) *)
Definition fb_h_vec_at (e : fb_s3) (i : Z) : F := fb_c_10 e * vidx (fb_v_vec_17 e) (minus_i64 (i
  - fb_maxshift e - fb_n_1 e) (- fb_shiftlength_9 e - 1))%Z + fb_c_12 e * vidx (fb_v_vec_19 e)
  (minus_i64 (i - fb_maxshift e - fb_n_1 e) (- 2))%Z + fb_c_13 e * vidx (fb_v_vec_13 e)
  (minus_i64 (i - fb_maxshift e - fb_n_1 e) (1 - fb_shiftlength_9 e))%Z + fb_c_14 e
  * vidx (fb_v_vec_13 e) (minus_i64 (i - fb_maxshift e - fb_n_1 e) (2 - fb_shiftlength_9 e))%Z +
  fb_c_15 e * vidx (fb_v_vec_15 e) (minus_i64 (i - fb_maxshift e - fb_n_1 e) (2
  - fb_shiftlength_11 e))%Z + fb_c_16 e * vidx (fb_v_vec_18 e) (minus_i64 (i - fb_maxshift e
  - fb_n_1 e) (1 - fb_shiftlength_11 e))%Z + fb_c_2 e * vidx (fb_v_vec_14 e) (minus_i64 (i
  - fb_maxshift e - fb_n_1 e) (1 - fb_shiftlength_10 e))%Z + fb_c_3 e * vidx (fb_v_vec_16 e)
  (minus_i64 (i - fb_maxshift e - fb_n_1 e) (- fb_shiftlength_12 e))%Z + fb_c_6 e
  * vidx (fb_v_vec_13 e) (minus_i64 (i - fb_maxshift e - fb_n_1 e) (fb_n e - fb_shiftlength_9 e))%Z
  + fb_c_7 e * vidx (fb_v_vec_15 e) (minus_i64 (i - fb_maxshift e - fb_n_1 e) (1
  - fb_shiftlength_11 e))%Z + fb_c_7 e * vidx (fb_v_vec_17 e) (minus_i64 (i - fb_maxshift e
  - fb_n_1 e) (1 - fb_shiftlength_9 e))%Z + fb_c_9 e * vidx (fb_v_vec_13 e) (minus_i64 (i
  - fb_maxshift e - fb_n_1 e) (- fb_shiftlength_9 e - 1))%Z + fb_c_9 e * vidx (fb_v_vec_13 e)
  (minus_i64 (i - fb_maxshift e - fb_n_1 e) (- fb_shiftlength_9 e))%Z - delta (i - fb_maxshift e
  - fb_n_1 e)%Z 1%Z * (fb_a e + power (fb_alpha e) 3%Z * fb_c e * power (fb_omega e) (fb_n e - 1)%Z
  + power (fb_alpha e) 2%Z * fb_b e * fb_omega e).
Definition fb_h_vec (e : fb_s3) : list F := expression_vector (fb_h_vec_at e) (2 * fb_maxshift e + 2
  * fb_n_1 e + 1)%Z.
(** snarks/fibonacci.rs:578 check "h is not expected" *)
Definition fb_check_10 (e : fb_s3) : outcome error unit := check_vector_eq_o (fb_h_vec e)
  (fb_hcheck_vec_7 e).
(** snarks/fibonacci.rs:579-598 [h_vec_1], entry i (from 1) *)
Definition fb_h_vec_1_at (e : fb_s3) (i : Z) : F := fb_c_10 e * vidx (fb_v_vec_17 e) (minus_i64 (i
  - fb_maxshift e - fb_n_1 e) (- fb_shiftlength_9 e - 1))%Z + fb_c_12 e * vidx (fb_v_vec_19 e)
  (minus_i64 (i - fb_maxshift e - fb_n_1 e) (- 2))%Z + fb_c_13 e * vidx (fb_v_vec_13 e)
  (minus_i64 (i - fb_maxshift e - fb_n_1 e) (1 - fb_shiftlength_9 e))%Z + fb_c_14 e
  * vidx (fb_v_vec_13 e) (minus_i64 (i - fb_maxshift e - fb_n_1 e) (2 - fb_shiftlength_9 e))%Z +
  fb_c_15 e * vidx (fb_v_vec_15 e) (minus_i64 (i - fb_maxshift e - fb_n_1 e) (2
  - fb_shiftlength_11 e))%Z + fb_c_16 e * vidx (fb_v_vec_18 e) (minus_i64 (i - fb_maxshift e
  - fb_n_1 e) (1 - fb_shiftlength_11 e))%Z + fb_c_2 e * vidx (fb_v_vec_14 e) (minus_i64 (i
  - fb_maxshift e - fb_n_1 e) (1 - fb_shiftlength_10 e))%Z + fb_c_3 e * vidx (fb_v_vec_16 e)
  (minus_i64 (i - fb_maxshift e - fb_n_1 e) (- fb_shiftlength_12 e))%Z + fb_c_6 e
  * vidx (fb_v_vec_13 e) (minus_i64 (i - fb_maxshift e - fb_n_1 e) (fb_n e - fb_shiftlength_9 e))%Z
  + fb_c_7 e * vidx (fb_v_vec_15 e) (minus_i64 (i - fb_maxshift e - fb_n_1 e) (1
  - fb_shiftlength_11 e))%Z + fb_c_7 e * vidx (fb_v_vec_17 e) (minus_i64 (i - fb_maxshift e
  - fb_n_1 e) (1 - fb_shiftlength_9 e))%Z + fb_c_9 e * vidx (fb_v_vec_13 e) (minus_i64 (i
  - fb_maxshift e - fb_n_1 e) (- fb_shiftlength_9 e - 1))%Z + fb_c_9 e * vidx (fb_v_vec_13 e)
  (minus_i64 (i - fb_maxshift e - fb_n_1 e) (- fb_shiftlength_9 e))%Z - delta (i - fb_maxshift e
  - fb_n_1 e)%Z 1%Z * (fb_a e + power (fb_alpha e) 3%Z * fb_c e * power (fb_omega e) (fb_n e - 1)%Z
  + power (fb_alpha e) 2%Z * fb_b e * fb_omega e).
Definition fb_h_vec_1 (e : fb_s3) : list F := expression_vector (fb_h_vec_1_at e) (fb_maxshift e +
  fb_n_1 e)%Z.
(** snarks/fibonacci.rs:599-618 [h_vec_2], entry i (from 1) *)
Definition fb_h_vec_2_at (e : fb_s3) (i : Z) : F := fb_c_10 e * vidx (fb_v_vec_17 e) (minus_i64 (i +
  1) (- fb_shiftlength_9 e - 1))%Z + fb_c_12 e * vidx (fb_v_vec_19 e) (minus_i64 (i + 1) (- 2))%Z +
  fb_c_13 e * vidx (fb_v_vec_13 e) (minus_i64 (i + 1) (1 - fb_shiftlength_9 e))%Z + fb_c_14 e
  * vidx (fb_v_vec_13 e) (minus_i64 (i + 1) (2 - fb_shiftlength_9 e))%Z + fb_c_15 e
  * vidx (fb_v_vec_15 e) (minus_i64 (i + 1) (2 - fb_shiftlength_11 e))%Z + fb_c_16 e
  * vidx (fb_v_vec_18 e) (minus_i64 (i + 1) (1 - fb_shiftlength_11 e))%Z + fb_c_2 e
  * vidx (fb_v_vec_14 e) (minus_i64 (i + 1) (1 - fb_shiftlength_10 e))%Z + fb_c_3 e
  * vidx (fb_v_vec_16 e) (minus_i64 (i + 1) (- fb_shiftlength_12 e))%Z + fb_c_6 e
  * vidx (fb_v_vec_13 e) (minus_i64 (i + 1) (fb_n e - fb_shiftlength_9 e))%Z + fb_c_7 e
  * vidx (fb_v_vec_15 e) (minus_i64 (i + 1) (1 - fb_shiftlength_11 e))%Z + fb_c_7 e
  * vidx (fb_v_vec_17 e) (minus_i64 (i + 1) (1 - fb_shiftlength_9 e))%Z + fb_c_9 e
  * vidx (fb_v_vec_13 e) (minus_i64 (i + 1) (- fb_shiftlength_9 e - 1))%Z + fb_c_9 e
  * vidx (fb_v_vec_13 e) (minus_i64 (i + 1) (- fb_shiftlength_9 e))%Z - delta (i + 1)%Z 1%Z
  * (fb_a e + power (fb_alpha e) 3%Z * fb_c e * power (fb_omega e) (fb_n e - 1)%Z +
  power (fb_alpha e) 2%Z * fb_b e * fb_omega e).
Definition fb_h_vec_2 (e : fb_s3) : list F := expression_vector (fb_h_vec_2_at e) (fb_maxshift e +
  fb_n_1 e)%Z.
(** snarks/fibonacci.rs:619-623 check "h != h1 || 0 || h2" *)
Definition fb_check_11 (e : fb_s3) : outcome error unit := check_vector_eq_o (fb_h_vec e)
  (vector_concat [(fb_h_vec_1 e); [0]; (fb_h_vec_2 e)]).
(** snarks/fibonacci.rs:624-641 the two sides of the assertion *)
Definition fb_assert_12_l (e : fb_s3) : F := fb_c_10 e * vidx (fb_v_vec_17 e) (minus_i64 1
  (- fb_shiftlength_9 e - 1))%Z + fb_c_12 e * vidx (fb_v_vec_19 e) (minus_i64 1 (- 2))%Z + fb_c_13 e
  * vidx (fb_v_vec_13 e) (minus_i64 1 (1 - fb_shiftlength_9 e))%Z + fb_c_14 e * vidx (fb_v_vec_13 e)
  (minus_i64 1 (2 - fb_shiftlength_9 e))%Z + fb_c_15 e * vidx (fb_v_vec_15 e) (minus_i64 1 (2
  - fb_shiftlength_11 e))%Z + fb_c_16 e * vidx (fb_v_vec_18 e) (minus_i64 1 (1
  - fb_shiftlength_11 e))%Z + fb_c_2 e * vidx (fb_v_vec_14 e) (minus_i64 1 (1
  - fb_shiftlength_10 e))%Z + fb_c_3 e * vidx (fb_v_vec_16 e) (minus_i64 1
  (- fb_shiftlength_12 e))%Z + fb_c_6 e * vidx (fb_v_vec_13 e) (minus_i64 1 (fb_n e
  - fb_shiftlength_9 e))%Z + fb_c_7 e * vidx (fb_v_vec_15 e) (minus_i64 1 (1
  - fb_shiftlength_11 e))%Z + fb_c_7 e * vidx (fb_v_vec_17 e) (minus_i64 1 (1
  - fb_shiftlength_9 e))%Z + fb_c_9 e * vidx (fb_v_vec_13 e) (minus_i64 1 (- fb_shiftlength_9 e
  - 1))%Z + fb_c_9 e * vidx (fb_v_vec_13 e) (minus_i64 1 (- fb_shiftlength_9 e))%Z - delta 1%Z 1%Z
  * (fb_a e + power (fb_alpha e) 3%Z * fb_c e * power (fb_omega e) (fb_n e - 1)%Z +
  power (fb_alpha e) 2%Z * fb_b e * fb_omega e).
Definition fb_assert_12_r (e : fb_s3) : F := 0.
Definition fb_check_12 (e : fb_s3) : outcome error unit := assert_ (feqb (fb_assert_12_l e) (fb_assert_12_r e)).

(** *** The evaluation round: lines 654-886 of [prove] and 1016-1040 of [verify].
    [fb_ctx] holds what both sides know after the challenge z. *)
Record fb_ctx := mkFBCtx {
  fb_ctx_pub :> fb_pub; fb_q_alpha : F; fb_q_omega : F; fb_q_z : F; fb_q_y : F; fb_q_y_1 : F; fb_q_y_2 : F }.
(** snarks/fibonacci.rs:654 [y] *)
Definition fb_y (e : fb_s3) (z : F) : F := eval_vector_expression (fb_omega e / z) (fun i =>
  vidx (fb_w_vec e) i) (fb_n_1 e + 1)%Z.
(** snarks/fibonacci.rs:655 [y_1] *)
Definition fb_y_1 (e : fb_s3) (z : F) : F := eval_vector_expression (fb_omega e / z) (fun i =>
  vidx (fb_pk_t_vec e) i) (fb_n_1 e + 1)%Z.
(** snarks/fibonacci.rs:656 [y_2] *)
Definition fb_y_2 (e : fb_s3) (z : F) : F := eval_vector_expression (fb_omega e / z) (fun i =>
  vidx (fb_r_vec e) i) (fb_n_1 e + 1)%Z.
(** snarks/fibonacci.rs:866-878 [c_17] *)
Definition fb_p_c_17 (e : fb_ctx) : F := (power (fb_q_alpha e) 4%Z * (1 * fb_q_y_2 e
  * power (fb_q_z e) 2%Z + fb_q_y e * (power (fb_q_omega e) 2%Z - 1 * power (fb_q_z e) 2%Z)) * (1
  * (1 - fb_q_z e) - 1 * (1 - power (fb_q_z e) (fb_n e)) + fb_q_z e * (1 - fb_q_z e)) + fb_q_alpha e
  * power 1 2%Z * fb_q_y_2 e * power (fb_q_z e) 2%Z * (1 - power (fb_q_z e) (fb_n e)) +
  power (fb_q_z e) 2%Z * (1 - fb_q_z e) * (power (fb_q_alpha e) 3%Z * power (fb_q_z e) (fb_n e
  - 1)%Z * (- fb_c e * power (fb_q_omega e / fb_q_z e) (fb_n e - 1)%Z + 1 * fb_q_y e) +
  power (fb_q_alpha e) 2%Z * (- fb_b e * fb_q_omega e + 1 * fb_q_z e * (fb_q_y e - fb_q_y_2 e)) +
  power 1 2%Z * (- fb_a e - fb_b e * fb_q_y_1 e + fb_q_y e))) / (power (fb_q_z e) 2%Z * (1
  - fb_q_z e)).
(** snarks/fibonacci.rs:879 [c_20] *)
Definition fb_p_c_20 (e : fb_ctx) : F := - fb_q_alpha e * fb_q_omega e * 1 * fb_q_y e / fb_q_z e.
(** snarks/fibonacci.rs:880-884 [c_23] *)
Definition fb_p_c_23 (e : fb_ctx) : F := power (fb_q_z e) (fb_n_1 e - 3)%Z * power (fb_q_omega e
  / fb_q_z e) (fb_n e) * (- power (fb_q_omega e) 3%Z + 1 * power (fb_q_z e) 3%Z) / (fb_q_omega e - 1
  * fb_q_z e).
(** snarks/fibonacci.rs:885 [c_24] *)
Definition fb_p_c_24 (e : fb_ctx) : F := - power (fb_q_z e) (- fb_cap_d e)%Z.
(** snarks/fibonacci.rs:886 [c_25] *)
Definition fb_p_c_25 (e : fb_ctx) : F := - fb_q_z e.

(** the same bindings in [verify] *)
(** snarks/fibonacci.rs:1015-1027 [c_17] *)
Definition fb_v_c_17 (e : fb_ctx) : F := (power (fb_q_alpha e) 4%Z * (1 * fb_q_y_2 e
  * power (fb_q_z e) 2%Z + fb_q_y e * (power (fb_q_omega e) 2%Z - 1 * power (fb_q_z e) 2%Z)) * (1
  * (1 - fb_q_z e) - 1 * (1 - power (fb_q_z e) (fb_n e)) + fb_q_z e * (1 - fb_q_z e)) + fb_q_alpha e
  * power 1 2%Z * fb_q_y_2 e * power (fb_q_z e) 2%Z * (1 - power (fb_q_z e) (fb_n e)) +
  power (fb_q_z e) 2%Z * (1 - fb_q_z e) * (power (fb_q_alpha e) 3%Z * power (fb_q_z e) (fb_n e
  - 1)%Z * (- fb_c e * power (fb_q_omega e / fb_q_z e) (fb_n e - 1)%Z + 1 * fb_q_y e) +
  power (fb_q_alpha e) 2%Z * (- fb_b e * fb_q_omega e + 1 * fb_q_z e * (fb_q_y e - fb_q_y_2 e)) +
  power 1 2%Z * (- fb_a e - fb_b e * fb_q_y_1 e + fb_q_y e))) / (power (fb_q_z e) 2%Z * (1
  - fb_q_z e)).
(** snarks/fibonacci.rs:1028 [c_20] *)
Definition fb_v_c_20 (e : fb_ctx) : F := - fb_q_alpha e * fb_q_omega e * 1 * fb_q_y e / fb_q_z e.
(** snarks/fibonacci.rs:1029-1033 [c_23] *)
Definition fb_v_c_23 (e : fb_ctx) : F := power (fb_q_z e) (fb_n_1 e - 3)%Z * power (fb_q_omega e
  / fb_q_z e) (fb_n e) * (- power (fb_q_omega e) 3%Z + 1 * power (fb_q_z e) 3%Z) / (fb_q_omega e - 1
  * fb_q_z e).
(** snarks/fibonacci.rs:1034 [c_24] *)
Definition fb_v_c_24 (e : fb_ctx) : F := - power (fb_q_z e) (- fb_cap_d e)%Z.
(** snarks/fibonacci.rs:1035 [c_25] *)
Definition fb_v_c_25 (e : fb_ctx) : F := - fb_q_z e.

(** *** Assertions of the prover on the evaluations (lines 657-865) *)
(** snarks/fibonacci.rs:657 [naive_vec_g] *)
Definition fb_naive_vec_g_0 (e : fb_s3) (q : fb_ctx) : list F := repeat 0 (Z.to_nat (fb_cap_d e)).
(** snarks/fibonacci.rs:658-668 the two sides of the assertion *)
Definition fb_assert_13_l (e : fb_s3) (q : fb_ctx) : F := 1 * (- fb_a e - fb_b e * fb_q_y_1 q +
  fb_q_y q).
Definition fb_assert_13_r (e : fb_s3) (q : fb_ctx) : F := eval_vector_expression (fb_omega e
  / fb_q_z q) (fun i => - fb_a e * delta i 1%Z + fb_c_2 e * vidx (fb_pk_t_vec e) (minus_i64 i 1)%Z +
  vidx (fb_w_vec e) (minus_i64 i 1)%Z) (fb_maxshift e + fb_n_1 e + 1)%Z.
Definition fb_check_13 (e : fb_s3) (q : fb_ctx) : outcome error unit := assert_ (feqb (fb_assert_13_l e q) (fb_assert_13_r e q)).
(** snarks/fibonacci.rs:669 [naive_vec_g], addition 1: entry i *)
Definition fb_naive_vec_g_add_1 (e : fb_s3) (q : fb_ctx) (i : Z) : F := 1 * delta i 1%Z * (- fb_a e
  - fb_b e * fb_q_y_1 q + fb_q_y q).
Definition fb_naive_vec_g_1 (e : fb_s3) (q : fb_ctx) : list F := add_expression_vector_to_vector
  (fb_naive_vec_g_0 e q) (fb_naive_vec_g_add_1 e q).
(** snarks/fibonacci.rs:670-678 the two sides of the assertion *)
Definition fb_assert_14_l (e : fb_s3) (q : fb_ctx) : F := fb_alpha e * 1 * fb_q_y_2 q.
Definition fb_assert_14_r (e : fb_s3) (q : fb_ctx) : F := eval_vector_expression (fb_omega e
  / fb_q_z q) (fun i => fb_alpha e * vidx (fb_r_vec e) (minus_i64 i 1)%Z) (fb_maxshift e + fb_n_1 e
  + 1)%Z.
Definition fb_check_14 (e : fb_s3) (q : fb_ctx) : outcome error unit := assert_ (feqb (fb_assert_14_l e q) (fb_assert_14_r e q)).
(** snarks/fibonacci.rs:679 [c_18] *)
Definition fb_c_18 (e : fb_s3) (q : fb_ctx) : F := fb_alpha e * 1 * fb_q_y_2 q.
(** snarks/fibonacci.rs:680 [naive_vec_g], addition 2: entry i *)
Definition fb_naive_vec_g_add_2 (e : fb_s3) (q : fb_ctx) (i : Z) : F := fb_c_18 e q
  * range_index 1%Z (fb_n e) (minus_i64 i 1)%Z.
Definition fb_naive_vec_g_2 (e : fb_s3) (q : fb_ctx) : list F := add_expression_vector_to_vector
  (fb_naive_vec_g_1 e q) (fb_naive_vec_g_add_2 e q).
(** snarks/fibonacci.rs:681-689 the two sides of the assertion *)
Definition fb_assert_15_l (e : fb_s3) (q : fb_ctx) : F := - fb_alpha e * fb_omega e * fb_q_y q
  / fb_q_z q.
Definition fb_assert_15_r (e : fb_s3) (q : fb_ctx) : F := eval_vector_expression (fb_omega e
  / fb_q_z q) (fun i => fb_c_1 e * vidx (fb_w_vec e) (minus_i64 i 2)%Z) (fb_maxshift e + fb_n_1 e +
  1)%Z.
Definition fb_check_15 (e : fb_s3) (q : fb_ctx) : outcome error unit := assert_ (feqb (fb_assert_15_l e q) (fb_assert_15_r e q)).
(** snarks/fibonacci.rs:690 [c_19] *)
Definition fb_c_19 (e : fb_s3) (q : fb_ctx) : F := - fb_alpha e * fb_omega e * fb_q_y q / fb_q_z q.
(** snarks/fibonacci.rs:691-695 [naive_vec_g], addition 3: entry i *)
Definition fb_naive_vec_g_add_3 (e : fb_s3) (q : fb_ctx) (i : Z) : F := fb_c_19 e q
  * vidx (fb_pk_t_vec e) (minus_i64 i 1)%Z.
Definition fb_naive_vec_g_3 (e : fb_s3) (q : fb_ctx) : list F := add_expression_vector_to_vector
  (fb_naive_vec_g_2 e q) (fb_naive_vec_g_add_3 e q).
(** snarks/fibonacci.rs:696-706 the two sides of the assertion *)
Definition fb_assert_16_l (e : fb_s3) (q : fb_ctx) : F := power (fb_alpha e) 2%Z * (- fb_b e
  * fb_omega e + 1 * fb_q_z q * (fb_q_y q - fb_q_y_2 q)) / fb_q_z q.
Definition fb_assert_16_r (e : fb_s3) (q : fb_ctx) : F := eval_vector_expression (fb_omega e
  / fb_q_z q) (fun i => - power (fb_alpha e) 2%Z * fb_b e * delta i 2%Z + fb_c_4 e
  * vidx (fb_w_vec e) (minus_i64 i 1)%Z + fb_c_5 e * vidx (fb_r_vec e) (minus_i64 i 1)%Z)
  (fb_maxshift e + fb_n_1 e + 1)%Z.
Definition fb_check_16 (e : fb_s3) (q : fb_ctx) : outcome error unit := assert_ (feqb (fb_assert_16_l e q) (fb_assert_16_r e q)).
(** snarks/fibonacci.rs:707-711 [naive_vec_g], addition 4: entry i *)
Definition fb_naive_vec_g_add_4 (e : fb_s3) (q : fb_ctx) (i : Z) : F := - power (fb_alpha e) 2%Z
  * delta i 2%Z * (fb_b e * fb_omega e - 1 * fb_q_z q * (fb_q_y q - fb_q_y_2 q)) / fb_q_z q.
Definition fb_naive_vec_g_4 (e : fb_s3) (q : fb_ctx) : list F := add_expression_vector_to_vector
  (fb_naive_vec_g_3 e q) (fb_naive_vec_g_add_4 e q).
(** snarks/fibonacci.rs:712-720 the two sides of the assertion *)
Definition fb_assert_17_l (e : fb_s3) (q : fb_ctx) : F := power (fb_alpha e) 3%Z * (- fb_c e
  * power (fb_omega e / fb_q_z q) (fb_n e - 1)%Z + 1 * fb_q_y q).
Definition fb_assert_17_r (e : fb_s3) (q : fb_ctx) : F := eval_vector_expression (fb_omega e
  / fb_q_z q) (fun i => - power (fb_alpha e) 3%Z * fb_c e * delta i (fb_n e) + fb_c_6 e
  * vidx (fb_w_vec e) (minus_i64 i 1)%Z) (fb_maxshift e + fb_n_1 e + 1)%Z.
Definition fb_check_17 (e : fb_s3) (q : fb_ctx) : outcome error unit := assert_ (feqb (fb_assert_17_l e q) (fb_assert_17_r e q)).
(** snarks/fibonacci.rs:721-725 [naive_vec_g], addition 5: entry i *)
Definition fb_naive_vec_g_add_5 (e : fb_s3) (q : fb_ctx) (i : Z) : F := - power (fb_alpha e) 3%Z
  * delta i (fb_n e) * (fb_c e * power (fb_omega e / fb_q_z q) (fb_n e - 1)%Z - 1 * fb_q_y q).
Definition fb_naive_vec_g_5 (e : fb_s3) (q : fb_ctx) : list F := add_expression_vector_to_vector
  (fb_naive_vec_g_4 e q) (fb_naive_vec_g_add_5 e q).
(** snarks/fibonacci.rs:726-738 the two sides of the assertion *)
Definition fb_assert_18_l (e : fb_s3) (q : fb_ctx) : F := power (fb_alpha e) 4%Z * (- (1)
  * fb_q_y_2 q * power (fb_q_z q) 2%Z - fb_q_y q * (power (fb_omega e) 2%Z - 1 * power (fb_q_z q)
  2%Z)) / power (fb_q_z q) 2%Z.
Definition fb_assert_18_r (e : fb_s3) (q : fb_ctx) : F := eval_vector_expression (fb_omega e
  / fb_q_z q) (fun i => fb_c_7 e * vidx (fb_w_vec e) (minus_i64 i 1)%Z + fb_c_8 e
  * vidx (fb_r_vec e) (minus_i64 i 1)%Z + fb_c_8 e * vidx (fb_w_vec e) (minus_i64 i 3)%Z)
  (fb_maxshift e + fb_n_1 e + 1)%Z.
Definition fb_check_18 (e : fb_s3) (q : fb_ctx) : outcome error unit := assert_ (feqb (fb_assert_18_l e q) (fb_assert_18_r e q)).
(** snarks/fibonacci.rs:739-744 [c_21] *)
Definition fb_c_21 (e : fb_s3) (q : fb_ctx) : F := power (fb_alpha e) 4%Z * (- (1) * fb_q_y_2 q
  * power (fb_q_z q) 2%Z - fb_q_y q * (power (fb_omega e) 2%Z - 1 * power (fb_q_z q) 2%Z))
  / power (fb_q_z q) 2%Z.
(** snarks/fibonacci.rs:745-756 [naive_vec_g], addition 6: entry i *)
Definition fb_naive_vec_g_add_6 (e : fb_s3) (q : fb_ctx) (i : Z) : F := (power (fb_alpha e) 4%Z
  * delta i 2%Z * (1 * fb_q_y_2 q * power (fb_q_z q) 2%Z + fb_q_y q * (power (fb_omega e) 2%Z - 1
  * power (fb_q_z q) 2%Z)) + power (fb_alpha e) 4%Z * delta i 1%Z * (1 * fb_q_y_2 q
  * power (fb_q_z q) 2%Z + fb_q_y q * (power (fb_omega e) 2%Z - 1 * power (fb_q_z q) 2%Z)) +
  fb_c_21 e q * range_index 1%Z (fb_n e) (minus_i64 i 1)%Z * power (fb_q_z q) 2%Z)
  / power (fb_q_z q) 2%Z.
Definition fb_naive_vec_g_6 (e : fb_s3) (q : fb_ctx) : list F := add_expression_vector_to_vector
  (fb_naive_vec_g_5 e q) (fb_naive_vec_g_add_6 e q).
(** snarks/fibonacci.rs:757-766 the two sides of the assertion *)
Definition fb_assert_19_l (e : fb_s3) (q : fb_ctx) : F := power (fb_omega e / fb_q_z q) (fb_n e)
  * (- power (fb_omega e) 3%Z + 1 * power (fb_q_z q) 3%Z) / (power (fb_q_z q) 2%Z * (fb_omega e - 1
  * fb_q_z q)).
Definition fb_assert_19_r (e : fb_s3) (q : fb_ctx) : F := eval_vector_expression (fb_omega e
  / fb_q_z q) (fun i => - range_index 1%Z (fb_maxshift e + 1)%Z (minus_i64 i (fb_n_1 e + 1))%Z)
  (fb_maxshift e + fb_n_1 e + 1)%Z.
Definition fb_check_19 (e : fb_s3) (q : fb_ctx) : outcome error unit := assert_ (feqb (fb_assert_19_l e q) (fb_assert_19_r e q)).
(** snarks/fibonacci.rs:767-771 [c_22] *)
Definition fb_c_22 (e : fb_s3) (q : fb_ctx) : F := power (fb_omega e / fb_q_z q) (fb_n e)
  * (- power (fb_omega e) 3%Z + 1 * power (fb_q_z q) 3%Z) / (power (fb_q_z q) 2%Z * (fb_omega e - 1
  * fb_q_z q)).
(** snarks/fibonacci.rs:772-776 [naive_vec_g], addition 7: entry i *)
Definition fb_naive_vec_g_add_7 (e : fb_s3) (q : fb_ctx) (i : Z) : F := fb_c_22 e q
  * vidx (fb_t_vec_1 e) (minus_i64 i (fb_n_1 e))%Z.
Definition fb_naive_vec_g_7 (e : fb_s3) (q : fb_ctx) : list F := add_expression_vector_to_vector
  (fb_naive_vec_g_6 e q) (fb_naive_vec_g_add_7 e q).
(** snarks/fibonacci.rs:777-784 [naive_vec_g], addition 8: entry i *)
Definition fb_naive_vec_g_add_8 (e : fb_s3) (q : fb_ctx) (i : Z) : F := (vidx (fb_h_vec_1 e)
  (minus_i64 i (fb_cap_d e - fb_maxshift e - fb_n_1 e + 1))%Z) * (- power (fb_q_z q)
  (- fb_cap_d e)%Z).
Definition fb_naive_vec_g_8 (e : fb_s3) (q : fb_ctx) : list F := add_expression_vector_to_vector
  (fb_naive_vec_g_7 e q) (fb_naive_vec_g_add_8 e q).
(** snarks/fibonacci.rs:785 [naive_vec_g], addition 9: entry i *)
Definition fb_naive_vec_g_add_9 (e : fb_s3) (q : fb_ctx) (i : Z) : F := (vidx (fb_h_vec_2 e) i)
  * (- fb_q_z q).
Definition fb_naive_vec_g_9 (e : fb_s3) (q : fb_ctx) : list F := add_expression_vector_to_vector
  (fb_naive_vec_g_8 e q) (fb_naive_vec_g_add_9 e q).
(** snarks/fibonacci.rs:786-865 the two sides of the assertion *)
Definition fb_assert_20_l (e : fb_s3) (q : fb_ctx) : F := linear_combination 0
  [((eval_vector_expression (fb_omega e / fb_q_z q) (fun i => - fb_a e * delta i 1%Z + fb_c_2 e
  * vidx (fb_pk_t_vec e) (minus_i64 i 1)%Z + vidx (fb_w_vec e) (minus_i64 i 1)%Z) (fb_maxshift e +
  fb_n_1 e + 1)%Z), (eval_vector_expression (fb_q_z q) (fun i => delta i 1%Z) (fb_maxshift e +
  fb_n_1 e + 1)%Z)); ((eval_vector_expression (fb_omega e / fb_q_z q) (fun i => fb_alpha e
  * vidx (fb_r_vec e) (minus_i64 i 1)%Z) (fb_maxshift e + fb_n_1 e + 1)%Z), (eval_vector_expression
  (fb_q_z q) (fun i => range_index 1%Z (fb_n e) (minus_i64 i 1)%Z) (fb_maxshift e + fb_n_1 e +
  1)%Z)); ((eval_vector_expression (fb_omega e / fb_q_z q) (fun i => fb_c_1 e * vidx (fb_w_vec e)
  (minus_i64 i 2)%Z) (fb_maxshift e + fb_n_1 e + 1)%Z), (eval_vector_expression (fb_q_z q) (fun i =>
  vidx (fb_pk_t_vec e) (minus_i64 i 1)%Z) (fb_maxshift e + fb_n_1 e + 1)%Z));
  ((eval_vector_expression (fb_omega e / fb_q_z q) (fun i => - power (fb_alpha e) 2%Z * fb_b e
  * delta i 2%Z + fb_c_4 e * vidx (fb_w_vec e) (minus_i64 i 1)%Z + fb_c_5 e * vidx (fb_r_vec e)
  (minus_i64 i 1)%Z) (fb_maxshift e + fb_n_1 e + 1)%Z), (eval_vector_expression (fb_q_z q) (fun i =>
  delta i 2%Z) (fb_maxshift e + fb_n_1 e + 1)%Z)); ((eval_vector_expression (fb_omega e / fb_q_z q)
  (fun i => - power (fb_alpha e) 3%Z * fb_c e * delta i (fb_n e) + fb_c_6 e * vidx (fb_w_vec e)
  (minus_i64 i 1)%Z) (fb_maxshift e + fb_n_1 e + 1)%Z), (eval_vector_expression (fb_q_z q) (fun i =>
  delta i (fb_n e)) (fb_maxshift e + fb_n_1 e + 1)%Z)); ((eval_vector_expression (fb_omega e
  / fb_q_z q) (fun i => fb_c_7 e * vidx (fb_w_vec e) (minus_i64 i 1)%Z + fb_c_8 e
  * vidx (fb_r_vec e) (minus_i64 i 1)%Z + fb_c_8 e * vidx (fb_w_vec e) (minus_i64 i 3)%Z)
  (fb_maxshift e + fb_n_1 e + 1)%Z), (eval_vector_expression (fb_q_z q) (fun i => range_index 1%Z
  (fb_n e) (minus_i64 i 1)%Z - delta i 2%Z - delta i 1%Z) (fb_maxshift e + fb_n_1 e + 1)%Z));
  ((eval_vector_expression (fb_omega e / fb_q_z q) (fun i => - range_index 1%Z (fb_maxshift e + 1)%Z
  (minus_i64 i (fb_n_1 e + 1))%Z) (fb_maxshift e + fb_n_1 e + 1)%Z), (eval_vector_expression
  (fb_q_z q) (fun i => vidx (fb_t_vec_1 e) (minus_i64 i (fb_n_1 e))%Z) (fb_maxshift e + fb_n_1 e +
  1)%Z))].
Definition fb_assert_20_r (e : fb_s3) (q : fb_ctx) : F := (eval_vector_as_poly (fb_h_vec e)
  (fb_q_z q)) * (power (fb_q_z q) (- fb_maxshift e - fb_n_1 e)%Z).
Definition fb_check_20 (e : fb_s3) (q : fb_ctx) : outcome error unit := assert_ (feqb (fb_assert_20_l e q) (fb_assert_20_r e q)).
(** snarks/fibonacci.rs:887-903 [g_vec], entry i before the addition of line 904 *)
Definition fb_g_at (e : fb_s3) (q : fb_ctx) (i : Z) : F := linear_combination 0 [((fb_p_c_20 q),
  (vidx (fb_pk_t_vec e) i)); ((fb_p_c_23 q), (vidx (fb_t_vec_1 e) i)); ((fb_p_c_24 q),
  (vidx (fb_h_vec_1 e) (- fb_cap_d e + i + fb_maxshift e + fb_n_1 e)%Z)); ((fb_p_c_25 q),
  (vidx (fb_h_vec_2 e) i))].
Definition fb_g_vec (e : fb_s3) (q : fb_ctx) : outcome error (list F) := add_to_first_item
  (expression_vector (fb_g_at e q) (fb_cap_d e)) (fb_p_c_17 q).

(** the checks of lines 208-641, in order *)
Definition fb_checks_1 (e : fb_s3) : outcome error unit :=
  let! _ := fb_check_1 e in
  let! _ := fb_check_2 e in
  let! _ := fb_check_3 e in
  let! _ := fb_check_4 e in
  let! _ := fb_check_5 e in
  let! _ := fb_check_6 e in
  let! _ := fb_check_7 e in
  let! _ := fb_check_8 e in
  let! _ := fb_check_9 e in
  let! _ := fb_check_10 e in
  let! _ := fb_check_11 e in
  let! _ := fb_check_12 e in
  Ok tt.
(** divisors and assertions of lines 654-865, in order; [power(z, -cap_d)] does not divide *)
Definition fb_checks_2 (e : fb_s3) (q : fb_ctx) : outcome error unit :=
  let! _ := nonzero (fb_q_z q) in
  let! _ := fb_check_13 e q in
  let! _ := fb_check_14 e q in
  let! _ := fb_check_15 e q in
  let! _ := fb_check_16 e q in
  let! _ := fb_check_17 e q in
  let! _ := fb_check_18 e q in
  let! _ := nonzero (power (fb_q_z q) 2 * (fb_q_omega q - 1 * fb_q_z q)) in
  let! _ := fb_check_19 e q in
  let! _ := fb_check_20 e q in
  Ok tt.
(** divisors of c_17, c_20, c_23 in evaluation order (lines 866-884, 1016-1037): the verifier
    divides omega by z first *)
Definition fb_divisors (q : fb_ctx) : outcome error unit :=
  let! _ := nonzero (fb_q_z q) in
  let! _ := nonzero (power (fb_q_z q) 2 * (1 - fb_q_z q)) in
  nonzero (fb_q_omega q - 1 * fb_q_z q).
(** *** Keys, proofs, transcripts *)
(** lines 12-18 *)
Record fb_vk := mkFBVK { fb_vk_cm_t_vec : G1; fb_vk_kzg_vk : verifier_key G1 G2; fb_vk_size : nat; fb_vk_degree_bound : nat }.
(** lines 4-10 *)
Record fb_pk := mkFBPK { fb_pk_verifier_key : fb_vk; fb_pk_powers : list G1; fb_pk_max_degree : nat; fb_pk_t : list F }.
(** lines 20-32 *)
Record fb_proof := mkFBProof {
  fb_cm_w_vec : G1; fb_cm_r_vec : G1; fb_cm_t_vec_1 : G1; fb_cm_h_vec_1 : G1; fb_cm_h_vec_2 : G1;
  fb_pf_y : F; fb_pf_y_1 : F; fb_pf_y_2 : F; fb_cap_w : G1; fb_cap_w_1 : G1 }.

Variable H : list (item F G1) -> F.
(** snarks/fibonacci.rs:145 challenge [alpha] of prove *)
Definition fb_p_ch_alpha (vk : fb_vk) (cm_w_vec cm_r_vec : G1) : F := H [IF 1; IG (fb_vk_cm_t_vec
  vk); IG cm_w_vec; IG cm_r_vec].
(** snarks/fibonacci.rs:160-167 challenge [omega] of prove *)
Definition fb_p_ch_omega (vk : fb_vk) (cm_w_vec cm_r_vec cm_t_vec_1 : G1) : F := H [IF 1; IG
  (fb_vk_cm_t_vec vk); IG cm_w_vec; IG cm_r_vec; IG cm_t_vec_1].
(** snarks/fibonacci.rs:644-653 challenge [z] of prove *)
Definition fb_p_ch_z (vk : fb_vk) (cm_w_vec cm_r_vec cm_t_vec_1 cm_h_vec_1 cm_h_vec_2 : G1) : F := H
  [IF 1; IG (fb_vk_cm_t_vec vk); IG cm_w_vec; IG cm_r_vec; IG cm_t_vec_1; IG cm_h_vec_1; IG
  cm_h_vec_2].
(** snarks/fibonacci.rs:933-948 challenge [rand_xi] of prove *)
Definition fb_p_ch_rand_xi (vk : fb_vk) (cm_w_vec cm_r_vec cm_t_vec_1 cm_h_vec_1 cm_h_vec_2 cm_g :
  G1) (omega y y_1 y_2 z : F) : F := H [IF 1; IG (fb_vk_cm_t_vec vk); IG cm_w_vec; IG cm_r_vec; IG
  cm_t_vec_1; IG cm_h_vec_1; IG cm_h_vec_2; IG cm_g; IF (omega / z); IF y; IF y_1; IF y_2; IF z].
(** snarks/fibonacci.rs:949-964 challenge [rand_xi_2] of prove *)
Definition fb_p_ch_rand_xi_2 (vk : fb_vk) (cm_w_vec cm_r_vec cm_t_vec_1 cm_h_vec_1 cm_h_vec_2 cm_g :
  G1) (omega y y_1 y_2 z : F) : F := H [IF (1 + 1); IG (fb_vk_cm_t_vec vk); IG cm_w_vec; IG
  cm_r_vec; IG cm_t_vec_1; IG cm_h_vec_1; IG cm_h_vec_2; IG cm_g; IF (omega / z); IF y; IF y_1; IF
  y_2; IF z].
(** snarks/fibonacci.rs:1003 challenge [alpha] of verify *)
Definition fb_v_ch_alpha (vk : fb_vk) (cm_w_vec cm_r_vec : G1) : F := H [IF 1; IG (fb_vk_cm_t_vec
  vk); IG cm_w_vec; IG cm_r_vec].
(** snarks/fibonacci.rs:1004 challenge [omega] of verify *)
Definition fb_v_ch_omega (vk : fb_vk) (cm_w_vec cm_r_vec cm_t_vec_1 : G1) : F := H [IF 1; IG
  (fb_vk_cm_t_vec vk); IG cm_w_vec; IG cm_r_vec; IG cm_t_vec_1].
(** snarks/fibonacci.rs:1005-1014 challenge [z] of verify *)
Definition fb_v_ch_z (vk : fb_vk) (cm_w_vec cm_r_vec cm_t_vec_1 cm_h_vec_1 cm_h_vec_2 : G1) : F := H
  [IF 1; IG (fb_vk_cm_t_vec vk); IG cm_w_vec; IG cm_r_vec; IG cm_t_vec_1; IG cm_h_vec_1; IG
  cm_h_vec_2].
(** snarks/fibonacci.rs:1051-1066 challenge [rand_xi] of verify *)
Definition fb_v_ch_rand_xi (vk : fb_vk) (cm_w_vec cm_r_vec cm_t_vec_1 cm_h_vec_1 cm_h_vec_2 cm_g :
  G1) (omega y y_1 y_2 z : F) : F := H [IF 1; IG (fb_vk_cm_t_vec vk); IG cm_w_vec; IG cm_r_vec; IG
  cm_t_vec_1; IG cm_h_vec_1; IG cm_h_vec_2; IG cm_g; IF (omega / z); IF y; IF y_1; IF y_2; IF z].
(** snarks/fibonacci.rs:1067-1082 challenge [rand_xi_2] of verify *)
Definition fb_v_ch_rand_xi_2 (vk : fb_vk) (cm_w_vec cm_r_vec cm_t_vec_1 cm_h_vec_1 cm_h_vec_2 cm_g :
  G1) (omega y y_1 y_2 z : F) : F := H [IF (1 + 1); IG (fb_vk_cm_t_vec vk); IG cm_w_vec; IG
  cm_r_vec; IG cm_t_vec_1; IG cm_h_vec_1; IG cm_h_vec_2; IG cm_g; IF (omega / z); IF y; IF y_1; IF
  y_2; IF z].
(** snarks/fibonacci.rs:905-917 [cm_g] *)
Definition fb_p_cm_g (vk : fb_vk) (q : fb_ctx) (cm_w_vec cm_r_vec cm_t_vec_1 cm_h_vec_1 cm_h_vec_2 :
  G1) : G1 := commitment_linear_combination (vk_g (fb_vk_kzg_vk vk)) (fb_p_c_17 q) [((fb_vk_cm_t_vec
  vk), (fb_p_c_20 q)); (cm_t_vec_1, (fb_p_c_23 q)); (cm_h_vec_1, (fb_p_c_24 q)); (cm_h_vec_2,
  (fb_p_c_25 q))].
(** snarks/fibonacci.rs:1036-1048 [cm_g] *)
Definition fb_v_cm_g (vk : fb_vk) (q : fb_ctx) (cm_w_vec cm_r_vec cm_t_vec_1 cm_h_vec_1 cm_h_vec_2 :
  G1) : G1 := commitment_linear_combination (vk_g (fb_vk_kzg_vk vk)) (fb_v_c_17 q) [((fb_vk_cm_t_vec
  vk), (fb_v_c_20 q)); (cm_t_vec_1, (fb_v_c_23 q)); (cm_h_vec_1, (fb_v_c_24 q)); (cm_h_vec_2,
  (fb_v_c_25 q))].

(** lines 42-46 [get_max_degree] *)
Definition fb_get_max_degree (n : nat) : nat := (n + 2)%nat.

(** lines 58-61 [setup]: KZG setup with the sampled trapdoor and generators *)
Definition fb_setup (size : nat) (beta : F) (g : G1) (h : G2) := setup size beta g h.

(** lines 63-105 [index] *)
Definition fb_index (pp : universal_params G1 G2) (cs : fib_cs) : outcome error (fb_pk * fb_vk) :=
  let max_degree := fb_get_max_degree (fib_n cs) in
  let cap_d := length (up_powers_of_g pp) in
  let! _ := assert_ (max_degree <? cap_d)%nat in
  let powers_of_g := up_powers_of_g pp in
  let t_vec := fib_t cs in
  let! cm_t_vec := commit_vector powers_of_g t_vec (Z.of_nat (fib_n cs)) in
  let! kvk := kzg_vk pp in
  let vk := mkFBVK cm_t_vec kvk (fib_n cs) cap_d in
  Ok (mkFBPK vk powers_of_g max_degree t_vec, vk).

(** lines 107-119 of [prove], 983-1002 of [verify] *)
Definition fb_pub_of (vk : fb_vk) (x : fib_instance) : fb_pub :=
  mkFBPub (Z.of_nat (fb_vk_size vk)) (Z.of_nat (fb_vk_degree_bound vk)) (fib_a x) (fib_b x) (fib_c x).

(** lines 120-143: witness vectors and their commitments *)
Definition fb_round1 (pk : fb_pk) (x : fib_instance) (w : list F) (delta_vec delta_vec_1 : list F)
  : outcome error (fb_s1 * (G1 * G1)) :=
  let e := fb_pub_of (fb_pk_verifier_key pk) x in
  let! w_vec := zero_pad_and_concat w (Z.to_nat (fb_n_1 e)) [delta_vec] in
  let! cm_w_vec := commit_vector (fb_pk_powers pk) w_vec (fb_n_1 e + 1)%Z in
  let r := map (fun ab => fst ab * snd ab) (combine (firstn (Z.to_nat (fb_n e)) ([0] ++ w_vec)) (fb_pk_t pk)) in
  let! r_vec := zero_pad_and_concat r (Z.to_nat (fb_n_1 e)) [delta_vec_1] in
  let! cm_r_vec := commit_vector (fb_pk_powers pk) r_vec (fb_n_1 e + 1)%Z in
  Ok (mkFBS1 e (fb_pk_t pk) w_vec r_vec, (cm_w_vec, cm_r_vec)).

(** lines 147-159 *)
Definition fb_round2 (pk : fb_pk) (e : fb_s2) (delta_vec_2 : list F) : outcome error (list F * G1) :=
  let t_vec_1 := vector_concat [delta_vec_2; fb_t_vec_1_tail e] in
  let! cm_t_vec_1 := commit_vector (fb_pk_powers pk) t_vec_1 (fb_maxshift e + 2)%Z in
  Ok (t_vec_1, cm_t_vec_1).

(** lines 168-643 *)
Definition fb_round3 (pk : fb_pk) (e : fb_s3) : outcome error (G1 * G1) :=
  let! _ := fb_checks_1 e in
  let! cm_h_vec_1 := commit_vector (fb_pk_powers pk) (fb_h_vec_1 e) (fb_cap_d e) in
  let! cm_h_vec_2 := commit_vector (fb_pk_powers pk) (fb_h_vec_2 e) (fb_maxshift e + fb_n_1 e)%Z in
  Ok (cm_h_vec_1, cm_h_vec_2).

(** the values known after the challenge z (lines 654-656) *)
Definition fb_ctx_of (e : fb_s3) (z : F) : fb_ctx :=
  mkFBCtx e (fb_alpha e) (fb_omega e) z (fb_y e z) (fb_y_1 e z) (fb_y_2 e z).

(** lines 654-930: the combined polynomial; its commitment is compared with the linear combination
    of the commitments, and it is checked to vanish at z *)
Definition fb_round4 (pk : fb_pk) (e : fb_s3) (z : F) (cm_w_vec cm_r_vec cm_t_vec_1 cm_h_vec_1 cm_h_vec_2 : G1)
  : outcome error (fb_ctx * list F * G1) :=
  let q := fb_ctx_of e z in
  let! _ := fb_checks_2 e q in
  let! _ := fb_divisors q in
  let! g_vec := fb_g_vec e q in
  let cm_g := fb_p_cm_g (fb_pk_verifier_key pk) q cm_w_vec cm_r_vec cm_t_vec_1 cm_h_vec_1 cm_h_vec_2 in
  let! c := commit_vector (fb_pk_powers pk) g_vec (fb_cap_d e) in
  let! _ := assert_ (veqb cm_g c) in
  let! _ := check_poly_eval (strip (fb_naive_vec_g_9 e q)) z 0 in
  let! _ := check_poly_eval (strip g_vec) z 0 in
  Ok (q, g_vec, cm_g).

(** lines 106-981 [prove]; the three randomizer vectors are sampled with one element each *)
Definition fb_prove (pk : fb_pk) (x : fib_instance) (w : list F) (delta delta_1 delta_2 : F)
  : outcome error fb_proof :=
  let vk := fb_pk_verifier_key pk in
  let! (s1, (cm_w_vec, cm_r_vec)) := fb_round1 pk x w [delta] [delta_1] in
  let alpha := fb_p_ch_alpha vk cm_w_vec cm_r_vec in
  let s2 := mkFBS2 s1 alpha in
  let! (t_vec_1, cm_t_vec_1) := fb_round2 pk s2 [delta_2] in
  let omega := fb_p_ch_omega vk cm_w_vec cm_r_vec cm_t_vec_1 in
  let s3 := mkFBS3 s2 t_vec_1 omega in
  let! (cm_h_vec_1, cm_h_vec_2) := fb_round3 pk s3 in
  let z := fb_p_ch_z vk cm_w_vec cm_r_vec cm_t_vec_1 cm_h_vec_1 cm_h_vec_2 in
  let! (q, g_vec, cm_g) := fb_round4 pk s3 z cm_w_vec cm_r_vec cm_t_vec_1 cm_h_vec_1 cm_h_vec_2 in
  let y := fb_q_y q in
  let y_1 := fb_q_y_1 q in
  let y_2 := fb_q_y_2 q in
  let rand_xi := fb_p_ch_rand_xi vk cm_w_vec cm_r_vec cm_t_vec_1 cm_h_vec_1 cm_h_vec_2 cm_g omega y y_1 y_2 z in
  let rand_xi_2 := fb_p_ch_rand_xi_2 vk cm_w_vec cm_r_vec cm_t_vec_1 cm_h_vec_1 cm_h_vec_2 cm_g omega y y_1 y_2 z in
  let! (cap_w, cap_w_1) := batch_open (fb_pk_powers pk)
                             [strip (fb_w_vec s3); strip (fb_pk_t_vec s3); strip (fb_r_vec s3)] [strip g_vec]
                             (omega / z) z rand_xi rand_xi_2 in
  Ok (mkFBProof cm_w_vec cm_r_vec cm_t_vec_1 cm_h_vec_1 cm_h_vec_2 y y_1 y_2 cap_w cap_w_1).

(** lines 982-1106 [verify]; [randomizer] is the random scalar of [batch_check] *)
Definition fb_verify (vk : fb_vk) (x : fib_instance) (pf : fb_proof) (randomizer : F) : outcome error unit :=
  let cm_w_vec := fb_cm_w_vec pf in
  let cm_r_vec := fb_cm_r_vec pf in
  let cm_t_vec_1 := fb_cm_t_vec_1 pf in
  let cm_h_vec_1 := fb_cm_h_vec_1 pf in
  let cm_h_vec_2 := fb_cm_h_vec_2 pf in
  let y := fb_pf_y pf in
  let y_1 := fb_pf_y_1 pf in
  let y_2 := fb_pf_y_2 pf in
  let alpha := fb_v_ch_alpha vk cm_w_vec cm_r_vec in
  let omega := fb_v_ch_omega vk cm_w_vec cm_r_vec cm_t_vec_1 in
  let z := fb_v_ch_z vk cm_w_vec cm_r_vec cm_t_vec_1 cm_h_vec_1 cm_h_vec_2 in
  let q := mkFBCtx (fb_pub_of vk x) alpha omega z y y_1 y_2 in
  let! _ := fb_divisors q in
  let cm_g := fb_v_cm_g vk q cm_w_vec cm_r_vec cm_t_vec_1 cm_h_vec_1 cm_h_vec_2 in
  let z1 := omega / z in
  let z2 := z in
  let rand_xi := fb_v_ch_rand_xi vk cm_w_vec cm_r_vec cm_t_vec_1 cm_h_vec_1 cm_h_vec_2 cm_g omega y y_1 y_2 z in
  let rand_xi_2 := fb_v_ch_rand_xi_2 vk cm_w_vec cm_r_vec cm_t_vec_1 cm_h_vec_1 cm_h_vec_2 cm_g omega y y_1 y_2 z in
  if batch_check (fb_vk_kzg_vk vk) [cm_w_vec; fb_vk_cm_t_vec vk; cm_r_vec] [cm_g] z1 z2 rand_xi rand_xi_2
       [y; y_1; y_2] [0] (fb_cap_w pf) (fb_cap_w_1 pf) randomizer
  then Ok tt else Err VerificationFail.

End Fib.
Arguments fib_cs F : clear implicits.
Arguments fib_instance F : clear implicits.
Arguments fb_pub F : clear implicits.
Arguments fb_s1 F : clear implicits.
Arguments fb_s2 F : clear implicits.
Arguments fb_s3 F : clear implicits.
Arguments fb_ctx F : clear implicits.
Arguments fb_vk G1 G2 : clear implicits.
Arguments fb_pk F G1 G2 : clear implicits.
Arguments fb_proof F G1 : clear implicits.

(** R1.v: model of voproof/src/snarks/voproof_r1cs.rs, the argument for R1CS.  The long index
    expressions are transcribed mechanically from the Rust text (one Definition per Rust binding,
    named r1_<binding>; tools/gen_r1.py).  [H] is the hash oracle, the randomizers are arguments. *)
From Verif Require Import Base Tools CS KZG Snark.
Local Open Scope F_scope.

Section R1.
Context {F G1 G2 GT : Type} {fo : FieldOps F} {po : PairingOps F G1 G2 GT}.

(** *** Values in scope.  Each record adds the bindings of one round to the previous one. *)

(** public data of a run: sizes (as i64), degree bound, generator and instance
    (snarks/voproof_r1cs.rs:132-144, 929-952) *)
Record r1_pub := mkR1Pub {
  r1_cap_h : Z; r1_cap_k : Z; r1_cap_s_a : Z; r1_cap_s_b : Z; r1_cap_s_c : Z; r1_ell : Z;
  r1_cap_d : Z; r1_gamma : F; r1_x_vec : list F }.
(** bindings of lines 144-162; the matrix vectors are those of the prover key *)
Record r1_s1 := mkR1S1 {
  r1_s1_pub :> r1_pub; r1_u_vec : list F; r1_w_vec : list F; r1_v_vec : list F; r1_y_vec : list F;
  r1_u_vec_1 : list F }.
(** lines 163-172 *)
Record r1_s2 := mkR1S2 { r1_s2_s1 :> r1_s1; r1_mu : F }.
(** lines 173-192 *)
Record r1_s3 := mkR1S3 { r1_s3_s2 :> r1_s2; r1_s_vec : list F; r1_nu : F }.
(** lines 193-212 *)
Record r1_s4 := mkR1S4 { r1_s4_s3 :> r1_s3; r1_h_vec : list F; r1_beta : F }.
(** lines 213-249 *)
Record r1_s5 := mkR1S5 { r1_s5_s4 :> r1_s4; r1_r_vec_tilde : list F; r1_alpha : F }.
(** lines 250-337 *)
Record r1_s6 := mkR1S6 { r1_s6_s5 :> r1_s5; r1_t_vec : list F; r1_omega : F }.
(** snarks/voproof_r1cs.rs:152 [vovectorsize] *)
Definition r1_vovectorsize (e : r1_pub) : Z := (r1_cap_k e + r1_cap_s_a e + r1_cap_s_b e +
  r1_cap_s_c e)%Z.
(** snarks/voproof_r1cs.rs:162 [ell_1] *)
Definition r1_ell_1 (e : r1_pub) : Z := (r1_cap_s_a e + r1_cap_s_b e + r1_cap_s_c e)%Z.
(** snarks/voproof_r1cs.rs:173-178 [r_vec], entry i (from 1) before inversion *)
Definition r1_r_vec_at (e : r1_s2) (i : Z) : F := (r1_mu e) - (power_vidx (r1_gamma e) (3
  * r1_cap_h e)%Z i).
Definition r1_r_vec (e : r1_s2) : list F := expression_vector_inverse (r1_r_vec_at e) (3
  * r1_cap_h e)%Z.
(** snarks/voproof_r1cs.rs:193-198 [rnu_vec], entry i (from 1) before inversion *)
Definition r1_rnu_vec_at (e : r1_s3) (i : Z) : F := (r1_nu e) - (power_vidx (r1_gamma e)
  (r1_cap_k e) i).
Definition r1_rnu_vec (e : r1_s3) : list F := expression_vector_inverse (r1_rnu_vec_at e)
  (r1_cap_k e).
(** snarks/voproof_r1cs.rs:199 [h_vec] *)
Definition r1_h_val (e : r1_s3) : list F :=
  concat_uwinverse_vector (r1_rnu_vec e) (r1_mu e) (r1_u_vec e) (r1_nu e) (r1_w_vec e).
(** snarks/voproof_r1cs.rs:213-231 [r_vec_1], entry i (from 1) *)
Definition r1_r_vec_1_at (e : r1_s4) (i : Z) : F := power_linear_combination (r1_beta e)
  [((vidx (r1_u_vec_1 e) i) * (vidx (r1_s_vec e) i)); (((- vidx (r1_h_vec e) (minus_i64 i (3
  * r1_cap_h e + 1))%Z) * (vidx (r1_s_vec e) i)) - ((vidx (r1_h_vec e) i) * (vidx (r1_v_vec e)
  (minus_i64 i (r1_cap_k e + 1))%Z)))].
Definition r1_r_vec_1 (e : r1_s4) : list F := expression_vector (r1_r_vec_1_at e)
  (r1_vovectorsize e).
(** snarks/voproof_r1cs.rs:232 [r_vec_tilde], before the randomizer is appended *)
Definition r1_r_acc (e : r1_s4) : list F :=
  accumulate_vector 0 (fun i => vidx (r1_r_vec_1 e) i) (Z.of_nat (length (r1_r_vec_1 e))) fadd.
(** snarks/voproof_r1cs.rs:234 [maxshift] *)
Definition r1_maxshift (e : r1_pub) : Z := (- r1_cap_h e + r1_cap_k e + r1_cap_s_a e + r1_cap_s_b e
  + r1_cap_s_c e)%Z.
(** snarks/voproof_r1cs.rs:248 [c] *)
Definition r1_c (e : r1_s5) : F := r1_alpha e * r1_nu e.
(** snarks/voproof_r1cs.rs:249 [c_1] *)
Definition r1_c_1 (e : r1_s5) : F := - r1_alpha e.
(** snarks/voproof_r1cs.rs:250 [c_2] *)
Definition r1_c_2 (e : r1_s5) : F := power (r1_alpha e) 4%Z.
(** snarks/voproof_r1cs.rs:251 [c_3] *)
Definition r1_c_3 (e : r1_s5) : F := - r1_mu e.
(** snarks/voproof_r1cs.rs:252 [c_4] *)
Definition r1_c_4 (e : r1_s5) : F := r1_mu e * r1_nu e.
(** snarks/voproof_r1cs.rs:253 [c_5] *)
Definition r1_c_5 (e : r1_s5) : F := - r1_nu e.
(** snarks/voproof_r1cs.rs:254 [c_6] *)
Definition r1_c_6 (e : r1_s5) : F := - power (r1_alpha e) 4%Z.
(** snarks/voproof_r1cs.rs:255 [c_7] *)
Definition r1_c_7 (e : r1_s5) : F := power (r1_alpha e) 5%Z.
(** snarks/voproof_r1cs.rs:256 [c_8] *)
Definition r1_c_8 (e : r1_s5) : F := - power (r1_alpha e) 5%Z.
(** snarks/voproof_r1cs.rs:257 [c_9] *)
Definition r1_c_9 (e : r1_s5) : F := power (r1_alpha e) 7%Z.
(** snarks/voproof_r1cs.rs:258 [c_10] *)
Definition r1_c_10 (e : r1_s5) : F := - power (r1_alpha e) 7%Z * r1_beta e.
(** snarks/voproof_r1cs.rs:259 [c_11] *)
Definition r1_c_11 (e : r1_s5) : F := - power (r1_alpha e) 7%Z.
(** snarks/voproof_r1cs.rs:260-323 [t_vec]: entry i of the expression following the randomizer *)
Definition r1_t_vec_at (e : r1_s5) (i : Z) : F := r1_c_1 e * range_index 1%Z (r1_cap_k e) (i +
  r1_vovectorsize e)%Z * range_index 1%Z (r1_cap_k e) (minus_i64 (i + r1_vovectorsize e) 1)%Z +
  r1_c_10 e * vidx (r1_h_vec e) (minus_i64 (i + r1_vovectorsize e) 1)%Z * vidx (r1_v_vec e)
  (minus_i64 (i + r1_vovectorsize e) (r1_cap_k e + 1))%Z + r1_c_10 e * vidx (r1_h_vec e)
  (minus_i64 (i + r1_vovectorsize e) (3 * r1_cap_h e + 1))%Z * vidx (r1_s_vec e) (i +
  r1_vovectorsize e)%Z + r1_c_11 e * range_index 1%Z (r1_vovectorsize e) (minus_i64 (i +
  r1_vovectorsize e) 1)%Z * (vidx (r1_r_vec_tilde e) (minus_i64 (i + r1_vovectorsize e) 1)%Z
  - vidx (r1_r_vec_tilde e) (minus_i64 (i + r1_vovectorsize e) 2)%Z) + r1_c_2 e * vidx (r1_h_vec e)
  (minus_i64 (i + r1_vovectorsize e) 1)%Z * (r1_c_3 e * vidx (r1_w_vec e) (minus_i64 (i +
  r1_vovectorsize e) (r1_cap_k e + 1))%Z + r1_c_4 e * range_index 1%Z (r1_ell_1 e) (minus_i64 (i +
  r1_vovectorsize e) (r1_cap_k e + 1))%Z + r1_c_5 e * vidx (r1_u_vec e) (minus_i64 (i +
  r1_vovectorsize e) (r1_cap_k e + 1))%Z + vidx (r1_y_vec e) (minus_i64 (i + r1_vovectorsize e)
  (r1_cap_k e + 1))%Z) + r1_c_6 e * power (range_index 1%Z (r1_ell_1 e) (minus_i64 (i +
  r1_vovectorsize e) (r1_cap_k e + 1))%Z) 2%Z + r1_c_7 e * vidx (r1_u_vec_1 e) (minus_i64 (i +
  r1_vovectorsize e) (- r1_cap_h e + r1_vovectorsize e + 1))%Z * vidx (r1_u_vec_1 e) (minus_i64 (i +
  r1_vovectorsize e) (- 2 * r1_cap_h e + r1_vovectorsize e + 1))%Z + r1_c_8 e * range_index 1%Z
  (r1_cap_h e) (minus_i64 (i + r1_vovectorsize e) (- r1_cap_h e + r1_vovectorsize e + 1))%Z
  * vidx (r1_u_vec_1 e) (minus_i64 (i + r1_vovectorsize e) (- 3 * r1_cap_h e + r1_vovectorsize e +
  1))%Z + r1_c_9 e * vidx (r1_u_vec_1 e) (minus_i64 (i + r1_vovectorsize e) 1)%Z * vidx (r1_s_vec e)
  (i + r1_vovectorsize e)%Z - range_index 1%Z (3 * r1_cap_h e)%Z (minus_i64 (i + r1_vovectorsize e)
  1)%Z * range_index 1%Z (3 * r1_cap_h e)%Z (i + r1_vovectorsize e)%Z + vidx (r1_s_vec e) (i +
  r1_vovectorsize e)%Z * (r1_mu e * range_index 1%Z (3 * r1_cap_h e)%Z (minus_i64 (i +
  r1_vovectorsize e) 1)%Z - power_vidx (r1_gamma e) (3 * r1_cap_h e)%Z (minus_i64 (i +
  r1_vovectorsize e) 1)%Z) + vidx (r1_h_vec e) (i + r1_vovectorsize e)%Z * (r1_c e * range_index 1%Z
  (r1_cap_k e) (minus_i64 (i + r1_vovectorsize e) 1)%Z + r1_c_1 e * power_vidx (r1_gamma e)
  (r1_cap_k e) (minus_i64 (i + r1_vovectorsize e) 1)%Z).
Definition r1_t_vec_tail (e : r1_s5) : list F := expression_vector (r1_t_vec_at e) (r1_maxshift e +
  2)%Z.
(** snarks/voproof_r1cs.rs:339 [c_12] *)
Definition r1_c_12 (e : r1_s6) : F := power (r1_omega e) (- 1)%Z.
(** snarks/voproof_r1cs.rs:340 [c_13] *)
Definition r1_c_13 (e : r1_s6) : F := 1 / (r1_gamma e * r1_omega e).
(** snarks/voproof_r1cs.rs:343-351 [v_vec_1] *)
Definition r1_v_vec_1 (e : r1_s6) : list F := vector_poly_mul (r1_h_vec e) (r1_w_vec e)
  (r1_omega e).
(** snarks/voproof_r1cs.rs:343-351 [shiftlength] *)
Definition r1_shiftlength (e : r1_s6) : Z := (Z.of_nat (length (r1_h_vec e)) - 1)%Z.
(** snarks/voproof_r1cs.rs:352 [v_vec_2] *)
Definition r1_v_vec_2 (e : r1_s6) : list F := vector_reverse_omega (r1_h_vec e) (r1_omega e).
(** snarks/voproof_r1cs.rs:352 [shiftlength_1] *)
Definition r1_shiftlength_1 (e : r1_s6) : Z := (Z.of_nat (length (r1_h_vec e)) - 1)%Z.
(** snarks/voproof_r1cs.rs:354-362 [v_vec_3] *)
Definition r1_v_vec_3 (e : r1_s6) : list F := vector_poly_mul (r1_h_vec e) (r1_u_vec e)
  (r1_omega e).
(** snarks/voproof_r1cs.rs:354-362 [shiftlength_2] *)
Definition r1_shiftlength_2 (e : r1_s6) : Z := (Z.of_nat (length (r1_h_vec e)) - 1)%Z.
(** snarks/voproof_r1cs.rs:364-372 [v_vec_4] *)
Definition r1_v_vec_4 (e : r1_s6) : list F := vector_poly_mul (r1_h_vec e) (r1_y_vec e)
  (r1_omega e).
(** snarks/voproof_r1cs.rs:364-372 [shiftlength_3] *)
Definition r1_shiftlength_3 (e : r1_s6) : Z := (Z.of_nat (length (r1_h_vec e)) - 1)%Z.
(** snarks/voproof_r1cs.rs:374-382 [v_vec_5] *)
Definition r1_v_vec_5 (e : r1_s6) : list F := vector_poly_mul (r1_u_vec_1 e) (r1_u_vec_1 e)
  (r1_omega e).
(** snarks/voproof_r1cs.rs:374-382 [shiftlength_4] *)
Definition r1_shiftlength_4 (e : r1_s6) : Z := (Z.of_nat (length (r1_u_vec_1 e)) - 1)%Z.
(** snarks/voproof_r1cs.rs:384-392 [v_vec_6] *)
Definition r1_v_vec_6 (e : r1_s6) : list F := vector_poly_mul (r1_u_vec_1 e) (r1_s_vec e)
  (r1_omega e).
(** snarks/voproof_r1cs.rs:384-392 [shiftlength_5] *)
Definition r1_shiftlength_5 (e : r1_s6) : Z := (Z.of_nat (length (r1_u_vec_1 e)) - 1)%Z.
(** snarks/voproof_r1cs.rs:393-401 [v_vec_7] *)
Definition r1_v_vec_7 (e : r1_s6) : list F := vector_poly_mul (r1_h_vec e) (r1_s_vec e)
  (r1_omega e).
(** snarks/voproof_r1cs.rs:393-401 [shiftlength_6] *)
Definition r1_shiftlength_6 (e : r1_s6) : Z := (Z.of_nat (length (r1_h_vec e)) - 1)%Z.
(** snarks/voproof_r1cs.rs:403-411 [v_vec_8] *)
Definition r1_v_vec_8 (e : r1_s6) : list F := vector_poly_mul (r1_h_vec e) (r1_v_vec e)
  (r1_omega e).
(** snarks/voproof_r1cs.rs:403-411 [shiftlength_7] *)
Definition r1_shiftlength_7 (e : r1_s6) : Z := (Z.of_nat (length (r1_h_vec e)) - 1)%Z.
(** snarks/voproof_r1cs.rs:412 [v_vec_9] *)
Definition r1_v_vec_9 (e : r1_s6) : list F := vector_power_mul (r1_s_vec e) (r1_c_12 e) (Z.to_nat (3
  * r1_cap_h e)%Z).
(** snarks/voproof_r1cs.rs:413 [v_vec_10] *)
Definition r1_v_vec_10 (e : r1_s6) : list F := vector_power_mul (r1_s_vec e) (r1_c_13 e) (Z.to_nat
  (3 * r1_cap_h e)%Z).
(** snarks/voproof_r1cs.rs:414-419 [v_vec_11] *)
Definition r1_v_vec_11 (e : r1_s6) : list F := vector_power_mul (r1_s_vec e) (r1_c_12 e) (Z.to_nat
  (- 3 * r1_cap_h e + r1_cap_s_a e + r1_cap_s_b e + r1_cap_s_c e)%Z).
(** snarks/voproof_r1cs.rs:420 [v_vec_12] *)
Definition r1_v_vec_12 (e : r1_s6) : list F := vector_power_mul (r1_h_vec e) (r1_c_12 e) (Z.to_nat
  (r1_cap_k e)).
(** snarks/voproof_r1cs.rs:421 [v_vec_13] *)
Definition r1_v_vec_13 (e : r1_s6) : list F := vector_power_mul (r1_h_vec e) (r1_c_13 e) (Z.to_nat
  (r1_cap_k e)).
(** snarks/voproof_r1cs.rs:422 [v_vec_14] *)
Definition r1_v_vec_14 (e : r1_s6) : list F := vector_power_mul (r1_h_vec e) (r1_c_12 e) (Z.to_nat
  0%Z).
(** snarks/voproof_r1cs.rs:423 [v_vec_15] *)
Definition r1_v_vec_15 (e : r1_s6) : list F := vector_power_mul (r1_v_vec_2 e) 1 (Z.to_nat
  (r1_cap_s_a e + r1_cap_s_b e + r1_cap_s_c e)%Z).
(** snarks/voproof_r1cs.rs:424 [v_vec_16] *)
Definition r1_v_vec_16 (e : r1_s6) : list F := vector_power_mul (r1_u_vec_1 e) (r1_c_12 e) (Z.to_nat
  (r1_cap_h e)).
(** snarks/voproof_r1cs.rs:425 [v_vec_17] *)
Definition r1_v_vec_17 (e : r1_s6) : list F := vector_power_mul (r1_u_vec_1 e) (r1_c_12 e) (Z.to_nat
  (r1_ell e + 1)%Z).
(** snarks/voproof_r1cs.rs:426 [v_vec_18] *)
Definition r1_v_vec_18 (e : r1_s6) : list F := vector_power_mul (r1_x_vec e) (r1_c_12 e) (Z.to_nat
  (r1_ell e + 1)%Z).
(** snarks/voproof_r1cs.rs:427-432 [v_vec_19] *)
Definition r1_v_vec_19 (e : r1_s6) : list F := vector_power_mul (r1_r_vec_tilde e) (r1_c_12 e)
  (Z.to_nat (r1_cap_k e + r1_cap_s_a e + r1_cap_s_b e + r1_cap_s_c e)%Z).
(** snarks/voproof_r1cs.rs:433-438 [v_vec_20] *)
Definition r1_v_vec_20 (e : r1_s6) : list F := vector_power_mul (r1_t_vec e) (r1_c_12 e) (Z.to_nat
  (- r1_cap_h e + r1_cap_k e + r1_cap_s_a e + r1_cap_s_b e + r1_cap_s_c e + 1)%Z).
(** snarks/voproof_r1cs.rs:439 [v_vec_21] *)
Definition r1_v_vec_21 (e : r1_s6) : list F := power_power_mul (r1_c_12 e) (Z.to_nat (3
  * r1_cap_h e)%Z) 1 (Z.to_nat (3 * r1_cap_h e)%Z).
(** snarks/voproof_r1cs.rs:440 [v_vec_22] *)
Definition r1_v_vec_22 (e : r1_s6) : list F := power_power_mul (r1_c_12 e) (Z.to_nat (r1_cap_k e)) 1
  (Z.to_nat (r1_cap_k e)).
(** snarks/voproof_r1cs.rs:441-447 [v_vec_23] *)
Definition r1_v_vec_23 (e : r1_s6) : list F := power_power_mul (r1_c_12 e) (Z.to_nat (r1_cap_s_a e +
  r1_cap_s_b e + r1_cap_s_c e)%Z) 1 (Z.to_nat (r1_cap_s_a e + r1_cap_s_b e + r1_cap_s_c e)%Z).
(** snarks/voproof_r1cs.rs:448 [c_14] *)
Definition r1_c_14 (e : r1_s6) : F := - power (r1_alpha e) 4%Z * r1_mu e.
(** snarks/voproof_r1cs.rs:449 [c_15] *)
Definition r1_c_15 (e : r1_s6) : F := - power (r1_alpha e) 4%Z * r1_nu e.
(** snarks/voproof_r1cs.rs:450-453 [c_16] *)
Definition r1_c_16 (e : r1_s6) : F := power (r1_alpha e) 5%Z * power (r1_omega e) (- r1_cap_h e +
  r1_cap_k e + r1_cap_s_a e + r1_cap_s_b e + r1_cap_s_c e)%Z.
(** snarks/voproof_r1cs.rs:454 [c_17] *)
Definition r1_c_17 (e : r1_s6) : F := - power (r1_alpha e) 7%Z * r1_beta e * power (r1_omega e) (3
  * r1_cap_h e)%Z.
(** snarks/voproof_r1cs.rs:455-458 [c_18] *)
Definition r1_c_18 (e : r1_s6) : F := power (r1_alpha e) 8%Z * power (r1_omega e) (r1_cap_k e +
  r1_cap_s_a e + r1_cap_s_b e + r1_cap_s_c e - 1)%Z.
(** snarks/voproof_r1cs.rs:459 [c_19] *)
Definition r1_c_19 (e : r1_s6) : F := - power (r1_alpha e) 6%Z * power (r1_omega e) (3 * r1_cap_h e
  + r1_ell e)%Z.
(** snarks/voproof_r1cs.rs:460 [c_20] *)
Definition r1_c_20 (e : r1_s6) : F := r1_mu e * power (r1_omega e) (3 * r1_cap_h e - 1)%Z.
(** snarks/voproof_r1cs.rs:461 [c_21] *)
Definition r1_c_21 (e : r1_s6) : F := - power (r1_gamma e * r1_omega e) (3 * r1_cap_h e - 1)%Z.
(** snarks/voproof_r1cs.rs:462-465 [c_22] *)
Definition r1_c_22 (e : r1_s6) : F := power (r1_alpha e) 2%Z * power (r1_omega e) (r1_cap_k e +
  r1_cap_s_a e + r1_cap_s_b e + r1_cap_s_c e - 1)%Z.
(** snarks/voproof_r1cs.rs:466 [c_23] *)
Definition r1_c_23 (e : r1_s6) : F := r1_alpha e * r1_nu e * power (r1_omega e) (r1_cap_k e - 1)%Z.
(** snarks/voproof_r1cs.rs:467 [c_24] *)
Definition r1_c_24 (e : r1_s6) : F := - r1_alpha e * power (r1_gamma e * r1_omega e) (r1_cap_k e
  - 1)%Z.
(** snarks/voproof_r1cs.rs:468-471 [c_25] *)
Definition r1_c_25 (e : r1_s6) : F := power (r1_alpha e) 3%Z * power (r1_omega e) (r1_cap_k e +
  r1_cap_s_a e + r1_cap_s_b e + r1_cap_s_c e - 1)%Z.
(** snarks/voproof_r1cs.rs:472 [c_26] *)
Definition r1_c_26 (e : r1_s6) : F := power (r1_alpha e) 4%Z * r1_mu e * r1_nu e.
(** snarks/voproof_r1cs.rs:473-476 [c_27] *)
Definition r1_c_27 (e : r1_s6) : F := - power (r1_alpha e) 5%Z * power (r1_omega e) (r1_cap_k e +
  r1_cap_s_a e + r1_cap_s_b e + r1_cap_s_c e - 1)%Z.
(** snarks/voproof_r1cs.rs:477 [c_28] *)
Definition r1_c_28 (e : r1_s6) : F := power (r1_alpha e) 6%Z * power (r1_omega e) (3 * r1_cap_h e +
  r1_ell e)%Z.
(** snarks/voproof_r1cs.rs:478-481 [c_29] *)
Definition r1_c_29 (e : r1_s6) : F := - power (r1_alpha e) 7%Z * power (r1_omega e) (r1_cap_k e +
  r1_cap_s_a e + r1_cap_s_b e + r1_cap_s_c e - 1)%Z.
(** snarks/voproof_r1cs.rs:482-485 [c_30] *)
Definition r1_c_30 (e : r1_s6) : F := power (r1_alpha e) 7%Z * power (r1_omega e) (r1_cap_k e +
  r1_cap_s_a e + r1_cap_s_b e + r1_cap_s_c e - 1)%Z.
(** snarks/voproof_r1cs.rs:486-492 [c_31] *)
Definition r1_c_31 (e : r1_s6) : F := - power (r1_omega e) (- r1_cap_h e + 2 * r1_cap_k e + 2
  * r1_cap_s_a e + 2 * r1_cap_s_b e + 2 * r1_cap_s_c e)%Z.
(** snarks/voproof_r1cs.rs:493 [c_32] *)
Definition r1_c_32 (e : r1_s6) : F := - power (r1_omega e) (3 * r1_cap_h e - 1)%Z.
(** snarks/voproof_r1cs.rs:494 [c_33] *)
Definition r1_c_33 (e : r1_s6) : F := - r1_alpha e * power (r1_omega e) (r1_cap_k e - 1)%Z.
(** snarks/voproof_r1cs.rs:495-498 [c_34] *)
Definition r1_c_34 (e : r1_s6) : F := - power (r1_alpha e) 4%Z * power (r1_omega e) (r1_cap_k e +
  r1_cap_s_a e + r1_cap_s_b e + r1_cap_s_c e - 1)%Z.
(** snarks/voproof_r1cs.rs:499-628 [h_vec_2], entry i (from 1) *)
Definition r1_h_vec_2_at (e : r1_s6) (i : Z) : F := r1_c_10 e * vidx (r1_v_vec_8 e) (minus_i64 (i
  - r1_maxshift e - r1_vovectorsize e) (r1_cap_k e - r1_shiftlength_7 e + 1))%Z + r1_c_14 e
  * vidx (r1_v_vec_1 e) (minus_i64 (i - r1_maxshift e - r1_vovectorsize e) (r1_cap_k e
  - r1_shiftlength e + 1))%Z + r1_c_15 e * vidx (r1_v_vec_3 e) (minus_i64 (i - r1_maxshift e
  - r1_vovectorsize e) (r1_cap_k e - r1_shiftlength_2 e + 1))%Z + r1_c_16 e * vidx (r1_v_vec_5 e)
  (minus_i64 (i - r1_maxshift e - r1_vovectorsize e) (- r1_cap_h e - r1_shiftlength_4 e + 1))%Z +
  r1_c_17 e * vidx (r1_v_vec_7 e) (minus_i64 (i - r1_maxshift e - r1_vovectorsize e) (- 3
  * r1_cap_h e - r1_shiftlength_6 e + 1))%Z + r1_c_18 e * vidx (r1_r_vec_tilde e) (minus_i64 (i
  - r1_maxshift e - r1_vovectorsize e) (2 - r1_vovectorsize e))%Z + r1_c_19 e
  * power_vidx (r1_c_12 e) (r1_ell e + 1)%Z (minus_i64 (i - r1_maxshift e - r1_vovectorsize e) (1
  - r1_ell e))%Z + r1_c_19 e * vidx (r1_v_vec_18 e) (minus_i64 (i - r1_maxshift e
  - r1_vovectorsize e) (2 - r1_ell e))%Z + r1_c_2 e * vidx (r1_v_vec_4 e) (minus_i64 (i
  - r1_maxshift e - r1_vovectorsize e) (r1_cap_k e - r1_shiftlength_3 e + 1))%Z + r1_c_20 e
  * vidx (r1_v_vec_9 e) (minus_i64 (i - r1_maxshift e - r1_vovectorsize e) (2 - 3 * r1_cap_h e))%Z +
  r1_c_21 e * vidx (r1_v_vec_10 e) (minus_i64 (i - r1_maxshift e - r1_vovectorsize e) (2 - 3
  * r1_cap_h e))%Z + r1_c_22 e * vidx (r1_v_vec_11 e) (minus_i64 (i - r1_maxshift e
  - r1_vovectorsize e) (- r1_cap_k e - r1_cap_s_a e - r1_cap_s_b e - r1_cap_s_c e + 2))%Z +
  r1_c_23 e * vidx (r1_v_vec_12 e) (minus_i64 (i - r1_maxshift e - r1_vovectorsize e) (2
  - r1_cap_k e))%Z + r1_c_24 e * vidx (r1_v_vec_13 e) (minus_i64 (i - r1_maxshift e
  - r1_vovectorsize e) (2 - r1_cap_k e))%Z + r1_c_25 e * vidx (r1_v_vec_14 e) (minus_i64 (i
  - r1_maxshift e - r1_vovectorsize e) (- r1_cap_k e - r1_ell_1 e + 2))%Z + r1_c_26 e
  * vidx (r1_v_vec_15 e) (minus_i64 (i - r1_maxshift e - r1_vovectorsize e) (r1_cap_k e
  - r1_shiftlength_1 e + 1))%Z + r1_c_27 e * vidx (r1_v_vec_16 e) (minus_i64 (i - r1_maxshift e
  - r1_vovectorsize e) (2 - 3 * r1_cap_h e))%Z + r1_c_28 e * vidx (r1_v_vec_17 e) (minus_i64 (i
  - r1_maxshift e - r1_vovectorsize e) (- 3 * r1_cap_h e - r1_ell e + 1))%Z + r1_c_29 e
  * vidx (r1_v_vec_19 e) (minus_i64 (i - r1_maxshift e - r1_vovectorsize e) (- r1_cap_k e
  - r1_cap_s_a e - r1_cap_s_b e - r1_cap_s_c e + 2))%Z + r1_c_30 e * vidx (r1_v_vec_19 e)
  (minus_i64 (i - r1_maxshift e - r1_vovectorsize e) (- r1_cap_k e - r1_cap_s_a e - r1_cap_s_b e
  - r1_cap_s_c e + 3))%Z + r1_c_31 e * vidx (r1_v_vec_20 e) (minus_i64 (i - r1_maxshift e
  - r1_vovectorsize e) (r1_cap_h e - r1_cap_k e - r1_cap_s_a e - r1_cap_s_b e - r1_cap_s_c e))%Z +
  r1_c_32 e * vidx (r1_v_vec_21 e) (minus_i64 (i - r1_maxshift e - r1_vovectorsize e) (2 - 3
  * r1_cap_h e))%Z + r1_c_33 e * vidx (r1_v_vec_22 e) (minus_i64 (i - r1_maxshift e
  - r1_vovectorsize e) (2 - r1_cap_k e))%Z + r1_c_34 e * vidx (r1_v_vec_23 e) (minus_i64 (i
  - r1_maxshift e - r1_vovectorsize e) (- r1_cap_s_a e - r1_cap_s_b e - r1_cap_s_c e + 2))%Z +
  r1_c_9 e * vidx (r1_v_vec_6 e) (minus_i64 (i - r1_maxshift e - r1_vovectorsize e) (1
  - r1_shiftlength_5 e))%Z.
Definition r1_h_vec_2 (e : r1_s6) : list F := expression_vector (r1_h_vec_2_at e) (r1_maxshift e +
  r1_vovectorsize e)%Z.
(** snarks/voproof_r1cs.rs:629-678 [h_vec_3], entry i (from 1) *)
Definition r1_h_vec_3_at (e : r1_s6) (i : Z) : F := r1_c_10 e * vidx (r1_v_vec_8 e) (minus_i64 (i +
  1) (r1_cap_k e - r1_shiftlength_7 e + 1))%Z + r1_c_14 e * vidx (r1_v_vec_1 e) (minus_i64 (i + 1)
  (r1_cap_k e - r1_shiftlength e + 1))%Z + r1_c_15 e * vidx (r1_v_vec_3 e) (minus_i64 (i + 1)
  (r1_cap_k e - r1_shiftlength_2 e + 1))%Z + r1_c_16 e * vidx (r1_v_vec_5 e) (minus_i64 (i + 1)
  (- r1_cap_h e - r1_shiftlength_4 e + 1))%Z + r1_c_17 e * vidx (r1_v_vec_7 e) (minus_i64 (i + 1)
  (- 3 * r1_cap_h e - r1_shiftlength_6 e + 1))%Z + r1_c_18 e * vidx (r1_r_vec_tilde e) (minus_i64 (i
  + 1) (2 - r1_vovectorsize e))%Z + r1_c_19 e * power_vidx (r1_c_12 e) (r1_ell e + 1)%Z
  (minus_i64 (i + 1) (1 - r1_ell e))%Z + r1_c_19 e * vidx (r1_v_vec_18 e) (minus_i64 (i + 1) (2
  - r1_ell e))%Z + r1_c_2 e * vidx (r1_v_vec_4 e) (minus_i64 (i + 1) (r1_cap_k e
  - r1_shiftlength_3 e + 1))%Z + r1_c_20 e * vidx (r1_v_vec_9 e) (minus_i64 (i + 1) (2 - 3
  * r1_cap_h e))%Z + r1_c_21 e * vidx (r1_v_vec_10 e) (minus_i64 (i + 1) (2 - 3 * r1_cap_h e))%Z +
  r1_c_22 e * vidx (r1_v_vec_11 e) (minus_i64 (i + 1) (- r1_cap_k e - r1_cap_s_a e - r1_cap_s_b e
  - r1_cap_s_c e + 2))%Z + r1_c_23 e * vidx (r1_v_vec_12 e) (minus_i64 (i + 1) (2 - r1_cap_k e))%Z +
  r1_c_24 e * vidx (r1_v_vec_13 e) (minus_i64 (i + 1) (2 - r1_cap_k e))%Z + r1_c_25 e
  * vidx (r1_v_vec_14 e) (minus_i64 (i + 1) (- r1_cap_k e - r1_ell_1 e + 2))%Z + r1_c_26 e
  * vidx (r1_v_vec_15 e) (minus_i64 (i + 1) (r1_cap_k e - r1_shiftlength_1 e + 1))%Z + r1_c_27 e
  * vidx (r1_v_vec_16 e) (minus_i64 (i + 1) (2 - 3 * r1_cap_h e))%Z + r1_c_28 e
  * vidx (r1_v_vec_17 e) (minus_i64 (i + 1) (- 3 * r1_cap_h e - r1_ell e + 1))%Z + r1_c_29 e
  * vidx (r1_v_vec_19 e) (minus_i64 (i + 1) (- r1_cap_k e - r1_cap_s_a e - r1_cap_s_b e
  - r1_cap_s_c e + 2))%Z + r1_c_30 e * vidx (r1_v_vec_19 e) (minus_i64 (i + 1) (- r1_cap_k e
  - r1_cap_s_a e - r1_cap_s_b e - r1_cap_s_c e + 3))%Z + r1_c_31 e * vidx (r1_v_vec_20 e)
  (minus_i64 (i + 1) (r1_cap_h e - r1_cap_k e - r1_cap_s_a e - r1_cap_s_b e - r1_cap_s_c e))%Z +
  r1_c_32 e * vidx (r1_v_vec_21 e) (minus_i64 (i + 1) (2 - 3 * r1_cap_h e))%Z + r1_c_33 e
  * vidx (r1_v_vec_22 e) (minus_i64 (i + 1) (2 - r1_cap_k e))%Z + r1_c_34 e * vidx (r1_v_vec_23 e)
  (minus_i64 (i + 1) (- r1_cap_s_a e - r1_cap_s_b e - r1_cap_s_c e + 2))%Z + r1_c_9 e
  * vidx (r1_v_vec_6 e) (minus_i64 (i + 1) (1 - r1_shiftlength_5 e))%Z.
Definition r1_h_vec_3 (e : r1_s6) : list F := expression_vector (r1_h_vec_3_at e) (r1_maxshift e +
  r1_vovectorsize e)%Z.

(** *** The evaluation round: lines 697-801 of [prove] and 1036-1128 of [verify].
    [r1_ctx] holds what both sides know after the challenge z. *)
Record r1_ctx := mkR1Ctx {
  r1_ctx_pub :> r1_pub; r1_q_mu : F; r1_q_nu : F; r1_q_beta : F; r1_q_alpha : F; r1_q_omega : F;
  r1_q_z : F; r1_q_y : F; r1_q_y_1 : F }.
(** snarks/voproof_r1cs.rs:697 [y] *)
Definition r1_y (e : r1_s6) (z : F) : F := eval_vector_expression (r1_omega e / z) (fun i =>
  vidx (r1_h_vec e) i) (r1_vovectorsize e + 1)%Z.
(** snarks/voproof_r1cs.rs:698-704 [y_1] *)
Definition r1_y_1 (e : r1_s6) (z : F) : F := eval_vector_expression (r1_omega e / z) (fun i =>
  vidx (r1_u_vec_1 e) i) (r1_vovectorsize e + 1)%Z.
(** snarks/voproof_r1cs.rs:705-722 [c_35] *)
Definition r1_p_c_35 (e : r1_ctx) : F := 1 * (power (r1_q_alpha e) 7%Z * (r1_q_omega e - 1
  * r1_q_z e) * (r1_gamma e * r1_q_omega e - 1 * r1_q_z e) * (- r1_q_beta e * r1_q_y e
  * power (r1_q_omega e / r1_q_z e) (3 * r1_cap_h e)%Z + 1 * r1_q_y_1 e) - power (r1_q_alpha e) 2%Z
  * r1_q_z e * power (r1_q_omega e / r1_q_z e) (3 * r1_cap_h e + r1_cap_k e)%Z * (1
  - power (r1_q_omega e / r1_q_z e) (- 3 * r1_cap_h e + r1_cap_s_a e + r1_cap_s_b e +
  r1_cap_s_c e)%Z) * (r1_gamma e * r1_q_omega e - 1 * r1_q_z e) - 1 * r1_q_z e * (r1_q_mu e * (1
  - power (r1_q_omega e / r1_q_z e) (3 * r1_cap_h e)%Z) * (r1_gamma e * r1_q_omega e - 1 * r1_q_z e)
  - (r1_q_omega e - 1 * r1_q_z e) * (1 - power (r1_gamma e * r1_q_omega e / r1_q_z e) (3
  * r1_cap_h e)%Z))) / ((r1_q_omega e - 1 * r1_q_z e) * (r1_gamma e * r1_q_omega e - 1 * r1_q_z e)).
(** snarks/voproof_r1cs.rs:723-754 [c_36] *)
Definition r1_p_c_36 (e : r1_ctx) : F := (power (r1_q_alpha e) 6%Z * power (r1_q_omega e / r1_q_z e)
  (3 * r1_cap_h e)%Z * (1 - r1_q_z e) * (- eval_vector_as_poly (r1_x_vec e) (r1_q_z e)
  * power (r1_q_z e) (3 * r1_cap_h e + 1)%Z * (r1_q_omega e * power (r1_q_omega e / r1_q_z e)
  (r1_ell e) - 1 * r1_q_z e) + power (r1_q_z e) (3 * r1_cap_h e)%Z * (- r1_q_omega e
  * power (r1_q_omega e / r1_q_z e) (r1_ell e) + 1 * r1_q_z e)) + power (r1_q_alpha e) 4%Z
  * (r1_q_mu e * r1_q_nu e * 1 * r1_q_y e * power (r1_q_z e) (r1_cap_k e) * (r1_q_omega e - 1
  * r1_q_z e) * (1 - power (r1_q_z e) (r1_ell_1 e)) + power (r1_q_z e) (r1_cap_k e + 1)%Z
  * power (r1_q_omega e / r1_q_z e) (r1_cap_k e) * (1 - power (r1_q_z e) (r1_ell_1 e)) * (1
  - power (r1_q_omega e / r1_q_z e) (r1_cap_s_a e + r1_cap_s_b e + r1_cap_s_c e)%Z)) + r1_q_alpha e
  * power 1 2%Z * r1_q_z e * (1 - power (r1_q_z e) (r1_cap_k e)) * (1 - power (r1_q_omega e
  / r1_q_z e) (r1_cap_k e)) + power 1 2%Z * r1_q_z e * (1 - power (r1_q_z e) (3 * r1_cap_h e)%Z)
  * (1 - power (r1_q_omega e / r1_q_z e) (3 * r1_cap_h e)%Z)) / ((r1_q_omega e - 1 * r1_q_z e) * (1
  - r1_q_z e)).
(** snarks/voproof_r1cs.rs:755-763 [c_37] *)
Definition r1_p_c_37 (e : r1_ctx) : F := - r1_q_alpha e * power 1 2%Z * r1_q_z e * (r1_q_nu e * (1
  - power (r1_q_omega e / r1_q_z e) (r1_cap_k e)) * (r1_gamma e * r1_q_omega e - 1 * r1_q_z e)
  - (r1_q_omega e - 1 * r1_q_z e) * (1 - power (r1_gamma e * r1_q_omega e / r1_q_z e) (r1_cap_k e)))
  / ((r1_q_omega e - 1 * r1_q_z e) * (r1_gamma e * r1_q_omega e - 1 * r1_q_z e)).
(** snarks/voproof_r1cs.rs:764 [c_38] *)
Definition r1_p_c_38 (e : r1_ctx) : F := - power (r1_q_alpha e) 4%Z * r1_q_mu e * 1 * r1_q_y e
  * power (r1_q_z e) (r1_cap_k e).
(** snarks/voproof_r1cs.rs:765 [c_39] *)
Definition r1_p_c_39 (e : r1_ctx) : F := - power (r1_q_alpha e) 4%Z * r1_q_nu e * 1 * r1_q_y e
  * power (r1_q_z e) (r1_cap_k e).
(** snarks/voproof_r1cs.rs:766 [c_40] *)
Definition r1_p_c_40 (e : r1_ctx) : F := power (r1_q_alpha e) 4%Z * 1 * r1_q_y e * power (r1_q_z e)
  (r1_cap_k e).
(** snarks/voproof_r1cs.rs:767-782 [c_41] *)
Definition r1_p_c_41 (e : r1_ctx) : F := power (r1_q_alpha e) 5%Z * (r1_q_alpha e * 1
  * power (r1_q_omega e / r1_q_z e) (3 * r1_cap_h e)%Z * (r1_q_omega e * power (r1_q_omega e
  / r1_q_z e) (r1_ell e) - 1 * r1_q_z e) + r1_q_y_1 e * power (r1_q_z e) (- 2 * r1_cap_h e +
  r1_vovectorsize e)%Z * power (r1_q_omega e / r1_q_z e) (- r1_cap_h e + r1_cap_k e + r1_cap_s_a e +
  r1_cap_s_b e + r1_cap_s_c e)%Z * (r1_q_omega e - 1 * r1_q_z e) + power (r1_q_z e) (- 3
  * r1_cap_h e + r1_vovectorsize e + 1)%Z * power (r1_q_omega e / r1_q_z e) (- r1_cap_h e +
  r1_cap_k e + r1_cap_s_a e + r1_cap_s_b e + r1_cap_s_c e)%Z * (1 - power (r1_q_omega e / r1_q_z e)
  (r1_cap_h e))) / (r1_q_omega e - 1 * r1_q_z e).
(** snarks/voproof_r1cs.rs:783 [c_42] *)
Definition r1_p_c_42 (e : r1_ctx) : F := - power (r1_q_alpha e) 7%Z * r1_q_beta e * 1 * r1_q_y e
  * power (r1_q_z e) (r1_cap_k e).
(** snarks/voproof_r1cs.rs:784-793 [c_43] *)
Definition r1_p_c_43 (e : r1_ctx) : F := power (r1_q_alpha e) 7%Z * 1 * (r1_q_alpha e
  * power (r1_q_omega e / r1_q_z e) (r1_cap_k e + r1_cap_s_a e + r1_cap_s_b e + r1_cap_s_c e - 1)%Z
  * (r1_q_omega e - 1 * r1_q_z e) + r1_q_z e * (1 - r1_q_z e) * (1 - power (r1_q_omega e / r1_q_z e)
  (r1_cap_k e + r1_cap_s_a e + r1_cap_s_b e + r1_cap_s_c e)%Z)) / (r1_q_omega e - 1 * r1_q_z e).
(** snarks/voproof_r1cs.rs:794-800 [c_44] *)
Definition r1_p_c_44 (e : r1_ctx) : F := power (r1_q_z e) (r1_vovectorsize e) * power (r1_q_omega e
  / r1_q_z e) (r1_cap_k e + r1_cap_s_a e + r1_cap_s_b e + r1_cap_s_c e)%Z * (1 - power (r1_q_omega e
  / r1_q_z e) (- r1_cap_h e + r1_cap_k e + r1_cap_s_a e + r1_cap_s_b e + r1_cap_s_c e + 1)%Z)
  / (r1_q_omega e - 1 * r1_q_z e).
(** snarks/voproof_r1cs.rs:801 [c_45] *)
Definition r1_p_c_45 (e : r1_ctx) : F := - power (r1_q_z e) (- r1_cap_d e)%Z.
(** snarks/voproof_r1cs.rs:802 [c_46] *)
Definition r1_p_c_46 (e : r1_ctx) : F := - r1_q_z e.

(** the same bindings in [verify] *)
(** snarks/voproof_r1cs.rs:1035-1052 [c_35] *)
Definition r1_v_c_35 (e : r1_ctx) : F := 1 * (power (r1_q_alpha e) 7%Z * (r1_q_omega e - 1
  * r1_q_z e) * (r1_gamma e * r1_q_omega e - 1 * r1_q_z e) * (- r1_q_beta e * r1_q_y e
  * power (r1_q_omega e / r1_q_z e) (3 * r1_cap_h e)%Z + 1 * r1_q_y_1 e) - power (r1_q_alpha e) 2%Z
  * r1_q_z e * power (r1_q_omega e / r1_q_z e) (3 * r1_cap_h e + r1_cap_k e)%Z * (1
  - power (r1_q_omega e / r1_q_z e) (- 3 * r1_cap_h e + r1_cap_s_a e + r1_cap_s_b e +
  r1_cap_s_c e)%Z) * (r1_gamma e * r1_q_omega e - 1 * r1_q_z e) - 1 * r1_q_z e * (r1_q_mu e * (1
  - power (r1_q_omega e / r1_q_z e) (3 * r1_cap_h e)%Z) * (r1_gamma e * r1_q_omega e - 1 * r1_q_z e)
  - (r1_q_omega e - 1 * r1_q_z e) * (1 - power (r1_gamma e * r1_q_omega e / r1_q_z e) (3
  * r1_cap_h e)%Z))) / ((r1_q_omega e - 1 * r1_q_z e) * (r1_gamma e * r1_q_omega e - 1 * r1_q_z e)).
(** snarks/voproof_r1cs.rs:1053-1084 [c_36] *)
Definition r1_v_c_36 (e : r1_ctx) : F := (power (r1_q_alpha e) 6%Z * power (r1_q_omega e / r1_q_z e)
  (3 * r1_cap_h e)%Z * (1 - r1_q_z e) * (- eval_vector_as_poly (r1_x_vec e) (r1_q_z e)
  * power (r1_q_z e) (3 * r1_cap_h e + 1)%Z * (r1_q_omega e * power (r1_q_omega e / r1_q_z e)
  (r1_ell e) - 1 * r1_q_z e) + power (r1_q_z e) (3 * r1_cap_h e)%Z * (- r1_q_omega e
  * power (r1_q_omega e / r1_q_z e) (r1_ell e) + 1 * r1_q_z e)) + power (r1_q_alpha e) 4%Z
  * (r1_q_mu e * r1_q_nu e * 1 * r1_q_y e * power (r1_q_z e) (r1_cap_k e) * (r1_q_omega e - 1
  * r1_q_z e) * (1 - power (r1_q_z e) (r1_ell_1 e)) + power (r1_q_z e) (r1_cap_k e + 1)%Z
  * power (r1_q_omega e / r1_q_z e) (r1_cap_k e) * (1 - power (r1_q_z e) (r1_ell_1 e)) * (1
  - power (r1_q_omega e / r1_q_z e) (r1_cap_s_a e + r1_cap_s_b e + r1_cap_s_c e)%Z)) + r1_q_alpha e
  * power 1 2%Z * r1_q_z e * (1 - power (r1_q_z e) (r1_cap_k e)) * (1 - power (r1_q_omega e
  / r1_q_z e) (r1_cap_k e)) + power 1 2%Z * r1_q_z e * (1 - power (r1_q_z e) (3 * r1_cap_h e)%Z)
  * (1 - power (r1_q_omega e / r1_q_z e) (3 * r1_cap_h e)%Z)) / ((r1_q_omega e - 1 * r1_q_z e) * (1
  - r1_q_z e)).
(** snarks/voproof_r1cs.rs:1085-1093 [c_37] *)
Definition r1_v_c_37 (e : r1_ctx) : F := - r1_q_alpha e * power 1 2%Z * r1_q_z e * (r1_q_nu e * (1
  - power (r1_q_omega e / r1_q_z e) (r1_cap_k e)) * (r1_gamma e * r1_q_omega e - 1 * r1_q_z e)
  - (r1_q_omega e - 1 * r1_q_z e) * (1 - power (r1_gamma e * r1_q_omega e / r1_q_z e) (r1_cap_k e)))
  / ((r1_q_omega e - 1 * r1_q_z e) * (r1_gamma e * r1_q_omega e - 1 * r1_q_z e)).
(** snarks/voproof_r1cs.rs:1094 [c_38] *)
Definition r1_v_c_38 (e : r1_ctx) : F := - power (r1_q_alpha e) 4%Z * r1_q_mu e * 1 * r1_q_y e
  * power (r1_q_z e) (r1_cap_k e).
(** snarks/voproof_r1cs.rs:1095 [c_39] *)
Definition r1_v_c_39 (e : r1_ctx) : F := - power (r1_q_alpha e) 4%Z * r1_q_nu e * 1 * r1_q_y e
  * power (r1_q_z e) (r1_cap_k e).
(** snarks/voproof_r1cs.rs:1096 [c_40] *)
Definition r1_v_c_40 (e : r1_ctx) : F := power (r1_q_alpha e) 4%Z * 1 * r1_q_y e * power (r1_q_z e)
  (r1_cap_k e).
(** snarks/voproof_r1cs.rs:1097-1112 [c_41] *)
Definition r1_v_c_41 (e : r1_ctx) : F := power (r1_q_alpha e) 5%Z * (r1_q_alpha e * 1
  * power (r1_q_omega e / r1_q_z e) (3 * r1_cap_h e)%Z * (r1_q_omega e * power (r1_q_omega e
  / r1_q_z e) (r1_ell e) - 1 * r1_q_z e) + r1_q_y_1 e * power (r1_q_z e) (- 2 * r1_cap_h e +
  r1_vovectorsize e)%Z * power (r1_q_omega e / r1_q_z e) (- r1_cap_h e + r1_cap_k e + r1_cap_s_a e +
  r1_cap_s_b e + r1_cap_s_c e)%Z * (r1_q_omega e - 1 * r1_q_z e) + power (r1_q_z e) (- 3
  * r1_cap_h e + r1_vovectorsize e + 1)%Z * power (r1_q_omega e / r1_q_z e) (- r1_cap_h e +
  r1_cap_k e + r1_cap_s_a e + r1_cap_s_b e + r1_cap_s_c e)%Z * (1 - power (r1_q_omega e / r1_q_z e)
  (r1_cap_h e))) / (r1_q_omega e - 1 * r1_q_z e).
(** snarks/voproof_r1cs.rs:1113 [c_42] *)
Definition r1_v_c_42 (e : r1_ctx) : F := - power (r1_q_alpha e) 7%Z * r1_q_beta e * 1 * r1_q_y e
  * power (r1_q_z e) (r1_cap_k e).
(** snarks/voproof_r1cs.rs:1114-1123 [c_43] *)
Definition r1_v_c_43 (e : r1_ctx) : F := power (r1_q_alpha e) 7%Z * 1 * (r1_q_alpha e
  * power (r1_q_omega e / r1_q_z e) (r1_cap_k e + r1_cap_s_a e + r1_cap_s_b e + r1_cap_s_c e - 1)%Z
  * (r1_q_omega e - 1 * r1_q_z e) + r1_q_z e * (1 - r1_q_z e) * (1 - power (r1_q_omega e / r1_q_z e)
  (r1_cap_k e + r1_cap_s_a e + r1_cap_s_b e + r1_cap_s_c e)%Z)) / (r1_q_omega e - 1 * r1_q_z e).
(** snarks/voproof_r1cs.rs:1124-1130 [c_44] *)
Definition r1_v_c_44 (e : r1_ctx) : F := power (r1_q_z e) (r1_vovectorsize e) * power (r1_q_omega e
  / r1_q_z e) (r1_cap_k e + r1_cap_s_a e + r1_cap_s_b e + r1_cap_s_c e)%Z * (1 - power (r1_q_omega e
  / r1_q_z e) (- r1_cap_h e + r1_cap_k e + r1_cap_s_a e + r1_cap_s_b e + r1_cap_s_c e + 1)%Z)
  / (r1_q_omega e - 1 * r1_q_z e).
(** snarks/voproof_r1cs.rs:1131 [c_45] *)
Definition r1_v_c_45 (e : r1_ctx) : F := - power (r1_q_z e) (- r1_cap_d e)%Z.
(** snarks/voproof_r1cs.rs:1132 [c_46] *)
Definition r1_v_c_46 (e : r1_ctx) : F := - r1_q_z e.

(** divisors of lines 697-799 in evaluation order (z of omega / z; then those of c_35, c_36, c_37,
    c_41, c_43, c_44); [power(z, -cap_d)] returns z unchanged for z = 0 and does not divide. *)
Definition r1_divisors (e : r1_ctx) : outcome error unit :=
  let z := r1_q_z e in let omega := r1_q_omega e in let gamma := r1_gamma e in
  let! _ := nonzero z in
  let! _ := nonzero ((omega - 1 * z) * (gamma * omega - 1 * z)) in
  let! _ := nonzero ((omega - 1 * z) * (1 - z)) in
  let! _ := nonzero ((omega - 1 * z) * (gamma * omega - 1 * z)) in
  let! _ := nonzero (omega - 1 * z) in
  let! _ := nonzero (omega - 1 * z) in
  nonzero (omega - 1 * z).
(** snarks/voproof_r1cs.rs:803-833 [g_vec], entry i before the addition of line 834 *)
Definition r1_g_at (e : r1_s6) (q : r1_ctx) (i : Z) : F := linear_combination 0 [((r1_p_c_35 q),
  (vidx (r1_s_vec e) i)); ((r1_p_c_37 q), (vidx (r1_h_vec e) i)); ((r1_p_c_38 q), (vidx (r1_w_vec e)
  i)); ((r1_p_c_39 q), (vidx (r1_u_vec e) i)); ((r1_p_c_40 q), (vidx (r1_y_vec e) i));
  ((r1_p_c_41 q), (vidx (r1_u_vec_1 e) i)); ((r1_p_c_42 q), (vidx (r1_v_vec e) i)); ((r1_p_c_43 q),
  (vidx (r1_r_vec_tilde e) i)); ((r1_p_c_44 q), (vidx (r1_t_vec e) i)); ((r1_p_c_45 q),
  (vidx (r1_h_vec_2 e) (- r1_cap_d e + i + r1_maxshift e + r1_vovectorsize e)%Z)); ((r1_p_c_46 q),
  (vidx (r1_h_vec_3 e) i))].
Definition r1_g_vec (e : r1_s6) (q : r1_ctx) : outcome error (list F) := add_to_first_item
  (expression_vector (r1_g_at e q) (r1_cap_d e)) (r1_p_c_36 q).

(** *** Keys, proofs, transcripts *)
(** lines 16-25 *)
Record r1_vk := mkR1VK {
  r1_vk_cm_u_vec : G1; r1_vk_cm_w_vec : G1; r1_vk_cm_v_vec : G1; r1_vk_cm_y_vec : G1;
  r1_vk_kzg_vk : verifier_key G1 G2; r1_vk_size : R1CSSize; r1_vk_degree_bound : nat }.
(** lines 4-14 *)
Record r1_pk := mkR1PK {
  r1_pk_verifier_key : r1_vk; r1_pk_powers : list G1; r1_pk_max_degree : nat;
  r1_pk_cap_m_mat : list nat * list nat * list F;
  r1_pk_u_vec : list F; r1_pk_w_vec : list F; r1_pk_v_vec : list F; r1_pk_y_vec : list F }.
(** lines 27-40 *)
Record r1_proof := mkR1Proof {
  r1_cm_u_vec_1 : G1; r1_cm_s_vec : G1; r1_cm_h_vec : G1; r1_cm_r_vec_tilde : G1; r1_cm_t_vec : G1;
  r1_cm_h_vec_2 : G1; r1_cm_h_vec_3 : G1; r1_pf_y : F; r1_pf_y_1 : F;
  r1_cap_w : G1; r1_cap_w_1 : G1 }.

Variable H : list (item F G1) -> F.
Variable gamma : F.   (* generator_of!: FftField::GENERATOR *)
(** snarks/voproof_r1cs.rs:163-172 challenge [mu] of prove *)
Definition r1_p_ch_mu (vk : r1_vk) (x : list F) (cm_u_vec_1 : G1) : F := H [IF 1; IFs x; IG
  (r1_vk_cm_u_vec vk); IG (r1_vk_cm_w_vec vk); IG (r1_vk_cm_v_vec vk); IG (r1_vk_cm_y_vec vk); IG
  cm_u_vec_1].
(** snarks/voproof_r1cs.rs:182-192 challenge [nu] of prove *)
Definition r1_p_ch_nu (vk : r1_vk) (x : list F) (cm_u_vec_1 cm_s_vec : G1) : F := H [IF 1; IFs x; IG
  (r1_vk_cm_u_vec vk); IG (r1_vk_cm_w_vec vk); IG (r1_vk_cm_v_vec vk); IG (r1_vk_cm_y_vec vk); IG
  cm_u_vec_1; IG cm_s_vec].
(** snarks/voproof_r1cs.rs:201-212 challenge [beta] of prove *)
Definition r1_p_ch_beta (vk : r1_vk) (x : list F) (cm_u_vec_1 cm_s_vec cm_h_vec : G1) : F := H [IF
  1; IFs x; IG (r1_vk_cm_u_vec vk); IG (r1_vk_cm_w_vec vk); IG (r1_vk_cm_v_vec vk); IG
  (r1_vk_cm_y_vec vk); IG cm_u_vec_1; IG cm_s_vec; IG cm_h_vec].
(** snarks/voproof_r1cs.rs:235-247 challenge [alpha] of prove *)
Definition r1_p_ch_alpha (vk : r1_vk) (x : list F) (cm_u_vec_1 cm_s_vec cm_h_vec cm_r_vec_tilde :
  G1) : F := H [IF 1; IFs x; IG (r1_vk_cm_u_vec vk); IG (r1_vk_cm_w_vec vk); IG (r1_vk_cm_v_vec vk);
  IG (r1_vk_cm_y_vec vk); IG cm_u_vec_1; IG cm_s_vec; IG cm_h_vec; IG cm_r_vec_tilde].
(** snarks/voproof_r1cs.rs:325-338 challenge [omega] of prove *)
Definition r1_p_ch_omega (vk : r1_vk) (x : list F) (cm_u_vec_1 cm_s_vec cm_h_vec cm_r_vec_tilde
  cm_t_vec : G1) : F := H [IF 1; IFs x; IG (r1_vk_cm_u_vec vk); IG (r1_vk_cm_w_vec vk); IG
  (r1_vk_cm_v_vec vk); IG (r1_vk_cm_y_vec vk); IG cm_u_vec_1; IG cm_s_vec; IG cm_h_vec; IG
  cm_r_vec_tilde; IG cm_t_vec].
(** snarks/voproof_r1cs.rs:681-696 challenge [z] of prove *)
Definition r1_p_ch_z (vk : r1_vk) (x : list F) (cm_u_vec_1 cm_s_vec cm_h_vec cm_r_vec_tilde cm_t_vec
  cm_h_vec_2 cm_h_vec_3 : G1) : F := H [IF 1; IFs x; IG (r1_vk_cm_u_vec vk); IG (r1_vk_cm_w_vec vk);
  IG (r1_vk_cm_v_vec vk); IG (r1_vk_cm_y_vec vk); IG cm_u_vec_1; IG cm_s_vec; IG cm_h_vec; IG
  cm_r_vec_tilde; IG cm_t_vec; IG cm_h_vec_2; IG cm_h_vec_3].
(** snarks/voproof_r1cs.rs:868-888 challenge [rand_xi] of prove *)
Definition r1_p_ch_rand_xi (vk : r1_vk) (x : list F) (cm_u_vec_1 cm_s_vec cm_h_vec cm_r_vec_tilde
  cm_t_vec cm_h_vec_2 cm_h_vec_3 cm_g : G1) (omega y y_1 z : F) : F := H [IF 1; IFs x; IG
  (r1_vk_cm_u_vec vk); IG (r1_vk_cm_w_vec vk); IG (r1_vk_cm_v_vec vk); IG (r1_vk_cm_y_vec vk); IG
  cm_u_vec_1; IG cm_s_vec; IG cm_h_vec; IG cm_r_vec_tilde; IG cm_t_vec; IG cm_h_vec_2; IG
  cm_h_vec_3; IG cm_g; IF (omega / z); IF y; IF y_1; IF z].
(** snarks/voproof_r1cs.rs:889-909 challenge [rand_xi_2] of prove *)
Definition r1_p_ch_rand_xi_2 (vk : r1_vk) (x : list F) (cm_u_vec_1 cm_s_vec cm_h_vec cm_r_vec_tilde
  cm_t_vec cm_h_vec_2 cm_h_vec_3 cm_g : G1) (omega y y_1 z : F) : F := H [IF (1 + 1); IFs x; IG
  (r1_vk_cm_u_vec vk); IG (r1_vk_cm_w_vec vk); IG (r1_vk_cm_v_vec vk); IG (r1_vk_cm_y_vec vk); IG
  cm_u_vec_1; IG cm_s_vec; IG cm_h_vec; IG cm_r_vec_tilde; IG cm_t_vec; IG cm_h_vec_2; IG
  cm_h_vec_3; IG cm_g; IF (omega / z); IF y; IF y_1; IF z].
(** snarks/voproof_r1cs.rs:959-968 challenge [mu] of verify *)
Definition r1_v_ch_mu (vk : r1_vk) (x : list F) (cm_u_vec_1 : G1) : F := H [IF 1; IFs x; IG
  (r1_vk_cm_u_vec vk); IG (r1_vk_cm_w_vec vk); IG (r1_vk_cm_v_vec vk); IG (r1_vk_cm_y_vec vk); IG
  cm_u_vec_1].
(** snarks/voproof_r1cs.rs:969-979 challenge [nu] of verify *)
Definition r1_v_ch_nu (vk : r1_vk) (x : list F) (cm_u_vec_1 cm_s_vec : G1) : F := H [IF 1; IFs x; IG
  (r1_vk_cm_u_vec vk); IG (r1_vk_cm_w_vec vk); IG (r1_vk_cm_v_vec vk); IG (r1_vk_cm_y_vec vk); IG
  cm_u_vec_1; IG cm_s_vec].
(** snarks/voproof_r1cs.rs:980-991 challenge [beta] of verify *)
Definition r1_v_ch_beta (vk : r1_vk) (x : list F) (cm_u_vec_1 cm_s_vec cm_h_vec : G1) : F := H [IF
  1; IFs x; IG (r1_vk_cm_u_vec vk); IG (r1_vk_cm_w_vec vk); IG (r1_vk_cm_v_vec vk); IG
  (r1_vk_cm_y_vec vk); IG cm_u_vec_1; IG cm_s_vec; IG cm_h_vec].
(** snarks/voproof_r1cs.rs:992-1004 challenge [alpha] of verify *)
Definition r1_v_ch_alpha (vk : r1_vk) (x : list F) (cm_u_vec_1 cm_s_vec cm_h_vec cm_r_vec_tilde :
  G1) : F := H [IF 1; IFs x; IG (r1_vk_cm_u_vec vk); IG (r1_vk_cm_w_vec vk); IG (r1_vk_cm_v_vec vk);
  IG (r1_vk_cm_y_vec vk); IG cm_u_vec_1; IG cm_s_vec; IG cm_h_vec; IG cm_r_vec_tilde].
(** snarks/voproof_r1cs.rs:1005-1018 challenge [omega] of verify *)
Definition r1_v_ch_omega (vk : r1_vk) (x : list F) (cm_u_vec_1 cm_s_vec cm_h_vec cm_r_vec_tilde
  cm_t_vec : G1) : F := H [IF 1; IFs x; IG (r1_vk_cm_u_vec vk); IG (r1_vk_cm_w_vec vk); IG
  (r1_vk_cm_v_vec vk); IG (r1_vk_cm_y_vec vk); IG cm_u_vec_1; IG cm_s_vec; IG cm_h_vec; IG
  cm_r_vec_tilde; IG cm_t_vec].
(** snarks/voproof_r1cs.rs:1019-1034 challenge [z] of verify *)
Definition r1_v_ch_z (vk : r1_vk) (x : list F) (cm_u_vec_1 cm_s_vec cm_h_vec cm_r_vec_tilde cm_t_vec
  cm_h_vec_2 cm_h_vec_3 : G1) : F := H [IF 1; IFs x; IG (r1_vk_cm_u_vec vk); IG (r1_vk_cm_w_vec vk);
  IG (r1_vk_cm_v_vec vk); IG (r1_vk_cm_y_vec vk); IG cm_u_vec_1; IG cm_s_vec; IG cm_h_vec; IG
  cm_r_vec_tilde; IG cm_t_vec; IG cm_h_vec_2; IG cm_h_vec_3].
(** snarks/voproof_r1cs.rs:1162-1182 challenge [rand_xi] of verify *)
Definition r1_v_ch_rand_xi (vk : r1_vk) (x : list F) (cm_u_vec_1 cm_s_vec cm_h_vec cm_r_vec_tilde
  cm_t_vec cm_h_vec_2 cm_h_vec_3 cm_g : G1) (omega y y_1 z : F) : F := H [IF 1; IFs x; IG
  (r1_vk_cm_u_vec vk); IG (r1_vk_cm_w_vec vk); IG (r1_vk_cm_v_vec vk); IG (r1_vk_cm_y_vec vk); IG
  cm_u_vec_1; IG cm_s_vec; IG cm_h_vec; IG cm_r_vec_tilde; IG cm_t_vec; IG cm_h_vec_2; IG
  cm_h_vec_3; IG cm_g; IF (omega / z); IF y; IF y_1; IF z].
(** snarks/voproof_r1cs.rs:1183-1203 challenge [rand_xi_2] of verify *)
Definition r1_v_ch_rand_xi_2 (vk : r1_vk) (x : list F) (cm_u_vec_1 cm_s_vec cm_h_vec cm_r_vec_tilde
  cm_t_vec cm_h_vec_2 cm_h_vec_3 cm_g : G1) (omega y y_1 z : F) : F := H [IF (1 + 1); IFs x; IG
  (r1_vk_cm_u_vec vk); IG (r1_vk_cm_w_vec vk); IG (r1_vk_cm_v_vec vk); IG (r1_vk_cm_y_vec vk); IG
  cm_u_vec_1; IG cm_s_vec; IG cm_h_vec; IG cm_r_vec_tilde; IG cm_t_vec; IG cm_h_vec_2; IG
  cm_h_vec_3; IG cm_g; IF (omega / z); IF y; IF y_1; IF z].
(** snarks/voproof_r1cs.rs:835-861 [cm_g] *)
Definition r1_p_cm_g (vk : r1_vk) (q : r1_ctx) (cm_u_vec_1 cm_s_vec cm_h_vec cm_r_vec_tilde cm_t_vec
  cm_h_vec_2 cm_h_vec_3 : G1) : G1 := commitment_linear_combination (vk_g (r1_vk_kzg_vk vk))
  (r1_p_c_36 q) [(cm_s_vec, (r1_p_c_35 q)); (cm_h_vec, (r1_p_c_37 q)); ((r1_vk_cm_w_vec vk),
  (r1_p_c_38 q)); ((r1_vk_cm_u_vec vk), (r1_p_c_39 q)); ((r1_vk_cm_y_vec vk), (r1_p_c_40 q));
  (cm_u_vec_1, (r1_p_c_41 q)); ((r1_vk_cm_v_vec vk), (r1_p_c_42 q)); (cm_r_vec_tilde,
  (r1_p_c_43 q)); (cm_t_vec, (r1_p_c_44 q)); (cm_h_vec_2, (r1_p_c_45 q)); (cm_h_vec_3,
  (r1_p_c_46 q))].
(** snarks/voproof_r1cs.rs:1133-1159 [cm_g] *)
Definition r1_v_cm_g (vk : r1_vk) (q : r1_ctx) (cm_u_vec_1 cm_s_vec cm_h_vec cm_r_vec_tilde cm_t_vec
  cm_h_vec_2 cm_h_vec_3 : G1) : G1 := commitment_linear_combination (vk_g (r1_vk_kzg_vk vk))
  (r1_v_c_36 q) [(cm_s_vec, (r1_v_c_35 q)); (cm_h_vec, (r1_v_c_37 q)); ((r1_vk_cm_w_vec vk),
  (r1_v_c_38 q)); ((r1_vk_cm_u_vec vk), (r1_v_c_39 q)); ((r1_vk_cm_y_vec vk), (r1_v_c_40 q));
  (cm_u_vec_1, (r1_v_c_41 q)); ((r1_vk_cm_v_vec vk), (r1_v_c_42 q)); (cm_r_vec_tilde,
  (r1_v_c_43 q)); (cm_t_vec, (r1_v_c_44 q)); (cm_h_vec_2, (r1_v_c_45 q)); (cm_h_vec_3,
  (r1_v_c_46 q))].

(** lines 50-58 [get_max_degree]: computed in i64 and cast with [as usize] (a negative value would
    wrap to a huge number and trip the assertion of [index]: [None] here) *)
Definition r1_get_max_degree (size : R1CSSize) : option nat :=
  let d := (- Z.of_nat (rs_nrows size) + 2 * Z.of_nat (rs_ncols size)
            + 2 * Z.of_nat (rs_adensity size) + 2 * Z.of_nat (rs_bdensity size)
            + 2 * Z.of_nat (rs_cdensity size))%Z in
  if (d <? 0)%Z then None else Some (Z.to_nat d).

(** lines 70-73 [setup]: KZG setup with the sampled trapdoor and generators *)
Definition r1_setup (size : nat) (beta : F) (g : G1) (h : G2) := setup size beta g h.

(** lines 75-129 [index] *)
Definition r1_index (pp : universal_params G1 G2) (cs : R1CS F) : outcome error (r1_pk * r1_vk) :=
  let! size := r1cs_get_size cs in
  let cap_d := length (up_powers_of_g pp) in
  match r1_get_max_degree size with
  | None => Panic
  | Some max_degree =>
    let! _ := assert_ (max_degree <? cap_d)%nat in
    let powers_of_g := up_powers_of_g pp in
    let cap_s := (Z.of_nat (rs_adensity size) + Z.of_nat (rs_bdensity size)
                  + Z.of_nat (rs_cdensity size))%Z in
    let cap_m_mat := concat_matrix_vertically (rs_nrows size) (r_arows cs) (r_brows cs) (r_crows cs)
                       (r_acols cs) (r_bcols cs) (r_ccols cs) (r_avals cs) (r_bvals cs) (r_cvals cs) in
    let u_vec := int_array_to_power_vector (fst (fst cap_m_mat)) gamma in
    let w_vec := int_array_to_power_vector (snd (fst cap_m_mat)) gamma in
    let v_vec := snd cap_m_mat in
    let y_vec := hadamard_vector u_vec w_vec in
    let! cm_u_vec := commit_vector powers_of_g u_vec cap_s in
    let! cm_w_vec := commit_vector powers_of_g w_vec cap_s in
    let! cm_v_vec := commit_vector powers_of_g v_vec cap_s in
    let! cm_y_vec := commit_vector powers_of_g y_vec cap_s in
    let! kvk := kzg_vk pp in
    let vk := mkR1VK cm_u_vec cm_w_vec cm_v_vec cm_y_vec kvk size cap_d in
    Ok (mkR1PK vk powers_of_g max_degree cap_m_mat u_vec w_vec v_vec y_vec, vk)
  end.

(** lines 132-144 of [prove], 929-952 of [verify] *)
Definition r1_pub_of (vk : r1_vk) (x : list F) : r1_pub :=
  let size := r1_vk_size vk in
  mkR1Pub (Z.of_nat (rs_nrows size)) (Z.of_nat (rs_ncols size)) (Z.of_nat (rs_adensity size))
          (Z.of_nat (rs_bdensity size)) (Z.of_nat (rs_cdensity size))
          (Z.of_nat (rs_input_size size)) (Z.of_nat (r1_vk_degree_bound vk)) gamma x.

(** lines 144-161: the matrix applied to the assignment, the assignment, and their commitment *)
Definition r1_round1 (pk : r1_pk) (x w : list F) (delta_vec : list F) : outcome error (r1_s1 * G1) :=
  let e := r1_pub_of (r1_pk_verifier_key pk) x in
  let z := [1] ++ x ++ w in
  let '(rows, cols, vals) := r1_pk_cap_m_mat pk in
  let! mz := sparse_mvp (3 * r1_cap_h e)%Z (r1_cap_k e) rows cols vals z in
  let! u_vec_1 := zero_pad_and_concat (vector_concat [mz; z]) (Z.to_nat (r1_vovectorsize e)) [delta_vec] in
  let! cm_u_vec_1 := commit_vector (r1_pk_powers pk) u_vec_1 (r1_vovectorsize e + 1)%Z in
  Ok (mkR1S1 e (r1_pk_u_vec pk) (r1_pk_w_vec pk) (r1_pk_v_vec pk) (r1_pk_y_vec pk) u_vec_1, cm_u_vec_1).

(** lines 173-181 *)
Definition r1_round2 (pk : r1_pk) (e : r1_s2) : outcome error (list F * G1) :=
  let! c_vec := left_sparse_mvp (r1_pk_cap_m_mat pk) (r1_r_vec e) (3 * r1_cap_h e)%Z (r1_cap_k e) in
  let s_vec := concat_neg_vector (r1_r_vec e) c_vec in
  let! cm_s_vec := commit_vector (r1_pk_powers pk) s_vec (3 * r1_cap_h e + r1_cap_k e)%Z in
  Ok (s_vec, cm_s_vec).

(** lines 193-200 *)
Definition r1_round3 (pk : r1_pk) (e : r1_s3) : outcome error (list F * G1) :=
  let! cm_h_vec := commit_vector (r1_pk_powers pk) (r1_h_val e) (r1_cap_k e + r1_ell_1 e)%Z in
  Ok (r1_h_val e, cm_h_vec).

(** lines 213-235 *)
Definition r1_round4 (pk : r1_pk) (e : r1_s4) (delta_vec_1 : list F) : outcome error (list F * G1) :=
  let r_vec_tilde := vector_concat [r1_r_acc e; delta_vec_1] in
  let! cm_r_vec_tilde := commit_vector (r1_pk_powers pk) r_vec_tilde (r1_vovectorsize e + 1)%Z in
  Ok (r_vec_tilde, cm_r_vec_tilde).

(** lines 250-324 *)
Definition r1_round5 (pk : r1_pk) (e : r1_s5) (delta_vec_2 : list F) : outcome error (list F * G1) :=
  let t_vec := vector_concat [delta_vec_2; r1_t_vec_tail e] in
  let! cm_t_vec := commit_vector (r1_pk_powers pk) t_vec (r1_maxshift e + 2)%Z in
  Ok (t_vec, cm_t_vec).

(** lines 338-680; the division of c_13 panics when its divisor is zero *)
Definition r1_round6 (pk : r1_pk) (e : r1_s6) : outcome error (G1 * G1) :=
  let! _ := nonzero (r1_gamma e * r1_omega e) in
  let! cm_h_vec_2 := commit_vector (r1_pk_powers pk) (r1_h_vec_2 e) (r1_cap_d e) in
  let! cm_h_vec_3 := commit_vector (r1_pk_powers pk) (r1_h_vec_3 e) (r1_maxshift e + r1_vovectorsize e)%Z in
  Ok (cm_h_vec_2, cm_h_vec_3).

(** lines 697-704 *)
Definition r1_ctx_of (e : r1_s6) (z : F) : r1_ctx :=
  mkR1Ctx e (r1_mu e) (r1_nu e) (r1_beta e) (r1_alpha e) (r1_omega e) z (r1_y e z) (r1_y_1 e z).

(** lines 697-865: the combined polynomial, checked to vanish at z *)
Definition r1_round7 (e : r1_s6) (z : F) : outcome error (r1_ctx * list F) :=
  let q := r1_ctx_of e z in
  let! _ := r1_divisors q in
  let! g_vec := r1_g_vec e q in
  let! _ := check_poly_eval (strip g_vec) z 0 in
  Ok (q, g_vec).

(** lines 131-927 [prove]; the three randomizer vectors are sampled with one element each *)
Definition r1_prove (pk : r1_pk) (x w : list F) (delta delta_1 delta_2 : F)
  : outcome error r1_proof :=
  let vk := r1_pk_verifier_key pk in
  let! (s1, cm_u_vec_1) := r1_round1 pk x w [delta] in
  let s2 := mkR1S2 s1 (r1_p_ch_mu vk x cm_u_vec_1) in
  let! (s_vec, cm_s_vec) := r1_round2 pk s2 in
  let s3 := mkR1S3 s2 s_vec (r1_p_ch_nu vk x cm_u_vec_1 cm_s_vec) in
  let! (h_vec, cm_h_vec) := r1_round3 pk s3 in
  let s4 := mkR1S4 s3 h_vec (r1_p_ch_beta vk x cm_u_vec_1 cm_s_vec cm_h_vec) in
  let! (r_vec_tilde, cm_r_vec_tilde) := r1_round4 pk s4 [delta_1] in
  let s5 := mkR1S5 s4 r_vec_tilde (r1_p_ch_alpha vk x cm_u_vec_1 cm_s_vec cm_h_vec cm_r_vec_tilde) in
  let! (t_vec, cm_t_vec) := r1_round5 pk s5 [delta_2] in
  let omega := r1_p_ch_omega vk x cm_u_vec_1 cm_s_vec cm_h_vec cm_r_vec_tilde cm_t_vec in
  let s6 := mkR1S6 s5 t_vec omega in
  let! (cm_h_vec_2, cm_h_vec_3) := r1_round6 pk s6 in
  let z := r1_p_ch_z vk x cm_u_vec_1 cm_s_vec cm_h_vec cm_r_vec_tilde cm_t_vec cm_h_vec_2 cm_h_vec_3 in
  let! (q, g_vec) := r1_round7 s6 z in
  let cm_g := r1_p_cm_g vk q cm_u_vec_1 cm_s_vec cm_h_vec cm_r_vec_tilde cm_t_vec cm_h_vec_2 cm_h_vec_3 in
  let y := r1_q_y q in
  let y_1 := r1_q_y_1 q in
  let rand_xi := r1_p_ch_rand_xi vk x cm_u_vec_1 cm_s_vec cm_h_vec cm_r_vec_tilde cm_t_vec
                   cm_h_vec_2 cm_h_vec_3 cm_g omega y y_1 z in
  let rand_xi_2 := r1_p_ch_rand_xi_2 vk x cm_u_vec_1 cm_s_vec cm_h_vec cm_r_vec_tilde cm_t_vec
                   cm_h_vec_2 cm_h_vec_3 cm_g omega y y_1 z in
  let! (cap_w, cap_w_1) := batch_open (r1_pk_powers pk) [strip h_vec; strip (r1_u_vec_1 s6)]
                             [strip g_vec] (omega / z) z rand_xi rand_xi_2 in
  Ok (mkR1Proof cm_u_vec_1 cm_s_vec cm_h_vec cm_r_vec_tilde cm_t_vec cm_h_vec_2 cm_h_vec_3
        y y_1 cap_w cap_w_1).

(** lines 928-1227 [verify]; [randomizer] is the random scalar of [batch_check] *)
Definition r1_verify (vk : r1_vk) (x : list F) (pf : r1_proof) (randomizer : F)
  : outcome error unit :=
  let cm_u_vec_1 := r1_cm_u_vec_1 pf in
  let cm_s_vec := r1_cm_s_vec pf in
  let cm_h_vec := r1_cm_h_vec pf in
  let cm_r_vec_tilde := r1_cm_r_vec_tilde pf in
  let cm_t_vec := r1_cm_t_vec pf in
  let cm_h_vec_2 := r1_cm_h_vec_2 pf in
  let cm_h_vec_3 := r1_cm_h_vec_3 pf in
  let y := r1_pf_y pf in
  let y_1 := r1_pf_y_1 pf in
  let mu := r1_v_ch_mu vk x cm_u_vec_1 in
  let nu := r1_v_ch_nu vk x cm_u_vec_1 cm_s_vec in
  let beta := r1_v_ch_beta vk x cm_u_vec_1 cm_s_vec cm_h_vec in
  let alpha := r1_v_ch_alpha vk x cm_u_vec_1 cm_s_vec cm_h_vec cm_r_vec_tilde in
  let omega := r1_v_ch_omega vk x cm_u_vec_1 cm_s_vec cm_h_vec cm_r_vec_tilde cm_t_vec in
  let z := r1_v_ch_z vk x cm_u_vec_1 cm_s_vec cm_h_vec cm_r_vec_tilde cm_t_vec cm_h_vec_2 cm_h_vec_3 in
  let q := mkR1Ctx (r1_pub_of vk x) mu nu beta alpha omega z y y_1 in
  let! _ := r1_divisors q in
  let cm_g := r1_v_cm_g vk q cm_u_vec_1 cm_s_vec cm_h_vec cm_r_vec_tilde cm_t_vec cm_h_vec_2 cm_h_vec_3 in
  let z1 := omega / z in
  let z2 := z in
  let rand_xi := r1_v_ch_rand_xi vk x cm_u_vec_1 cm_s_vec cm_h_vec cm_r_vec_tilde cm_t_vec
                   cm_h_vec_2 cm_h_vec_3 cm_g omega y y_1 z in
  let rand_xi_2 := r1_v_ch_rand_xi_2 vk x cm_u_vec_1 cm_s_vec cm_h_vec cm_r_vec_tilde cm_t_vec
                   cm_h_vec_2 cm_h_vec_3 cm_g omega y y_1 z in
  if batch_check (r1_vk_kzg_vk vk) [cm_h_vec; cm_u_vec_1] [cm_g] z1 z2 rand_xi rand_xi_2
       [y; y_1] [0] (r1_cap_w pf) (r1_cap_w_1 pf) randomizer
  then Ok tt else Err VerificationFail.

End R1.
Arguments r1_pub F : clear implicits.
Arguments r1_s1 F : clear implicits.
Arguments r1_s2 F : clear implicits.
Arguments r1_s3 F : clear implicits.
Arguments r1_s4 F : clear implicits.
Arguments r1_s5 F : clear implicits.
Arguments r1_s6 F : clear implicits.
Arguments r1_ctx F : clear implicits.
Arguments r1_vk G1 G2 : clear implicits.
Arguments r1_pk F G1 G2 : clear implicits.
Arguments r1_proof F G1 : clear implicits.

(** RP.v: model of voproof/src/snarks/voproof_r1cs_prover_efficient.rs, the prover-efficient argument
    for R1CS.  The long index expressions are transcribed mechanically from the Rust text (one
    Definition per Rust binding, named rp_<binding>; tools/gen_rp.py).  [H] is the hash oracle, the
    randomizers are arguments. *)
From Verif Require Import Base Tools CS KZG Snark.
Local Open Scope F_scope.

Section RP.
Context {F G1 G2 GT : Type} {fo : FieldOps F} {po : PairingOps F G1 G2 GT}.

(** *** Values in scope.  Each record adds the bindings of one round to the previous one. *)

(** public data of a run: sizes (as i64), degree bound, generator and instance
    (snarks/voproof_r1cs_prover_efficient.rs:140-178, 935-964) *)
Record rp_pub := mkRPPub {
  rp_cap_h : Z; rp_cap_k : Z; rp_cap_s_a : Z; rp_cap_s_b : Z; rp_cap_s_c : Z; rp_ell : Z;
  rp_cap_d : Z; rp_gamma : F; rp_x_vec : list F }.
(** bindings up to line 178; the matrix vectors are those of the prover key, [rp_wit_vec] is the
    padded witness (w_vec in the code, which also has pk.w_vec) *)
Record rp_s1 := mkRPS1 {
  rp_s1_pub :> rp_pub; rp_u_vec : list F; rp_w_vec : list F; rp_v_vec : list F; rp_y_vec : list F;
  rp_y_vec_1 : list F; rp_wit_vec : list F }.
(** challenge mu, lines 179-189 *)
Record rp_s2 := mkRPS2 { rp_s2_s1 :> rp_s1; rp_mu : F }.
(** up to challenge nu, line 211 *)
Record rp_s3 := mkRPS3 { rp_s3_s2 :> rp_s2; rp_r_vec : list F; rp_c_vec : list F; rp_nu : F }.
(** up to challenge beta, line 235 *)
Record rp_s4 := mkRPS4 { rp_s4_s3 :> rp_s3; rp_rnu_vec : list F; rp_t_vec : list F; rp_beta : F }.
(** up to challenge alpha, line 275 *)
Record rp_s5 := mkRPS5 { rp_s5_s4 :> rp_s4; rp_r_vec_tilde : list F; rp_alpha : F }.
(** up to challenge omega, line 349 *)
Record rp_s6 := mkRPS6 { rp_s6_s5 :> rp_s5; rp_t_vec_1 : list F; rp_omega : F }.
(** snarks/voproof_r1cs_prover_efficient.rs:165 [n] *)
Definition rp_n (e : rp_pub) : Z := (rp_cap_s_a e + rp_cap_s_b e + rp_cap_s_c e)%Z.
(** snarks/voproof_r1cs_prover_efficient.rs:177 [ell_1] *)
Definition rp_ell_1 (e : rp_pub) : Z := (rp_cap_s_a e + rp_cap_s_b e + rp_cap_s_c e)%Z.
(** snarks/voproof_r1cs_prover_efficient.rs:190-195 [r_vec], entry i (from 1) before inversion *)
Definition rp_r_val_at (e : rp_s2) (i : Z) : F := (rp_mu e) - (power_vidx (rp_gamma e) (3
  * rp_cap_h e)%Z i).
Definition rp_r_val (e : rp_s2) : list F := expression_vector_inverse (rp_r_val_at e) (3
  * rp_cap_h e)%Z.
(** snarks/voproof_r1cs_prover_efficient.rs:212-217 [rnu_vec], entry i (from 1) before inversion *)
Definition rp_rnu_val_at (e : rp_s3) (i : Z) : F := (rp_nu e) - (power_vidx (rp_gamma e)
  (rp_cap_k e) i).
Definition rp_rnu_val (e : rp_s3) : list F := expression_vector_inverse (rp_rnu_val_at e)
  (rp_cap_k e).
(** snarks/voproof_r1cs_prover_efficient.rs:218 [t_vec] *)
Definition rp_t_val (e : rp_s3) : list F :=
  uwinverse_vector (rp_mu e) (rp_u_vec e) (rp_nu e) (rp_w_vec e).
(** snarks/voproof_r1cs_prover_efficient.rs:236-256 [r_vec_1], entry i (from 1) *)
Definition rp_r_vec_1_at (e : rp_s4) (i : Z) : F := power_linear_combination (rp_beta e)
  [(((vidx (rp_c_vec e) i) * (vidx (rp_x_vec e) (minus_i64 i 2)%Z + delta i 1%Z +
  vidx (rp_wit_vec e) (minus_i64 i (rp_ell e + 2))%Z)) - ((vidx (rp_y_vec_1 e) i)
  * (vidx (rp_r_vec e) i))); (((vidx (rp_c_vec e) i) * (vidx (rp_rnu_vec e) i))
  - ((vidx (rp_t_vec e) i) * (vidx (rp_v_vec e) i)))].
Definition rp_r_vec_1 (e : rp_s4) : list F := expression_vector (rp_r_vec_1_at e) (rp_n e).
(** snarks/voproof_r1cs_prover_efficient.rs:257 [r_vec_tilde], before the randomizer is appended *)
Definition rp_r_acc (e : rp_s4) : list F :=
  accumulate_vector 0 (fun i => vidx (rp_r_vec_1 e) i) (Z.of_nat (length (rp_r_vec_1 e))) fadd.
(** snarks/voproof_r1cs_prover_efficient.rs:259 [maxshift] *)
Definition rp_maxshift (e : rp_pub) : Z := (2 * rp_cap_h e)%Z.
(** snarks/voproof_r1cs_prover_efficient.rs:276 [c] *)
Definition rp_c (e : rp_s5) : F := rp_alpha e * rp_nu e.
(** snarks/voproof_r1cs_prover_efficient.rs:277 [c_1] *)
Definition rp_c_1 (e : rp_s5) : F := - rp_alpha e.
(** snarks/voproof_r1cs_prover_efficient.rs:278 [c_2] *)
Definition rp_c_2 (e : rp_s5) : F := power (rp_alpha e) 6%Z.
(** snarks/voproof_r1cs_prover_efficient.rs:279 [c_3] *)
Definition rp_c_3 (e : rp_s5) : F := - rp_mu e.
(** snarks/voproof_r1cs_prover_efficient.rs:280 [c_4] *)
Definition rp_c_4 (e : rp_s5) : F := rp_mu e * rp_nu e.
(** snarks/voproof_r1cs_prover_efficient.rs:281 [c_5] *)
Definition rp_c_5 (e : rp_s5) : F := - rp_nu e.
(** snarks/voproof_r1cs_prover_efficient.rs:282 [c_6] *)
Definition rp_c_6 (e : rp_s5) : F := - power (rp_alpha e) 6%Z.
(** snarks/voproof_r1cs_prover_efficient.rs:283 [c_7] *)
Definition rp_c_7 (e : rp_s5) : F := power (rp_alpha e) 8%Z.
(** snarks/voproof_r1cs_prover_efficient.rs:284 [c_8] *)
Definition rp_c_8 (e : rp_s5) : F := - power (rp_alpha e) 8%Z.
(** snarks/voproof_r1cs_prover_efficient.rs:285 [c_9] *)
Definition rp_c_9 (e : rp_s5) : F := power (rp_alpha e) 9%Z.
(** snarks/voproof_r1cs_prover_efficient.rs:286 [c_10] *)
Definition rp_c_10 (e : rp_s5) : F := - power (rp_alpha e) 9%Z.
(** snarks/voproof_r1cs_prover_efficient.rs:287 [c_11] *)
Definition rp_c_11 (e : rp_s5) : F := power (rp_alpha e) 9%Z * rp_beta e.
(** snarks/voproof_r1cs_prover_efficient.rs:288 [c_12] *)
Definition rp_c_12 (e : rp_s5) : F := - power (rp_alpha e) 9%Z * rp_beta e.
(** snarks/voproof_r1cs_prover_efficient.rs:289-331 [t_vec_1]: entry i of the expression following the randomizer *)
Definition rp_t_vec_1_at (e : rp_s5) (i : Z) : F := rp_c_1 e * range_index 1%Z (rp_cap_k e) (i +
  rp_n e)%Z * range_index 1%Z (rp_cap_k e) (minus_i64 (i + rp_n e) 1)%Z + rp_c_10 e
  * vidx (rp_y_vec_1 e) (minus_i64 (i + rp_n e) 1)%Z * vidx (rp_r_vec e) (i + rp_n e)%Z + rp_c_10 e
  * range_index 1%Z (rp_n e) (minus_i64 (i + rp_n e) 1)%Z * (vidx (rp_r_vec_tilde e) (minus_i64 (i +
  rp_n e) 1)%Z - vidx (rp_r_vec_tilde e) (minus_i64 (i + rp_n e) 2)%Z) + rp_c_11 e
  * vidx (rp_rnu_vec e) (i + rp_n e)%Z * vidx (rp_c_vec e) (minus_i64 (i + rp_n e) 1)%Z + rp_c_12 e
  * vidx (rp_t_vec e) (minus_i64 (i + rp_n e) 1)%Z * vidx (rp_v_vec e) (i + rp_n e)%Z + rp_c_2 e
  * vidx (rp_t_vec e) (minus_i64 (i + rp_n e) 1)%Z * (rp_c_3 e * vidx (rp_w_vec e) (minus_i64 (i +
  rp_n e) 1)%Z + rp_c_4 e * range_index 1%Z (rp_ell_1 e) (minus_i64 (i + rp_n e) 1)%Z + rp_c_5 e
  * vidx (rp_u_vec e) (minus_i64 (i + rp_n e) 1)%Z + vidx (rp_y_vec e) (minus_i64 (i + rp_n e) 1)%Z)
  + rp_c_6 e * range_index 1%Z (rp_ell_1 e) (minus_i64 (i + rp_n e) 1)%Z * range_index 1%Z
  (rp_ell_1 e) (i + rp_n e)%Z + rp_c_7 e * vidx (rp_y_vec_1 e) (minus_i64 (i + rp_n e) (2
  * rp_cap_h e + 1))%Z * vidx (rp_y_vec_1 e) (i + rp_n e)%Z + rp_c_8 e * range_index 1%Z
  (rp_cap_h e) (minus_i64 (i + rp_n e) (2 * rp_cap_h e + 1))%Z * vidx (rp_y_vec_1 e) (minus_i64 (i +
  rp_n e) (rp_cap_h e + 1))%Z + rp_c_9 e * vidx (rp_c_vec e) (minus_i64 (i + rp_n e) 1)%Z
  * (vidx (rp_x_vec e) (minus_i64 (i + rp_n e) 2)%Z + delta (i + rp_n e)%Z 1%Z + vidx (rp_wit_vec e)
  (minus_i64 (i + rp_n e) (rp_ell e + 2))%Z) + vidx (rp_rnu_vec e) (i + rp_n e)%Z * (rp_c e
  * range_index 1%Z (rp_cap_k e) (minus_i64 (i + rp_n e) 1)%Z + rp_c_1 e * power_vidx (rp_gamma e)
  (rp_cap_k e) (minus_i64 (i + rp_n e) 1)%Z) - range_index 1%Z (3 * rp_cap_h e)%Z (minus_i64 (i +
  rp_n e) 1)%Z * range_index 1%Z (3 * rp_cap_h e)%Z (i + rp_n e)%Z + vidx (rp_r_vec e) (i +
  rp_n e)%Z * (rp_mu e * range_index 1%Z (3 * rp_cap_h e)%Z (minus_i64 (i + rp_n e) 1)%Z
  - power_vidx (rp_gamma e) (3 * rp_cap_h e)%Z (minus_i64 (i + rp_n e) 1)%Z).
Definition rp_t_vec_1_tail (e : rp_s5) : list F := expression_vector (rp_t_vec_1_at e)
  (rp_maxshift e + 2)%Z.
(** snarks/voproof_r1cs_prover_efficient.rs:350 [c_13]: the inverse; the panic for omega = 0 is in [rp_round6] *)
Definition rp_c_13 (e : rp_s6) : F := finv (rp_omega e).
(** snarks/voproof_r1cs_prover_efficient.rs:351 [c_14] *)
Definition rp_c_14 (e : rp_s6) : F := 1 / (rp_gamma e * rp_omega e).
(** snarks/voproof_r1cs_prover_efficient.rs:354-362 [v_vec_1] *)
Definition rp_v_vec_1 (e : rp_s6) : list F := vector_poly_mul (rp_t_vec e) (rp_w_vec e)
  (rp_omega e).
(** snarks/voproof_r1cs_prover_efficient.rs:354-362 [shiftlength] *)
Definition rp_shiftlength (e : rp_s6) : Z := (Z.of_nat (length (rp_t_vec e)) - 1)%Z.
(** snarks/voproof_r1cs_prover_efficient.rs:363 [v_vec_2] *)
Definition rp_v_vec_2 (e : rp_s6) : list F := vector_reverse_omega (rp_t_vec e) (rp_omega e).
(** snarks/voproof_r1cs_prover_efficient.rs:363 [shiftlength_1] *)
Definition rp_shiftlength_1 (e : rp_s6) : Z := (Z.of_nat (length (rp_t_vec e)) - 1)%Z.
(** snarks/voproof_r1cs_prover_efficient.rs:365-373 [v_vec_3] *)
Definition rp_v_vec_3 (e : rp_s6) : list F := vector_poly_mul (rp_t_vec e) (rp_u_vec e)
  (rp_omega e).
(** snarks/voproof_r1cs_prover_efficient.rs:365-373 [shiftlength_2] *)
Definition rp_shiftlength_2 (e : rp_s6) : Z := (Z.of_nat (length (rp_t_vec e)) - 1)%Z.
(** snarks/voproof_r1cs_prover_efficient.rs:375-383 [v_vec_4] *)
Definition rp_v_vec_4 (e : rp_s6) : list F := vector_poly_mul (rp_t_vec e) (rp_y_vec e)
  (rp_omega e).
(** snarks/voproof_r1cs_prover_efficient.rs:375-383 [shiftlength_3] *)
Definition rp_shiftlength_3 (e : rp_s6) : Z := (Z.of_nat (length (rp_t_vec e)) - 1)%Z.
(** snarks/voproof_r1cs_prover_efficient.rs:385-393 [v_vec_5] *)
Definition rp_v_vec_5 (e : rp_s6) : list F := vector_poly_mul (rp_y_vec_1 e) (rp_y_vec_1 e)
  (rp_omega e).
(** snarks/voproof_r1cs_prover_efficient.rs:385-393 [shiftlength_4] *)
Definition rp_shiftlength_4 (e : rp_s6) : Z := (Z.of_nat (length (rp_y_vec_1 e)) - 1)%Z.
(** snarks/voproof_r1cs_prover_efficient.rs:396-404 [v_vec_6] *)
Definition rp_v_vec_6 (e : rp_s6) : list F := vector_poly_mul (rp_c_vec e) (rp_x_vec e)
  (rp_omega e).
(** snarks/voproof_r1cs_prover_efficient.rs:396-404 [shiftlength_5] *)
Definition rp_shiftlength_5 (e : rp_s6) : Z := (Z.of_nat (length (rp_c_vec e)) - 1)%Z.
(** snarks/voproof_r1cs_prover_efficient.rs:405 [v_vec_7] *)
Definition rp_v_vec_7 (e : rp_s6) : list F := vector_reverse_omega (rp_c_vec e) (rp_omega e).
(** snarks/voproof_r1cs_prover_efficient.rs:405 [shiftlength_6] *)
Definition rp_shiftlength_6 (e : rp_s6) : Z := (Z.of_nat (length (rp_c_vec e)) - 1)%Z.
(** snarks/voproof_r1cs_prover_efficient.rs:407-415 [v_vec_8] *)
Definition rp_v_vec_8 (e : rp_s6) : list F := vector_poly_mul (rp_c_vec e) (rp_wit_vec e)
  (rp_omega e).
(** snarks/voproof_r1cs_prover_efficient.rs:407-415 [shiftlength_7] *)
Definition rp_shiftlength_7 (e : rp_s6) : Z := (Z.of_nat (length (rp_c_vec e)) - 1)%Z.
(** snarks/voproof_r1cs_prover_efficient.rs:417-425 [v_vec_9] *)
Definition rp_v_vec_9 (e : rp_s6) : list F := vector_poly_mul (rp_y_vec_1 e) (rp_r_vec e)
  (rp_omega e).
(** snarks/voproof_r1cs_prover_efficient.rs:417-425 [shiftlength_8] *)
Definition rp_shiftlength_8 (e : rp_s6) : Z := (Z.of_nat (length (rp_y_vec_1 e)) - 1)%Z.
(** snarks/voproof_r1cs_prover_efficient.rs:427-435 [v_vec_10] *)
Definition rp_v_vec_10 (e : rp_s6) : list F := vector_poly_mul (rp_c_vec e) (rp_rnu_vec e)
  (rp_omega e).
(** snarks/voproof_r1cs_prover_efficient.rs:427-435 [shiftlength_9] *)
Definition rp_shiftlength_9 (e : rp_s6) : Z := (Z.of_nat (length (rp_c_vec e)) - 1)%Z.
(** snarks/voproof_r1cs_prover_efficient.rs:437-445 [v_vec_11] *)
Definition rp_v_vec_11 (e : rp_s6) : list F := vector_poly_mul (rp_t_vec e) (rp_v_vec e)
  (rp_omega e).
(** snarks/voproof_r1cs_prover_efficient.rs:437-445 [shiftlength_10] *)
Definition rp_shiftlength_10 (e : rp_s6) : Z := (Z.of_nat (length (rp_t_vec e)) - 1)%Z.
(** snarks/voproof_r1cs_prover_efficient.rs:446 [v_vec_12] *)
Definition rp_v_vec_12 (e : rp_s6) : list F := vector_power_mul (rp_r_vec e) (rp_c_13 e) (Z.to_nat
  (3 * rp_cap_h e)%Z).
(** snarks/voproof_r1cs_prover_efficient.rs:447 [v_vec_13] *)
Definition rp_v_vec_13 (e : rp_s6) : list F := vector_power_mul (rp_r_vec e) (rp_c_14 e) (Z.to_nat
  (3 * rp_cap_h e)%Z).
(** snarks/voproof_r1cs_prover_efficient.rs:448-453 [v_vec_14] *)
Definition rp_v_vec_14 (e : rp_s6) : list F := vector_power_mul (rp_r_vec e) (rp_c_13 e) (Z.to_nat
  (- 3 * rp_cap_h e + rp_cap_s_a e + rp_cap_s_b e + rp_cap_s_c e)%Z).
(** snarks/voproof_r1cs_prover_efficient.rs:454 [v_vec_15] *)
Definition rp_v_vec_15 (e : rp_s6) : list F := vector_power_mul (rp_rnu_vec e) (rp_c_13 e) (Z.to_nat
  (rp_cap_k e)).
(** snarks/voproof_r1cs_prover_efficient.rs:455 [v_vec_16] *)
Definition rp_v_vec_16 (e : rp_s6) : list F := vector_power_mul (rp_rnu_vec e) (rp_c_14 e) (Z.to_nat
  (rp_cap_k e)).
(** snarks/voproof_r1cs_prover_efficient.rs:456-461 [v_vec_17] *)
Definition rp_v_vec_17 (e : rp_s6) : list F := vector_power_mul (rp_rnu_vec e) (rp_c_13 e) (Z.to_nat
  (- rp_cap_k e + rp_cap_s_a e + rp_cap_s_b e + rp_cap_s_c e)%Z).
(** snarks/voproof_r1cs_prover_efficient.rs:462 [v_vec_18] *)
Definition rp_v_vec_18 (e : rp_s6) : list F := vector_power_mul (rp_c_vec e) (rp_c_13 e) (Z.to_nat
  (- rp_cap_k e + rp_cap_s_a e + rp_cap_s_b e + rp_cap_s_c e)%Z).
(** snarks/voproof_r1cs_prover_efficient.rs:463 [v_vec_19] *)
Definition rp_v_vec_19 (e : rp_s6) : list F := vector_power_mul (rp_t_vec e) (rp_c_13 e) (Z.to_nat
  0%Z).
(** snarks/voproof_r1cs_prover_efficient.rs:464 [v_vec_20] *)
Definition rp_v_vec_20 (e : rp_s6) : list F := vector_power_mul (rp_v_vec_2 e) 1 (Z.to_nat
  (rp_cap_s_a e + rp_cap_s_b e + rp_cap_s_c e)%Z).
(** snarks/voproof_r1cs_prover_efficient.rs:465-470 [v_vec_21] *)
Definition rp_v_vec_21 (e : rp_s6) : list F := vector_power_mul (rp_y_vec_1 e) (rp_c_13 e) (Z.to_nat
  (- 3 * rp_cap_h e + rp_cap_s_a e + rp_cap_s_b e + rp_cap_s_c e)%Z).
(** snarks/voproof_r1cs_prover_efficient.rs:471 [v_vec_22] *)
Definition rp_v_vec_22 (e : rp_s6) : list F := vector_power_mul (rp_y_vec_1 e) (rp_c_13 e) (Z.to_nat
  (rp_cap_h e)).
(** snarks/voproof_r1cs_prover_efficient.rs:472 [v_vec_23] *)
Definition rp_v_vec_23 (e : rp_s6) : list F := vector_power_mul (rp_r_vec_tilde e) (rp_c_13 e)
  (Z.to_nat (rp_cap_s_a e + rp_cap_s_b e + rp_cap_s_c e)%Z).
(** snarks/voproof_r1cs_prover_efficient.rs:473 [v_vec_24] *)
Definition rp_v_vec_24 (e : rp_s6) : list F := vector_power_mul (rp_t_vec_1 e) (rp_c_13 e) (Z.to_nat
  (2 * rp_cap_h e + 1)%Z).
(** snarks/voproof_r1cs_prover_efficient.rs:474 [v_vec_25] *)
Definition rp_v_vec_25 (e : rp_s6) : list F := power_power_mul (rp_c_13 e) (Z.to_nat (3
  * rp_cap_h e)%Z) 1 (Z.to_nat (3 * rp_cap_h e)%Z).
(** snarks/voproof_r1cs_prover_efficient.rs:475 [v_vec_26] *)
Definition rp_v_vec_26 (e : rp_s6) : list F := power_power_mul (rp_c_13 e) (Z.to_nat (rp_cap_k e)) 1
  (Z.to_nat (rp_cap_k e)).
(** snarks/voproof_r1cs_prover_efficient.rs:476-482 [v_vec_27] *)
Definition rp_v_vec_27 (e : rp_s6) : list F := power_power_mul (rp_c_13 e) (Z.to_nat (rp_cap_s_a e +
  rp_cap_s_b e + rp_cap_s_c e)%Z) 1 (Z.to_nat (rp_cap_s_a e + rp_cap_s_b e + rp_cap_s_c e)%Z).
(** snarks/voproof_r1cs_prover_efficient.rs:483 [c_15] *)
Definition rp_c_15 (e : rp_s6) : F := - power (rp_alpha e) 6%Z * rp_mu e.
(** snarks/voproof_r1cs_prover_efficient.rs:484 [c_16] *)
Definition rp_c_16 (e : rp_s6) : F := - power (rp_alpha e) 6%Z * rp_nu e.
(** snarks/voproof_r1cs_prover_efficient.rs:485 [c_17] *)
Definition rp_c_17 (e : rp_s6) : F := power (rp_alpha e) 8%Z * power (rp_omega e) (2
  * rp_cap_h e)%Z.
(** snarks/voproof_r1cs_prover_efficient.rs:486-489 [c_18] *)
Definition rp_c_18 (e : rp_s6) : F := power (rp_alpha e) 10%Z * power (rp_omega e) (rp_cap_s_a e +
  rp_cap_s_b e + rp_cap_s_c e - 1)%Z.
(** snarks/voproof_r1cs_prover_efficient.rs:490 [c_19] *)
Definition rp_c_19 (e : rp_s6) : F := rp_mu e * power (rp_omega e) (3 * rp_cap_h e - 1)%Z.
(** snarks/voproof_r1cs_prover_efficient.rs:491 [c_20] *)
Definition rp_c_20 (e : rp_s6) : F := - power (rp_gamma e * rp_omega e) (3 * rp_cap_h e - 1)%Z.
(** snarks/voproof_r1cs_prover_efficient.rs:492-495 [c_21] *)
Definition rp_c_21 (e : rp_s6) : F := power (rp_alpha e) 2%Z * power (rp_omega e) (rp_cap_s_a e +
  rp_cap_s_b e + rp_cap_s_c e - 1)%Z.
(** snarks/voproof_r1cs_prover_efficient.rs:496 [c_22] *)
Definition rp_c_22 (e : rp_s6) : F := rp_alpha e * rp_nu e * power (rp_omega e) (rp_cap_k e - 1)%Z.
(** snarks/voproof_r1cs_prover_efficient.rs:497 [c_23] *)
Definition rp_c_23 (e : rp_s6) : F := - rp_alpha e * power (rp_gamma e * rp_omega e) (rp_cap_k e
  - 1)%Z.
(** snarks/voproof_r1cs_prover_efficient.rs:498-501 [c_24] *)
Definition rp_c_24 (e : rp_s6) : F := power (rp_alpha e) 3%Z * power (rp_omega e) (rp_cap_s_a e +
  rp_cap_s_b e + rp_cap_s_c e - 1)%Z.
(** snarks/voproof_r1cs_prover_efficient.rs:502-505 [c_25] *)
Definition rp_c_25 (e : rp_s6) : F := power (rp_alpha e) 4%Z * power (rp_omega e) (rp_cap_s_a e +
  rp_cap_s_b e + rp_cap_s_c e - 1)%Z.
(** snarks/voproof_r1cs_prover_efficient.rs:506-509 [c_26] *)
Definition rp_c_26 (e : rp_s6) : F := power (rp_alpha e) 5%Z * power (rp_omega e) (rp_cap_s_a e +
  rp_cap_s_b e + rp_cap_s_c e - 1)%Z.
(** snarks/voproof_r1cs_prover_efficient.rs:510 [c_27] *)
Definition rp_c_27 (e : rp_s6) : F := power (rp_alpha e) 6%Z * rp_mu e * rp_nu e.
(** snarks/voproof_r1cs_prover_efficient.rs:511-514 [c_28] *)
Definition rp_c_28 (e : rp_s6) : F := power (rp_alpha e) 7%Z * power (rp_omega e) (rp_cap_s_a e +
  rp_cap_s_b e + rp_cap_s_c e - 1)%Z.
(** snarks/voproof_r1cs_prover_efficient.rs:515 [c_29] *)
Definition rp_c_29 (e : rp_s6) : F := - power (rp_alpha e) 8%Z * power (rp_omega e) (3 * rp_cap_h e
  - 1)%Z.
(** snarks/voproof_r1cs_prover_efficient.rs:516-519 [c_30] *)
Definition rp_c_30 (e : rp_s6) : F := - power (rp_alpha e) 9%Z * power (rp_omega e) (rp_cap_s_a e +
  rp_cap_s_b e + rp_cap_s_c e - 1)%Z.
(** snarks/voproof_r1cs_prover_efficient.rs:520-523 [c_31] *)
Definition rp_c_31 (e : rp_s6) : F := power (rp_alpha e) 9%Z * power (rp_omega e) (rp_cap_s_a e +
  rp_cap_s_b e + rp_cap_s_c e - 1)%Z.
(** snarks/voproof_r1cs_prover_efficient.rs:524 [c_32] *)
Definition rp_c_32 (e : rp_s6) : F := - power (rp_omega e) (2 * rp_cap_h e + rp_cap_s_a e +
  rp_cap_s_b e + rp_cap_s_c e)%Z.
(** snarks/voproof_r1cs_prover_efficient.rs:525 [c_33] *)
Definition rp_c_33 (e : rp_s6) : F := - power (rp_omega e) (3 * rp_cap_h e - 1)%Z.
(** snarks/voproof_r1cs_prover_efficient.rs:526 [c_34] *)
Definition rp_c_34 (e : rp_s6) : F := - rp_alpha e * power (rp_omega e) (rp_cap_k e - 1)%Z.
(** snarks/voproof_r1cs_prover_efficient.rs:527-530 [c_35] *)
Definition rp_c_35 (e : rp_s6) : F := - power (rp_alpha e) 6%Z * power (rp_omega e) (rp_cap_s_a e +
  rp_cap_s_b e + rp_cap_s_c e - 1)%Z.
(** snarks/voproof_r1cs_prover_efficient.rs:531-599 [h_vec_1], entry i (from 1) *)
Definition rp_h_vec_1_at (e : rp_s6) (i : Z) : F := rp_c_10 e * vidx (rp_v_vec_9 e) (minus_i64 (i
  - rp_maxshift e - rp_n e) (1 - rp_shiftlength_8 e))%Z + rp_c_11 e * vidx (rp_v_vec_10 e)
  (minus_i64 (i - rp_maxshift e - rp_n e) (1 - rp_shiftlength_9 e))%Z + rp_c_12 e
  * vidx (rp_v_vec_11 e) (minus_i64 (i - rp_maxshift e - rp_n e) (1 - rp_shiftlength_10 e))%Z +
  rp_c_15 e * vidx (rp_v_vec_1 e) (minus_i64 (i - rp_maxshift e - rp_n e) (1 - rp_shiftlength e))%Z
  + rp_c_16 e * vidx (rp_v_vec_3 e) (minus_i64 (i - rp_maxshift e - rp_n e) (1
  - rp_shiftlength_2 e))%Z + rp_c_17 e * vidx (rp_v_vec_5 e) (minus_i64 (i - rp_maxshift e - rp_n e)
  (- 2 * rp_cap_h e - rp_shiftlength_4 e + 1))%Z + rp_c_18 e * vidx (rp_r_vec_tilde e) (minus_i64 (i
  - rp_maxshift e - rp_n e) (2 - rp_n e))%Z + rp_c_19 e * vidx (rp_v_vec_12 e) (minus_i64 (i
  - rp_maxshift e - rp_n e) (2 - 3 * rp_cap_h e))%Z + rp_c_2 e * vidx (rp_v_vec_4 e) (minus_i64 (i
  - rp_maxshift e - rp_n e) (1 - rp_shiftlength_3 e))%Z + rp_c_20 e * vidx (rp_v_vec_13 e)
  (minus_i64 (i - rp_maxshift e - rp_n e) (2 - 3 * rp_cap_h e))%Z + rp_c_21 e * vidx (rp_v_vec_14 e)
  (minus_i64 (i - rp_maxshift e - rp_n e) (- rp_cap_s_a e - rp_cap_s_b e - rp_cap_s_c e + 2))%Z +
  rp_c_22 e * vidx (rp_v_vec_15 e) (minus_i64 (i - rp_maxshift e - rp_n e) (2 - rp_cap_k e))%Z +
  rp_c_23 e * vidx (rp_v_vec_16 e) (minus_i64 (i - rp_maxshift e - rp_n e) (2 - rp_cap_k e))%Z +
  rp_c_24 e * vidx (rp_v_vec_17 e) (minus_i64 (i - rp_maxshift e - rp_n e) (- rp_cap_s_a e
  - rp_cap_s_b e - rp_cap_s_c e + 2))%Z + rp_c_25 e * vidx (rp_v_vec_18 e) (minus_i64 (i
  - rp_maxshift e - rp_n e) (- rp_cap_s_a e - rp_cap_s_b e - rp_cap_s_c e + 2))%Z + rp_c_26 e
  * vidx (rp_v_vec_19 e) (minus_i64 (i - rp_maxshift e - rp_n e) (2 - rp_ell_1 e))%Z + rp_c_27 e
  * vidx (rp_v_vec_20 e) (minus_i64 (i - rp_maxshift e - rp_n e) (1 - rp_shiftlength_1 e))%Z +
  rp_c_28 e * vidx (rp_v_vec_21 e) (minus_i64 (i - rp_maxshift e - rp_n e) (- rp_cap_s_a e
  - rp_cap_s_b e - rp_cap_s_c e + 2))%Z + rp_c_29 e * vidx (rp_v_vec_22 e) (minus_i64 (i
  - rp_maxshift e - rp_n e) (2 - 2 * rp_cap_h e))%Z + rp_c_30 e * vidx (rp_v_vec_23 e) (minus_i64 (i
  - rp_maxshift e - rp_n e) (- rp_cap_s_a e - rp_cap_s_b e - rp_cap_s_c e + 2))%Z + rp_c_31 e
  * vidx (rp_v_vec_23 e) (minus_i64 (i - rp_maxshift e - rp_n e) (- rp_cap_s_a e - rp_cap_s_b e
  - rp_cap_s_c e + 3))%Z + rp_c_32 e * vidx (rp_v_vec_24 e) (minus_i64 (i - rp_maxshift e - rp_n e)
  (- 2 * rp_cap_h e))%Z + rp_c_33 e * vidx (rp_v_vec_25 e) (minus_i64 (i - rp_maxshift e - rp_n e)
  (2 - 3 * rp_cap_h e))%Z + rp_c_34 e * vidx (rp_v_vec_26 e) (minus_i64 (i - rp_maxshift e - rp_n e)
  (2 - rp_cap_k e))%Z + rp_c_35 e * vidx (rp_v_vec_27 e) (minus_i64 (i - rp_maxshift e - rp_n e)
  (- rp_cap_s_a e - rp_cap_s_b e - rp_cap_s_c e + 2))%Z + rp_c_9 e * vidx (rp_v_vec_6 e)
  (minus_i64 (i - rp_maxshift e - rp_n e) (2 - rp_shiftlength_5 e))%Z + rp_c_9 e
  * vidx (rp_v_vec_7 e) (minus_i64 (i - rp_maxshift e - rp_n e) (1 - rp_shiftlength_6 e))%Z +
  rp_c_9 e * vidx (rp_v_vec_8 e) (minus_i64 (i - rp_maxshift e - rp_n e) (rp_ell e
  - rp_shiftlength_7 e + 2))%Z.
Definition rp_h_vec_1 (e : rp_s6) : list F := expression_vector (rp_h_vec_1_at e) (rp_maxshift e +
  rp_n e)%Z.
(** snarks/voproof_r1cs_prover_efficient.rs:600-660 [h_vec_2], entry i (from 1) *)
Definition rp_h_vec_2_at (e : rp_s6) (i : Z) : F := rp_c_10 e * vidx (rp_v_vec_9 e) (minus_i64 (i +
  1) (1 - rp_shiftlength_8 e))%Z + rp_c_11 e * vidx (rp_v_vec_10 e) (minus_i64 (i + 1) (1
  - rp_shiftlength_9 e))%Z + rp_c_12 e * vidx (rp_v_vec_11 e) (minus_i64 (i + 1) (1
  - rp_shiftlength_10 e))%Z + rp_c_15 e * vidx (rp_v_vec_1 e) (minus_i64 (i + 1) (1
  - rp_shiftlength e))%Z + rp_c_16 e * vidx (rp_v_vec_3 e) (minus_i64 (i + 1) (1
  - rp_shiftlength_2 e))%Z + rp_c_17 e * vidx (rp_v_vec_5 e) (minus_i64 (i + 1) (- 2 * rp_cap_h e
  - rp_shiftlength_4 e + 1))%Z + rp_c_18 e * vidx (rp_r_vec_tilde e) (minus_i64 (i + 1) (2
  - rp_n e))%Z + rp_c_19 e * vidx (rp_v_vec_12 e) (minus_i64 (i + 1) (2 - 3 * rp_cap_h e))%Z +
  rp_c_2 e * vidx (rp_v_vec_4 e) (minus_i64 (i + 1) (1 - rp_shiftlength_3 e))%Z + rp_c_20 e
  * vidx (rp_v_vec_13 e) (minus_i64 (i + 1) (2 - 3 * rp_cap_h e))%Z + rp_c_21 e
  * vidx (rp_v_vec_14 e) (minus_i64 (i + 1) (- rp_cap_s_a e - rp_cap_s_b e - rp_cap_s_c e + 2))%Z +
  rp_c_22 e * vidx (rp_v_vec_15 e) (minus_i64 (i + 1) (2 - rp_cap_k e))%Z + rp_c_23 e
  * vidx (rp_v_vec_16 e) (minus_i64 (i + 1) (2 - rp_cap_k e))%Z + rp_c_24 e * vidx (rp_v_vec_17 e)
  (minus_i64 (i + 1) (- rp_cap_s_a e - rp_cap_s_b e - rp_cap_s_c e + 2))%Z + rp_c_25 e
  * vidx (rp_v_vec_18 e) (minus_i64 (i + 1) (- rp_cap_s_a e - rp_cap_s_b e - rp_cap_s_c e + 2))%Z +
  rp_c_26 e * vidx (rp_v_vec_19 e) (minus_i64 (i + 1) (2 - rp_ell_1 e))%Z + rp_c_27 e
  * vidx (rp_v_vec_20 e) (minus_i64 (i + 1) (1 - rp_shiftlength_1 e))%Z + rp_c_28 e
  * vidx (rp_v_vec_21 e) (minus_i64 (i + 1) (- rp_cap_s_a e - rp_cap_s_b e - rp_cap_s_c e + 2))%Z +
  rp_c_29 e * vidx (rp_v_vec_22 e) (minus_i64 (i + 1) (2 - 2 * rp_cap_h e))%Z + rp_c_30 e
  * vidx (rp_v_vec_23 e) (minus_i64 (i + 1) (- rp_cap_s_a e - rp_cap_s_b e - rp_cap_s_c e + 2))%Z +
  rp_c_31 e * vidx (rp_v_vec_23 e) (minus_i64 (i + 1) (- rp_cap_s_a e - rp_cap_s_b e - rp_cap_s_c e
  + 3))%Z + rp_c_32 e * vidx (rp_v_vec_24 e) (minus_i64 (i + 1) (- 2 * rp_cap_h e))%Z + rp_c_33 e
  * vidx (rp_v_vec_25 e) (minus_i64 (i + 1) (2 - 3 * rp_cap_h e))%Z + rp_c_34 e
  * vidx (rp_v_vec_26 e) (minus_i64 (i + 1) (2 - rp_cap_k e))%Z + rp_c_35 e * vidx (rp_v_vec_27 e)
  (minus_i64 (i + 1) (- rp_cap_s_a e - rp_cap_s_b e - rp_cap_s_c e + 2))%Z + rp_c_9 e
  * vidx (rp_v_vec_6 e) (minus_i64 (i + 1) (2 - rp_shiftlength_5 e))%Z + rp_c_9 e
  * vidx (rp_v_vec_7 e) (minus_i64 (i + 1) (1 - rp_shiftlength_6 e))%Z + rp_c_9 e
  * vidx (rp_v_vec_8 e) (minus_i64 (i + 1) (rp_ell e - rp_shiftlength_7 e + 2))%Z.
Definition rp_h_vec_2 (e : rp_s6) : list F := expression_vector (rp_h_vec_2_at e) (rp_maxshift e +
  rp_n e)%Z.

(** *** The evaluation round: lines 682-788 of [prove] and 1056-1159 of [verify].
    [rp_ctx] holds what both sides know after the challenge z. *)
Record rp_ctx := mkRPCtx {
  rp_ctx_pub :> rp_pub; rp_q_mu : F; rp_q_nu : F; rp_q_beta : F; rp_q_alpha : F; rp_q_omega : F;
  rp_q_z : F; rp_q_y : F; rp_q_y_1 : F; rp_q_y_2 : F }.
(** snarks/voproof_r1cs_prover_efficient.rs:682 [y] *)
Definition rp_y (e : rp_s6) (z : F) : F := eval_vector_expression (rp_omega e / z) (fun i =>
  vidx (rp_t_vec e) i) (rp_n e + 1)%Z.
(** snarks/voproof_r1cs_prover_efficient.rs:683 [y_1] *)
Definition rp_y_1 (e : rp_s6) (z : F) : F := eval_vector_expression (rp_omega e / z) (fun i =>
  vidx (rp_y_vec_1 e) i) (rp_n e + 1)%Z.
(** snarks/voproof_r1cs_prover_efficient.rs:684 [y_2] *)
Definition rp_y_2 (e : rp_s6) (z : F) : F := eval_vector_expression (rp_omega e / z) (fun i =>
  vidx (rp_c_vec e) i) (rp_n e + 1)%Z.
(** snarks/voproof_r1cs_prover_efficient.rs:685-699 [c_36] *)
Definition rp_p_c_36 (e : rp_ctx) : F := 1 * (- power (rp_q_alpha e) 9%Z * 1 * rp_q_y_1 e
  * (rp_q_omega e - 1 * rp_q_z e) * (rp_gamma e * rp_q_omega e - 1 * rp_q_z e)
  - power (rp_q_alpha e) 2%Z * rp_q_z e * power (rp_q_omega e / rp_q_z e) (3 * rp_cap_h e)%Z * (1
  - power (rp_q_omega e / rp_q_z e) (- 3 * rp_cap_h e + rp_cap_s_a e + rp_cap_s_b e +
  rp_cap_s_c e)%Z) * (rp_gamma e * rp_q_omega e - 1 * rp_q_z e) - 1 * rp_q_z e * (rp_q_mu e * (1
  - power (rp_q_omega e / rp_q_z e) (3 * rp_cap_h e)%Z) * (rp_gamma e * rp_q_omega e - 1 * rp_q_z e)
  - (rp_q_omega e - 1 * rp_q_z e) * (1 - power (rp_gamma e * rp_q_omega e / rp_q_z e) (3
  * rp_cap_h e)%Z))) / ((rp_q_omega e - 1 * rp_q_z e) * (rp_gamma e * rp_q_omega e - 1 * rp_q_z e)).
(** snarks/voproof_r1cs_prover_efficient.rs:700-723 [c_37] *)
Definition rp_p_c_37 (e : rp_ctx) : F := 1 * (power (rp_q_alpha e) 9%Z * rp_q_y_2 e * (rp_q_omega e
  - 1 * rp_q_z e) * (1 - rp_q_z e) * (1 + eval_vector_as_poly (rp_x_vec e) (rp_q_z e) * rp_q_z e) +
  power (rp_q_alpha e) 6%Z * rp_q_mu e * rp_q_nu e * 1 * rp_q_y e * (rp_q_omega e - 1 * rp_q_z e)
  * (1 - power (rp_q_z e) (rp_ell_1 e)) + 1 * rp_q_z e * (power (rp_q_alpha e) 6%Z * (1
  - power (rp_q_z e) (rp_ell_1 e)) * (1 - power (rp_q_omega e / rp_q_z e) (rp_cap_s_a e +
  rp_cap_s_b e + rp_cap_s_c e)%Z) + rp_q_alpha e * (1 - power (rp_q_z e) (rp_cap_k e)) * (1
  - power (rp_q_omega e / rp_q_z e) (rp_cap_k e)) + (1 - power (rp_q_z e) (3 * rp_cap_h e)%Z) * (1
  - power (rp_q_omega e / rp_q_z e) (3 * rp_cap_h e)%Z))) / ((rp_q_omega e - 1 * rp_q_z e) * (1
  - rp_q_z e)).
(** snarks/voproof_r1cs_prover_efficient.rs:724-744 [c_38] *)
Definition rp_p_c_38 (e : rp_ctx) : F := rp_q_alpha e * 1 * (power (rp_q_alpha e) 8%Z * rp_q_beta e
  * 1 * rp_q_y_2 e * (rp_q_omega e - 1 * rp_q_z e) * (rp_gamma e * rp_q_omega e - 1 * rp_q_z e)
  - power (rp_q_alpha e) 2%Z * rp_q_z e * power (rp_q_omega e / rp_q_z e) (rp_cap_k e) * (1
  - power (rp_q_omega e / rp_q_z e) (- rp_cap_k e + rp_cap_s_a e + rp_cap_s_b e + rp_cap_s_c e)%Z)
  * (rp_gamma e * rp_q_omega e - 1 * rp_q_z e) - 1 * rp_q_z e * (rp_q_nu e * (1
  - power (rp_q_omega e / rp_q_z e) (rp_cap_k e)) * (rp_gamma e * rp_q_omega e - 1 * rp_q_z e)
  - (rp_q_omega e - 1 * rp_q_z e) * (1 - power (rp_gamma e * rp_q_omega e / rp_q_z e)
  (rp_cap_k e)))) / ((rp_q_omega e - 1 * rp_q_z e) * (rp_gamma e * rp_q_omega e - 1 * rp_q_z e)).
(** snarks/voproof_r1cs_prover_efficient.rs:745-753 [c_39] *)
Definition rp_p_c_39 (e : rp_ctx) : F := power (rp_q_alpha e) 4%Z * 1 * rp_q_z e
  * power (rp_q_omega e / rp_q_z e) (rp_cap_k e) * (1 - power (rp_q_omega e / rp_q_z e)
  (- rp_cap_k e + rp_cap_s_a e + rp_cap_s_b e + rp_cap_s_c e)%Z) / (- rp_q_omega e + 1 * rp_q_z e).
(** snarks/voproof_r1cs_prover_efficient.rs:754 [c_40] *)
Definition rp_p_c_40 (e : rp_ctx) : F := - power (rp_q_alpha e) 6%Z * rp_q_mu e * power 1 2%Z
  * rp_q_y e.
(** snarks/voproof_r1cs_prover_efficient.rs:755 [c_41] *)
Definition rp_p_c_41 (e : rp_ctx) : F := - power (rp_q_alpha e) 6%Z * rp_q_nu e * power 1 2%Z
  * rp_q_y e.
(** snarks/voproof_r1cs_prover_efficient.rs:756 [c_42] *)
Definition rp_p_c_42 (e : rp_ctx) : F := power (rp_q_alpha e) 6%Z * power 1 2%Z * rp_q_y e.
(** snarks/voproof_r1cs_prover_efficient.rs:757-769 [c_43] *)
Definition rp_p_c_43 (e : rp_ctx) : F := power (rp_q_alpha e) 7%Z * power (rp_q_omega e / rp_q_z e)
  (2 * rp_cap_h e)%Z * (rp_q_alpha e * (1 * rp_q_y_1 e * (rp_q_omega e - 1 * rp_q_z e) +
  power (rp_q_z e) (rp_cap_h e + 1)%Z * (1 - power (rp_q_omega e / rp_q_z e) (rp_cap_h e))) - 1
  * rp_q_z e * power (rp_q_omega e / rp_q_z e) (rp_cap_h e) * (1 - power (rp_q_omega e / rp_q_z e)
  (- 3 * rp_cap_h e + rp_cap_s_a e + rp_cap_s_b e + rp_cap_s_c e)%Z)) / (rp_q_omega e - 1
  * rp_q_z e).
(** snarks/voproof_r1cs_prover_efficient.rs:770 [c_44] *)
Definition rp_p_c_44 (e : rp_ctx) : F := power (rp_q_alpha e) 9%Z * 1 * rp_q_y_2 e
  * power (rp_q_z e) (rp_ell e + 1)%Z.
(** snarks/voproof_r1cs_prover_efficient.rs:771 [c_45] *)
Definition rp_p_c_45 (e : rp_ctx) : F := - power (rp_q_alpha e) 9%Z * rp_q_beta e * power 1 2%Z
  * rp_q_y e.
(** snarks/voproof_r1cs_prover_efficient.rs:772-779 [c_46] *)
Definition rp_p_c_46 (e : rp_ctx) : F := power (rp_q_alpha e) 9%Z * 1 * (rp_q_alpha e
  * power (rp_q_omega e / rp_q_z e) (rp_cap_s_a e + rp_cap_s_b e + rp_cap_s_c e - 1)%Z
  * (rp_q_omega e - 1 * rp_q_z e) + rp_q_z e * (1 - rp_q_z e) * (1 - power (rp_q_omega e / rp_q_z e)
  (rp_cap_s_a e + rp_cap_s_b e + rp_cap_s_c e)%Z)) / (rp_q_omega e - 1 * rp_q_z e).
(** snarks/voproof_r1cs_prover_efficient.rs:780-786 [c_47] *)
Definition rp_p_c_47 (e : rp_ctx) : F := power (rp_q_z e) (rp_n e) * power (rp_q_omega e / rp_q_z e)
  (rp_cap_s_a e + rp_cap_s_b e + rp_cap_s_c e)%Z * (1 - power (rp_q_omega e / rp_q_z e) (2
  * rp_cap_h e + 1)%Z) / (rp_q_omega e - 1 * rp_q_z e).
(** snarks/voproof_r1cs_prover_efficient.rs:787 [c_48] *)
Definition rp_p_c_48 (e : rp_ctx) : F := - power (rp_q_z e) (- rp_cap_d e)%Z.
(** snarks/voproof_r1cs_prover_efficient.rs:788 [c_49] *)
Definition rp_p_c_49 (e : rp_ctx) : F := - rp_q_z e.

(** the same bindings in [verify] *)
(** snarks/voproof_r1cs_prover_efficient.rs:1056-1070 [c_36] *)
Definition rp_v_c_36 (e : rp_ctx) : F := 1 * (- power (rp_q_alpha e) 9%Z * 1 * rp_q_y_1 e
  * (rp_q_omega e - 1 * rp_q_z e) * (rp_gamma e * rp_q_omega e - 1 * rp_q_z e)
  - power (rp_q_alpha e) 2%Z * rp_q_z e * power (rp_q_omega e / rp_q_z e) (3 * rp_cap_h e)%Z * (1
  - power (rp_q_omega e / rp_q_z e) (- 3 * rp_cap_h e + rp_cap_s_a e + rp_cap_s_b e +
  rp_cap_s_c e)%Z) * (rp_gamma e * rp_q_omega e - 1 * rp_q_z e) - 1 * rp_q_z e * (rp_q_mu e * (1
  - power (rp_q_omega e / rp_q_z e) (3 * rp_cap_h e)%Z) * (rp_gamma e * rp_q_omega e - 1 * rp_q_z e)
  - (rp_q_omega e - 1 * rp_q_z e) * (1 - power (rp_gamma e * rp_q_omega e / rp_q_z e) (3
  * rp_cap_h e)%Z))) / ((rp_q_omega e - 1 * rp_q_z e) * (rp_gamma e * rp_q_omega e - 1 * rp_q_z e)).
(** snarks/voproof_r1cs_prover_efficient.rs:1071-1094 [c_37] *)
Definition rp_v_c_37 (e : rp_ctx) : F := 1 * (power (rp_q_alpha e) 9%Z * rp_q_y_2 e * (rp_q_omega e
  - 1 * rp_q_z e) * (1 - rp_q_z e) * (1 + eval_vector_as_poly (rp_x_vec e) (rp_q_z e) * rp_q_z e) +
  power (rp_q_alpha e) 6%Z * rp_q_mu e * rp_q_nu e * 1 * rp_q_y e * (rp_q_omega e - 1 * rp_q_z e)
  * (1 - power (rp_q_z e) (rp_ell_1 e)) + 1 * rp_q_z e * (power (rp_q_alpha e) 6%Z * (1
  - power (rp_q_z e) (rp_ell_1 e)) * (1 - power (rp_q_omega e / rp_q_z e) (rp_cap_s_a e +
  rp_cap_s_b e + rp_cap_s_c e)%Z) + rp_q_alpha e * (1 - power (rp_q_z e) (rp_cap_k e)) * (1
  - power (rp_q_omega e / rp_q_z e) (rp_cap_k e)) + (1 - power (rp_q_z e) (3 * rp_cap_h e)%Z) * (1
  - power (rp_q_omega e / rp_q_z e) (3 * rp_cap_h e)%Z))) / ((rp_q_omega e - 1 * rp_q_z e) * (1
  - rp_q_z e)).
(** snarks/voproof_r1cs_prover_efficient.rs:1095-1115 [c_38] *)
Definition rp_v_c_38 (e : rp_ctx) : F := rp_q_alpha e * 1 * (power (rp_q_alpha e) 8%Z * rp_q_beta e
  * 1 * rp_q_y_2 e * (rp_q_omega e - 1 * rp_q_z e) * (rp_gamma e * rp_q_omega e - 1 * rp_q_z e)
  - power (rp_q_alpha e) 2%Z * rp_q_z e * power (rp_q_omega e / rp_q_z e) (rp_cap_k e) * (1
  - power (rp_q_omega e / rp_q_z e) (- rp_cap_k e + rp_cap_s_a e + rp_cap_s_b e + rp_cap_s_c e)%Z)
  * (rp_gamma e * rp_q_omega e - 1 * rp_q_z e) - 1 * rp_q_z e * (rp_q_nu e * (1
  - power (rp_q_omega e / rp_q_z e) (rp_cap_k e)) * (rp_gamma e * rp_q_omega e - 1 * rp_q_z e)
  - (rp_q_omega e - 1 * rp_q_z e) * (1 - power (rp_gamma e * rp_q_omega e / rp_q_z e)
  (rp_cap_k e)))) / ((rp_q_omega e - 1 * rp_q_z e) * (rp_gamma e * rp_q_omega e - 1 * rp_q_z e)).
(** snarks/voproof_r1cs_prover_efficient.rs:1116-1124 [c_39] *)
Definition rp_v_c_39 (e : rp_ctx) : F := power (rp_q_alpha e) 4%Z * 1 * rp_q_z e
  * power (rp_q_omega e / rp_q_z e) (rp_cap_k e) * (1 - power (rp_q_omega e / rp_q_z e)
  (- rp_cap_k e + rp_cap_s_a e + rp_cap_s_b e + rp_cap_s_c e)%Z) / (- rp_q_omega e + 1 * rp_q_z e).
(** snarks/voproof_r1cs_prover_efficient.rs:1125 [c_40] *)
Definition rp_v_c_40 (e : rp_ctx) : F := - power (rp_q_alpha e) 6%Z * rp_q_mu e * power 1 2%Z
  * rp_q_y e.
(** snarks/voproof_r1cs_prover_efficient.rs:1126 [c_41] *)
Definition rp_v_c_41 (e : rp_ctx) : F := - power (rp_q_alpha e) 6%Z * rp_q_nu e * power 1 2%Z
  * rp_q_y e.
(** snarks/voproof_r1cs_prover_efficient.rs:1127 [c_42] *)
Definition rp_v_c_42 (e : rp_ctx) : F := power (rp_q_alpha e) 6%Z * power 1 2%Z * rp_q_y e.
(** snarks/voproof_r1cs_prover_efficient.rs:1128-1140 [c_43] *)
Definition rp_v_c_43 (e : rp_ctx) : F := power (rp_q_alpha e) 7%Z * power (rp_q_omega e / rp_q_z e)
  (2 * rp_cap_h e)%Z * (rp_q_alpha e * (1 * rp_q_y_1 e * (rp_q_omega e - 1 * rp_q_z e) +
  power (rp_q_z e) (rp_cap_h e + 1)%Z * (1 - power (rp_q_omega e / rp_q_z e) (rp_cap_h e))) - 1
  * rp_q_z e * power (rp_q_omega e / rp_q_z e) (rp_cap_h e) * (1 - power (rp_q_omega e / rp_q_z e)
  (- 3 * rp_cap_h e + rp_cap_s_a e + rp_cap_s_b e + rp_cap_s_c e)%Z)) / (rp_q_omega e - 1
  * rp_q_z e).
(** snarks/voproof_r1cs_prover_efficient.rs:1141 [c_44] *)
Definition rp_v_c_44 (e : rp_ctx) : F := power (rp_q_alpha e) 9%Z * 1 * rp_q_y_2 e
  * power (rp_q_z e) (rp_ell e + 1)%Z.
(** snarks/voproof_r1cs_prover_efficient.rs:1142 [c_45] *)
Definition rp_v_c_45 (e : rp_ctx) : F := - power (rp_q_alpha e) 9%Z * rp_q_beta e * power 1 2%Z
  * rp_q_y e.
(** snarks/voproof_r1cs_prover_efficient.rs:1143-1150 [c_46] *)
Definition rp_v_c_46 (e : rp_ctx) : F := power (rp_q_alpha e) 9%Z * 1 * (rp_q_alpha e
  * power (rp_q_omega e / rp_q_z e) (rp_cap_s_a e + rp_cap_s_b e + rp_cap_s_c e - 1)%Z
  * (rp_q_omega e - 1 * rp_q_z e) + rp_q_z e * (1 - rp_q_z e) * (1 - power (rp_q_omega e / rp_q_z e)
  (rp_cap_s_a e + rp_cap_s_b e + rp_cap_s_c e)%Z)) / (rp_q_omega e - 1 * rp_q_z e).
(** snarks/voproof_r1cs_prover_efficient.rs:1151-1157 [c_47] *)
Definition rp_v_c_47 (e : rp_ctx) : F := power (rp_q_z e) (rp_n e) * power (rp_q_omega e / rp_q_z e)
  (rp_cap_s_a e + rp_cap_s_b e + rp_cap_s_c e)%Z * (1 - power (rp_q_omega e / rp_q_z e) (2
  * rp_cap_h e + 1)%Z) / (rp_q_omega e - 1 * rp_q_z e).
(** snarks/voproof_r1cs_prover_efficient.rs:1158 [c_48] *)
Definition rp_v_c_48 (e : rp_ctx) : F := - power (rp_q_z e) (- rp_cap_d e)%Z.
(** snarks/voproof_r1cs_prover_efficient.rs:1159 [c_49] *)
Definition rp_v_c_49 (e : rp_ctx) : F := - rp_q_z e.

(** divisors of lines 682-788 in evaluation order (z of omega / z; then those of c_36, c_37, c_38, c_39,
    c_43, c_46, c_47); [power(z, -cap_d)] returns z unchanged for z = 0 and does not divide. *)
Definition rp_divisors (e : rp_ctx) : outcome error unit :=
  let z := rp_q_z e in let omega := rp_q_omega e in let gamma := rp_gamma e in
  let! _ := nonzero z in
  let! _ := nonzero ((omega - 1 * z) * (gamma * omega - 1 * z)) in
  let! _ := nonzero ((omega - 1 * z) * (1 - z)) in
  let! _ := nonzero ((omega - 1 * z) * (gamma * omega - 1 * z)) in
  let! _ := nonzero (- omega + 1 * z) in
  let! _ := nonzero (omega - 1 * z) in
  let! _ := nonzero (omega - 1 * z) in
  nonzero (omega - 1 * z).
(** snarks/voproof_r1cs_prover_efficient.rs:789-823 [g_vec], entry i before the addition of line 824 *)
Definition rp_g_at (e : rp_s6) (q : rp_ctx) (i : Z) : F := linear_combination 0 [((rp_p_c_36 q),
  (vidx (rp_r_vec e) i)); ((rp_p_c_38 q), (vidx (rp_rnu_vec e) i)); ((rp_p_c_39 q),
  (vidx (rp_c_vec e) i)); ((rp_p_c_40 q), (vidx (rp_w_vec e) i)); ((rp_p_c_41 q), (vidx (rp_u_vec e)
  i)); ((rp_p_c_42 q), (vidx (rp_y_vec e) i)); ((rp_p_c_43 q), (vidx (rp_y_vec_1 e) i));
  ((rp_p_c_44 q), (vidx (rp_wit_vec e) i)); ((rp_p_c_45 q), (vidx (rp_v_vec e) i)); ((rp_p_c_46 q),
  (vidx (rp_r_vec_tilde e) i)); ((rp_p_c_47 q), (vidx (rp_t_vec_1 e) i)); ((rp_p_c_48 q),
  (vidx (rp_h_vec_1 e) (- rp_cap_d e + i + rp_maxshift e + rp_n e)%Z)); ((rp_p_c_49 q),
  (vidx (rp_h_vec_2 e) i))].
Definition rp_g_vec (e : rp_s6) (q : rp_ctx) : outcome error (list F) := add_to_first_item
  (expression_vector (rp_g_at e q) (rp_cap_d e)) (rp_p_c_37 q).

(** *** Keys, proofs, transcripts *)
(** lines 17-25 *)
Record rp_vk := mkRPVK {
  rp_vk_cm_u_vec : G1; rp_vk_cm_w_vec : G1; rp_vk_cm_v_vec : G1; rp_vk_cm_y_vec : G1;
  rp_vk_kzg_vk : verifier_key G1 G2; rp_vk_size : R1CSSize; rp_vk_degree_bound : nat }.
(** lines 5-14 *)
Record rp_pk := mkRPPK {
  rp_pk_verifier_key : rp_vk; rp_pk_powers : list G1; rp_pk_max_degree : nat;
  rp_pk_cap_m_mat : list nat * list nat * list F;
  rp_pk_u_vec : list F; rp_pk_w_vec : list F; rp_pk_v_vec : list F; rp_pk_y_vec : list F }.
(** lines 28-44 *)
Record rp_proof := mkRPProof {
  rp_cm_y_vec_1 : G1; rp_cm_w_vec : G1; rp_cm_r_vec : G1; rp_cm_c_vec : G1; rp_cm_rnu_vec : G1;
  rp_cm_t_vec : G1; rp_cm_r_vec_tilde : G1; rp_cm_t_vec_1 : G1; rp_cm_h_vec_1 : G1; rp_cm_h_vec_2 : G1;
  rp_pf_y : F; rp_pf_y_1 : F; rp_pf_y_2 : F; rp_cap_w : G1; rp_cap_w_1 : G1 }.

Variable H : list (item F G1) -> F.
Variable gamma : F.   (* generator_of!: FftField::GENERATOR *)
(** snarks/voproof_r1cs_prover_efficient.rs:179-189 challenge [mu] of prove *)
Definition rp_p_ch_mu (vk : rp_vk) (x : list F) (cm_y_vec_1 cm_w_vec : G1) : F := H [IF 1; IFs x; IG
  (rp_vk_cm_u_vec vk); IG (rp_vk_cm_w_vec vk); IG (rp_vk_cm_v_vec vk); IG (rp_vk_cm_y_vec vk); IG
  cm_y_vec_1; IG cm_w_vec].
(** snarks/voproof_r1cs_prover_efficient.rs:199-211 challenge [nu] of prove *)
Definition rp_p_ch_nu (vk : rp_vk) (x : list F) (cm_y_vec_1 cm_w_vec cm_r_vec cm_c_vec : G1) : F :=
  H [IF 1; IFs x; IG (rp_vk_cm_u_vec vk); IG (rp_vk_cm_w_vec vk); IG (rp_vk_cm_v_vec vk); IG
  (rp_vk_cm_y_vec vk); IG cm_y_vec_1; IG cm_w_vec; IG cm_r_vec; IG cm_c_vec].
(** snarks/voproof_r1cs_prover_efficient.rs:221-235 challenge [beta] of prove *)
Definition rp_p_ch_beta (vk : rp_vk) (x : list F) (cm_y_vec_1 cm_w_vec cm_r_vec cm_c_vec cm_rnu_vec
  cm_t_vec : G1) : F := H [IF 1; IFs x; IG (rp_vk_cm_u_vec vk); IG (rp_vk_cm_w_vec vk); IG
  (rp_vk_cm_v_vec vk); IG (rp_vk_cm_y_vec vk); IG cm_y_vec_1; IG cm_w_vec; IG cm_r_vec; IG cm_c_vec;
  IG cm_rnu_vec; IG cm_t_vec].
(** snarks/voproof_r1cs_prover_efficient.rs:260-275 challenge [alpha] of prove *)
Definition rp_p_ch_alpha (vk : rp_vk) (x : list F) (cm_y_vec_1 cm_w_vec cm_r_vec cm_c_vec cm_rnu_vec
  cm_t_vec cm_r_vec_tilde : G1) : F := H [IF 1; IFs x; IG (rp_vk_cm_u_vec vk); IG (rp_vk_cm_w_vec
  vk); IG (rp_vk_cm_v_vec vk); IG (rp_vk_cm_y_vec vk); IG cm_y_vec_1; IG cm_w_vec; IG cm_r_vec; IG
  cm_c_vec; IG cm_rnu_vec; IG cm_t_vec; IG cm_r_vec_tilde].
(** snarks/voproof_r1cs_prover_efficient.rs:333-349 challenge [omega] of prove *)
Definition rp_p_ch_omega (vk : rp_vk) (x : list F) (cm_y_vec_1 cm_w_vec cm_r_vec cm_c_vec cm_rnu_vec
  cm_t_vec cm_r_vec_tilde cm_t_vec_1 : G1) : F := H [IF 1; IFs x; IG (rp_vk_cm_u_vec vk); IG
  (rp_vk_cm_w_vec vk); IG (rp_vk_cm_v_vec vk); IG (rp_vk_cm_y_vec vk); IG cm_y_vec_1; IG cm_w_vec;
  IG cm_r_vec; IG cm_c_vec; IG cm_rnu_vec; IG cm_t_vec; IG cm_r_vec_tilde; IG cm_t_vec_1].
(** snarks/voproof_r1cs_prover_efficient.rs:663-681 challenge [z] of prove *)
Definition rp_p_ch_z (vk : rp_vk) (x : list F) (cm_y_vec_1 cm_w_vec cm_r_vec cm_c_vec cm_rnu_vec
  cm_t_vec cm_r_vec_tilde cm_t_vec_1 cm_h_vec_1 cm_h_vec_2 : G1) : F := H [IF 1; IFs x; IG
  (rp_vk_cm_u_vec vk); IG (rp_vk_cm_w_vec vk); IG (rp_vk_cm_v_vec vk); IG (rp_vk_cm_y_vec vk); IG
  cm_y_vec_1; IG cm_w_vec; IG cm_r_vec; IG cm_c_vec; IG cm_rnu_vec; IG cm_t_vec; IG cm_r_vec_tilde;
  IG cm_t_vec_1; IG cm_h_vec_1; IG cm_h_vec_2].
(** snarks/voproof_r1cs_prover_efficient.rs:863-887 challenge [rand_xi] of prove *)
Definition rp_p_ch_rand_xi (vk : rp_vk) (x : list F) (cm_y_vec_1 cm_w_vec cm_r_vec cm_c_vec
  cm_rnu_vec cm_t_vec cm_r_vec_tilde cm_t_vec_1 cm_h_vec_1 cm_h_vec_2 cm_g : G1) (omega y y_1 y_2 z
  : F) : F := H [IF 1; IFs x; IG (rp_vk_cm_u_vec vk); IG (rp_vk_cm_w_vec vk); IG (rp_vk_cm_v_vec
  vk); IG (rp_vk_cm_y_vec vk); IG cm_y_vec_1; IG cm_w_vec; IG cm_r_vec; IG cm_c_vec; IG cm_rnu_vec;
  IG cm_t_vec; IG cm_r_vec_tilde; IG cm_t_vec_1; IG cm_h_vec_1; IG cm_h_vec_2; IG cm_g; IF (omega
  / z); IF y; IF y_1; IF y_2; IF z].
(** snarks/voproof_r1cs_prover_efficient.rs:888-912 challenge [rand_xi_2] of prove *)
Definition rp_p_ch_rand_xi_2 (vk : rp_vk) (x : list F) (cm_y_vec_1 cm_w_vec cm_r_vec cm_c_vec
  cm_rnu_vec cm_t_vec cm_r_vec_tilde cm_t_vec_1 cm_h_vec_1 cm_h_vec_2 cm_g : G1) (omega y y_1 y_2 z
  : F) : F := H [IF (1 + 1); IFs x; IG (rp_vk_cm_u_vec vk); IG (rp_vk_cm_w_vec vk); IG
  (rp_vk_cm_v_vec vk); IG (rp_vk_cm_y_vec vk); IG cm_y_vec_1; IG cm_w_vec; IG cm_r_vec; IG cm_c_vec;
  IG cm_rnu_vec; IG cm_t_vec; IG cm_r_vec_tilde; IG cm_t_vec_1; IG cm_h_vec_1; IG cm_h_vec_2; IG
  cm_g; IF (omega / z); IF y; IF y_1; IF y_2; IF z].
(** snarks/voproof_r1cs_prover_efficient.rs:965-975 challenge [mu] of verify *)
Definition rp_v_ch_mu (vk : rp_vk) (x : list F) (cm_y_vec_1 cm_w_vec : G1) : F := H [IF 1; IFs x; IG
  (rp_vk_cm_u_vec vk); IG (rp_vk_cm_w_vec vk); IG (rp_vk_cm_v_vec vk); IG (rp_vk_cm_y_vec vk); IG
  cm_y_vec_1; IG cm_w_vec].
(** snarks/voproof_r1cs_prover_efficient.rs:976-988 challenge [nu] of verify *)
Definition rp_v_ch_nu (vk : rp_vk) (x : list F) (cm_y_vec_1 cm_w_vec cm_r_vec cm_c_vec : G1) : F :=
  H [IF 1; IFs x; IG (rp_vk_cm_u_vec vk); IG (rp_vk_cm_w_vec vk); IG (rp_vk_cm_v_vec vk); IG
  (rp_vk_cm_y_vec vk); IG cm_y_vec_1; IG cm_w_vec; IG cm_r_vec; IG cm_c_vec].
(** snarks/voproof_r1cs_prover_efficient.rs:989-1003 challenge [beta] of verify *)
Definition rp_v_ch_beta (vk : rp_vk) (x : list F) (cm_y_vec_1 cm_w_vec cm_r_vec cm_c_vec cm_rnu_vec
  cm_t_vec : G1) : F := H [IF 1; IFs x; IG (rp_vk_cm_u_vec vk); IG (rp_vk_cm_w_vec vk); IG
  (rp_vk_cm_v_vec vk); IG (rp_vk_cm_y_vec vk); IG cm_y_vec_1; IG cm_w_vec; IG cm_r_vec; IG cm_c_vec;
  IG cm_rnu_vec; IG cm_t_vec].
(** snarks/voproof_r1cs_prover_efficient.rs:1004-1019 challenge [alpha] of verify *)
Definition rp_v_ch_alpha (vk : rp_vk) (x : list F) (cm_y_vec_1 cm_w_vec cm_r_vec cm_c_vec cm_rnu_vec
  cm_t_vec cm_r_vec_tilde : G1) : F := H [IF 1; IFs x; IG (rp_vk_cm_u_vec vk); IG (rp_vk_cm_w_vec
  vk); IG (rp_vk_cm_v_vec vk); IG (rp_vk_cm_y_vec vk); IG cm_y_vec_1; IG cm_w_vec; IG cm_r_vec; IG
  cm_c_vec; IG cm_rnu_vec; IG cm_t_vec; IG cm_r_vec_tilde].
(** snarks/voproof_r1cs_prover_efficient.rs:1020-1036 challenge [omega] of verify *)
Definition rp_v_ch_omega (vk : rp_vk) (x : list F) (cm_y_vec_1 cm_w_vec cm_r_vec cm_c_vec cm_rnu_vec
  cm_t_vec cm_r_vec_tilde cm_t_vec_1 : G1) : F := H [IF 1; IFs x; IG (rp_vk_cm_u_vec vk); IG
  (rp_vk_cm_w_vec vk); IG (rp_vk_cm_v_vec vk); IG (rp_vk_cm_y_vec vk); IG cm_y_vec_1; IG cm_w_vec;
  IG cm_r_vec; IG cm_c_vec; IG cm_rnu_vec; IG cm_t_vec; IG cm_r_vec_tilde; IG cm_t_vec_1].
(** snarks/voproof_r1cs_prover_efficient.rs:1037-1055 challenge [z] of verify *)
Definition rp_v_ch_z (vk : rp_vk) (x : list F) (cm_y_vec_1 cm_w_vec cm_r_vec cm_c_vec cm_rnu_vec
  cm_t_vec cm_r_vec_tilde cm_t_vec_1 cm_h_vec_1 cm_h_vec_2 : G1) : F := H [IF 1; IFs x; IG
  (rp_vk_cm_u_vec vk); IG (rp_vk_cm_w_vec vk); IG (rp_vk_cm_v_vec vk); IG (rp_vk_cm_y_vec vk); IG
  cm_y_vec_1; IG cm_w_vec; IG cm_r_vec; IG cm_c_vec; IG cm_rnu_vec; IG cm_t_vec; IG cm_r_vec_tilde;
  IG cm_t_vec_1; IG cm_h_vec_1; IG cm_h_vec_2].
(** snarks/voproof_r1cs_prover_efficient.rs:1193-1217 challenge [rand_xi] of verify *)
Definition rp_v_ch_rand_xi (vk : rp_vk) (x : list F) (cm_y_vec_1 cm_w_vec cm_r_vec cm_c_vec
  cm_rnu_vec cm_t_vec cm_r_vec_tilde cm_t_vec_1 cm_h_vec_1 cm_h_vec_2 cm_g : G1) (omega y y_1 y_2 z
  : F) : F := H [IF 1; IFs x; IG (rp_vk_cm_u_vec vk); IG (rp_vk_cm_w_vec vk); IG (rp_vk_cm_v_vec
  vk); IG (rp_vk_cm_y_vec vk); IG cm_y_vec_1; IG cm_w_vec; IG cm_r_vec; IG cm_c_vec; IG cm_rnu_vec;
  IG cm_t_vec; IG cm_r_vec_tilde; IG cm_t_vec_1; IG cm_h_vec_1; IG cm_h_vec_2; IG cm_g; IF (omega
  / z); IF y; IF y_1; IF y_2; IF z].
(** snarks/voproof_r1cs_prover_efficient.rs:1218-1242 challenge [rand_xi_2] of verify *)
Definition rp_v_ch_rand_xi_2 (vk : rp_vk) (x : list F) (cm_y_vec_1 cm_w_vec cm_r_vec cm_c_vec
  cm_rnu_vec cm_t_vec cm_r_vec_tilde cm_t_vec_1 cm_h_vec_1 cm_h_vec_2 cm_g : G1) (omega y y_1 y_2 z
  : F) : F := H [IF (1 + 1); IFs x; IG (rp_vk_cm_u_vec vk); IG (rp_vk_cm_w_vec vk); IG
  (rp_vk_cm_v_vec vk); IG (rp_vk_cm_y_vec vk); IG cm_y_vec_1; IG cm_w_vec; IG cm_r_vec; IG cm_c_vec;
  IG cm_rnu_vec; IG cm_t_vec; IG cm_r_vec_tilde; IG cm_t_vec_1; IG cm_h_vec_1; IG cm_h_vec_2; IG
  cm_g; IF (omega / z); IF y; IF y_1; IF y_2; IF z].
(** snarks/voproof_r1cs_prover_efficient.rs:825-855 [cm_g] *)
Definition rp_p_cm_g (vk : rp_vk) (q : rp_ctx) (cm_y_vec_1 cm_w_vec cm_r_vec cm_c_vec cm_rnu_vec
  cm_t_vec cm_r_vec_tilde cm_t_vec_1 cm_h_vec_1 cm_h_vec_2 : G1) : G1 :=
  commitment_linear_combination (vk_g (rp_vk_kzg_vk vk)) (rp_p_c_37 q) [(cm_r_vec, (rp_p_c_36 q));
  (cm_rnu_vec, (rp_p_c_38 q)); (cm_c_vec, (rp_p_c_39 q)); ((rp_vk_cm_w_vec vk), (rp_p_c_40 q));
  ((rp_vk_cm_u_vec vk), (rp_p_c_41 q)); ((rp_vk_cm_y_vec vk), (rp_p_c_42 q)); (cm_y_vec_1,
  (rp_p_c_43 q)); (cm_w_vec, (rp_p_c_44 q)); ((rp_vk_cm_v_vec vk), (rp_p_c_45 q)); (cm_r_vec_tilde,
  (rp_p_c_46 q)); (cm_t_vec_1, (rp_p_c_47 q)); (cm_h_vec_1, (rp_p_c_48 q)); (cm_h_vec_2,
  (rp_p_c_49 q))].
(** snarks/voproof_r1cs_prover_efficient.rs:1160-1190 [cm_g] *)
Definition rp_v_cm_g (vk : rp_vk) (q : rp_ctx) (cm_y_vec_1 cm_w_vec cm_r_vec cm_c_vec cm_rnu_vec
  cm_t_vec cm_r_vec_tilde cm_t_vec_1 cm_h_vec_1 cm_h_vec_2 : G1) : G1 :=
  commitment_linear_combination (vk_g (rp_vk_kzg_vk vk)) (rp_v_c_37 q) [(cm_r_vec, (rp_v_c_36 q));
  (cm_rnu_vec, (rp_v_c_38 q)); (cm_c_vec, (rp_v_c_39 q)); ((rp_vk_cm_w_vec vk), (rp_v_c_40 q));
  ((rp_vk_cm_u_vec vk), (rp_v_c_41 q)); ((rp_vk_cm_y_vec vk), (rp_v_c_42 q)); (cm_y_vec_1,
  (rp_v_c_43 q)); (cm_w_vec, (rp_v_c_44 q)); ((rp_vk_cm_v_vec vk), (rp_v_c_45 q)); (cm_r_vec_tilde,
  (rp_v_c_46 q)); (cm_t_vec_1, (rp_v_c_47 q)); (cm_h_vec_1, (rp_v_c_48 q)); (cm_h_vec_2,
  (rp_v_c_49 q))].

(** lines 55-60 [get_max_degree] *)
Definition rp_get_max_degree (size : R1CSSize) : nat :=
  2 * rs_nrows size + rs_adensity size + rs_bdensity size + rs_cdensity size.

(** lines 72-76 [setup]: KZG setup with the sampled trapdoor and generators *)
Definition rp_setup (size : nat) (beta : F) (g : G1) (h : G2) := setup size beta g h.

(** lines 77-139 [index]; the matrices are stacked in the order A, C, B *)
Definition rp_index (pp : universal_params G1 G2) (cs : R1CS F) : outcome error (rp_pk * rp_vk) :=
  let! size := r1cs_get_size cs in
  let cap_d := length (up_powers_of_g pp) in
  let max_degree := rp_get_max_degree size in
  let! _ := assert_ (max_degree <? cap_d)%nat in
  let powers_of_g := up_powers_of_g pp in
  let cap_s := (Z.of_nat (rs_adensity size) + Z.of_nat (rs_bdensity size)
                + Z.of_nat (rs_cdensity size))%Z in
  let cap_m_mat := concat_matrix_vertically (rs_nrows size) (r_arows cs) (r_crows cs) (r_brows cs)
                     (r_acols cs) (r_ccols cs) (r_bcols cs) (r_avals cs) (r_cvals cs) (r_bvals cs) in
  let u_vec := int_array_to_power_vector (fst (fst cap_m_mat)) gamma in
  let w_vec := int_array_to_power_vector (snd (fst cap_m_mat)) gamma in
  let v_vec := snd cap_m_mat in
  let y_vec := hadamard_vector u_vec w_vec in
  let! cm_u_vec := commit_vector powers_of_g u_vec cap_s in
  let! cm_w_vec := commit_vector powers_of_g w_vec cap_s in
  let! cm_v_vec := commit_vector powers_of_g v_vec cap_s in
  let! cm_y_vec := commit_vector powers_of_g y_vec cap_s in
  let! kvk := kzg_vk pp in
  let vk := mkRPVK cm_u_vec cm_w_vec cm_v_vec cm_y_vec kvk size cap_d in
  Ok (mkRPPK vk powers_of_g max_degree cap_m_mat u_vec w_vec v_vec y_vec, vk).

(** lines 140-178 of [prove], 935-964 of [verify] *)
Definition rp_pub_of (vk : rp_vk) (x : list F) : rp_pub :=
  let size := rp_vk_size vk in
  mkRPPub (Z.of_nat (rs_nrows size)) (Z.of_nat (rs_ncols size)) (Z.of_nat (rs_adensity size))
          (Z.of_nat (rs_bdensity size)) (Z.of_nat (rs_cdensity size))
          (Z.of_nat (rs_input_size size)) (Z.of_nat (rp_vk_degree_bound vk)) gamma x.

(** lines 166-178: the matrix applied to the assignment, the witness, and their commitments *)
Definition rp_round1 (pk : rp_pk) (x w : list F) (delta_vec delta_vec_1 : list F)
  : outcome error (rp_s1 * G1 * G1) :=
  let e := rp_pub_of (rp_pk_verifier_key pk) x in
  let '(rows, cols, vals) := rp_pk_cap_m_mat pk in
  let! mz := sparse_mvp (3 * rp_cap_h e)%Z (rp_cap_k e) rows cols vals ([1] ++ x ++ w) in
  let! y_vec_1 := zero_pad_and_concat mz (Z.to_nat (rp_n e)) [delta_vec] in
  let! cm_y_vec_1 := commit_vector (rp_pk_powers pk) y_vec_1 (rp_n e + 1)%Z in
  let! w_vec := zero_pad_and_concat w (Z.to_nat (rp_n e)) [delta_vec_1] in
  let! cm_w_vec := commit_vector (rp_pk_powers pk) w_vec (rp_n e + 1)%Z in
  Ok (mkRPS1 e (rp_pk_u_vec pk) (rp_pk_w_vec pk) (rp_pk_v_vec pk) (rp_pk_y_vec pk) y_vec_1 w_vec,
      cm_y_vec_1, cm_w_vec).

(** lines 190-198 *)
Definition rp_round2 (pk : rp_pk) (e : rp_s2) : outcome error (list F * list F * G1 * G1) :=
  let! c_vec := left_sparse_mvp (rp_pk_cap_m_mat pk) (rp_r_val e) (3 * rp_cap_h e)%Z (rp_cap_k e) in
  let! cm_r_vec := commit_vector (rp_pk_powers pk) (rp_r_val e) (3 * rp_cap_h e)%Z in
  let! cm_c_vec := commit_vector (rp_pk_powers pk) c_vec (rp_cap_k e) in
  Ok (rp_r_val e, c_vec, cm_r_vec, cm_c_vec).

(** lines 212-220 *)
Definition rp_round3 (pk : rp_pk) (e : rp_s3) : outcome error (list F * list F * G1 * G1) :=
  let! cm_rnu_vec := commit_vector (rp_pk_powers pk) (rp_rnu_val e) (rp_cap_k e) in
  let! cm_t_vec := commit_vector (rp_pk_powers pk) (rp_t_val e) (rp_ell_1 e) in
  Ok (rp_rnu_val e, rp_t_val e, cm_rnu_vec, cm_t_vec).

(** lines 236-258 *)
Definition rp_round4 (pk : rp_pk) (e : rp_s4) (delta_vec_2 : list F) : outcome error (list F * G1) :=
  let r_vec_tilde := vector_concat [rp_r_acc e; delta_vec_2] in
  let! cm_r_vec_tilde := commit_vector (rp_pk_powers pk) r_vec_tilde (rp_n e + 1)%Z in
  Ok (r_vec_tilde, cm_r_vec_tilde).

(** lines 276-332 *)
Definition rp_round5 (pk : rp_pk) (e : rp_s5) (delta_vec_3 : list F) : outcome error (list F * G1) :=
  let t_vec_1 := vector_concat [delta_vec_3; rp_t_vec_1_tail e] in
  let! cm_t_vec_1 := commit_vector (rp_pk_powers pk) t_vec_1 (rp_maxshift e + 2)%Z in
  Ok (t_vec_1, cm_t_vec_1).

(** lines 350-662; the inverse of c_13 and the division of c_14 panic when omega (or gamma) is zero;
    [vector_power_mul!] with a negative length (v_vec_17, when there are more columns than matrix
    entries) casts it to a huge usize: arithmetic overflow or an endless allocation *)
Definition rp_round6 (pk : rp_pk) (e : rp_s6) : outcome error (G1 * G1) :=
  let! _ := nonzero (rp_omega e) in
  let! _ := nonzero (rp_gamma e * rp_omega e) in
  let! _ := assert_ (rp_cap_k e <=? rp_n e)%Z in
  let! cm_h_vec_1 := commit_vector (rp_pk_powers pk) (rp_h_vec_1 e) (rp_cap_d e) in
  let! cm_h_vec_2 := commit_vector (rp_pk_powers pk) (rp_h_vec_2 e) (rp_maxshift e + rp_n e)%Z in
  Ok (cm_h_vec_1, cm_h_vec_2).

(** lines 682-684 *)
Definition rp_ctx_of (e : rp_s6) (z : F) : rp_ctx :=
  mkRPCtx e (rp_mu e) (rp_nu e) (rp_beta e) (rp_alpha e) (rp_omega e) z (rp_y e z) (rp_y_1 e z) (rp_y_2 e z).

(** lines 682-860: the combined polynomial, checked to vanish at z *)
Definition rp_round7 (e : rp_s6) (z : F) : outcome error (rp_ctx * list F) :=
  let q := rp_ctx_of e z in
  let! _ := rp_divisors q in
  let! g_vec := rp_g_vec e q in
  let! _ := check_poly_eval (strip g_vec) z 0 in
  Ok (q, g_vec).

(** lines 140-934 [prove]; the four randomizer vectors are sampled with one element each *)
Definition rp_prove (pk : rp_pk) (x w : list F) (delta delta_1 delta_2 delta_3 : F)
  : outcome error rp_proof :=
  let vk := rp_pk_verifier_key pk in
  let! (s1, cm_y_vec_1, cm_w_vec) := rp_round1 pk x w [delta] [delta_1] in
  let s2 := mkRPS2 s1 (rp_p_ch_mu vk x cm_y_vec_1 cm_w_vec) in
  let! (r_vec, c_vec, cm_r_vec, cm_c_vec) := rp_round2 pk s2 in
  let s3 := mkRPS3 s2 r_vec c_vec (rp_p_ch_nu vk x cm_y_vec_1 cm_w_vec cm_r_vec cm_c_vec) in
  let! (rnu_vec, t_vec, cm_rnu_vec, cm_t_vec) := rp_round3 pk s3 in
  let s4 := mkRPS4 s3 rnu_vec t_vec
              (rp_p_ch_beta vk x cm_y_vec_1 cm_w_vec cm_r_vec cm_c_vec cm_rnu_vec cm_t_vec) in
  let! (r_vec_tilde, cm_r_vec_tilde) := rp_round4 pk s4 [delta_2] in
  let s5 := mkRPS5 s4 r_vec_tilde
              (rp_p_ch_alpha vk x cm_y_vec_1 cm_w_vec cm_r_vec cm_c_vec cm_rnu_vec cm_t_vec cm_r_vec_tilde) in
  let! (t_vec_1, cm_t_vec_1) := rp_round5 pk s5 [delta_3] in
  let omega := rp_p_ch_omega vk x cm_y_vec_1 cm_w_vec cm_r_vec cm_c_vec cm_rnu_vec cm_t_vec
                 cm_r_vec_tilde cm_t_vec_1 in
  let s6 := mkRPS6 s5 t_vec_1 omega in
  let! (cm_h_vec_1, cm_h_vec_2) := rp_round6 pk s6 in
  let z := rp_p_ch_z vk x cm_y_vec_1 cm_w_vec cm_r_vec cm_c_vec cm_rnu_vec cm_t_vec cm_r_vec_tilde cm_t_vec_1
             cm_h_vec_1 cm_h_vec_2 in
  let! (q, g_vec) := rp_round7 s6 z in
  let cm_g := rp_p_cm_g vk q cm_y_vec_1 cm_w_vec cm_r_vec cm_c_vec cm_rnu_vec cm_t_vec cm_r_vec_tilde cm_t_vec_1
             cm_h_vec_1 cm_h_vec_2 in
  let y := rp_q_y q in
  let y_1 := rp_q_y_1 q in
  let y_2 := rp_q_y_2 q in
  let rand_xi := rp_p_ch_rand_xi vk x cm_y_vec_1 cm_w_vec cm_r_vec cm_c_vec cm_rnu_vec cm_t_vec cm_r_vec_tilde cm_t_vec_1
             cm_h_vec_1 cm_h_vec_2 cm_g omega y y_1 y_2 z in
  let rand_xi_2 := rp_p_ch_rand_xi_2 vk x cm_y_vec_1 cm_w_vec cm_r_vec cm_c_vec cm_rnu_vec cm_t_vec cm_r_vec_tilde cm_t_vec_1
             cm_h_vec_1 cm_h_vec_2 cm_g omega y y_1 y_2 z in
  let! (cap_w, cap_w_1) := batch_open (rp_pk_powers pk) [strip t_vec; strip (rp_y_vec_1 s6); strip c_vec]
                             [strip g_vec] (omega / z) z rand_xi rand_xi_2 in
  Ok (mkRPProof cm_y_vec_1 cm_w_vec cm_r_vec cm_c_vec cm_rnu_vec cm_t_vec cm_r_vec_tilde cm_t_vec_1
        cm_h_vec_1 cm_h_vec_2 y y_1 y_2 cap_w cap_w_1).

(** lines 935-1266 [verify]; [randomizer] is the random scalar of [batch_check] *)
Definition rp_verify (vk : rp_vk) (x : list F) (pf : rp_proof) (randomizer : F)
  : outcome error unit :=
  let cm_y_vec_1 := rp_cm_y_vec_1 pf in
  let cm_w_vec := rp_cm_w_vec pf in
  let cm_r_vec := rp_cm_r_vec pf in
  let cm_c_vec := rp_cm_c_vec pf in
  let cm_rnu_vec := rp_cm_rnu_vec pf in
  let cm_t_vec := rp_cm_t_vec pf in
  let cm_r_vec_tilde := rp_cm_r_vec_tilde pf in
  let cm_t_vec_1 := rp_cm_t_vec_1 pf in
  let cm_h_vec_1 := rp_cm_h_vec_1 pf in
  let cm_h_vec_2 := rp_cm_h_vec_2 pf in
  let y := rp_pf_y pf in
  let y_1 := rp_pf_y_1 pf in
  let y_2 := rp_pf_y_2 pf in
  let mu := rp_v_ch_mu vk x cm_y_vec_1 cm_w_vec in
  let nu := rp_v_ch_nu vk x cm_y_vec_1 cm_w_vec cm_r_vec cm_c_vec in
  let beta := rp_v_ch_beta vk x cm_y_vec_1 cm_w_vec cm_r_vec cm_c_vec cm_rnu_vec cm_t_vec in
  let alpha := rp_v_ch_alpha vk x cm_y_vec_1 cm_w_vec cm_r_vec cm_c_vec cm_rnu_vec cm_t_vec
                 cm_r_vec_tilde in
  let omega := rp_v_ch_omega vk x cm_y_vec_1 cm_w_vec cm_r_vec cm_c_vec cm_rnu_vec cm_t_vec
                 cm_r_vec_tilde cm_t_vec_1 in
  let z := rp_v_ch_z vk x cm_y_vec_1 cm_w_vec cm_r_vec cm_c_vec cm_rnu_vec cm_t_vec cm_r_vec_tilde cm_t_vec_1
             cm_h_vec_1 cm_h_vec_2 in
  let q := mkRPCtx (rp_pub_of vk x) mu nu beta alpha omega z y y_1 y_2 in
  let! _ := rp_divisors q in
  let cm_g := rp_v_cm_g vk q cm_y_vec_1 cm_w_vec cm_r_vec cm_c_vec cm_rnu_vec cm_t_vec cm_r_vec_tilde cm_t_vec_1
             cm_h_vec_1 cm_h_vec_2 in
  let z1 := omega / z in
  let z2 := z in
  let rand_xi := rp_v_ch_rand_xi vk x cm_y_vec_1 cm_w_vec cm_r_vec cm_c_vec cm_rnu_vec cm_t_vec cm_r_vec_tilde cm_t_vec_1
             cm_h_vec_1 cm_h_vec_2 cm_g omega y y_1 y_2 z in
  let rand_xi_2 := rp_v_ch_rand_xi_2 vk x cm_y_vec_1 cm_w_vec cm_r_vec cm_c_vec cm_rnu_vec cm_t_vec cm_r_vec_tilde cm_t_vec_1
             cm_h_vec_1 cm_h_vec_2 cm_g omega y y_1 y_2 z in
  if batch_check (rp_vk_kzg_vk vk) [cm_t_vec; cm_y_vec_1; cm_c_vec] [cm_g] z1 z2 rand_xi rand_xi_2
       [y; y_1; y_2] [0] (rp_cap_w pf) (rp_cap_w_1 pf) randomizer
  then Ok tt else Err VerificationFail.

End RP.
Arguments rp_pub F : clear implicits.
Arguments rp_s1 F : clear implicits.
Arguments rp_s2 F : clear implicits.
Arguments rp_s3 F : clear implicits.
Arguments rp_s4 F : clear implicits.
Arguments rp_s5 F : clear implicits.
Arguments rp_s6 F : clear implicits.
Arguments rp_ctx F : clear implicits.
Arguments rp_vk G1 G2 : clear implicits.
Arguments rp_pk F G1 G2 : clear implicits.
Arguments rp_proof F G1 : clear implicits.

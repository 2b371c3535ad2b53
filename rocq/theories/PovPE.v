(** PovPE.v: model of voproof/src/snarks/voproof_pov_prover_efficient.rs, the prover-efficient
    argument for POV arithmetic circuits.  The long index expressions are transcribed mechanically
    from the Rust text (one Definition per Rust binding, named pe_<binding>).
    [H] is the hash oracle, the randomizers are arguments. *)
From Verif Require Import Base Tools CS KZG Snark.
Local Open Scope F_scope.

Section PovPE.
Context {F G1 G2 GT : Type} {fo : FieldOps F} {po : PairingOps F G1 G2 GT}.

(** *** Values in scope.  Each record adds the bindings of one round to the previous one. *)

(** public data of a run: sizes (as i64), degree bound, generator and instance
    (snarks/voproof_pov_prover_efficient.rs:119-128, 726-745) *)
Record pe_pub := mkPEPub {
  pe_cap_c_total : Z; pe_cap_c_a : Z; pe_cap_c_m : Z; pe_cap_d : Z; pe_gamma : F;
  pe_x0 : list nat; pe_x1 : list F }.
(** bindings of lines 129-159 *)
Record pe_s1 := mkPES1 {
  pe_s1_pub :> pe_pub; pe_sigma_vec : list F; pe_d_vec : list F;
  pe_x_vec : list F; pe_t_vec : list F; pe_u_vec : list F; pe_v_vec : list F }.
(** lines 160-179 *)
Record pe_s2 := mkPES2 { pe_s2_s1 :> pe_s1; pe_zeta : F; pe_zeta_1 : F }.
(** lines 180-218 *)
Record pe_s3 := mkPES3 { pe_s3_s2 :> pe_s2; pe_r_vec : list F; pe_alpha : F }.
(** lines 222-284 *)
Record pe_s4 := mkPES4 { pe_s4_s3 :> pe_s3; pe_t_vec_1 : list F; pe_omega : F }.
(** snarks/voproof_pov_prover_efficient.rs:144 [n] *)
Definition pe_n (e : pe_pub) : Z := (3 * pe_cap_c_total e)%Z.
(** snarks/voproof_pov_prover_efficient.rs:180-204 [r_vec], the factor of entry i and its inverted part *)
Definition pe_r_den (e : pe_s2) (i : Z) : F := vidx (pe_u_vec e) (minus_i64 i 1)%Z +
  vidx (pe_v_vec e) (minus_i64 i (pe_cap_c_m e + pe_cap_c_total e + 1))%Z + vidx (pe_d_vec e)
  (minus_i64 i (pe_cap_c_a e + pe_cap_c_m e + 2 * pe_cap_c_total e + 1))%Z + range_index 1%Z (3
  * pe_cap_c_total e)%Z (minus_i64 i 1)%Z * pe_zeta_1 e + vidx (pe_sigma_vec e) (minus_i64 i 1)%Z
  * pe_zeta e.
Definition pe_r_num (e : pe_s2) (i : Z) : F := vidx (pe_u_vec e) (minus_i64 i 1)%Z +
  vidx (pe_v_vec e) (minus_i64 i (pe_cap_c_m e + pe_cap_c_total e + 1))%Z + vidx (pe_d_vec e)
  (minus_i64 i (pe_cap_c_a e + pe_cap_c_m e + 2 * pe_cap_c_total e + 1))%Z + power_vidx (pe_gamma e)
  (3 * pe_cap_c_total e)%Z (minus_i64 i 1)%Z * pe_zeta e + range_index 1%Z (3 * pe_cap_c_total e)%Z
  (minus_i64 i 1)%Z * pe_zeta_1 e.
Definition pe_r_len (e : pe_s2) : Z := (3 * pe_cap_c_total e)%Z.
(** the running product, before padding; [inverse!] of a zero panics *)
Definition pe_r_acc (e : pe_s2) : outcome error (list F) :=
  if existsb (fun i => is_zero (pe_r_den e i)) (zrange (pe_r_len e)) then Panic
  else Ok (accumulate_vector 1 (fun i => pe_r_num e i * finv (pe_r_den e i)) (pe_r_len e) fmul).
(** snarks/voproof_pov_prover_efficient.rs:207 [maxshift] *)
Definition pe_maxshift (e : pe_pub) : Z := (pe_cap_c_m e + pe_cap_c_total e)%Z.
(** snarks/voproof_pov_prover_efficient.rs:219 [c] *)
Definition pe_c (e : pe_s3) : F := power (pe_alpha e) 2%Z.
(** snarks/voproof_pov_prover_efficient.rs:220 [c_1] *)
Definition pe_c_1 (e : pe_s3) : F := power (pe_alpha e) 3%Z.
(** snarks/voproof_pov_prover_efficient.rs:221 [c_2] *)
Definition pe_c_2 (e : pe_s3) : F := - power (pe_alpha e) 3%Z.
(** snarks/voproof_pov_prover_efficient.rs:222-271 [t_vec_1]: entry i of the expression following the randomizer *)
Definition pe_t_vec_1_at (e : pe_s3) (i : Z) : F := pe_c e * vidx (pe_t_vec e) (minus_i64 (i +
  pe_n e) 1)%Z * (vidx (pe_u_vec e) (minus_i64 (i + pe_n e) 1)%Z + vidx (pe_v_vec e) (minus_i64 (i +
  pe_n e) (pe_cap_c_m e + pe_cap_c_total e + 1))%Z - vidx (pe_x_vec e) (minus_i64 (i + pe_n e) 1)%Z)
  + pe_c_2 e * vidx (pe_r_vec e) (minus_i64 (i + pe_n e) (- 3 * pe_cap_c_total e + pe_n e + 1))%Z
  * (vidx (pe_u_vec e) (minus_i64 (i + pe_n e) (- 3 * pe_cap_c_total e + pe_n e + 1))%Z +
  vidx (pe_v_vec e) (minus_i64 (i + pe_n e) (pe_cap_c_m e - 2 * pe_cap_c_total e + pe_n e + 1))%Z +
  vidx (pe_d_vec e) (minus_i64 (i + pe_n e) (pe_cap_c_a e + pe_cap_c_m e - pe_cap_c_total e + pe_n e
  + 1))%Z + range_index 1%Z (3 * pe_cap_c_total e)%Z (minus_i64 (i + pe_n e) (- 3 * pe_cap_c_total e
  + pe_n e + 1))%Z * pe_zeta_1 e + vidx (pe_sigma_vec e) (minus_i64 (i + pe_n e) (- 3
  * pe_cap_c_total e + pe_n e + 1))%Z * pe_zeta e) - vidx (pe_v_vec e) (minus_i64 (i + pe_n e)
  (pe_cap_c_m e + 1))%Z * range_index 1%Z (pe_cap_c_m e) (minus_i64 (i + pe_n e) (pe_cap_c_total e +
  1))%Z + vidx (pe_u_vec e) (minus_i64 (i + pe_n e) (pe_cap_c_total e + 1))%Z * vidx (pe_u_vec e) (i
  + pe_n e)%Z + (power (pe_alpha e) 3%Z * delta (i + pe_n e)%Z (- 3 * pe_cap_c_total e + pe_n e +
  1)%Z + pe_c_1 e * vidx (pe_r_vec e) (minus_i64 (i + pe_n e) (- 3 * pe_cap_c_total e + pe_n e +
  2))%Z) * (vidx (pe_u_vec e) (minus_i64 (i + pe_n e) (- 3 * pe_cap_c_total e + pe_n e + 1))%Z +
  vidx (pe_v_vec e) (minus_i64 (i + pe_n e) (pe_cap_c_m e - 2 * pe_cap_c_total e + pe_n e + 1))%Z +
  vidx (pe_d_vec e) (minus_i64 (i + pe_n e) (pe_cap_c_a e + pe_cap_c_m e - pe_cap_c_total e + pe_n e
  + 1))%Z + power_vidx (pe_gamma e) (3 * pe_cap_c_total e)%Z (minus_i64 (i + pe_n e) (- 3
  * pe_cap_c_total e + pe_n e + 1))%Z * pe_zeta e + range_index 1%Z (3 * pe_cap_c_total e)%Z
  (minus_i64 (i + pe_n e) (- 3 * pe_cap_c_total e + pe_n e + 1))%Z * pe_zeta_1 e).
Definition pe_t_vec_1_tail (e : pe_s3) : list F := expression_vector (pe_t_vec_1_at e)
  (pe_maxshift e + 2)%Z.
(** snarks/voproof_pov_prover_efficient.rs:285 [c_3] *)
Definition pe_c_3 (e : pe_s4) : F := finv (pe_omega e).
(** snarks/voproof_pov_prover_efficient.rs:287-295 [v_vec_1] *)
Definition pe_v_vec_1 (e : pe_s4) : list F := vector_poly_mul (pe_u_vec e) (pe_u_vec e)
  (pe_omega e).
(** snarks/voproof_pov_prover_efficient.rs:287-295 [shiftlength] *)
Definition pe_shiftlength (e : pe_s4) : Z := (Z.of_nat (length (pe_u_vec e)) - 1)%Z.
(** snarks/voproof_pov_prover_efficient.rs:297-305 [v_vec_2] *)
Definition pe_v_vec_2 (e : pe_s4) : list F := vector_poly_mul (pe_t_vec e) (pe_u_vec e)
  (pe_omega e).
(** snarks/voproof_pov_prover_efficient.rs:297-305 [shiftlength_1] *)
Definition pe_shiftlength_1 (e : pe_s4) : Z := (Z.of_nat (length (pe_t_vec e)) - 1)%Z.
(** snarks/voproof_pov_prover_efficient.rs:307-315 [v_vec_3] *)
Definition pe_v_vec_3 (e : pe_s4) : list F := vector_poly_mul (pe_t_vec e) (pe_v_vec e)
  (pe_omega e).
(** snarks/voproof_pov_prover_efficient.rs:307-315 [shiftlength_2] *)
Definition pe_shiftlength_2 (e : pe_s4) : Z := (Z.of_nat (length (pe_t_vec e)) - 1)%Z.
(** snarks/voproof_pov_prover_efficient.rs:317-325 [v_vec_4] *)
Definition pe_v_vec_4 (e : pe_s4) : list F := vector_poly_mul (pe_t_vec e) (pe_x_vec e)
  (pe_omega e).
(** snarks/voproof_pov_prover_efficient.rs:317-325 [shiftlength_3] *)
Definition pe_shiftlength_3 (e : pe_s4) : Z := (Z.of_nat (length (pe_t_vec e)) - 1)%Z.
(** snarks/voproof_pov_prover_efficient.rs:327-335 [v_vec_5] *)
Definition pe_v_vec_5 (e : pe_s4) : list F := vector_poly_mul (pe_r_vec e) (pe_u_vec e)
  (pe_omega e).
(** snarks/voproof_pov_prover_efficient.rs:327-335 [shiftlength_4] *)
Definition pe_shiftlength_4 (e : pe_s4) : Z := (Z.of_nat (length (pe_r_vec e)) - 1)%Z.
(** snarks/voproof_pov_prover_efficient.rs:336-344 [v_vec_6] *)
Definition pe_v_vec_6 (e : pe_s4) : list F := vector_poly_mul (pe_r_vec e) (pe_v_vec e)
  (pe_omega e).
(** snarks/voproof_pov_prover_efficient.rs:336-344 [shiftlength_5] *)
Definition pe_shiftlength_5 (e : pe_s4) : Z := (Z.of_nat (length (pe_r_vec e)) - 1)%Z.
(** snarks/voproof_pov_prover_efficient.rs:346-354 [v_vec_7] *)
Definition pe_v_vec_7 (e : pe_s4) : list F := vector_poly_mul (pe_r_vec e) (pe_d_vec e)
  (pe_omega e).
(** snarks/voproof_pov_prover_efficient.rs:346-354 [shiftlength_6] *)
Definition pe_shiftlength_6 (e : pe_s4) : Z := (Z.of_nat (length (pe_r_vec e)) - 1)%Z.
(** snarks/voproof_pov_prover_efficient.rs:355 [v_vec_8] *)
Definition pe_v_vec_8 (e : pe_s4) : list F := vector_reverse_omega (pe_r_vec e) (pe_omega e).
(** snarks/voproof_pov_prover_efficient.rs:355 [shiftlength_7] *)
Definition pe_shiftlength_7 (e : pe_s4) : Z := (Z.of_nat (length (pe_r_vec e)) - 1)%Z.
(** snarks/voproof_pov_prover_efficient.rs:360-368 [v_vec_9] *)
Definition pe_v_vec_9 (e : pe_s4) : list F := vector_poly_mul (pe_r_vec e) (pe_sigma_vec e)
  (pe_omega e).
(** snarks/voproof_pov_prover_efficient.rs:360-368 [shiftlength_8] *)
Definition pe_shiftlength_8 (e : pe_s4) : Z := (Z.of_nat (length (pe_r_vec e)) - 1)%Z.
(** snarks/voproof_pov_prover_efficient.rs:369 [v_vec_10] *)
Definition pe_v_vec_10 (e : pe_s4) : list F := vector_power_mul (pe_v_vec e) (pe_c_3 e) (Z.to_nat
  (pe_cap_c_m e)).
(** snarks/voproof_pov_prover_efficient.rs:370 [v_vec_11] *)
Definition pe_v_vec_11 (e : pe_s4) : list F := vector_power_mul (pe_v_vec e) (pe_c_3 e) (Z.to_nat
  (pe_cap_c_a e)).
(** snarks/voproof_pov_prover_efficient.rs:371 [v_vec_12] *)
Definition pe_v_vec_12 (e : pe_s4) : list F := vector_power_mul (pe_u_vec e) (pe_c_3 e) (Z.to_nat
  (pe_cap_c_a e)).
(** snarks/voproof_pov_prover_efficient.rs:372 [v_vec_13] *)
Definition pe_v_vec_13 (e : pe_s4) : list F := vector_power_mul (pe_v_vec_8 e) (pe_gamma e)
  (Z.to_nat (3 * pe_cap_c_total e)%Z).
(** snarks/voproof_pov_prover_efficient.rs:373 [v_vec_14] *)
Definition pe_v_vec_14 (e : pe_s4) : list F := vector_power_mul (pe_v_vec_8 e) 1 (Z.to_nat (3
  * pe_cap_c_total e)%Z).
(** snarks/voproof_pov_prover_efficient.rs:374 [v_vec_15] *)
Definition pe_v_vec_15 (e : pe_s4) : list F := vector_power_mul (pe_t_vec_1 e) (pe_c_3 e) (Z.to_nat
  (pe_cap_c_m e + pe_cap_c_total e + 1)%Z).
(** snarks/voproof_pov_prover_efficient.rs:375 [c_4] *)
Definition pe_c_4 (e : pe_s4) : F := power (pe_omega e) (pe_cap_c_total e).
(** snarks/voproof_pov_prover_efficient.rs:376 [c_5] *)
Definition pe_c_5 (e : pe_s4) : F := - power (pe_alpha e) 2%Z.
(** snarks/voproof_pov_prover_efficient.rs:377 [c_6] *)
Definition pe_c_6 (e : pe_s4) : F := power (pe_alpha e) 3%Z * pe_omega e.
(** snarks/voproof_pov_prover_efficient.rs:378 [c_7] *)
Definition pe_c_7 (e : pe_s4) : F := power (pe_alpha e) 4%Z.
(** snarks/voproof_pov_prover_efficient.rs:379 [c_8] *)
Definition pe_c_8 (e : pe_s4) : F := - power (pe_alpha e) 3%Z * pe_zeta e.
(** snarks/voproof_pov_prover_efficient.rs:380 [c_9] *)
Definition pe_c_9 (e : pe_s4) : F := power (pe_alpha e) 3%Z * pe_zeta e.
(** snarks/voproof_pov_prover_efficient.rs:381 [c_10] *)
Definition pe_c_10 (e : pe_s4) : F := power (pe_alpha e) 3%Z * pe_zeta_1 e.
(** snarks/voproof_pov_prover_efficient.rs:382 [c_11] *)
Definition pe_c_11 (e : pe_s4) : F := - power (pe_omega e) (pe_cap_c_m e + pe_cap_c_total e - 1)%Z.
(** snarks/voproof_pov_prover_efficient.rs:383 [c_12] *)
Definition pe_c_12 (e : pe_s4) : F := pe_alpha e * power (pe_omega e) (pe_cap_c_a e +
  pe_cap_c_total e - 1)%Z.
(** snarks/voproof_pov_prover_efficient.rs:384 [c_13] *)
Definition pe_c_13 (e : pe_s4) : F := - pe_alpha e * power (pe_omega e) (pe_cap_c_a e +
  pe_cap_c_total e - 1)%Z.
(** snarks/voproof_pov_prover_efficient.rs:385 [c_14] *)
Definition pe_c_14 (e : pe_s4) : F := power (pe_alpha e) 3%Z * pe_omega e * pe_zeta e.
(** snarks/voproof_pov_prover_efficient.rs:386 [c_15] *)
Definition pe_c_15 (e : pe_s4) : F := power (pe_alpha e) 3%Z * pe_omega e * pe_zeta_1 e.
(** snarks/voproof_pov_prover_efficient.rs:387 [c_16] *)
Definition pe_c_16 (e : pe_s4) : F := - power (pe_alpha e) 3%Z * pe_zeta_1 e.
(** snarks/voproof_pov_prover_efficient.rs:388 [c_17] *)
Definition pe_c_17 (e : pe_s4) : F := - power (pe_omega e) (pe_cap_c_m e + 4 * pe_cap_c_total e)%Z.
(** snarks/voproof_pov_prover_efficient.rs:389-473 [h_vec_1], entry i (from 1) *)
Definition pe_h_vec_1_at (e : pe_s4) (i : Z) : F := - power (pe_alpha e) 4%Z * power (pe_omega e) (3
  * pe_cap_c_total e - 1)%Z * delta (i - pe_maxshift e - pe_n e)%Z 1%Z + pe_c e
  * vidx (pe_v_vec_2 e) (minus_i64 (i - pe_maxshift e - pe_n e) (1 - pe_shiftlength_1 e))%Z + pe_c e
  * vidx (pe_v_vec_3 e) (minus_i64 (i - pe_maxshift e - pe_n e) (pe_cap_c_m e + pe_cap_c_total e
  - pe_shiftlength_2 e + 1))%Z + pe_c_1 e * vidx (pe_v_vec e) (minus_i64 (i - pe_maxshift e
  - pe_n e) (pe_cap_c_m e + pe_cap_c_total e + 1))%Z + pe_c_1 e * vidx (pe_u_vec e) (minus_i64 (i
  - pe_maxshift e - pe_n e) 1)%Z + pe_c_1 e * vidx (pe_d_vec e) (minus_i64 (i - pe_maxshift e
  - pe_n e) (pe_cap_c_a e + pe_cap_c_m e + 2 * pe_cap_c_total e + 1))%Z + pe_c_10 e
  * range_index 1%Z (3 * pe_cap_c_total e)%Z (minus_i64 (i - pe_maxshift e - pe_n e) 1)%Z +
  pe_c_11 e * vidx (pe_v_vec_10 e) (minus_i64 (i - pe_maxshift e - pe_n e) (2 - pe_cap_c_total e))%Z
  + pe_c_12 e * vidx (pe_v_vec_11 e) (minus_i64 (i - pe_maxshift e - pe_n e) (2 - pe_cap_c_a e))%Z +
  pe_c_12 e * vidx (pe_v_vec_12 e) (minus_i64 (i - pe_maxshift e - pe_n e) (- pe_cap_c_a e
  - pe_cap_c_m e + 2))%Z + pe_c_13 e * vidx (pe_v_vec_11 e) (minus_i64 (i - pe_maxshift e - pe_n e)
  (- pe_cap_c_a e - pe_cap_c_total e + 2))%Z + pe_c_14 e * vidx (pe_v_vec_13 e) (minus_i64 (i
  - pe_maxshift e - pe_n e) (- pe_shiftlength_7 e))%Z + pe_c_15 e * vidx (pe_v_vec_14 e)
  (minus_i64 (i - pe_maxshift e - pe_n e) (- pe_shiftlength_7 e))%Z + pe_c_16 e
  * vidx (pe_v_vec_14 e) (minus_i64 (i - pe_maxshift e - pe_n e) (1 - pe_shiftlength_7 e))%Z +
  pe_c_17 e * vidx (pe_v_vec_15 e) (minus_i64 (i - pe_maxshift e - pe_n e) (- pe_cap_c_m e
  - pe_cap_c_total e))%Z + pe_c_2 e * vidx (pe_v_vec_5 e) (minus_i64 (i - pe_maxshift e - pe_n e) (1
  - pe_shiftlength_4 e))%Z + pe_c_2 e * vidx (pe_v_vec_6 e) (minus_i64 (i - pe_maxshift e - pe_n e)
  (pe_cap_c_m e + pe_cap_c_total e - pe_shiftlength_5 e + 1))%Z + pe_c_2 e * vidx (pe_v_vec_7 e)
  (minus_i64 (i - pe_maxshift e - pe_n e) (pe_cap_c_a e + pe_cap_c_m e + 2 * pe_cap_c_total e
  - pe_shiftlength_6 e + 1))%Z + pe_c_4 e * vidx (pe_v_vec_1 e) (minus_i64 (i - pe_maxshift e
  - pe_n e) (- pe_cap_c_total e - pe_shiftlength e + 1))%Z + pe_c_5 e * vidx (pe_v_vec_4 e)
  (minus_i64 (i - pe_maxshift e - pe_n e) (1 - pe_shiftlength_3 e))%Z + pe_c_6 e
  * vidx (pe_v_vec_5 e) (minus_i64 (i - pe_maxshift e - pe_n e) (- pe_shiftlength_4 e))%Z + pe_c_6 e
  * vidx (pe_v_vec_6 e) (minus_i64 (i - pe_maxshift e - pe_n e) (pe_cap_c_m e + pe_cap_c_total e
  - pe_shiftlength_5 e))%Z + pe_c_6 e * vidx (pe_v_vec_7 e) (minus_i64 (i - pe_maxshift e - pe_n e)
  (pe_cap_c_a e + pe_cap_c_m e + 2 * pe_cap_c_total e - pe_shiftlength_6 e))%Z + pe_c_7 e
  * vidx (pe_v_vec_8 e) (minus_i64 (i - pe_maxshift e - pe_n e) (3 * pe_cap_c_total e
  - pe_shiftlength_7 e))%Z + pe_c_8 e * vidx (pe_v_vec_9 e) (minus_i64 (i - pe_maxshift e - pe_n e)
  (1 - pe_shiftlength_8 e))%Z + pe_c_9 e * power_vidx (pe_gamma e) (3 * pe_cap_c_total e)%Z
  (minus_i64 (i - pe_maxshift e - pe_n e) 1)%Z.
Definition pe_h_vec_1 (e : pe_s4) : list F := expression_vector (pe_h_vec_1_at e) (pe_maxshift e +
  pe_n e)%Z.
(** snarks/voproof_pov_prover_efficient.rs:474-531 [h_vec_2], entry i (from 1) *)
Definition pe_h_vec_2_at (e : pe_s4) (i : Z) : F := - power (pe_alpha e) 4%Z * power (pe_omega e) (3
  * pe_cap_c_total e - 1)%Z * delta (i + 1)%Z 1%Z + pe_c e * vidx (pe_v_vec_2 e) (minus_i64 (i + 1)
  (1 - pe_shiftlength_1 e))%Z + pe_c e * vidx (pe_v_vec_3 e) (minus_i64 (i + 1) (pe_cap_c_m e +
  pe_cap_c_total e - pe_shiftlength_2 e + 1))%Z + pe_c_1 e * vidx (pe_v_vec e) (minus_i64 (i + 1)
  (pe_cap_c_m e + pe_cap_c_total e + 1))%Z + pe_c_1 e * vidx (pe_u_vec e) (minus_i64 (i + 1) 1)%Z +
  pe_c_1 e * vidx (pe_d_vec e) (minus_i64 (i + 1) (pe_cap_c_a e + pe_cap_c_m e + 2
  * pe_cap_c_total e + 1))%Z + pe_c_10 e * range_index 1%Z (3 * pe_cap_c_total e)%Z (minus_i64 (i +
  1) 1)%Z + pe_c_11 e * vidx (pe_v_vec_10 e) (minus_i64 (i + 1) (2 - pe_cap_c_total e))%Z +
  pe_c_12 e * vidx (pe_v_vec_11 e) (minus_i64 (i + 1) (2 - pe_cap_c_a e))%Z + pe_c_12 e
  * vidx (pe_v_vec_12 e) (minus_i64 (i + 1) (- pe_cap_c_a e - pe_cap_c_m e + 2))%Z + pe_c_13 e
  * vidx (pe_v_vec_11 e) (minus_i64 (i + 1) (- pe_cap_c_a e - pe_cap_c_total e + 2))%Z + pe_c_14 e
  * vidx (pe_v_vec_13 e) (minus_i64 (i + 1) (- pe_shiftlength_7 e))%Z + pe_c_15 e
  * vidx (pe_v_vec_14 e) (minus_i64 (i + 1) (- pe_shiftlength_7 e))%Z + pe_c_16 e
  * vidx (pe_v_vec_14 e) (minus_i64 (i + 1) (1 - pe_shiftlength_7 e))%Z + pe_c_17 e
  * vidx (pe_v_vec_15 e) (minus_i64 (i + 1) (- pe_cap_c_m e - pe_cap_c_total e))%Z + pe_c_2 e
  * vidx (pe_v_vec_5 e) (minus_i64 (i + 1) (1 - pe_shiftlength_4 e))%Z + pe_c_2 e
  * vidx (pe_v_vec_6 e) (minus_i64 (i + 1) (pe_cap_c_m e + pe_cap_c_total e - pe_shiftlength_5 e +
  1))%Z + pe_c_2 e * vidx (pe_v_vec_7 e) (minus_i64 (i + 1) (pe_cap_c_a e + pe_cap_c_m e + 2
  * pe_cap_c_total e - pe_shiftlength_6 e + 1))%Z + pe_c_4 e * vidx (pe_v_vec_1 e) (minus_i64 (i +
  1) (- pe_cap_c_total e - pe_shiftlength e + 1))%Z + pe_c_5 e * vidx (pe_v_vec_4 e) (minus_i64 (i +
  1) (1 - pe_shiftlength_3 e))%Z + pe_c_6 e * vidx (pe_v_vec_5 e) (minus_i64 (i + 1)
  (- pe_shiftlength_4 e))%Z + pe_c_6 e * vidx (pe_v_vec_6 e) (minus_i64 (i + 1) (pe_cap_c_m e +
  pe_cap_c_total e - pe_shiftlength_5 e))%Z + pe_c_6 e * vidx (pe_v_vec_7 e) (minus_i64 (i + 1)
  (pe_cap_c_a e + pe_cap_c_m e + 2 * pe_cap_c_total e - pe_shiftlength_6 e))%Z + pe_c_7 e
  * vidx (pe_v_vec_8 e) (minus_i64 (i + 1) (3 * pe_cap_c_total e - pe_shiftlength_7 e))%Z + pe_c_8 e
  * vidx (pe_v_vec_9 e) (minus_i64 (i + 1) (1 - pe_shiftlength_8 e))%Z + pe_c_9 e
  * power_vidx (pe_gamma e) (3 * pe_cap_c_total e)%Z (minus_i64 (i + 1) 1)%Z.
Definition pe_h_vec_2 (e : pe_s4) : list F := expression_vector (pe_h_vec_2_at e) (pe_maxshift e +
  pe_n e)%Z.

(** *** The evaluation round: lines 548-621 of [prove] and 800-872 of [verify].
    [pe_ctx] holds what both sides know after the challenge z. *)
Record pe_ctx := mkPECtx {
  pe_ctx_pub :> pe_pub; pe_q_zeta : F; pe_q_zeta_1 : F; pe_q_alpha : F; pe_q_omega : F;
  pe_q_z : F; pe_q_y : F; pe_q_y_2 : F }.
(** snarks/voproof_pov_prover_efficient.rs:548 [y] *)
Definition pe_y (e : pe_s4) (z : F) : F := eval_vector_expression (pe_omega e / z) (fun i =>
  vidx (pe_u_vec e) i) (pe_n e + 1)%Z.
(** snarks/voproof_pov_prover_efficient.rs:550 [y_2] *)
Definition pe_y_2 (e : pe_s4) (z : F) : F := eval_vector_expression (pe_omega e / z) (fun i =>
  vidx (pe_r_vec e) i) (pe_n e + 1)%Z.
(** snarks/voproof_pov_prover_efficient.rs:549 [y_1] *)
Definition pe_p_y_1 (e : pe_ctx) : F := eval_sparse_zero_one_vector (pe_q_omega e / pe_q_z e)
  (pe_x0 e).
(** snarks/voproof_pov_prover_efficient.rs:551-565 [c_18] *)
Definition pe_p_c_18 (e : pe_ctx) : F := (power (pe_q_alpha e) 3%Z * 1 * (pe_q_omega e - 1
  * pe_q_z e) * (pe_q_omega e * pe_q_y_2 e + 1 * pe_q_z e) - pe_q_alpha e * power (pe_q_z e)
  (- pe_cap_c_m e + pe_cap_c_total e + 2)%Z * power (pe_q_omega e / pe_q_z e) (pe_cap_c_total e)
  * (1 - power (pe_q_omega e / pe_q_z e) (pe_cap_c_a e)) + 1 * pe_q_z e * (pe_q_omega e - 1
  * pe_q_z e) * (- power (pe_q_alpha e) 3%Z * 1 * pe_q_y_2 e + power (pe_q_alpha e) 2%Z * 1
  * pe_p_y_1 e + pe_q_y e * power (pe_q_omega e / pe_q_z e) (pe_cap_c_total e))) / (pe_q_z e
  * (pe_q_omega e - 1 * pe_q_z e)).
(** snarks/voproof_pov_prover_efficient.rs:566-582 [c_19] *)
Definition pe_p_c_19 (e : pe_ctx) : F := (power (pe_q_alpha e) 2%Z * (pe_q_omega e - 1 * pe_q_z e)
  * (pe_q_alpha e * (- (1) * pe_q_y_2 e * power (pe_q_z e) (pe_cap_c_m e - 2 * pe_cap_c_total e +
  pe_n e)%Z + power (pe_q_z e) (pe_cap_c_m e - 2 * pe_cap_c_total e + pe_n e - 1)%Z * (pe_q_omega e
  * pe_q_y_2 e + 1 * pe_q_z e)) + 1 * pe_p_y_1 e * power (pe_q_z e) (pe_cap_c_m e +
  pe_cap_c_total e)%Z) + pe_q_alpha e * power (pe_q_omega e / pe_q_z e) (pe_cap_c_total e) * (1
  - power (pe_q_omega e / pe_q_z e) (pe_cap_c_a e)) * (1 * pe_q_z e - power (pe_q_z e)
  (pe_cap_c_total e + 1)%Z) + power (pe_q_z e) (pe_cap_c_m e + 1)%Z * power (pe_q_omega e
  / pe_q_z e) (pe_cap_c_total e) * (1 - power (pe_q_omega e / pe_q_z e) (pe_cap_c_m e)))
  / (pe_q_omega e - 1 * pe_q_z e).
(** snarks/voproof_pov_prover_efficient.rs:583-605 [c_20] *)
Definition pe_p_c_20 (e : pe_ctx) : F := power (pe_q_alpha e) 2%Z * (pe_q_alpha e * (- power 1 2%Z
  * pe_q_y_2 e * pe_q_z e * pe_q_zeta_1 e * (1 - power (pe_q_z e) (3 * pe_cap_c_total e)%Z)
  * (pe_gamma e * pe_q_z e - 1) - 1 * (pe_q_omega e * pe_q_y_2 e + 1 * pe_q_z e) * (pe_q_zeta e * (1
  - pe_q_z e) * (1 - power (pe_gamma e * pe_q_z e) (3 * pe_cap_c_total e)%Z) - pe_q_zeta_1 e * (1
  - power (pe_q_z e) (3 * pe_cap_c_total e)%Z) * (pe_gamma e * pe_q_z e - 1))) + pe_q_z e * (1
  - pe_q_z e) * (pe_gamma e * pe_q_z e - 1) * (power (pe_q_alpha e) 2%Z * power (pe_q_z e) (3
  * pe_cap_c_total e - 1)%Z * (1 * pe_q_y_2 e - power (pe_q_omega e / pe_q_z e) (3
  * pe_cap_c_total e - 1)%Z) - power 1 2%Z * eval_sparse_vector (pe_q_z e) (pe_x0 e) (pe_x1 e)
  * pe_p_y_1 e)) / (pe_q_z e * (1 - pe_q_z e) * (pe_gamma e * pe_q_z e - 1)).
(** snarks/voproof_pov_prover_efficient.rs:606-611 [c_21] *)
Definition pe_p_c_21 (e : pe_ctx) : F := power (pe_q_alpha e) 3%Z * (- (1) * pe_q_y_2 e
  * power (pe_q_z e) (pe_cap_c_a e + pe_cap_c_m e - pe_cap_c_total e + pe_n e)%Z + power (pe_q_z e)
  (pe_cap_c_a e + pe_cap_c_m e - pe_cap_c_total e + pe_n e - 1)%Z * (pe_q_omega e * pe_q_y_2 e + 1
  * pe_q_z e)).
(** snarks/voproof_pov_prover_efficient.rs:612 [c_22] *)
Definition pe_p_c_22 (e : pe_ctx) : F := - power (pe_q_alpha e) 3%Z * power 1 2%Z * pe_q_y_2 e
  * pe_q_zeta e.
(** snarks/voproof_pov_prover_efficient.rs:613-619 [c_23] *)
Definition pe_p_c_23 (e : pe_ctx) : F := power (pe_q_z e) (pe_n e) * power (pe_q_omega e / pe_q_z e)
  (3 * pe_cap_c_total e)%Z * (1 - power (pe_q_omega e / pe_q_z e) (pe_cap_c_m e + pe_cap_c_total e +
  1)%Z) / (pe_q_omega e - 1 * pe_q_z e).
(** snarks/voproof_pov_prover_efficient.rs:620 [c_24] *)
Definition pe_p_c_24 (e : pe_ctx) : F := - power (pe_q_z e) (- pe_cap_d e)%Z.
(** snarks/voproof_pov_prover_efficient.rs:621 [c_25] *)
Definition pe_p_c_25 (e : pe_ctx) : F := - pe_q_z e.

(** the same bindings in [verify] *)
(** snarks/voproof_pov_prover_efficient.rs:803 [y_1] *)
Definition pe_v_y_1 (e : pe_ctx) : F := eval_sparse_zero_one_vector (pe_q_omega e / pe_q_z e)
  (pe_x0 e).
(** snarks/voproof_pov_prover_efficient.rs:804-818 [c_18] *)
Definition pe_v_c_18 (e : pe_ctx) : F := (power (pe_q_alpha e) 3%Z * 1 * (pe_q_omega e - 1
  * pe_q_z e) * (pe_q_omega e * pe_q_y_2 e + 1 * pe_q_z e) - pe_q_alpha e * power (pe_q_z e)
  (- pe_cap_c_m e + pe_cap_c_total e + 2)%Z * power (pe_q_omega e / pe_q_z e) (pe_cap_c_total e)
  * (1 - power (pe_q_omega e / pe_q_z e) (pe_cap_c_a e)) + 1 * pe_q_z e * (pe_q_omega e - 1
  * pe_q_z e) * (- power (pe_q_alpha e) 3%Z * 1 * pe_q_y_2 e + power (pe_q_alpha e) 2%Z * 1
  * pe_v_y_1 e + pe_q_y e * power (pe_q_omega e / pe_q_z e) (pe_cap_c_total e))) / (pe_q_z e
  * (pe_q_omega e - 1 * pe_q_z e)).
(** snarks/voproof_pov_prover_efficient.rs:819-835 [c_19] *)
Definition pe_v_c_19 (e : pe_ctx) : F := (power (pe_q_alpha e) 2%Z * (pe_q_omega e - 1 * pe_q_z e)
  * (pe_q_alpha e * (- (1) * pe_q_y_2 e * power (pe_q_z e) (pe_cap_c_m e - 2 * pe_cap_c_total e +
  pe_n e)%Z + power (pe_q_z e) (pe_cap_c_m e - 2 * pe_cap_c_total e + pe_n e - 1)%Z * (pe_q_omega e
  * pe_q_y_2 e + 1 * pe_q_z e)) + 1 * pe_v_y_1 e * power (pe_q_z e) (pe_cap_c_m e +
  pe_cap_c_total e)%Z) + pe_q_alpha e * power (pe_q_omega e / pe_q_z e) (pe_cap_c_total e) * (1
  - power (pe_q_omega e / pe_q_z e) (pe_cap_c_a e)) * (1 * pe_q_z e - power (pe_q_z e)
  (pe_cap_c_total e + 1)%Z) + power (pe_q_z e) (pe_cap_c_m e + 1)%Z * power (pe_q_omega e
  / pe_q_z e) (pe_cap_c_total e) * (1 - power (pe_q_omega e / pe_q_z e) (pe_cap_c_m e)))
  / (pe_q_omega e - 1 * pe_q_z e).
(** snarks/voproof_pov_prover_efficient.rs:836-858 [c_20] *)
Definition pe_v_c_20 (e : pe_ctx) : F := power (pe_q_alpha e) 2%Z * (pe_q_alpha e * (- power 1 2%Z
  * pe_q_y_2 e * pe_q_z e * pe_q_zeta_1 e * (1 - power (pe_q_z e) (3 * pe_cap_c_total e)%Z)
  * (pe_gamma e * pe_q_z e - 1) - 1 * (pe_q_omega e * pe_q_y_2 e + 1 * pe_q_z e) * (pe_q_zeta e * (1
  - pe_q_z e) * (1 - power (pe_gamma e * pe_q_z e) (3 * pe_cap_c_total e)%Z) - pe_q_zeta_1 e * (1
  - power (pe_q_z e) (3 * pe_cap_c_total e)%Z) * (pe_gamma e * pe_q_z e - 1))) + pe_q_z e * (1
  - pe_q_z e) * (pe_gamma e * pe_q_z e - 1) * (power (pe_q_alpha e) 2%Z * power (pe_q_z e) (3
  * pe_cap_c_total e - 1)%Z * (1 * pe_q_y_2 e - power (pe_q_omega e / pe_q_z e) (3
  * pe_cap_c_total e - 1)%Z) - power 1 2%Z * eval_sparse_vector (pe_q_z e) (pe_x0 e) (pe_x1 e)
  * pe_v_y_1 e)) / (pe_q_z e * (1 - pe_q_z e) * (pe_gamma e * pe_q_z e - 1)).
(** snarks/voproof_pov_prover_efficient.rs:859-864 [c_21] *)
Definition pe_v_c_21 (e : pe_ctx) : F := power (pe_q_alpha e) 3%Z * (- (1) * pe_q_y_2 e
  * power (pe_q_z e) (pe_cap_c_a e + pe_cap_c_m e - pe_cap_c_total e + pe_n e)%Z + power (pe_q_z e)
  (pe_cap_c_a e + pe_cap_c_m e - pe_cap_c_total e + pe_n e - 1)%Z * (pe_q_omega e * pe_q_y_2 e + 1
  * pe_q_z e)).
(** snarks/voproof_pov_prover_efficient.rs:865 [c_22] *)
Definition pe_v_c_22 (e : pe_ctx) : F := - power (pe_q_alpha e) 3%Z * power 1 2%Z * pe_q_y_2 e
  * pe_q_zeta e.
(** snarks/voproof_pov_prover_efficient.rs:866-872 [c_23] *)
Definition pe_v_c_23 (e : pe_ctx) : F := power (pe_q_z e) (pe_n e) * power (pe_q_omega e / pe_q_z e)
  (3 * pe_cap_c_total e)%Z * (1 - power (pe_q_omega e / pe_q_z e) (pe_cap_c_m e + pe_cap_c_total e +
  1)%Z) / (pe_q_omega e - 1 * pe_q_z e).
(** snarks/voproof_pov_prover_efficient.rs:873 [c_24] *)
Definition pe_v_c_24 (e : pe_ctx) : F := - power (pe_q_z e) (- pe_cap_d e)%Z.
(** snarks/voproof_pov_prover_efficient.rs:874 [c_25] *)
Definition pe_v_c_25 (e : pe_ctx) : F := - pe_q_z e.

(** divisors of lines 548-619 in evaluation order (z of omega / z; then those of c_18, c_19, c_20,
    c_23); [power(z, -cap_d)] returns z unchanged for z = 0 and does not divide. *)
Definition pe_divisors (e : pe_ctx) : outcome error unit :=
  let z := pe_q_z e in let omega := pe_q_omega e in let gamma := pe_gamma e in
  let! _ := nonzero z in
  let! _ := nonzero (z * (omega - 1 * z)) in
  let! _ := nonzero (omega - 1 * z) in
  let! _ := nonzero (z * (1 - z) * (gamma * z - 1)) in
  nonzero (omega - 1 * z).
(** snarks/voproof_pov_prover_efficient.rs:622-644 [g_vec], entry i before the addition of line 645 *)
Definition pe_g_at (e : pe_s4) (q : pe_ctx) (i : Z) : F := linear_combination 0 [((pe_p_c_18 q),
  (vidx (pe_u_vec e) i)); ((pe_p_c_19 q), (vidx (pe_v_vec e) i)); ((pe_p_c_21 q), (vidx (pe_d_vec e)
  i)); ((pe_p_c_22 q), (vidx (pe_sigma_vec e) i)); ((pe_p_c_23 q), (vidx (pe_t_vec_1 e) i));
  ((pe_p_c_24 q), (vidx (pe_h_vec_1 e) (- pe_cap_d e + i + pe_maxshift e + pe_n e)%Z));
  ((pe_p_c_25 q), (vidx (pe_h_vec_2 e) i))].
Definition pe_g_vec (e : pe_s4) (q : pe_ctx) : outcome error (list F) := add_to_first_item
  (expression_vector (pe_g_at e q) (pe_cap_d e)) (pe_p_c_20 q).

(** *** Keys, proofs, transcripts *)
(** lines 14-21 *)
Record pe_vk := mkPEVK {
  pe_vk_cm_sigma_vec : G1; pe_vk_cm_d_vec : G1; pe_vk_kzg_vk : verifier_key G1 G2;
  pe_vk_size : POVSize; pe_vk_degree_bound : nat }.
(** lines 5-11 *)
Record pe_pk := mkPEPK {
  pe_pk_verifier_key : pe_vk; pe_pk_powers : list G1; pe_pk_max_degree : nat;
  pe_pk_sigma_vec : list F; pe_pk_d_vec : list F }.
(** lines 23-35 *)
Record pe_proof := mkPEProof {
  pe_cm_u_vec : G1; pe_cm_v_vec : G1; pe_cm_r_vec : G1; pe_cm_t_vec_1 : G1;
  pe_cm_h_vec_1 : G1; pe_cm_h_vec_2 : G1; pe_pf_y : F; pe_pf_y_2 : F;
  pe_cap_w : G1; pe_cap_w_1 : G1 }.

Variable H : list (item F G1) -> F.
Variable gamma : F.   (* generator_of!: FftField::GENERATOR *)
(** snarks/voproof_pov_prover_efficient.rs:160-169 challenge [zeta] of prove *)
Definition pe_p_ch_zeta (vk : pe_vk) (x : POVInstance) (cm_u_vec cm_v_vec : G1) : F := H [IF 1; INs
  (fst x); IFs (snd x); IG (pe_vk_cm_sigma_vec vk); IG (pe_vk_cm_d_vec vk); IG cm_u_vec; IG
  cm_v_vec].
(** snarks/voproof_pov_prover_efficient.rs:170-179 challenge [zeta_1] of prove *)
Definition pe_p_ch_zeta_1 (vk : pe_vk) (x : POVInstance) (cm_u_vec cm_v_vec : G1) : F := H [IF (1 +
  1); INs (fst x); IFs (snd x); IG (pe_vk_cm_sigma_vec vk); IG (pe_vk_cm_d_vec vk); IG cm_u_vec; IG
  cm_v_vec].
(** snarks/voproof_pov_prover_efficient.rs:208-218 challenge [alpha] of prove *)
Definition pe_p_ch_alpha (vk : pe_vk) (x : POVInstance) (cm_u_vec cm_v_vec cm_r_vec : G1) : F := H
  [IF 1; INs (fst x); IFs (snd x); IG (pe_vk_cm_sigma_vec vk); IG (pe_vk_cm_d_vec vk); IG cm_u_vec;
  IG cm_v_vec; IG cm_r_vec].
(** snarks/voproof_pov_prover_efficient.rs:273-284 challenge [omega] of prove *)
Definition pe_p_ch_omega (vk : pe_vk) (x : POVInstance) (cm_u_vec cm_v_vec cm_r_vec cm_t_vec_1 : G1)
  : F := H [IF 1; INs (fst x); IFs (snd x); IG (pe_vk_cm_sigma_vec vk); IG (pe_vk_cm_d_vec vk); IG
  cm_u_vec; IG cm_v_vec; IG cm_r_vec; IG cm_t_vec_1].
(** snarks/voproof_pov_prover_efficient.rs:534-547 challenge [z] of prove *)
Definition pe_p_ch_z (vk : pe_vk) (x : POVInstance) (cm_u_vec cm_v_vec cm_r_vec cm_t_vec_1
  cm_h_vec_1 cm_h_vec_2 : G1) : F := H [IF 1; INs (fst x); IFs (snd x); IG (pe_vk_cm_sigma_vec vk);
  IG (pe_vk_cm_d_vec vk); IG cm_u_vec; IG cm_v_vec; IG cm_r_vec; IG cm_t_vec_1; IG cm_h_vec_1; IG
  cm_h_vec_2].
(** snarks/voproof_pov_prover_efficient.rs:671-689 challenge [rand_xi] of prove *)
Definition pe_p_ch_rand_xi (vk : pe_vk) (x : POVInstance) (cm_u_vec cm_v_vec cm_r_vec cm_t_vec_1
  cm_h_vec_1 cm_h_vec_2 cm_g : G1) (omega y y_2 z : F) : F := H [IF 1; INs (fst x); IFs (snd x); IG
  (pe_vk_cm_sigma_vec vk); IG (pe_vk_cm_d_vec vk); IG cm_u_vec; IG cm_v_vec; IG cm_r_vec; IG
  cm_t_vec_1; IG cm_h_vec_1; IG cm_h_vec_2; IG cm_g; IF (omega / z); IF y; IF y_2; IF z].
(** snarks/voproof_pov_prover_efficient.rs:690-708 challenge [rand_xi_2] of prove *)
Definition pe_p_ch_rand_xi_2 (vk : pe_vk) (x : POVInstance) (cm_u_vec cm_v_vec cm_r_vec cm_t_vec_1
  cm_h_vec_1 cm_h_vec_2 cm_g : G1) (omega y y_2 z : F) : F := H [IF (1 + 1); INs (fst x); IFs (snd
  x); IG (pe_vk_cm_sigma_vec vk); IG (pe_vk_cm_d_vec vk); IG cm_u_vec; IG cm_v_vec; IG cm_r_vec; IG
  cm_t_vec_1; IG cm_h_vec_1; IG cm_h_vec_2; IG cm_g; IF (omega / z); IF y; IF y_2; IF z].
(** snarks/voproof_pov_prover_efficient.rs:746-755 challenge [zeta] of verify *)
Definition pe_v_ch_zeta (vk : pe_vk) (x : POVInstance) (cm_u_vec cm_v_vec : G1) : F := H [IF 1; INs
  (fst x); IFs (snd x); IG (pe_vk_cm_sigma_vec vk); IG (pe_vk_cm_d_vec vk); IG cm_u_vec; IG
  cm_v_vec].
(** snarks/voproof_pov_prover_efficient.rs:756-765 challenge [zeta_1] of verify *)
Definition pe_v_ch_zeta_1 (vk : pe_vk) (x : POVInstance) (cm_u_vec cm_v_vec : G1) : F := H [IF (1 +
  1); INs (fst x); IFs (snd x); IG (pe_vk_cm_sigma_vec vk); IG (pe_vk_cm_d_vec vk); IG cm_u_vec; IG
  cm_v_vec].
(** snarks/voproof_pov_prover_efficient.rs:766-776 challenge [alpha] of verify *)
Definition pe_v_ch_alpha (vk : pe_vk) (x : POVInstance) (cm_u_vec cm_v_vec cm_r_vec : G1) : F := H
  [IF 1; INs (fst x); IFs (snd x); IG (pe_vk_cm_sigma_vec vk); IG (pe_vk_cm_d_vec vk); IG cm_u_vec;
  IG cm_v_vec; IG cm_r_vec].
(** snarks/voproof_pov_prover_efficient.rs:777-788 challenge [omega] of verify *)
Definition pe_v_ch_omega (vk : pe_vk) (x : POVInstance) (cm_u_vec cm_v_vec cm_r_vec cm_t_vec_1 : G1)
  : F := H [IF 1; INs (fst x); IFs (snd x); IG (pe_vk_cm_sigma_vec vk); IG (pe_vk_cm_d_vec vk); IG
  cm_u_vec; IG cm_v_vec; IG cm_r_vec; IG cm_t_vec_1].
(** snarks/voproof_pov_prover_efficient.rs:789-802 challenge [z] of verify *)
Definition pe_v_ch_z (vk : pe_vk) (x : POVInstance) (cm_u_vec cm_v_vec cm_r_vec cm_t_vec_1
  cm_h_vec_1 cm_h_vec_2 : G1) : F := H [IF 1; INs (fst x); IFs (snd x); IG (pe_vk_cm_sigma_vec vk);
  IG (pe_vk_cm_d_vec vk); IG cm_u_vec; IG cm_v_vec; IG cm_r_vec; IG cm_t_vec_1; IG cm_h_vec_1; IG
  cm_h_vec_2].
(** snarks/voproof_pov_prover_efficient.rs:896-914 challenge [rand_xi] of verify *)
Definition pe_v_ch_rand_xi (vk : pe_vk) (x : POVInstance) (cm_u_vec cm_v_vec cm_r_vec cm_t_vec_1
  cm_h_vec_1 cm_h_vec_2 cm_g : G1) (omega y y_2 z : F) : F := H [IF 1; INs (fst x); IFs (snd x); IG
  (pe_vk_cm_sigma_vec vk); IG (pe_vk_cm_d_vec vk); IG cm_u_vec; IG cm_v_vec; IG cm_r_vec; IG
  cm_t_vec_1; IG cm_h_vec_1; IG cm_h_vec_2; IG cm_g; IF (omega / z); IF y; IF y_2; IF z].
(** snarks/voproof_pov_prover_efficient.rs:915-933 challenge [rand_xi_2] of verify *)
Definition pe_v_ch_rand_xi_2 (vk : pe_vk) (x : POVInstance) (cm_u_vec cm_v_vec cm_r_vec cm_t_vec_1
  cm_h_vec_1 cm_h_vec_2 cm_g : G1) (omega y y_2 z : F) : F := H [IF (1 + 1); INs (fst x); IFs (snd
  x); IG (pe_vk_cm_sigma_vec vk); IG (pe_vk_cm_d_vec vk); IG cm_u_vec; IG cm_v_vec; IG cm_r_vec; IG
  cm_t_vec_1; IG cm_h_vec_1; IG cm_h_vec_2; IG cm_g; IF (omega / z); IF y; IF y_2; IF z].
(** snarks/voproof_pov_prover_efficient.rs:646-664 [cm_g] *)
Definition pe_p_cm_g (vk : pe_vk) (q : pe_ctx) (cm_u_vec cm_v_vec cm_r_vec cm_t_vec_1 cm_h_vec_1
  cm_h_vec_2 : G1) : G1 := commitment_linear_combination (vk_g (pe_vk_kzg_vk vk)) (pe_p_c_20 q)
  [(cm_u_vec, (pe_p_c_18 q)); (cm_v_vec, (pe_p_c_19 q)); ((pe_vk_cm_d_vec vk), (pe_p_c_21 q));
  ((pe_vk_cm_sigma_vec vk), (pe_p_c_22 q)); (cm_t_vec_1, (pe_p_c_23 q)); (cm_h_vec_1,
  (pe_p_c_24 q)); (cm_h_vec_2, (pe_p_c_25 q))].
(** snarks/voproof_pov_prover_efficient.rs:875-893 [cm_g] *)
Definition pe_v_cm_g (vk : pe_vk) (q : pe_ctx) (cm_u_vec cm_v_vec cm_r_vec cm_t_vec_1 cm_h_vec_1
  cm_h_vec_2 : G1) : G1 := commitment_linear_combination (vk_g (pe_vk_kzg_vk vk)) (pe_v_c_20 q)
  [(cm_u_vec, (pe_v_c_18 q)); (cm_v_vec, (pe_v_c_19 q)); ((pe_vk_cm_d_vec vk), (pe_v_c_21 q));
  ((pe_vk_cm_sigma_vec vk), (pe_v_c_22 q)); (cm_t_vec_1, (pe_v_c_23 q)); (cm_h_vec_1,
  (pe_v_c_24 q)); (cm_h_vec_2, (pe_v_c_25 q))].

(** lines 46-48 [get_max_degree] *)
Definition pe_get_max_degree (size : POVSize) : nat := (ps_nmul size + 4 * ps_n size)%nat.

(** lines 59-62 [setup]: KZG setup with the sampled trapdoor and generators *)
Definition pe_setup (size : nat) (beta : F) (g : G1) (h : G2) := setup size beta g h.

(** lines 64-117 [index] *)
Definition pe_index (pp : universal_params G1 G2) (cs : POV F) : outcome error (pe_pk * pe_vk) :=
  let size := pov_get_size cs in
  let max_degree := pe_get_max_degree size in
  let cap_d := length (up_powers_of_g pp) in
  let! _ := assert_ (max_degree <? cap_d)%nat in
  let powers_of_g := up_powers_of_g pp in
  let cap_c_total := Z.of_nat (ps_n size) in
  let cap_c_a := Z.of_nat (ps_nadd size) in
  let cap_c_m := Z.of_nat (ps_nmul size) in
  let d_vec := p_consts cs in
  let! sigma_vec := permutation_vector_from_wires gamma (p_wires cs) (Z.to_nat (3 * cap_c_total)) in
  let! cm_sigma_vec := commit_vector powers_of_g sigma_vec (3 * cap_c_total)%Z in
  let! cm_d_vec := commit_vector powers_of_g d_vec (- cap_c_a - cap_c_m + cap_c_total)%Z in
  let! kvk := kzg_vk pp in
  let vk := mkPEVK cm_sigma_vec cm_d_vec kvk size cap_d in
  Ok (mkPEPK vk powers_of_g max_degree sigma_vec d_vec, vk).

(** lines 119-128 of [prove], 726-745 of [verify] *)
Definition pe_pub_of (vk : pe_vk) (x : POVInstance) : pe_pub :=
  let size := pe_vk_size vk in
  mkPEPub (Z.of_nat (ps_n size)) (Z.of_nat (ps_nadd size)) (Z.of_nat (ps_nmul size))
          (Z.of_nat (pe_vk_degree_bound vk)) gamma (fst x) (snd x).

(** lines 129-159: witness vectors and their commitments *)
Definition pe_round1 (pk : pe_pk) (x : POVInstance) (w : POVWitness) (delta_vec delta_vec_1 : list F)
  : outcome error (pe_s1 * (G1 * G1)) :=
  let e := pe_pub_of (pe_pk_verifier_key pk) x in
  let '(a_vec, b_vec, c_vec) := w in
  let! x_vec := sparse_vector (fst x) (snd x) (Z.to_nat (3 * pe_cap_c_total e)) in
  let! u_vec := concat_subvec a_vec 0 (Z.to_nat (pe_cap_c_total e)) b_vec 0 (Z.to_nat (pe_cap_c_m e)) in
  let! v_vec := concat_subvec b_vec (Z.to_nat (pe_cap_c_m e)) (Z.to_nat (pe_cap_c_total e))
                              c_vec 0 (Z.to_nat (pe_cap_c_a e + pe_cap_c_m e)) in
  let! u_vec := zero_pad_and_concat u_vec (Z.to_nat (pe_n e)) [delta_vec] in
  let! cm_u_vec := commit_vector (pe_pk_powers pk) u_vec (pe_n e + 1)%Z in
  let! v_vec := zero_pad_and_concat v_vec (Z.to_nat (pe_n e)) [delta_vec_1] in
  let! cm_v_vec := commit_vector (pe_pk_powers pk) v_vec (pe_n e + 1)%Z in
  let! t_vec := sparse_zero_one_vector (fst x) (Z.to_nat (3 * pe_cap_c_total e)) in
  Ok (mkPES1 e (pe_pk_sigma_vec pk) (pe_pk_d_vec pk) x_vec t_vec u_vec v_vec, (cm_u_vec, cm_v_vec)).

(** lines 180-206: the running product *)
Definition pe_round2 (pk : pe_pk) (e : pe_s2) (delta_vec_2 : list F) : outcome error (list F * G1) :=
  let! r := pe_r_acc e in
  let! r_vec := zero_pad_and_concat r (Z.to_nat (pe_n e)) [delta_vec_2] in
  let! cm_r_vec := commit_vector (pe_pk_powers pk) r_vec (pe_n e + 1)%Z in
  Ok (r_vec, cm_r_vec).

(** lines 207-272 *)
Definition pe_round3 (pk : pe_pk) (e : pe_s3) (delta_vec_3 : list F) : outcome error (list F * G1) :=
  let t_vec_1 := vector_concat [delta_vec_3; pe_t_vec_1_tail e] in
  let! cm_t_vec_1 := commit_vector (pe_pk_powers pk) t_vec_1 (pe_maxshift e + 2)%Z in
  Ok (t_vec_1, cm_t_vec_1).

(** lines 285-533; line 285 unwraps the inverse of omega *)
Definition pe_round4 (pk : pe_pk) (e : pe_s4) : outcome error (G1 * G1) :=
  let! _ := nonzero (pe_omega e) in
  let! cm_h_vec_1 := commit_vector (pe_pk_powers pk) (pe_h_vec_1 e) (pe_cap_d e) in
  let! cm_h_vec_2 := commit_vector (pe_pk_powers pk) (pe_h_vec_2 e) (pe_maxshift e + pe_n e)%Z in
  Ok (cm_h_vec_1, cm_h_vec_2).

(** lines 548-644 *)
Definition pe_ctx_of (e : pe_s4) (z : F) : pe_ctx :=
  mkPECtx e (pe_zeta e) (pe_zeta_1 e) (pe_alpha e) (pe_omega e) z (pe_y e z) (pe_y_2 e z).

(** lines 548-668: the combined polynomial, checked to vanish at z *)
Definition pe_round5 (e : pe_s4) (z : F) : outcome error (pe_ctx * list F) :=
  let q := pe_ctx_of e z in
  let! _ := pe_divisors q in
  let! g_vec := pe_g_vec e q in
  let! _ := check_poly_eval (strip g_vec) z 0 in
  Ok (q, g_vec).

(** lines 118-724 [prove]; the four randomizer vectors are sampled with one element each *)
Definition pe_prove (pk : pe_pk) (x : POVInstance) (w : POVWitness)
  (delta delta_1 delta_2 delta_3 : F) : outcome error pe_proof :=
  let vk := pe_pk_verifier_key pk in
  let! (s1, (cm_u_vec, cm_v_vec)) := pe_round1 pk x w [delta] [delta_1] in
  let zeta := pe_p_ch_zeta vk x cm_u_vec cm_v_vec in
  let zeta_1 := pe_p_ch_zeta_1 vk x cm_u_vec cm_v_vec in
  let s2 := mkPES2 s1 zeta zeta_1 in
  let! (r_vec, cm_r_vec) := pe_round2 pk s2 [delta_2] in
  let alpha := pe_p_ch_alpha vk x cm_u_vec cm_v_vec cm_r_vec in
  let s3 := mkPES3 s2 r_vec alpha in
  let! (t_vec_1, cm_t_vec_1) := pe_round3 pk s3 [delta_3] in
  let omega := pe_p_ch_omega vk x cm_u_vec cm_v_vec cm_r_vec cm_t_vec_1 in
  let s4 := mkPES4 s3 t_vec_1 omega in
  let! (cm_h_vec_1, cm_h_vec_2) := pe_round4 pk s4 in
  let z := pe_p_ch_z vk x cm_u_vec cm_v_vec cm_r_vec cm_t_vec_1 cm_h_vec_1 cm_h_vec_2 in
  let! (q, g_vec) := pe_round5 s4 z in
  let cm_g := pe_p_cm_g vk q cm_u_vec cm_v_vec cm_r_vec cm_t_vec_1 cm_h_vec_1 cm_h_vec_2 in
  let y := pe_q_y q in
  let y_2 := pe_q_y_2 q in
  let rand_xi := pe_p_ch_rand_xi vk x cm_u_vec cm_v_vec cm_r_vec cm_t_vec_1 cm_h_vec_1 cm_h_vec_2
                   cm_g omega y y_2 z in
  let rand_xi_2 := pe_p_ch_rand_xi_2 vk x cm_u_vec cm_v_vec cm_r_vec cm_t_vec_1 cm_h_vec_1 cm_h_vec_2
                   cm_g omega y y_2 z in
  let! (cap_w, cap_w_1) := batch_open (pe_pk_powers pk) [strip (pe_u_vec s4); strip r_vec] [strip g_vec]
                             (omega / z) z rand_xi rand_xi_2 in
  Ok (mkPEProof cm_u_vec cm_v_vec cm_r_vec cm_t_vec_1 cm_h_vec_1 cm_h_vec_2 y y_2 cap_w cap_w_1).

(** lines 725-957 [verify]; [randomizer] is the random scalar of [batch_check] *)
Definition pe_verify (vk : pe_vk) (x : POVInstance) (pf : pe_proof) (randomizer : F)
  : outcome error unit :=
  let cm_u_vec := pe_cm_u_vec pf in
  let cm_v_vec := pe_cm_v_vec pf in
  let cm_r_vec := pe_cm_r_vec pf in
  let cm_t_vec_1 := pe_cm_t_vec_1 pf in
  let cm_h_vec_1 := pe_cm_h_vec_1 pf in
  let cm_h_vec_2 := pe_cm_h_vec_2 pf in
  let y := pe_pf_y pf in
  let y_2 := pe_pf_y_2 pf in
  let zeta := pe_v_ch_zeta vk x cm_u_vec cm_v_vec in
  let zeta_1 := pe_v_ch_zeta_1 vk x cm_u_vec cm_v_vec in
  let alpha := pe_v_ch_alpha vk x cm_u_vec cm_v_vec cm_r_vec in
  let omega := pe_v_ch_omega vk x cm_u_vec cm_v_vec cm_r_vec cm_t_vec_1 in
  let z := pe_v_ch_z vk x cm_u_vec cm_v_vec cm_r_vec cm_t_vec_1 cm_h_vec_1 cm_h_vec_2 in
  let q := mkPECtx (pe_pub_of vk x) zeta zeta_1 alpha omega z y y_2 in
  let! _ := pe_divisors q in
  let cm_g := pe_v_cm_g vk q cm_u_vec cm_v_vec cm_r_vec cm_t_vec_1 cm_h_vec_1 cm_h_vec_2 in
  let z1 := omega / z in
  let z2 := z in
  let rand_xi := pe_v_ch_rand_xi vk x cm_u_vec cm_v_vec cm_r_vec cm_t_vec_1 cm_h_vec_1 cm_h_vec_2
                   cm_g omega y y_2 z in
  let rand_xi_2 := pe_v_ch_rand_xi_2 vk x cm_u_vec cm_v_vec cm_r_vec cm_t_vec_1 cm_h_vec_1 cm_h_vec_2
                   cm_g omega y y_2 z in
  if batch_check (pe_vk_kzg_vk vk) [cm_u_vec; cm_r_vec] [cm_g] z1 z2 rand_xi rand_xi_2
       [y; y_2] [0] (pe_cap_w pf) (pe_cap_w_1 pf) randomizer
  then Ok tt else Err VerificationFail.

End PovPE.
Arguments pe_pub F : clear implicits.
Arguments pe_s1 F : clear implicits.
Arguments pe_s2 F : clear implicits.
Arguments pe_s3 F : clear implicits.
Arguments pe_s4 F : clear implicits.
Arguments pe_ctx F : clear implicits.
Arguments pe_vk G1 G2 : clear implicits.
Arguments pe_pk F G1 G2 : clear implicits.
Arguments pe_proof F G1 : clear implicits.

(** Pov.v: model of voproof/src/snarks/voproof_pov.rs, the the
    argument for POV arithmetic circuits.  The long index expressions are transcribed mechanically
    from the Rust text (one Definition per Rust binding, named pv_<binding>).
    [H] is the hash oracle, the randomizers are arguments. *)
From Verif Require Import Base Tools CS KZG Snark.
Local Open Scope F_scope.

Section Pov.
Context {F G1 G2 GT : Type} {fo : FieldOps F} {po : PairingOps F G1 G2 GT}.

(** *** Values in scope.  Each record adds the bindings of one round to the previous one. *)

(** public data of a run: sizes (as i64), degree bound, generator and instance
    (snarks/voproof_pov.rs:113-121, 677-694) *)
Record pv_pub := mkPVPub {
  pv_cap_c_total : Z; pv_cap_c_a : Z; pv_cap_c_m : Z; pv_cap_d : Z; pv_gamma : F;
  pv_x0 : list nat; pv_x1 : list F }.
(** bindings of lines 122-131 *)
Record pv_s1 := mkPVS1 {
  pv_s1_pub :> pv_pub; pv_sigma_vec : list F; pv_d_vec : list F;
  pv_x_vec : list F; pv_t_vec : list F; pv_w_vec : list F }.
(** lines 132-149 *)
Record pv_s2 := mkPVS2 { pv_s2_s1 :> pv_s1; pv_zeta : F; pv_zeta_1 : F }.
(** lines 150-177 *)
Record pv_s3 := mkPVS3 { pv_s3_s2 :> pv_s2; pv_r_vec : list F; pv_alpha : F }.
(** lines 181-259 *)
Record pv_s4 := mkPVS4 { pv_s4_s3 :> pv_s3; pv_t_vec_1 : list F; pv_omega : F }.
(** snarks/voproof_pov.rs:127 [vovectorsize] *)
Definition pv_vovectorsize (e : pv_pub) : Z := (3 * pv_cap_c_total e)%Z.
(** snarks/voproof_pov.rs:150-164 [r_vec], the factor of entry i and its inverted part *)
Definition pv_r_den (e : pv_s2) (i : Z) : F := vidx (pv_w_vec e) (minus_i64 i 1)%Z + range_index 1%Z
  (3 * pv_cap_c_total e)%Z (minus_i64 i 1)%Z * pv_zeta_1 e + vidx (pv_sigma_vec e) (minus_i64 i 1)%Z
  * pv_zeta e.
Definition pv_r_num (e : pv_s2) (i : Z) : F := vidx (pv_w_vec e) (minus_i64 i 1)%Z +
  power_vidx (pv_gamma e) (3 * pv_cap_c_total e)%Z (minus_i64 i 1)%Z * pv_zeta e + range_index 1%Z
  (3 * pv_cap_c_total e)%Z (minus_i64 i 1)%Z * pv_zeta_1 e.
Definition pv_r_len (e : pv_s2) : Z := (3 * pv_cap_c_total e)%Z.
(** the running product, before padding; [inverse!] of a zero panics *)
Definition pv_r_acc (e : pv_s2) : outcome error (list F) :=
  if existsb (fun i => is_zero (pv_r_den e i)) (zrange (pv_r_len e)) then Panic
  else Ok (accumulate_vector 1 (fun i => pv_r_num e i * finv (pv_r_den e i)) (pv_r_len e) fmul).
(** snarks/voproof_pov.rs:167 [maxshift] *)
Definition pv_maxshift (e : pv_pub) : Z := (- pv_cap_c_m e + 3 * pv_cap_c_total e)%Z.
(** snarks/voproof_pov.rs:178 [c] *)
Definition pv_c (e : pv_s3) : F := power (pv_alpha e) 3%Z.
(** snarks/voproof_pov.rs:179 [c_1] *)
Definition pv_c_1 (e : pv_s3) : F := power (pv_alpha e) 4%Z.
(** snarks/voproof_pov.rs:180 [c_2] *)
Definition pv_c_2 (e : pv_s3) : F := - power (pv_alpha e) 4%Z.
(** snarks/voproof_pov.rs:181-247 [t_vec_1]: entry i of the expression following the randomizer *)
Definition pv_t_vec_1_at (e : pv_s3) (i : Z) : F := pv_c e * vidx (pv_t_vec e) (minus_i64 (i +
  pv_vovectorsize e) 1)%Z * (vidx (pv_w_vec e) (minus_i64 (i + pv_vovectorsize e) 1)%Z
  - vidx (pv_x_vec e) (minus_i64 (i + pv_vovectorsize e) 1)%Z) + pv_c_2 e * vidx (pv_r_vec e)
  (minus_i64 (i + pv_vovectorsize e) (- 3 * pv_cap_c_total e + pv_vovectorsize e + 1))%Z
  * (vidx (pv_w_vec e) (minus_i64 (i + pv_vovectorsize e) (- 3 * pv_cap_c_total e +
  pv_vovectorsize e + 1))%Z + range_index 1%Z (3 * pv_cap_c_total e)%Z (minus_i64 (i +
  pv_vovectorsize e) (- 3 * pv_cap_c_total e + pv_vovectorsize e + 1))%Z * pv_zeta_1 e +
  vidx (pv_sigma_vec e) (minus_i64 (i + pv_vovectorsize e) (- 3 * pv_cap_c_total e +
  pv_vovectorsize e + 1))%Z * pv_zeta e) + vidx (pv_w_vec e) (minus_i64 (i + pv_vovectorsize e)
  (- pv_cap_c_m e + pv_vovectorsize e + 1))%Z * vidx (pv_w_vec e) (minus_i64 (i + pv_vovectorsize e)
  (- pv_cap_c_m e - pv_cap_c_total e + pv_vovectorsize e + 1))%Z - range_index 1%Z (pv_cap_c_m e)
  (minus_i64 (i + pv_vovectorsize e) (- pv_cap_c_m e + pv_vovectorsize e + 1))%Z * vidx (pv_w_vec e)
  (minus_i64 (i + pv_vovectorsize e) (- pv_cap_c_m e - 2 * pv_cap_c_total e + pv_vovectorsize e +
  1))%Z + (power (pv_alpha e) 4%Z * delta (i + pv_vovectorsize e)%Z (- 3 * pv_cap_c_total e +
  pv_vovectorsize e + 1)%Z + pv_c_1 e * vidx (pv_r_vec e) (minus_i64 (i + pv_vovectorsize e) (- 3
  * pv_cap_c_total e + pv_vovectorsize e + 2))%Z) * (vidx (pv_w_vec e) (minus_i64 (i +
  pv_vovectorsize e) (- 3 * pv_cap_c_total e + pv_vovectorsize e + 1))%Z + power_vidx (pv_gamma e)
  (3 * pv_cap_c_total e)%Z (minus_i64 (i + pv_vovectorsize e) (- 3 * pv_cap_c_total e +
  pv_vovectorsize e + 1))%Z * pv_zeta e + range_index 1%Z (3 * pv_cap_c_total e)%Z (minus_i64 (i +
  pv_vovectorsize e) (- 3 * pv_cap_c_total e + pv_vovectorsize e + 1))%Z * pv_zeta_1 e).
Definition pv_t_vec_1_tail (e : pv_s3) : list F := expression_vector (pv_t_vec_1_at e)
  (pv_maxshift e + 2)%Z.
(** snarks/voproof_pov.rs:260 [c_3] *)
Definition pv_c_3 (e : pv_s4) : F := power (pv_omega e) (- 1)%Z.
(** snarks/voproof_pov.rs:262-270 [v_vec] *)
Definition pv_v_vec (e : pv_s4) : list F := vector_poly_mul (pv_w_vec e) (pv_w_vec e) (pv_omega e).
(** snarks/voproof_pov.rs:262-270 [shiftlength] *)
Definition pv_shiftlength (e : pv_s4) : Z := (Z.of_nat (length (pv_w_vec e)) - 1)%Z.
(** snarks/voproof_pov.rs:272-280 [v_vec_1] *)
Definition pv_v_vec_1 (e : pv_s4) : list F := vector_poly_mul (pv_t_vec e) (pv_w_vec e)
  (pv_omega e).
(** snarks/voproof_pov.rs:272-280 [shiftlength_1] *)
Definition pv_shiftlength_1 (e : pv_s4) : Z := (Z.of_nat (length (pv_t_vec e)) - 1)%Z.
(** snarks/voproof_pov.rs:282-290 [v_vec_2] *)
Definition pv_v_vec_2 (e : pv_s4) : list F := vector_poly_mul (pv_t_vec e) (pv_x_vec e)
  (pv_omega e).
(** snarks/voproof_pov.rs:282-290 [shiftlength_2] *)
Definition pv_shiftlength_2 (e : pv_s4) : Z := (Z.of_nat (length (pv_t_vec e)) - 1)%Z.
(** snarks/voproof_pov.rs:292-300 [v_vec_3] *)
Definition pv_v_vec_3 (e : pv_s4) : list F := vector_poly_mul (pv_r_vec e) (pv_w_vec e)
  (pv_omega e).
(** snarks/voproof_pov.rs:292-300 [shiftlength_3] *)
Definition pv_shiftlength_3 (e : pv_s4) : Z := (Z.of_nat (length (pv_r_vec e)) - 1)%Z.
(** snarks/voproof_pov.rs:301 [v_vec_4] *)
Definition pv_v_vec_4 (e : pv_s4) : list F := vector_reverse_omega (pv_r_vec e) (pv_omega e).
(** snarks/voproof_pov.rs:301 [shiftlength_4] *)
Definition pv_shiftlength_4 (e : pv_s4) : Z := (Z.of_nat (length (pv_r_vec e)) - 1)%Z.
(** snarks/voproof_pov.rs:306-314 [v_vec_5] *)
Definition pv_v_vec_5 (e : pv_s4) : list F := vector_poly_mul (pv_r_vec e) (pv_sigma_vec e)
  (pv_omega e).
(** snarks/voproof_pov.rs:306-314 [shiftlength_5] *)
Definition pv_shiftlength_5 (e : pv_s4) : Z := (Z.of_nat (length (pv_r_vec e)) - 1)%Z.
(** snarks/voproof_pov.rs:315 [v_vec_6] *)
Definition pv_v_vec_6 (e : pv_s4) : list F := vector_power_mul (pv_w_vec e) (pv_c_3 e) (Z.to_nat
  (pv_cap_c_m e)).
(** snarks/voproof_pov.rs:316 [v_vec_7] *)
Definition pv_v_vec_7 (e : pv_s4) : list F := vector_power_mul (pv_w_vec e) (pv_c_3 e) (Z.to_nat
  (pv_cap_c_a e)).
(** snarks/voproof_pov.rs:317 [v_vec_8] *)
Definition pv_v_vec_8 (e : pv_s4) : list F := vector_power_mul (pv_w_vec e) (pv_c_3 e) (Z.to_nat
  (- pv_cap_c_a e - pv_cap_c_m e + pv_cap_c_total e)%Z).
(** snarks/voproof_pov.rs:318 [v_vec_9] *)
Definition pv_v_vec_9 (e : pv_s4) : list F := vector_power_mul (pv_d_vec e) (pv_c_3 e) (Z.to_nat
  (- pv_cap_c_a e - pv_cap_c_m e + pv_cap_c_total e)%Z).
(** snarks/voproof_pov.rs:319 [v_vec_10] *)
Definition pv_v_vec_10 (e : pv_s4) : list F := vector_power_mul (pv_v_vec_4 e) (pv_gamma e)
  (Z.to_nat (3 * pv_cap_c_total e)%Z).
(** snarks/voproof_pov.rs:320 [v_vec_11] *)
Definition pv_v_vec_11 (e : pv_s4) : list F := vector_power_mul (pv_v_vec_4 e) 1 (Z.to_nat (3
  * pv_cap_c_total e)%Z).
(** snarks/voproof_pov.rs:321 [v_vec_12] *)
Definition pv_v_vec_12 (e : pv_s4) : list F := vector_power_mul (pv_t_vec_1 e) (pv_c_3 e) (Z.to_nat
  (- pv_cap_c_m e + 3 * pv_cap_c_total e + 1)%Z).
(** snarks/voproof_pov.rs:322 [c_4] *)
Definition pv_c_4 (e : pv_s4) : F := power (pv_omega e) (- pv_cap_c_m e + 3 * pv_cap_c_total e)%Z.
(** snarks/voproof_pov.rs:323 [c_5] *)
Definition pv_c_5 (e : pv_s4) : F := - power (pv_alpha e) 3%Z.
(** snarks/voproof_pov.rs:324 [c_6] *)
Definition pv_c_6 (e : pv_s4) : F := power (pv_alpha e) 4%Z * pv_omega e.
(** snarks/voproof_pov.rs:325 [c_7] *)
Definition pv_c_7 (e : pv_s4) : F := power (pv_alpha e) 5%Z.
(** snarks/voproof_pov.rs:326 [c_8] *)
Definition pv_c_8 (e : pv_s4) : F := - power (pv_alpha e) 4%Z * pv_zeta e.
(** snarks/voproof_pov.rs:327 [c_9] *)
Definition pv_c_9 (e : pv_s4) : F := power (pv_alpha e) 4%Z * pv_zeta e.
(** snarks/voproof_pov.rs:328 [c_10] *)
Definition pv_c_10 (e : pv_s4) : F := power (pv_alpha e) 4%Z * pv_zeta_1 e.
(** snarks/voproof_pov.rs:329 [c_11] *)
Definition pv_c_11 (e : pv_s4) : F := - power (pv_omega e) (3 * pv_cap_c_total e - 1)%Z.
(** snarks/voproof_pov.rs:330-333 [c_12] *)
Definition pv_c_12 (e : pv_s4) : F := pv_alpha e * power (pv_omega e) (pv_cap_c_a e + pv_cap_c_m e +
  2 * pv_cap_c_total e - 1)%Z.
(** snarks/voproof_pov.rs:334-337 [c_13] *)
Definition pv_c_13 (e : pv_s4) : F := - pv_alpha e * power (pv_omega e) (pv_cap_c_a e + pv_cap_c_m e
  + 2 * pv_cap_c_total e - 1)%Z.
(** snarks/voproof_pov.rs:338 [c_14] *)
Definition pv_c_14 (e : pv_s4) : F := power (pv_alpha e) 2%Z * power (pv_omega e) (3
  * pv_cap_c_total e - 1)%Z.
(** snarks/voproof_pov.rs:339 [c_15] *)
Definition pv_c_15 (e : pv_s4) : F := - power (pv_alpha e) 2%Z * power (pv_omega e) (3
  * pv_cap_c_total e - 1)%Z.
(** snarks/voproof_pov.rs:340 [c_16] *)
Definition pv_c_16 (e : pv_s4) : F := power (pv_alpha e) 4%Z * pv_omega e * pv_zeta e.
(** snarks/voproof_pov.rs:341 [c_17] *)
Definition pv_c_17 (e : pv_s4) : F := power (pv_alpha e) 4%Z * pv_omega e * pv_zeta_1 e.
(** snarks/voproof_pov.rs:342 [c_18] *)
Definition pv_c_18 (e : pv_s4) : F := - power (pv_alpha e) 4%Z * pv_zeta_1 e.
(** snarks/voproof_pov.rs:343 [c_19] *)
Definition pv_c_19 (e : pv_s4) : F := - power (pv_omega e) (- pv_cap_c_m e + 6
  * pv_cap_c_total e)%Z.
(** snarks/voproof_pov.rs:344-456 [h_vec_1], entry i (from 1) *)
Definition pv_h_vec_1_at (e : pv_s4) (i : Z) : F := - power (pv_alpha e) 5%Z * power (pv_omega e) (3
  * pv_cap_c_total e - 1)%Z * delta (i - pv_maxshift e - pv_vovectorsize e)%Z 1%Z + pv_c e
  * vidx (pv_v_vec_1 e) (minus_i64 (i - pv_maxshift e - pv_vovectorsize e) (1
  - pv_shiftlength_1 e))%Z + pv_c_1 e * vidx (pv_w_vec e) (minus_i64 (i - pv_maxshift e
  - pv_vovectorsize e) 1)%Z + pv_c_10 e * range_index 1%Z (3 * pv_cap_c_total e)%Z (minus_i64 (i
  - pv_maxshift e - pv_vovectorsize e) 1)%Z + pv_c_11 e * vidx (pv_v_vec_6 e) (minus_i64 (i
  - pv_maxshift e - pv_vovectorsize e) (- pv_cap_c_m e - 2 * pv_cap_c_total e + 2))%Z + pv_c_12 e
  * vidx (pv_v_vec_7 e) (minus_i64 (i - pv_maxshift e - pv_vovectorsize e) (- pv_cap_c_a e
  - pv_cap_c_m e + 2))%Z + pv_c_12 e * vidx (pv_v_vec_7 e) (minus_i64 (i - pv_maxshift e
  - pv_vovectorsize e) (- pv_cap_c_a e - pv_cap_c_m e - pv_cap_c_total e + 2))%Z + pv_c_13 e
  * vidx (pv_v_vec_7 e) (minus_i64 (i - pv_maxshift e - pv_vovectorsize e) (- pv_cap_c_a e
  - pv_cap_c_m e - 2 * pv_cap_c_total e + 2))%Z + pv_c_14 e * vidx (pv_v_vec_8 e) (minus_i64 (i
  - pv_maxshift e - pv_vovectorsize e) (2 - 3 * pv_cap_c_total e))%Z + pv_c_15 e
  * vidx (pv_v_vec_9 e) (minus_i64 (i - pv_maxshift e - pv_vovectorsize e) (pv_cap_c_a e +
  pv_cap_c_m e - pv_cap_c_total e + 2))%Z + pv_c_16 e * vidx (pv_v_vec_10 e) (minus_i64 (i
  - pv_maxshift e - pv_vovectorsize e) (- pv_shiftlength_4 e))%Z + pv_c_17 e * vidx (pv_v_vec_11 e)
  (minus_i64 (i - pv_maxshift e - pv_vovectorsize e) (- pv_shiftlength_4 e))%Z + pv_c_18 e
  * vidx (pv_v_vec_11 e) (minus_i64 (i - pv_maxshift e - pv_vovectorsize e) (1
  - pv_shiftlength_4 e))%Z + pv_c_19 e * vidx (pv_v_vec_12 e) (minus_i64 (i - pv_maxshift e
  - pv_vovectorsize e) (pv_cap_c_m e - 3 * pv_cap_c_total e))%Z + pv_c_2 e * vidx (pv_v_vec_3 e)
  (minus_i64 (i - pv_maxshift e - pv_vovectorsize e) (1 - pv_shiftlength_3 e))%Z + pv_c_4 e
  * vidx (pv_v_vec e) (minus_i64 (i - pv_maxshift e - pv_vovectorsize e) (- pv_cap_c_total e
  - pv_shiftlength e + 1))%Z + pv_c_5 e * vidx (pv_v_vec_2 e) (minus_i64 (i - pv_maxshift e
  - pv_vovectorsize e) (1 - pv_shiftlength_2 e))%Z + pv_c_6 e * vidx (pv_v_vec_3 e) (minus_i64 (i
  - pv_maxshift e - pv_vovectorsize e) (- pv_shiftlength_3 e))%Z + pv_c_7 e * vidx (pv_v_vec_4 e)
  (minus_i64 (i - pv_maxshift e - pv_vovectorsize e) (3 * pv_cap_c_total e - pv_shiftlength_4 e))%Z
  + pv_c_8 e * vidx (pv_v_vec_5 e) (minus_i64 (i - pv_maxshift e - pv_vovectorsize e) (1
  - pv_shiftlength_5 e))%Z + pv_c_9 e * power_vidx (pv_gamma e) (3 * pv_cap_c_total e)%Z
  (minus_i64 (i - pv_maxshift e - pv_vovectorsize e) 1)%Z.
Definition pv_h_vec_1 (e : pv_s4) : list F := expression_vector (pv_h_vec_1_at e) (pv_maxshift e +
  pv_vovectorsize e)%Z.
(** snarks/voproof_pov.rs:457-494 [h_vec_2], entry i (from 1) *)
Definition pv_h_vec_2_at (e : pv_s4) (i : Z) : F := - power (pv_alpha e) 5%Z * power (pv_omega e) (3
  * pv_cap_c_total e - 1)%Z * delta (i + 1)%Z 1%Z + pv_c e * vidx (pv_v_vec_1 e) (minus_i64 (i + 1)
  (1 - pv_shiftlength_1 e))%Z + pv_c_1 e * vidx (pv_w_vec e) (minus_i64 (i + 1) 1)%Z + pv_c_10 e
  * range_index 1%Z (3 * pv_cap_c_total e)%Z (minus_i64 (i + 1) 1)%Z + pv_c_11 e
  * vidx (pv_v_vec_6 e) (minus_i64 (i + 1) (- pv_cap_c_m e - 2 * pv_cap_c_total e + 2))%Z +
  pv_c_12 e * vidx (pv_v_vec_7 e) (minus_i64 (i + 1) (- pv_cap_c_a e - pv_cap_c_m e + 2))%Z +
  pv_c_12 e * vidx (pv_v_vec_7 e) (minus_i64 (i + 1) (- pv_cap_c_a e - pv_cap_c_m e
  - pv_cap_c_total e + 2))%Z + pv_c_13 e * vidx (pv_v_vec_7 e) (minus_i64 (i + 1) (- pv_cap_c_a e
  - pv_cap_c_m e - 2 * pv_cap_c_total e + 2))%Z + pv_c_14 e * vidx (pv_v_vec_8 e) (minus_i64 (i + 1)
  (2 - 3 * pv_cap_c_total e))%Z + pv_c_15 e * vidx (pv_v_vec_9 e) (minus_i64 (i + 1) (pv_cap_c_a e +
  pv_cap_c_m e - pv_cap_c_total e + 2))%Z + pv_c_16 e * vidx (pv_v_vec_10 e) (minus_i64 (i + 1)
  (- pv_shiftlength_4 e))%Z + pv_c_17 e * vidx (pv_v_vec_11 e) (minus_i64 (i + 1)
  (- pv_shiftlength_4 e))%Z + pv_c_18 e * vidx (pv_v_vec_11 e) (minus_i64 (i + 1) (1
  - pv_shiftlength_4 e))%Z + pv_c_19 e * vidx (pv_v_vec_12 e) (minus_i64 (i + 1) (pv_cap_c_m e - 3
  * pv_cap_c_total e))%Z + pv_c_2 e * vidx (pv_v_vec_3 e) (minus_i64 (i + 1) (1
  - pv_shiftlength_3 e))%Z + pv_c_4 e * vidx (pv_v_vec e) (minus_i64 (i + 1) (- pv_cap_c_total e
  - pv_shiftlength e + 1))%Z + pv_c_5 e * vidx (pv_v_vec_2 e) (minus_i64 (i + 1) (1
  - pv_shiftlength_2 e))%Z + pv_c_6 e * vidx (pv_v_vec_3 e) (minus_i64 (i + 1)
  (- pv_shiftlength_3 e))%Z + pv_c_7 e * vidx (pv_v_vec_4 e) (minus_i64 (i + 1) (3
  * pv_cap_c_total e - pv_shiftlength_4 e))%Z + pv_c_8 e * vidx (pv_v_vec_5 e) (minus_i64 (i + 1) (1
  - pv_shiftlength_5 e))%Z + pv_c_9 e * power_vidx (pv_gamma e) (3 * pv_cap_c_total e)%Z
  (minus_i64 (i + 1) 1)%Z.
Definition pv_h_vec_2 (e : pv_s4) : list F := expression_vector (pv_h_vec_2_at e) (pv_maxshift e +
  pv_vovectorsize e)%Z.

(** *** The evaluation round: lines 510-578 of [prove] and 747-813 of [verify].
    [pv_ctx] holds what both sides know after the challenge z. *)
Record pv_ctx := mkPVCtx {
  pv_ctx_pub :> pv_pub; pv_q_zeta : F; pv_q_zeta_1 : F; pv_q_alpha : F; pv_q_omega : F;
  pv_q_z : F; pv_q_y : F; pv_q_y_2 : F }.
(** snarks/voproof_pov.rs:510 [y] *)
Definition pv_y (e : pv_s4) (z : F) : F := eval_vector_expression (pv_omega e / z) (fun i =>
  vidx (pv_w_vec e) i) (pv_vovectorsize e + 1)%Z.
(** snarks/voproof_pov.rs:512 [y_2] *)
Definition pv_y_2 (e : pv_s4) (z : F) : F := eval_vector_expression (pv_omega e / z) (fun i =>
  vidx (pv_r_vec e) i) (pv_vovectorsize e + 1)%Z.
(** snarks/voproof_pov.rs:511 [y_1] *)
Definition pv_p_y_1 (e : pv_ctx) : F := eval_sparse_zero_one_vector (pv_q_omega e / pv_q_z e)
  (pv_x0 e).
(** snarks/voproof_pov.rs:513-537 [c_20] *)
Definition pv_p_c_20 (e : pv_ctx) : F := (power (pv_q_alpha e) 4%Z * 1 * (pv_q_omega e - 1
  * pv_q_z e) * (pv_q_omega e * pv_q_y_2 e + 1 * pv_q_z e) + pv_q_z e * (pv_q_omega e - 1
  * pv_q_z e) * (- power (pv_q_alpha e) 4%Z * power 1 2%Z * pv_q_y_2 e + power (pv_q_alpha e) 3%Z
  * power 1 2%Z * pv_p_y_1 e + pv_q_y e * power (pv_q_z e) (- pv_cap_c_m e - pv_cap_c_total e +
  pv_vovectorsize e)%Z * power (pv_q_omega e / pv_q_z e) (- pv_cap_c_m e + 3 * pv_cap_c_total e)%Z)
  + pv_q_z e * (- power (pv_q_alpha e) 2%Z * 1 * pv_q_z e * power (pv_q_omega e / pv_q_z e)
  (pv_cap_c_a e + pv_cap_c_m e + 2 * pv_cap_c_total e)%Z * (1 - power (pv_q_omega e / pv_q_z e)
  (- pv_cap_c_a e - pv_cap_c_m e + pv_cap_c_total e)%Z) - pv_q_alpha e * power (pv_q_omega e
  / pv_q_z e) (pv_cap_c_m e + 2 * pv_cap_c_total e)%Z * (1 - power (pv_q_omega e / pv_q_z e)
  (pv_cap_c_a e)) * (- (1) * pv_q_z e + power (pv_q_z e) (pv_cap_c_total e + 1)%Z + power (pv_q_z e)
  (2 * pv_cap_c_total e + 1)%Z) + power (pv_q_z e) (- pv_cap_c_m e - 2 * pv_cap_c_total e +
  pv_vovectorsize e + 1)%Z * power (pv_q_omega e / pv_q_z e) (- pv_cap_c_m e + 3
  * pv_cap_c_total e)%Z * (1 - power (pv_q_omega e / pv_q_z e) (pv_cap_c_m e)))) / (pv_q_z e
  * (pv_q_omega e - 1 * pv_q_z e)).
(** snarks/voproof_pov.rs:538-545 [c_21] *)
Definition pv_p_c_21 (e : pv_ctx) : F := power (pv_q_alpha e) 2%Z * power (pv_q_z e) (pv_cap_c_a e +
  pv_cap_c_m e + 2 * pv_cap_c_total e + 1)%Z * power (pv_q_omega e / pv_q_z e) (pv_cap_c_a e +
  pv_cap_c_m e + 2 * pv_cap_c_total e)%Z * (1 - power (pv_q_omega e / pv_q_z e) (- pv_cap_c_a e
  - pv_cap_c_m e + pv_cap_c_total e)%Z) / (pv_q_omega e - 1 * pv_q_z e).
(** snarks/voproof_pov.rs:546-568 [c_22] *)
Definition pv_p_c_22 (e : pv_ctx) : F := power (pv_q_alpha e) 3%Z * (pv_q_alpha e * (- power 1 2%Z
  * pv_q_y_2 e * pv_q_z e * pv_q_zeta_1 e * (1 - power (pv_q_z e) (3 * pv_cap_c_total e)%Z)
  * (pv_gamma e * pv_q_z e - 1) - 1 * (pv_q_omega e * pv_q_y_2 e + 1 * pv_q_z e) * (pv_q_zeta e * (1
  - pv_q_z e) * (1 - power (pv_gamma e * pv_q_z e) (3 * pv_cap_c_total e)%Z) - pv_q_zeta_1 e * (1
  - power (pv_q_z e) (3 * pv_cap_c_total e)%Z) * (pv_gamma e * pv_q_z e - 1))) + pv_q_z e * (1
  - pv_q_z e) * (pv_gamma e * pv_q_z e - 1) * (power (pv_q_alpha e) 2%Z * power (pv_q_z e) (3
  * pv_cap_c_total e - 1)%Z * (1 * pv_q_y_2 e - power (pv_q_omega e / pv_q_z e) (3
  * pv_cap_c_total e - 1)%Z) - power 1 2%Z * eval_sparse_vector (pv_q_z e) (pv_x0 e) (pv_x1 e)
  * pv_p_y_1 e)) / (pv_q_z e * (1 - pv_q_z e) * (pv_gamma e * pv_q_z e - 1)).
(** snarks/voproof_pov.rs:569 [c_23] *)
Definition pv_p_c_23 (e : pv_ctx) : F := - power (pv_q_alpha e) 4%Z * power 1 2%Z * pv_q_y_2 e
  * pv_q_zeta e.
(** snarks/voproof_pov.rs:570-576 [c_24] *)
Definition pv_p_c_24 (e : pv_ctx) : F := power (pv_q_z e) (pv_vovectorsize e) * power (pv_q_omega e
  / pv_q_z e) (3 * pv_cap_c_total e)%Z * (1 - power (pv_q_omega e / pv_q_z e) (- pv_cap_c_m e + 3
  * pv_cap_c_total e + 1)%Z) / (pv_q_omega e - 1 * pv_q_z e).
(** snarks/voproof_pov.rs:577 [c_25] *)
Definition pv_p_c_25 (e : pv_ctx) : F := - power (pv_q_z e) (- pv_cap_d e)%Z.
(** snarks/voproof_pov.rs:578 [c_26] *)
Definition pv_p_c_26 (e : pv_ctx) : F := - pv_q_z e.

(** the same bindings in [verify] *)
(** snarks/voproof_pov.rs:747 [y_1] *)
Definition pv_v_y_1 (e : pv_ctx) : F := eval_sparse_zero_one_vector (pv_q_omega e / pv_q_z e)
  (pv_x0 e).
(** snarks/voproof_pov.rs:748-772 [c_20] *)
Definition pv_v_c_20 (e : pv_ctx) : F := (power (pv_q_alpha e) 4%Z * 1 * (pv_q_omega e - 1
  * pv_q_z e) * (pv_q_omega e * pv_q_y_2 e + 1 * pv_q_z e) + pv_q_z e * (pv_q_omega e - 1
  * pv_q_z e) * (- power (pv_q_alpha e) 4%Z * power 1 2%Z * pv_q_y_2 e + power (pv_q_alpha e) 3%Z
  * power 1 2%Z * pv_v_y_1 e + pv_q_y e * power (pv_q_z e) (- pv_cap_c_m e - pv_cap_c_total e +
  pv_vovectorsize e)%Z * power (pv_q_omega e / pv_q_z e) (- pv_cap_c_m e + 3 * pv_cap_c_total e)%Z)
  + pv_q_z e * (- power (pv_q_alpha e) 2%Z * 1 * pv_q_z e * power (pv_q_omega e / pv_q_z e)
  (pv_cap_c_a e + pv_cap_c_m e + 2 * pv_cap_c_total e)%Z * (1 - power (pv_q_omega e / pv_q_z e)
  (- pv_cap_c_a e - pv_cap_c_m e + pv_cap_c_total e)%Z) - pv_q_alpha e * power (pv_q_omega e
  / pv_q_z e) (pv_cap_c_m e + 2 * pv_cap_c_total e)%Z * (1 - power (pv_q_omega e / pv_q_z e)
  (pv_cap_c_a e)) * (- (1) * pv_q_z e + power (pv_q_z e) (pv_cap_c_total e + 1)%Z + power (pv_q_z e)
  (2 * pv_cap_c_total e + 1)%Z) + power (pv_q_z e) (- pv_cap_c_m e - 2 * pv_cap_c_total e +
  pv_vovectorsize e + 1)%Z * power (pv_q_omega e / pv_q_z e) (- pv_cap_c_m e + 3
  * pv_cap_c_total e)%Z * (1 - power (pv_q_omega e / pv_q_z e) (pv_cap_c_m e)))) / (pv_q_z e
  * (pv_q_omega e - 1 * pv_q_z e)).
(** snarks/voproof_pov.rs:773-780 [c_21] *)
Definition pv_v_c_21 (e : pv_ctx) : F := power (pv_q_alpha e) 2%Z * power (pv_q_z e) (pv_cap_c_a e +
  pv_cap_c_m e + 2 * pv_cap_c_total e + 1)%Z * power (pv_q_omega e / pv_q_z e) (pv_cap_c_a e +
  pv_cap_c_m e + 2 * pv_cap_c_total e)%Z * (1 - power (pv_q_omega e / pv_q_z e) (- pv_cap_c_a e
  - pv_cap_c_m e + pv_cap_c_total e)%Z) / (pv_q_omega e - 1 * pv_q_z e).
(** snarks/voproof_pov.rs:781-803 [c_22] *)
Definition pv_v_c_22 (e : pv_ctx) : F := power (pv_q_alpha e) 3%Z * (pv_q_alpha e * (- power 1 2%Z
  * pv_q_y_2 e * pv_q_z e * pv_q_zeta_1 e * (1 - power (pv_q_z e) (3 * pv_cap_c_total e)%Z)
  * (pv_gamma e * pv_q_z e - 1) - 1 * (pv_q_omega e * pv_q_y_2 e + 1 * pv_q_z e) * (pv_q_zeta e * (1
  - pv_q_z e) * (1 - power (pv_gamma e * pv_q_z e) (3 * pv_cap_c_total e)%Z) - pv_q_zeta_1 e * (1
  - power (pv_q_z e) (3 * pv_cap_c_total e)%Z) * (pv_gamma e * pv_q_z e - 1))) + pv_q_z e * (1
  - pv_q_z e) * (pv_gamma e * pv_q_z e - 1) * (power (pv_q_alpha e) 2%Z * power (pv_q_z e) (3
  * pv_cap_c_total e - 1)%Z * (1 * pv_q_y_2 e - power (pv_q_omega e / pv_q_z e) (3
  * pv_cap_c_total e - 1)%Z) - power 1 2%Z * eval_sparse_vector (pv_q_z e) (pv_x0 e) (pv_x1 e)
  * pv_v_y_1 e)) / (pv_q_z e * (1 - pv_q_z e) * (pv_gamma e * pv_q_z e - 1)).
(** snarks/voproof_pov.rs:804 [c_23] *)
Definition pv_v_c_23 (e : pv_ctx) : F := - power (pv_q_alpha e) 4%Z * power 1 2%Z * pv_q_y_2 e
  * pv_q_zeta e.
(** snarks/voproof_pov.rs:805-811 [c_24] *)
Definition pv_v_c_24 (e : pv_ctx) : F := power (pv_q_z e) (pv_vovectorsize e) * power (pv_q_omega e
  / pv_q_z e) (3 * pv_cap_c_total e)%Z * (1 - power (pv_q_omega e / pv_q_z e) (- pv_cap_c_m e + 3
  * pv_cap_c_total e + 1)%Z) / (pv_q_omega e - 1 * pv_q_z e).
(** snarks/voproof_pov.rs:812 [c_25] *)
Definition pv_v_c_25 (e : pv_ctx) : F := - power (pv_q_z e) (- pv_cap_d e)%Z.
(** snarks/voproof_pov.rs:813 [c_26] *)
Definition pv_v_c_26 (e : pv_ctx) : F := - pv_q_z e.

(** divisors of lines 510-576 in evaluation order (z of omega / z; then those of c_20, c_21, c_22,
    c_24); [power(z, -cap_d)] returns z unchanged for z = 0 and does not divide. *)
Definition pv_divisors (e : pv_ctx) : outcome error unit :=
  let z := pv_q_z e in let omega := pv_q_omega e in let gamma := pv_gamma e in
  let! _ := nonzero z in
  let! _ := nonzero (z * (omega - 1 * z)) in
  let! _ := nonzero (omega - 1 * z) in
  let! _ := nonzero (z * (1 - z) * (gamma * z - 1)) in
  nonzero (omega - 1 * z).
(** snarks/voproof_pov.rs:579-599 [g_vec], entry i before the addition of line 600 *)
Definition pv_g_at (e : pv_s4) (q : pv_ctx) (i : Z) : F := linear_combination 0 [((pv_p_c_20 q),
  (vidx (pv_w_vec e) i)); ((pv_p_c_21 q), (vidx (pv_d_vec e) i)); ((pv_p_c_23 q),
  (vidx (pv_sigma_vec e) i)); ((pv_p_c_24 q), (vidx (pv_t_vec_1 e) i)); ((pv_p_c_25 q),
  (vidx (pv_h_vec_1 e) (- pv_cap_d e + i + pv_maxshift e + pv_vovectorsize e)%Z)); ((pv_p_c_26 q),
  (vidx (pv_h_vec_2 e) i))].
Definition pv_g_vec (e : pv_s4) (q : pv_ctx) : outcome error (list F) := add_to_first_item
  (expression_vector (pv_g_at e q) (pv_cap_d e)) (pv_p_c_22 q).

(** *** Keys, proofs, transcripts *)
(** lines 13-20 *)
Record pv_vk := mkPVVK {
  pv_vk_cm_sigma_vec : G1; pv_vk_cm_d_vec : G1; pv_vk_kzg_vk : verifier_key G1 G2;
  pv_vk_size : POVSize; pv_vk_degree_bound : nat }.
(** lines 4-11 *)
Record pv_pk := mkPVPK {
  pv_pk_verifier_key : pv_vk; pv_pk_powers : list G1; pv_pk_max_degree : nat;
  pv_pk_sigma_vec : list F; pv_pk_d_vec : list F }.
(** lines 22-33 *)
Record pv_proof := mkPVProof {
  pv_cm_w_vec : G1; pv_cm_r_vec : G1; pv_cm_t_vec_1 : G1;
  pv_cm_h_vec_1 : G1; pv_cm_h_vec_2 : G1; pv_pf_y : F; pv_pf_y_2 : F;
  pv_cap_w : G1; pv_cap_w_1 : G1 }.

Variable H : list (item F G1) -> F.
Variable gamma : F.   (* generator_of!: FftField::GENERATOR *)
(** snarks/voproof_pov.rs:132-140 challenge [zeta] of prove *)
Definition pv_p_ch_zeta (vk : pv_vk) (x : POVInstance) (cm_w_vec : G1) : F := H [IF 1; INs (fst x);
  IFs (snd x); IG (pv_vk_cm_sigma_vec vk); IG (pv_vk_cm_d_vec vk); IG cm_w_vec].
(** snarks/voproof_pov.rs:141-149 challenge [zeta_1] of prove *)
Definition pv_p_ch_zeta_1 (vk : pv_vk) (x : POVInstance) (cm_w_vec : G1) : F := H [IF (1 + 1); INs
  (fst x); IFs (snd x); IG (pv_vk_cm_sigma_vec vk); IG (pv_vk_cm_d_vec vk); IG cm_w_vec].
(** snarks/voproof_pov.rs:168-177 challenge [alpha] of prove *)
Definition pv_p_ch_alpha (vk : pv_vk) (x : POVInstance) (cm_w_vec cm_r_vec : G1) : F := H [IF 1; INs
  (fst x); IFs (snd x); IG (pv_vk_cm_sigma_vec vk); IG (pv_vk_cm_d_vec vk); IG cm_w_vec; IG
  cm_r_vec].
(** snarks/voproof_pov.rs:249-259 challenge [omega] of prove *)
Definition pv_p_ch_omega (vk : pv_vk) (x : POVInstance) (cm_w_vec cm_r_vec cm_t_vec_1 : G1) : F := H
  [IF 1; INs (fst x); IFs (snd x); IG (pv_vk_cm_sigma_vec vk); IG (pv_vk_cm_d_vec vk); IG cm_w_vec;
  IG cm_r_vec; IG cm_t_vec_1].
(** snarks/voproof_pov.rs:497-509 challenge [z] of prove *)
Definition pv_p_ch_z (vk : pv_vk) (x : POVInstance) (cm_w_vec cm_r_vec cm_t_vec_1 cm_h_vec_1
  cm_h_vec_2 : G1) : F := H [IF 1; INs (fst x); IFs (snd x); IG (pv_vk_cm_sigma_vec vk); IG
  (pv_vk_cm_d_vec vk); IG cm_w_vec; IG cm_r_vec; IG cm_t_vec_1; IG cm_h_vec_1; IG cm_h_vec_2].
(** snarks/voproof_pov.rs:624-641 challenge [rand_xi] of prove *)
Definition pv_p_ch_rand_xi (vk : pv_vk) (x : POVInstance) (cm_w_vec cm_r_vec cm_t_vec_1 cm_h_vec_1
  cm_h_vec_2 cm_g : G1) (omega y y_2 z : F) : F := H [IF 1; INs (fst x); IFs (snd x); IG
  (pv_vk_cm_sigma_vec vk); IG (pv_vk_cm_d_vec vk); IG cm_w_vec; IG cm_r_vec; IG cm_t_vec_1; IG
  cm_h_vec_1; IG cm_h_vec_2; IG cm_g; IF (omega / z); IF y; IF y_2; IF z].
(** snarks/voproof_pov.rs:642-659 challenge [rand_xi_2] of prove *)
Definition pv_p_ch_rand_xi_2 (vk : pv_vk) (x : POVInstance) (cm_w_vec cm_r_vec cm_t_vec_1 cm_h_vec_1
  cm_h_vec_2 cm_g : G1) (omega y y_2 z : F) : F := H [IF (1 + 1); INs (fst x); IFs (snd x); IG
  (pv_vk_cm_sigma_vec vk); IG (pv_vk_cm_d_vec vk); IG cm_w_vec; IG cm_r_vec; IG cm_t_vec_1; IG
  cm_h_vec_1; IG cm_h_vec_2; IG cm_g; IF (omega / z); IF y; IF y_2; IF z].
(** snarks/voproof_pov.rs:695-703 challenge [zeta] of verify *)
Definition pv_v_ch_zeta (vk : pv_vk) (x : POVInstance) (cm_w_vec : G1) : F := H [IF 1; INs (fst x);
  IFs (snd x); IG (pv_vk_cm_sigma_vec vk); IG (pv_vk_cm_d_vec vk); IG cm_w_vec].
(** snarks/voproof_pov.rs:704-712 challenge [zeta_1] of verify *)
Definition pv_v_ch_zeta_1 (vk : pv_vk) (x : POVInstance) (cm_w_vec : G1) : F := H [IF (1 + 1); INs
  (fst x); IFs (snd x); IG (pv_vk_cm_sigma_vec vk); IG (pv_vk_cm_d_vec vk); IG cm_w_vec].
(** snarks/voproof_pov.rs:713-722 challenge [alpha] of verify *)
Definition pv_v_ch_alpha (vk : pv_vk) (x : POVInstance) (cm_w_vec cm_r_vec : G1) : F := H [IF 1; INs
  (fst x); IFs (snd x); IG (pv_vk_cm_sigma_vec vk); IG (pv_vk_cm_d_vec vk); IG cm_w_vec; IG
  cm_r_vec].
(** snarks/voproof_pov.rs:723-733 challenge [omega] of verify *)
Definition pv_v_ch_omega (vk : pv_vk) (x : POVInstance) (cm_w_vec cm_r_vec cm_t_vec_1 : G1) : F := H
  [IF 1; INs (fst x); IFs (snd x); IG (pv_vk_cm_sigma_vec vk); IG (pv_vk_cm_d_vec vk); IG cm_w_vec;
  IG cm_r_vec; IG cm_t_vec_1].
(** snarks/voproof_pov.rs:734-746 challenge [z] of verify *)
Definition pv_v_ch_z (vk : pv_vk) (x : POVInstance) (cm_w_vec cm_r_vec cm_t_vec_1 cm_h_vec_1
  cm_h_vec_2 : G1) : F := H [IF 1; INs (fst x); IFs (snd x); IG (pv_vk_cm_sigma_vec vk); IG
  (pv_vk_cm_d_vec vk); IG cm_w_vec; IG cm_r_vec; IG cm_t_vec_1; IG cm_h_vec_1; IG cm_h_vec_2].
(** snarks/voproof_pov.rs:833-850 challenge [rand_xi] of verify *)
Definition pv_v_ch_rand_xi (vk : pv_vk) (x : POVInstance) (cm_w_vec cm_r_vec cm_t_vec_1 cm_h_vec_1
  cm_h_vec_2 cm_g : G1) (omega y y_2 z : F) : F := H [IF 1; INs (fst x); IFs (snd x); IG
  (pv_vk_cm_sigma_vec vk); IG (pv_vk_cm_d_vec vk); IG cm_w_vec; IG cm_r_vec; IG cm_t_vec_1; IG
  cm_h_vec_1; IG cm_h_vec_2; IG cm_g; IF (omega / z); IF y; IF y_2; IF z].
(** snarks/voproof_pov.rs:851-868 challenge [rand_xi_2] of verify *)
Definition pv_v_ch_rand_xi_2 (vk : pv_vk) (x : POVInstance) (cm_w_vec cm_r_vec cm_t_vec_1 cm_h_vec_1
  cm_h_vec_2 cm_g : G1) (omega y y_2 z : F) : F := H [IF (1 + 1); INs (fst x); IFs (snd x); IG
  (pv_vk_cm_sigma_vec vk); IG (pv_vk_cm_d_vec vk); IG cm_w_vec; IG cm_r_vec; IG cm_t_vec_1; IG
  cm_h_vec_1; IG cm_h_vec_2; IG cm_g; IF (omega / z); IF y; IF y_2; IF z].
(** snarks/voproof_pov.rs:601-617 [cm_g] *)
Definition pv_p_cm_g (vk : pv_vk) (q : pv_ctx) (cm_w_vec cm_r_vec cm_t_vec_1 cm_h_vec_1 cm_h_vec_2 :
  G1) : G1 := commitment_linear_combination (vk_g (pv_vk_kzg_vk vk)) (pv_p_c_22 q) [(cm_w_vec,
  (pv_p_c_20 q)); ((pv_vk_cm_d_vec vk), (pv_p_c_21 q)); ((pv_vk_cm_sigma_vec vk), (pv_p_c_23 q));
  (cm_t_vec_1, (pv_p_c_24 q)); (cm_h_vec_1, (pv_p_c_25 q)); (cm_h_vec_2, (pv_p_c_26 q))].
(** snarks/voproof_pov.rs:814-830 [cm_g] *)
Definition pv_v_cm_g (vk : pv_vk) (q : pv_ctx) (cm_w_vec cm_r_vec cm_t_vec_1 cm_h_vec_1 cm_h_vec_2 :
  G1) : G1 := commitment_linear_combination (vk_g (pv_vk_kzg_vk vk)) (pv_v_c_22 q) [(cm_w_vec,
  (pv_v_c_20 q)); ((pv_vk_cm_d_vec vk), (pv_v_c_21 q)); ((pv_vk_cm_sigma_vec vk), (pv_v_c_23 q));
  (cm_t_vec_1, (pv_v_c_24 q)); (cm_h_vec_1, (pv_v_c_25 q)); (cm_h_vec_2, (pv_v_c_26 q))].

(** lines 44-46 [get_max_degree]: computed in i64 and cast; it is negative for no size, because n
    counts the multiplications too *)
Definition pv_get_max_degree (size : POVSize) : nat :=
  Z.to_nat (- Z.of_nat (ps_nmul size) + 6 * Z.of_nat (ps_n size)).

(** lines 58-61 [setup]: KZG setup with the sampled trapdoor and generators *)
Definition pv_setup (size : nat) (beta : F) (g : G1) (h : G2) := setup size beta g h.

(** lines 63-111 [index] *)
Definition pv_index (pp : universal_params G1 G2) (cs : POV F) : outcome error (pv_pk * pv_vk) :=
  let size := pov_get_size cs in
  let max_degree := pv_get_max_degree size in
  let cap_d := length (up_powers_of_g pp) in
  let! _ := assert_ (max_degree <? cap_d)%nat in
  let powers_of_g := up_powers_of_g pp in
  let cap_c_total := Z.of_nat (ps_n size) in
  let cap_c_a := Z.of_nat (ps_nadd size) in
  let cap_c_m := Z.of_nat (ps_nmul size) in
  let d_vec := p_consts cs in
  let! sigma_vec := permutation_vector_from_wires gamma (p_wires cs) (Z.to_nat (3 * cap_c_total)) in
  let! cm_sigma_vec := commit_vector powers_of_g sigma_vec (3 * cap_c_total)%Z in
  let! cm_d_vec := commit_vector powers_of_g d_vec (- cap_c_a - cap_c_m + cap_c_total)%Z in
  let! kvk := kzg_vk pp in
  let vk := mkPVVK cm_sigma_vec cm_d_vec kvk size cap_d in
  Ok (mkPVPK vk powers_of_g max_degree sigma_vec d_vec, vk).

(** lines 113-121 of [prove], 677-694 of [verify] *)
Definition pv_pub_of (vk : pv_vk) (x : POVInstance) : pv_pub :=
  let size := pv_vk_size vk in
  mkPVPub (Z.of_nat (ps_n size)) (Z.of_nat (ps_nadd size)) (Z.of_nat (ps_nmul size))
          (Z.of_nat (pv_vk_degree_bound vk)) gamma (fst x) (snd x).

(** lines 122-131: witness vector and its commitment *)
Definition pv_round1 (pk : pv_pk) (x : POVInstance) (w : POVWitness) (delta_vec : list F)
  : outcome error (pv_s1 * G1) :=
  let e := pv_pub_of (pv_pk_verifier_key pk) x in
  let '(a_vec, b_vec, c_vec) := w in
  let! x_vec := sparse_vector (fst x) (snd x) (Z.to_nat (3 * pv_cap_c_total e)) in
  let w_vec := vector_concat [a_vec; b_vec; c_vec] in
  let! w_vec := zero_pad_and_concat w_vec (Z.to_nat (pv_vovectorsize e)) [delta_vec] in
  let! cm_w_vec := commit_vector (pv_pk_powers pk) w_vec (pv_vovectorsize e + 1)%Z in
  let! t_vec := sparse_zero_one_vector (fst x) (Z.to_nat (3 * pv_cap_c_total e)) in
  Ok (mkPVS1 e (pv_pk_sigma_vec pk) (pv_pk_d_vec pk) x_vec t_vec w_vec, cm_w_vec).

(** lines 150-166: the running product *)
Definition pv_round2 (pk : pv_pk) (e : pv_s2) (delta_vec_1 : list F) : outcome error (list F * G1) :=
  let! r := pv_r_acc e in
  let! r_vec := zero_pad_and_concat r (Z.to_nat (pv_vovectorsize e)) [delta_vec_1] in
  let! cm_r_vec := commit_vector (pv_pk_powers pk) r_vec (pv_vovectorsize e + 1)%Z in
  Ok (r_vec, cm_r_vec).

(** lines 167-248 *)
Definition pv_round3 (pk : pv_pk) (e : pv_s3) (delta_vec_2 : list F) : outcome error (list F * G1) :=
  let t_vec_1 := vector_concat [delta_vec_2; pv_t_vec_1_tail e] in
  let! cm_t_vec_1 := commit_vector (pv_pk_powers pk) t_vec_1 (pv_maxshift e + 2)%Z in
  Ok (t_vec_1, cm_t_vec_1).

(** lines 260-494 *)
Definition pv_round4 (pk : pv_pk) (e : pv_s4) : outcome error (G1 * G1) :=
  let! cm_h_vec_1 := commit_vector (pv_pk_powers pk) (pv_h_vec_1 e) (pv_cap_d e) in
  let! cm_h_vec_2 := commit_vector (pv_pk_powers pk) (pv_h_vec_2 e) (pv_maxshift e + pv_vovectorsize e)%Z in
  Ok (cm_h_vec_1, cm_h_vec_2).

(** lines 510-578 *)
Definition pv_ctx_of (e : pv_s4) (z : F) : pv_ctx :=
  mkPVCtx e (pv_zeta e) (pv_zeta_1 e) (pv_alpha e) (pv_omega e) z (pv_y e z) (pv_y_2 e z).

(** lines 510-622: the combined polynomial, checked to vanish at z *)
Definition pv_round5 (e : pv_s4) (z : F) : outcome error (pv_ctx * list F) :=
  let q := pv_ctx_of e z in
  let! _ := pv_divisors q in
  let! g_vec := pv_g_vec e q in
  let! _ := check_poly_eval (strip g_vec) z 0 in
  Ok (q, g_vec).

(** lines 112-675 [prove]; the three randomizer vectors are sampled with one element each *)
Definition pv_prove (pk : pv_pk) (x : POVInstance) (w : POVWitness)
  (delta delta_1 delta_2 : F) : outcome error pv_proof :=
  let vk := pv_pk_verifier_key pk in
  let! (s1, cm_w_vec) := pv_round1 pk x w [delta] in
  let zeta := pv_p_ch_zeta vk x cm_w_vec in
  let zeta_1 := pv_p_ch_zeta_1 vk x cm_w_vec in
  let s2 := mkPVS2 s1 zeta zeta_1 in
  let! (r_vec, cm_r_vec) := pv_round2 pk s2 [delta_1] in
  let alpha := pv_p_ch_alpha vk x cm_w_vec cm_r_vec in
  let s3 := mkPVS3 s2 r_vec alpha in
  let! (t_vec_1, cm_t_vec_1) := pv_round3 pk s3 [delta_2] in
  let omega := pv_p_ch_omega vk x cm_w_vec cm_r_vec cm_t_vec_1 in
  let s4 := mkPVS4 s3 t_vec_1 omega in
  let! (cm_h_vec_1, cm_h_vec_2) := pv_round4 pk s4 in
  let z := pv_p_ch_z vk x cm_w_vec cm_r_vec cm_t_vec_1 cm_h_vec_1 cm_h_vec_2 in
  let! (q, g_vec) := pv_round5 s4 z in
  let cm_g := pv_p_cm_g vk q cm_w_vec cm_r_vec cm_t_vec_1 cm_h_vec_1 cm_h_vec_2 in
  let y := pv_q_y q in
  let y_2 := pv_q_y_2 q in
  let rand_xi := pv_p_ch_rand_xi vk x cm_w_vec cm_r_vec cm_t_vec_1 cm_h_vec_1 cm_h_vec_2
                   cm_g omega y y_2 z in
  let rand_xi_2 := pv_p_ch_rand_xi_2 vk x cm_w_vec cm_r_vec cm_t_vec_1 cm_h_vec_1 cm_h_vec_2
                   cm_g omega y y_2 z in
  let! (cap_w, cap_w_1) := batch_open (pv_pk_powers pk) [strip (pv_w_vec s4); strip r_vec] [strip g_vec]
                             (omega / z) z rand_xi rand_xi_2 in
  Ok (mkPVProof cm_w_vec cm_r_vec cm_t_vec_1 cm_h_vec_1 cm_h_vec_2 y y_2 cap_w cap_w_1).

(** lines 676-892 [verify]; [randomizer] is the random scalar of [batch_check] *)
Definition pv_verify (vk : pv_vk) (x : POVInstance) (pf : pv_proof) (randomizer : F)
  : outcome error unit :=
  let cm_w_vec := pv_cm_w_vec pf in
  let cm_r_vec := pv_cm_r_vec pf in
  let cm_t_vec_1 := pv_cm_t_vec_1 pf in
  let cm_h_vec_1 := pv_cm_h_vec_1 pf in
  let cm_h_vec_2 := pv_cm_h_vec_2 pf in
  let y := pv_pf_y pf in
  let y_2 := pv_pf_y_2 pf in
  let zeta := pv_v_ch_zeta vk x cm_w_vec in
  let zeta_1 := pv_v_ch_zeta_1 vk x cm_w_vec in
  let alpha := pv_v_ch_alpha vk x cm_w_vec cm_r_vec in
  let omega := pv_v_ch_omega vk x cm_w_vec cm_r_vec cm_t_vec_1 in
  let z := pv_v_ch_z vk x cm_w_vec cm_r_vec cm_t_vec_1 cm_h_vec_1 cm_h_vec_2 in
  let q := mkPVCtx (pv_pub_of vk x) zeta zeta_1 alpha omega z y y_2 in
  let! _ := pv_divisors q in
  let cm_g := pv_v_cm_g vk q cm_w_vec cm_r_vec cm_t_vec_1 cm_h_vec_1 cm_h_vec_2 in
  let z1 := omega / z in
  let z2 := z in
  let rand_xi := pv_v_ch_rand_xi vk x cm_w_vec cm_r_vec cm_t_vec_1 cm_h_vec_1 cm_h_vec_2
                   cm_g omega y y_2 z in
  let rand_xi_2 := pv_v_ch_rand_xi_2 vk x cm_w_vec cm_r_vec cm_t_vec_1 cm_h_vec_1 cm_h_vec_2
                   cm_g omega y y_2 z in
  if batch_check (pv_vk_kzg_vk vk) [cm_w_vec; cm_r_vec] [cm_g] z1 z2 rand_xi rand_xi_2
       [y; y_2] [0] (pv_cap_w pf) (pv_cap_w_1 pf) randomizer
  then Ok tt else Err VerificationFail.

End Pov.
Arguments pv_pub F : clear implicits.
Arguments pv_s1 F : clear implicits.
Arguments pv_s2 F : clear implicits.
Arguments pv_s3 F : clear implicits.
Arguments pv_s4 F : clear implicits.
Arguments pv_ctx F : clear implicits.
Arguments pv_vk G1 G2 : clear implicits.
Arguments pv_pk F G1 G2 : clear implicits.
Arguments pv_proof F G1 : clear implicits.

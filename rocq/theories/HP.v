(** HP.v: model of voproof/src/snarks/voproof_hpr.rs, the argument for Hadamard-product relations (HPR).  The long index
    expressions are transcribed mechanically from the Rust text (one Definition per Rust binding,
    named hp_<binding>; tools/gen_hp.py).  [H] is the hash oracle, the randomizers are arguments. *)
From Verif Require Import Base Tools CS KZG Snark.
Local Open Scope F_scope.

Section HP.
Context {F G1 G2 GT : Type} {fo : FieldOps F} {po : PairingOps F G1 G2 GT}.

(** *** Values in scope.  Each record adds the bindings of one round to the previous one. *)

(** public data of a run: sizes (as i64), degree bound, generator and instance
    (snarks/voproof_hpr.rs:153-165, 981-1002) *)
Record hp_pub := mkHPPub {
  hp_cap_h : Z; hp_cap_k : Z; hp_cap_s_a : Z; hp_cap_s_b : Z; hp_cap_s_c : Z; hp_cap_s_d : Z;
  hp_cap_d : Z; hp_gamma : F; hp_x_vec : list F }.
(** bindings of lines 166-175; the matrix vectors are those of the prover key *)
Record hp_s1 := mkHPS1 {
  hp_s1_pub :> hp_pub; hp_u_vec : list F; hp_w_vec : list F; hp_v_vec : list F; hp_y_vec : list F;
  hp_w_vec_1 : list F }.
(** lines 176-186 *)
Record hp_s2 := mkHPS2 { hp_s2_s1 :> hp_s1; hp_mu : F }.
(** lines 187-206 *)
Record hp_s3 := mkHPS3 { hp_s3_s2 :> hp_s2; hp_s_vec : list F; hp_nu : F }.
(** lines 207-226 *)
Record hp_s4 := mkHPS4 { hp_s4_s3 :> hp_s3; hp_h_vec : list F; hp_beta : F }.
(** lines 227-269 *)
Record hp_s5 := mkHPS5 { hp_s5_s4 :> hp_s4; hp_r_vec_tilde : list F; hp_alpha : F }.
(** lines 270-361 *)
Record hp_s6 := mkHPS6 { hp_s6_s5 :> hp_s5; hp_t_vec : list F; hp_omega : F }.
(** snarks/voproof_hpr.rs:169-172 [vovectorsize] *)
Definition hp_vovectorsize (e : hp_pub) : Z := (3 * hp_cap_k e + hp_cap_s_a e + hp_cap_s_b e +
  hp_cap_s_c e + hp_cap_s_d e + 1)%Z.
(** snarks/voproof_hpr.rs:176 [ell] *)
Definition hp_ell (e : hp_pub) : Z := (hp_cap_s_a e + hp_cap_s_b e + hp_cap_s_c e + hp_cap_s_d e)%Z.
(** snarks/voproof_hpr.rs:187-192 [r_vec], entry i (from 1) before inversion *)
Definition hp_r_vec_at (e : hp_s2) (i : Z) : F := (hp_mu e) - (power_vidx (hp_gamma e) (hp_cap_h e)
  i).
Definition hp_r_vec (e : hp_s2) : list F := expression_vector_inverse (hp_r_vec_at e) (hp_cap_h e).
(** snarks/voproof_hpr.rs:207-212 [rnu_vec], entry i (from 1) before inversion *)
Definition hp_rnu_vec_at (e : hp_s3) (i : Z) : F := (hp_nu e) - (power_vidx (hp_gamma e) (3
  * hp_cap_k e + 1)%Z i).
Definition hp_rnu_vec (e : hp_s3) : list F := expression_vector_inverse (hp_rnu_vec_at e) (3
  * hp_cap_k e + 1)%Z.
(** snarks/voproof_hpr.rs:213 [h_vec] *)
Definition hp_h_val (e : hp_s3) : list F :=
  concat_uwinverse_vector (hp_rnu_vec e) (hp_mu e) (hp_u_vec e) (hp_nu e) (hp_w_vec e).
(** snarks/voproof_hpr.rs:227-250 [r_vec_1], entry i (from 1) *)
Definition hp_r_vec_1_at (e : hp_s4) (i : Z) : F := power_linear_combination (hp_beta e)
  [((vidx (hp_x_vec e) (minus_i64 i 1)%Z + vidx (hp_w_vec_1 e) (minus_i64 i (hp_cap_h e + 2))%Z +
  delta i (hp_cap_h e + 1)%Z) * (vidx (hp_s_vec e) i)); (((- vidx (hp_h_vec e) (minus_i64 i
  (hp_cap_h e + 1))%Z) * (vidx (hp_s_vec e) i)) - ((vidx (hp_h_vec e) i) * (vidx (hp_v_vec e)
  (minus_i64 i (3 * hp_cap_k e + 2))%Z)))].
Definition hp_r_vec_1 (e : hp_s4) : list F := expression_vector (hp_r_vec_1_at e)
  (hp_vovectorsize e).
(** snarks/voproof_hpr.rs:251 [r_vec_tilde], before the randomizer is appended *)
Definition hp_r_acc (e : hp_s4) : list F :=
  accumulate_vector 0 (fun i => vidx (hp_r_vec_1 e) i) (Z.of_nat (length (hp_r_vec_1 e))) fadd.
(** snarks/voproof_hpr.rs:253-256 [maxshift] *)
Definition hp_maxshift (e : hp_pub) : Z := (2 * hp_cap_k e + hp_cap_s_a e + hp_cap_s_b e +
  hp_cap_s_c e + hp_cap_s_d e + 1)%Z.
(** snarks/voproof_hpr.rs:270 [c] *)
Definition hp_c (e : hp_s5) : F := hp_alpha e * hp_nu e.
(** snarks/voproof_hpr.rs:271 [c_1] *)
Definition hp_c_1 (e : hp_s5) : F := - hp_alpha e.
(** snarks/voproof_hpr.rs:272 [c_2] *)
Definition hp_c_2 (e : hp_s5) : F := power (hp_alpha e) 4%Z.
(** snarks/voproof_hpr.rs:273 [c_3] *)
Definition hp_c_3 (e : hp_s5) : F := - hp_mu e.
(** snarks/voproof_hpr.rs:274 [c_4] *)
Definition hp_c_4 (e : hp_s5) : F := hp_mu e * hp_nu e.
(** snarks/voproof_hpr.rs:275 [c_5] *)
Definition hp_c_5 (e : hp_s5) : F := - hp_nu e.
(** snarks/voproof_hpr.rs:276 [c_6] *)
Definition hp_c_6 (e : hp_s5) : F := - power (hp_alpha e) 4%Z.
(** snarks/voproof_hpr.rs:277 [c_7] *)
Definition hp_c_7 (e : hp_s5) : F := power (hp_alpha e) 5%Z.
(** snarks/voproof_hpr.rs:278 [c_8] *)
Definition hp_c_8 (e : hp_s5) : F := - power (hp_alpha e) 5%Z.
(** snarks/voproof_hpr.rs:279 [c_9] *)
Definition hp_c_9 (e : hp_s5) : F := power (hp_alpha e) 6%Z.
(** snarks/voproof_hpr.rs:280 [c_10] *)
Definition hp_c_10 (e : hp_s5) : F := - power (hp_alpha e) 6%Z * hp_beta e.
(** snarks/voproof_hpr.rs:281 [c_11] *)
Definition hp_c_11 (e : hp_s5) : F := - power (hp_alpha e) 6%Z.
(** snarks/voproof_hpr.rs:282-346 [t_vec]: entry i of the expression following the randomizer *)
Definition hp_t_vec_at (e : hp_s5) (i : Z) : F := hp_c_1 e * range_index 1%Z (3 * hp_cap_k e + 1)%Z
  (minus_i64 (i + hp_vovectorsize e) 1)%Z * range_index 1%Z (3 * hp_cap_k e + 1)%Z (i +
  hp_vovectorsize e)%Z + hp_c_10 e * vidx (hp_h_vec e) (minus_i64 (i + hp_vovectorsize e) 1)%Z
  * vidx (hp_v_vec e) (minus_i64 (i + hp_vovectorsize e) (3 * hp_cap_k e + 2))%Z + hp_c_10 e
  * vidx (hp_h_vec e) (minus_i64 (i + hp_vovectorsize e) (hp_cap_h e + 1))%Z * vidx (hp_s_vec e) (i
  + hp_vovectorsize e)%Z + hp_c_11 e * range_index 1%Z (hp_vovectorsize e) (minus_i64 (i +
  hp_vovectorsize e) 1)%Z * (vidx (hp_r_vec_tilde e) (minus_i64 (i + hp_vovectorsize e) 1)%Z
  - vidx (hp_r_vec_tilde e) (minus_i64 (i + hp_vovectorsize e) 2)%Z) + hp_c_2 e * vidx (hp_h_vec e)
  (minus_i64 (i + hp_vovectorsize e) 1)%Z * (hp_c_3 e * vidx (hp_w_vec e) (minus_i64 (i +
  hp_vovectorsize e) (3 * hp_cap_k e + 2))%Z + hp_c_4 e * range_index 1%Z (hp_ell e) (minus_i64 (i +
  hp_vovectorsize e) (3 * hp_cap_k e + 2))%Z + hp_c_5 e * vidx (hp_u_vec e) (minus_i64 (i +
  hp_vovectorsize e) (3 * hp_cap_k e + 2))%Z + vidx (hp_y_vec e) (minus_i64 (i + hp_vovectorsize e)
  (3 * hp_cap_k e + 2))%Z) + hp_c_6 e * power (range_index 1%Z (hp_ell e) (minus_i64 (i +
  hp_vovectorsize e) (3 * hp_cap_k e + 2))%Z) 2%Z + hp_c_7 e * vidx (hp_w_vec_1 e) (minus_i64 (i +
  hp_vovectorsize e) (- hp_cap_k e + hp_vovectorsize e + 1))%Z * vidx (hp_w_vec_1 e) (minus_i64 (i +
  hp_vovectorsize e) (- 2 * hp_cap_k e + hp_vovectorsize e + 1))%Z + hp_c_8 e * range_index 1%Z
  (hp_cap_k e) (minus_i64 (i + hp_vovectorsize e) (- hp_cap_k e + hp_vovectorsize e + 1))%Z
  * vidx (hp_w_vec_1 e) (minus_i64 (i + hp_vovectorsize e) (- 3 * hp_cap_k e + hp_vovectorsize e +
  1))%Z + vidx (hp_h_vec e) (i + hp_vovectorsize e)%Z * (hp_c e * range_index 1%Z (3 * hp_cap_k e +
  1)%Z (minus_i64 (i + hp_vovectorsize e) 1)%Z + hp_c_1 e * power_vidx (hp_gamma e) (3 * hp_cap_k e
  + 1)%Z (minus_i64 (i + hp_vovectorsize e) 1)%Z) - range_index 1%Z (hp_cap_h e) (minus_i64 (i +
  hp_vovectorsize e) 1)%Z * range_index 1%Z (hp_cap_h e) (i + hp_vovectorsize e)%Z +
  vidx (hp_s_vec e) (i + hp_vovectorsize e)%Z * (hp_mu e * range_index 1%Z (hp_cap_h e)
  (minus_i64 (i + hp_vovectorsize e) 1)%Z - power_vidx (hp_gamma e) (hp_cap_h e) (minus_i64 (i +
  hp_vovectorsize e) 1)%Z) + vidx (hp_s_vec e) (i + hp_vovectorsize e)%Z * (power (hp_alpha e) 6%Z
  * delta (i + hp_vovectorsize e)%Z (hp_cap_h e + 1)%Z + hp_c_9 e * vidx (hp_x_vec e) (minus_i64 (i
  + hp_vovectorsize e) 1)%Z + hp_c_9 e * vidx (hp_w_vec_1 e) (minus_i64 (i + hp_vovectorsize e)
  (hp_cap_h e + 2))%Z).
Definition hp_t_vec_tail (e : hp_s5) : list F := expression_vector (hp_t_vec_at e) (hp_maxshift e +
  2)%Z.
(** snarks/voproof_hpr.rs:362 [c_12] *)
Definition hp_c_12 (e : hp_s6) : F := power (hp_omega e) (- 1)%Z.
(** snarks/voproof_hpr.rs:363 [c_13] *)
Definition hp_c_13 (e : hp_s6) : F := 1 / (hp_gamma e * hp_omega e).
(** snarks/voproof_hpr.rs:366-374 [v_vec_1] *)
Definition hp_v_vec_1 (e : hp_s6) : list F := vector_poly_mul (hp_h_vec e) (hp_w_vec e)
  (hp_omega e).
(** snarks/voproof_hpr.rs:366-374 [shiftlength] *)
Definition hp_shiftlength (e : hp_s6) : Z := (Z.of_nat (length (hp_h_vec e)) - 1)%Z.
(** snarks/voproof_hpr.rs:375 [v_vec_2] *)
Definition hp_v_vec_2 (e : hp_s6) : list F := vector_reverse_omega (hp_h_vec e) (hp_omega e).
(** snarks/voproof_hpr.rs:375 [shiftlength_1] *)
Definition hp_shiftlength_1 (e : hp_s6) : Z := (Z.of_nat (length (hp_h_vec e)) - 1)%Z.
(** snarks/voproof_hpr.rs:377-385 [v_vec_3] *)
Definition hp_v_vec_3 (e : hp_s6) : list F := vector_poly_mul (hp_h_vec e) (hp_u_vec e)
  (hp_omega e).
(** snarks/voproof_hpr.rs:377-385 [shiftlength_2] *)
Definition hp_shiftlength_2 (e : hp_s6) : Z := (Z.of_nat (length (hp_h_vec e)) - 1)%Z.
(** snarks/voproof_hpr.rs:387-395 [v_vec_4] *)
Definition hp_v_vec_4 (e : hp_s6) : list F := vector_poly_mul (hp_h_vec e) (hp_y_vec e)
  (hp_omega e).
(** snarks/voproof_hpr.rs:387-395 [shiftlength_3] *)
Definition hp_shiftlength_3 (e : hp_s6) : Z := (Z.of_nat (length (hp_h_vec e)) - 1)%Z.
(** snarks/voproof_hpr.rs:397-405 [v_vec_5] *)
Definition hp_v_vec_5 (e : hp_s6) : list F := vector_poly_mul (hp_w_vec_1 e) (hp_w_vec_1 e)
  (hp_omega e).
(** snarks/voproof_hpr.rs:397-405 [shiftlength_4] *)
Definition hp_shiftlength_4 (e : hp_s6) : Z := (Z.of_nat (length (hp_w_vec_1 e)) - 1)%Z.
(** snarks/voproof_hpr.rs:408-416 [v_vec_6] *)
Definition hp_v_vec_6 (e : hp_s6) : list F := vector_poly_mul (hp_x_vec e) (hp_s_vec e)
  (hp_omega e).
(** snarks/voproof_hpr.rs:408-416 [shiftlength_5] *)
Definition hp_shiftlength_5 (e : hp_s6) : Z := (Z.of_nat (length (hp_x_vec e)) - 1)%Z.
(** snarks/voproof_hpr.rs:417-425 [v_vec_7] *)
Definition hp_v_vec_7 (e : hp_s6) : list F := vector_poly_mul (hp_w_vec_1 e) (hp_s_vec e)
  (hp_omega e).
(** snarks/voproof_hpr.rs:417-425 [shiftlength_6] *)
Definition hp_shiftlength_6 (e : hp_s6) : Z := (Z.of_nat (length (hp_w_vec_1 e)) - 1)%Z.
(** snarks/voproof_hpr.rs:426-434 [v_vec_8] *)
Definition hp_v_vec_8 (e : hp_s6) : list F := vector_poly_mul (hp_h_vec e) (hp_s_vec e)
  (hp_omega e).
(** snarks/voproof_hpr.rs:426-434 [shiftlength_7] *)
Definition hp_shiftlength_7 (e : hp_s6) : Z := (Z.of_nat (length (hp_h_vec e)) - 1)%Z.
(** snarks/voproof_hpr.rs:436-444 [v_vec_9] *)
Definition hp_v_vec_9 (e : hp_s6) : list F := vector_poly_mul (hp_h_vec e) (hp_v_vec e)
  (hp_omega e).
(** snarks/voproof_hpr.rs:436-444 [shiftlength_8] *)
Definition hp_shiftlength_8 (e : hp_s6) : Z := (Z.of_nat (length (hp_h_vec e)) - 1)%Z.
(** snarks/voproof_hpr.rs:445 [v_vec_10] *)
Definition hp_v_vec_10 (e : hp_s6) : list F := vector_power_mul (hp_s_vec e) (hp_c_12 e) (Z.to_nat
  (hp_cap_h e)).
(** snarks/voproof_hpr.rs:446 [v_vec_11] *)
Definition hp_v_vec_11 (e : hp_s6) : list F := vector_power_mul (hp_s_vec e) (hp_c_13 e) (Z.to_nat
  (hp_cap_h e)).
(** snarks/voproof_hpr.rs:447-452 [v_vec_12] *)
Definition hp_v_vec_12 (e : hp_s6) : list F := vector_power_mul (hp_s_vec e) (hp_c_12 e) (Z.to_nat
  (- hp_cap_h e + hp_cap_s_a e + hp_cap_s_b e + hp_cap_s_c e + hp_cap_s_d e)%Z).
(** snarks/voproof_hpr.rs:453 [v_vec_13] *)
Definition hp_v_vec_13 (e : hp_s6) : list F := vector_power_mul (hp_h_vec e) (hp_c_12 e) (Z.to_nat
  (3 * hp_cap_k e + 1)%Z).
(** snarks/voproof_hpr.rs:454 [v_vec_14] *)
Definition hp_v_vec_14 (e : hp_s6) : list F := vector_power_mul (hp_h_vec e) (hp_c_13 e) (Z.to_nat
  (3 * hp_cap_k e + 1)%Z).
(** snarks/voproof_hpr.rs:455 [v_vec_15] *)
Definition hp_v_vec_15 (e : hp_s6) : list F := vector_power_mul (hp_h_vec e) (hp_c_12 e) (Z.to_nat
  0%Z).
(** snarks/voproof_hpr.rs:456-461 [v_vec_16] *)
Definition hp_v_vec_16 (e : hp_s6) : list F := vector_power_mul (hp_v_vec_2 e) 1 (Z.to_nat
  (hp_cap_s_a e + hp_cap_s_b e + hp_cap_s_c e + hp_cap_s_d e)%Z).
(** snarks/voproof_hpr.rs:462 [v_vec_17] *)
Definition hp_v_vec_17 (e : hp_s6) : list F := vector_power_mul (hp_w_vec_1 e) (hp_c_12 e) (Z.to_nat
  (hp_cap_k e)).
(** snarks/voproof_hpr.rs:463-468 [v_vec_18] *)
Definition hp_v_vec_18 (e : hp_s6) : list F := vector_power_mul (hp_r_vec_tilde e) (hp_c_12 e)
  (Z.to_nat (3 * hp_cap_k e + hp_cap_s_a e + hp_cap_s_b e + hp_cap_s_c e + hp_cap_s_d e + 1)%Z).
(** snarks/voproof_hpr.rs:469-474 [v_vec_19] *)
Definition hp_v_vec_19 (e : hp_s6) : list F := vector_power_mul (hp_t_vec e) (hp_c_12 e) (Z.to_nat
  (2 * hp_cap_k e + hp_cap_s_a e + hp_cap_s_b e + hp_cap_s_c e + hp_cap_s_d e + 2)%Z).
(** snarks/voproof_hpr.rs:475 [v_vec_20] *)
Definition hp_v_vec_20 (e : hp_s6) : list F := power_power_mul (hp_c_12 e) (Z.to_nat (hp_cap_h e)) 1
  (Z.to_nat (hp_cap_h e)).
(** snarks/voproof_hpr.rs:476 [v_vec_21] *)
Definition hp_v_vec_21 (e : hp_s6) : list F := power_power_mul (hp_c_12 e) (Z.to_nat (3 * hp_cap_k e
  + 1)%Z) 1 (Z.to_nat (3 * hp_cap_k e + 1)%Z).
(** snarks/voproof_hpr.rs:477-483 [v_vec_22] *)
Definition hp_v_vec_22 (e : hp_s6) : list F := power_power_mul (hp_c_12 e) (Z.to_nat (hp_cap_s_a e +
  hp_cap_s_b e + hp_cap_s_c e + hp_cap_s_d e)%Z) 1 (Z.to_nat (hp_cap_s_a e + hp_cap_s_b e +
  hp_cap_s_c e + hp_cap_s_d e)%Z).
(** snarks/voproof_hpr.rs:484 [c_14] *)
Definition hp_c_14 (e : hp_s6) : F := power (hp_alpha e) 6%Z * power (hp_omega e) (hp_cap_h e).
(** snarks/voproof_hpr.rs:485 [c_15] *)
Definition hp_c_15 (e : hp_s6) : F := - power (hp_alpha e) 4%Z * hp_mu e.
(** snarks/voproof_hpr.rs:486 [c_16] *)
Definition hp_c_16 (e : hp_s6) : F := - power (hp_alpha e) 4%Z * hp_nu e.
(** snarks/voproof_hpr.rs:487-490 [c_17] *)
Definition hp_c_17 (e : hp_s6) : F := power (hp_alpha e) 5%Z * power (hp_omega e) (2 * hp_cap_k e +
  hp_cap_s_a e + hp_cap_s_b e + hp_cap_s_c e + hp_cap_s_d e + 1)%Z.
(** snarks/voproof_hpr.rs:491 [c_18] *)
Definition hp_c_18 (e : hp_s6) : F := power (hp_alpha e) 6%Z * power (hp_omega e) (hp_cap_h e +
  1)%Z.
(** snarks/voproof_hpr.rs:492 [c_19] *)
Definition hp_c_19 (e : hp_s6) : F := - power (hp_alpha e) 6%Z * hp_beta e * power (hp_omega e)
  (hp_cap_h e).
(** snarks/voproof_hpr.rs:493-496 [c_20] *)
Definition hp_c_20 (e : hp_s6) : F := power (hp_alpha e) 7%Z * power (hp_omega e) (3 * hp_cap_k e +
  hp_cap_s_a e + hp_cap_s_b e + hp_cap_s_c e + hp_cap_s_d e)%Z.
(** snarks/voproof_hpr.rs:497 [c_21] *)
Definition hp_c_21 (e : hp_s6) : F := hp_mu e * power (hp_omega e) (hp_cap_h e - 1)%Z.
(** snarks/voproof_hpr.rs:498 [c_22] *)
Definition hp_c_22 (e : hp_s6) : F := - power (hp_gamma e * hp_omega e) (hp_cap_h e - 1)%Z.
(** snarks/voproof_hpr.rs:499-502 [c_23] *)
Definition hp_c_23 (e : hp_s6) : F := power (hp_alpha e) 2%Z * power (hp_omega e) (3 * hp_cap_k e +
  hp_cap_s_a e + hp_cap_s_b e + hp_cap_s_c e + hp_cap_s_d e)%Z.
(** snarks/voproof_hpr.rs:503 [c_24] *)
Definition hp_c_24 (e : hp_s6) : F := hp_alpha e * hp_nu e * power (hp_omega e) (3 * hp_cap_k e)%Z.
(** snarks/voproof_hpr.rs:504 [c_25] *)
Definition hp_c_25 (e : hp_s6) : F := - hp_alpha e * power (hp_gamma e * hp_omega e) (3
  * hp_cap_k e)%Z.
(** snarks/voproof_hpr.rs:505-508 [c_26] *)
Definition hp_c_26 (e : hp_s6) : F := power (hp_alpha e) 3%Z * power (hp_omega e) (3 * hp_cap_k e +
  hp_cap_s_a e + hp_cap_s_b e + hp_cap_s_c e + hp_cap_s_d e)%Z.
(** snarks/voproof_hpr.rs:509 [c_27] *)
Definition hp_c_27 (e : hp_s6) : F := power (hp_alpha e) 4%Z * hp_mu e * hp_nu e.
(** snarks/voproof_hpr.rs:510-513 [c_28] *)
Definition hp_c_28 (e : hp_s6) : F := - power (hp_alpha e) 5%Z * power (hp_omega e) (3 * hp_cap_k e
  + hp_cap_s_a e + hp_cap_s_b e + hp_cap_s_c e + hp_cap_s_d e)%Z.
(** snarks/voproof_hpr.rs:514-517 [c_29] *)
Definition hp_c_29 (e : hp_s6) : F := - power (hp_alpha e) 6%Z * power (hp_omega e) (3 * hp_cap_k e
  + hp_cap_s_a e + hp_cap_s_b e + hp_cap_s_c e + hp_cap_s_d e)%Z.
(** snarks/voproof_hpr.rs:518-521 [c_30] *)
Definition hp_c_30 (e : hp_s6) : F := power (hp_alpha e) 6%Z * power (hp_omega e) (3 * hp_cap_k e +
  hp_cap_s_a e + hp_cap_s_b e + hp_cap_s_c e + hp_cap_s_d e)%Z.
(** snarks/voproof_hpr.rs:522-528 [c_31] *)
Definition hp_c_31 (e : hp_s6) : F := - power (hp_omega e) (5 * hp_cap_k e + 2 * hp_cap_s_a e + 2
  * hp_cap_s_b e + 2 * hp_cap_s_c e + 2 * hp_cap_s_d e + 2)%Z.
(** snarks/voproof_hpr.rs:529 [c_32] *)
Definition hp_c_32 (e : hp_s6) : F := - power (hp_omega e) (hp_cap_h e - 1)%Z.
(** snarks/voproof_hpr.rs:530 [c_33] *)
Definition hp_c_33 (e : hp_s6) : F := - hp_alpha e * power (hp_omega e) (3 * hp_cap_k e)%Z.
(** snarks/voproof_hpr.rs:531-534 [c_34] *)
Definition hp_c_34 (e : hp_s6) : F := - power (hp_alpha e) 4%Z * power (hp_omega e) (3 * hp_cap_k e
  + hp_cap_s_a e + hp_cap_s_b e + hp_cap_s_c e + hp_cap_s_d e)%Z.
(** snarks/voproof_hpr.rs:535-658 [h_vec_2], entry i (from 1) *)
Definition hp_h_vec_2_at (e : hp_s6) (i : Z) : F := hp_c_10 e * vidx (hp_v_vec_9 e) (minus_i64 (i
  - hp_maxshift e - hp_vovectorsize e) (3 * hp_cap_k e - hp_shiftlength_8 e + 2))%Z + hp_c_14 e
  * vidx (hp_s_vec e) (minus_i64 (i - hp_maxshift e - hp_vovectorsize e) (1 - hp_cap_h e))%Z +
  hp_c_15 e * vidx (hp_v_vec_1 e) (minus_i64 (i - hp_maxshift e - hp_vovectorsize e) (3 * hp_cap_k e
  - hp_shiftlength e + 2))%Z + hp_c_16 e * vidx (hp_v_vec_3 e) (minus_i64 (i - hp_maxshift e
  - hp_vovectorsize e) (3 * hp_cap_k e - hp_shiftlength_2 e + 2))%Z + hp_c_17 e
  * vidx (hp_v_vec_5 e) (minus_i64 (i - hp_maxshift e - hp_vovectorsize e) (- hp_cap_k e
  - hp_shiftlength_4 e + 1))%Z + hp_c_18 e * vidx (hp_v_vec_7 e) (minus_i64 (i - hp_maxshift e
  - hp_vovectorsize e) (- hp_cap_h e - hp_shiftlength_6 e))%Z + hp_c_19 e * vidx (hp_v_vec_8 e)
  (minus_i64 (i - hp_maxshift e - hp_vovectorsize e) (- hp_cap_h e - hp_shiftlength_7 e + 1))%Z +
  hp_c_2 e * vidx (hp_v_vec_4 e) (minus_i64 (i - hp_maxshift e - hp_vovectorsize e) (3 * hp_cap_k e
  - hp_shiftlength_3 e + 2))%Z + hp_c_20 e * vidx (hp_r_vec_tilde e) (minus_i64 (i - hp_maxshift e
  - hp_vovectorsize e) (2 - hp_vovectorsize e))%Z + hp_c_21 e * vidx (hp_v_vec_10 e) (minus_i64 (i
  - hp_maxshift e - hp_vovectorsize e) (2 - hp_cap_h e))%Z + hp_c_22 e * vidx (hp_v_vec_11 e)
  (minus_i64 (i - hp_maxshift e - hp_vovectorsize e) (2 - hp_cap_h e))%Z + hp_c_23 e
  * vidx (hp_v_vec_12 e) (minus_i64 (i - hp_maxshift e - hp_vovectorsize e) (- 3 * hp_cap_k e
  - hp_cap_s_a e - hp_cap_s_b e - hp_cap_s_c e - hp_cap_s_d e + 1))%Z + hp_c_24 e
  * vidx (hp_v_vec_13 e) (minus_i64 (i - hp_maxshift e - hp_vovectorsize e) (1 - 3 * hp_cap_k e))%Z
  + hp_c_25 e * vidx (hp_v_vec_14 e) (minus_i64 (i - hp_maxshift e - hp_vovectorsize e) (1 - 3
  * hp_cap_k e))%Z + hp_c_26 e * vidx (hp_v_vec_15 e) (minus_i64 (i - hp_maxshift e
  - hp_vovectorsize e) (- 3 * hp_cap_k e - hp_ell e + 1))%Z + hp_c_27 e * vidx (hp_v_vec_16 e)
  (minus_i64 (i - hp_maxshift e - hp_vovectorsize e) (3 * hp_cap_k e - hp_shiftlength_1 e + 2))%Z +
  hp_c_28 e * vidx (hp_v_vec_17 e) (minus_i64 (i - hp_maxshift e - hp_vovectorsize e) (2 - 3
  * hp_cap_k e))%Z + hp_c_29 e * vidx (hp_v_vec_18 e) (minus_i64 (i - hp_maxshift e
  - hp_vovectorsize e) (- 3 * hp_cap_k e - hp_cap_s_a e - hp_cap_s_b e - hp_cap_s_c e - hp_cap_s_d e
  + 1))%Z + hp_c_30 e * vidx (hp_v_vec_18 e) (minus_i64 (i - hp_maxshift e - hp_vovectorsize e) (- 3
  * hp_cap_k e - hp_cap_s_a e - hp_cap_s_b e - hp_cap_s_c e - hp_cap_s_d e + 2))%Z + hp_c_31 e
  * vidx (hp_v_vec_19 e) (minus_i64 (i - hp_maxshift e - hp_vovectorsize e) (- 2 * hp_cap_k e
  - hp_cap_s_a e - hp_cap_s_b e - hp_cap_s_c e - hp_cap_s_d e - 1))%Z + hp_c_32 e
  * vidx (hp_v_vec_20 e) (minus_i64 (i - hp_maxshift e - hp_vovectorsize e) (2 - hp_cap_h e))%Z +
  hp_c_33 e * vidx (hp_v_vec_21 e) (minus_i64 (i - hp_maxshift e - hp_vovectorsize e) (1 - 3
  * hp_cap_k e))%Z + hp_c_34 e * vidx (hp_v_vec_22 e) (minus_i64 (i - hp_maxshift e
  - hp_vovectorsize e) (- hp_cap_s_a e - hp_cap_s_b e - hp_cap_s_c e - hp_cap_s_d e + 2))%Z +
  hp_c_9 e * vidx (hp_v_vec_6 e) (minus_i64 (i - hp_maxshift e - hp_vovectorsize e) (1
  - hp_shiftlength_5 e))%Z.
Definition hp_h_vec_2 (e : hp_s6) : list F := expression_vector (hp_h_vec_2_at e) (hp_maxshift e +
  hp_vovectorsize e)%Z.
(** snarks/voproof_hpr.rs:659-719 [h_vec_3], entry i (from 1) *)
Definition hp_h_vec_3_at (e : hp_s6) (i : Z) : F := hp_c_10 e * vidx (hp_v_vec_9 e) (minus_i64 (i +
  1) (3 * hp_cap_k e - hp_shiftlength_8 e + 2))%Z + hp_c_14 e * vidx (hp_s_vec e) (minus_i64 (i + 1)
  (1 - hp_cap_h e))%Z + hp_c_15 e * vidx (hp_v_vec_1 e) (minus_i64 (i + 1) (3 * hp_cap_k e
  - hp_shiftlength e + 2))%Z + hp_c_16 e * vidx (hp_v_vec_3 e) (minus_i64 (i + 1) (3 * hp_cap_k e
  - hp_shiftlength_2 e + 2))%Z + hp_c_17 e * vidx (hp_v_vec_5 e) (minus_i64 (i + 1) (- hp_cap_k e
  - hp_shiftlength_4 e + 1))%Z + hp_c_18 e * vidx (hp_v_vec_7 e) (minus_i64 (i + 1) (- hp_cap_h e
  - hp_shiftlength_6 e))%Z + hp_c_19 e * vidx (hp_v_vec_8 e) (minus_i64 (i + 1) (- hp_cap_h e
  - hp_shiftlength_7 e + 1))%Z + hp_c_2 e * vidx (hp_v_vec_4 e) (minus_i64 (i + 1) (3 * hp_cap_k e
  - hp_shiftlength_3 e + 2))%Z + hp_c_20 e * vidx (hp_r_vec_tilde e) (minus_i64 (i + 1) (2
  - hp_vovectorsize e))%Z + hp_c_21 e * vidx (hp_v_vec_10 e) (minus_i64 (i + 1) (2 - hp_cap_h e))%Z
  + hp_c_22 e * vidx (hp_v_vec_11 e) (minus_i64 (i + 1) (2 - hp_cap_h e))%Z + hp_c_23 e
  * vidx (hp_v_vec_12 e) (minus_i64 (i + 1) (- 3 * hp_cap_k e - hp_cap_s_a e - hp_cap_s_b e
  - hp_cap_s_c e - hp_cap_s_d e + 1))%Z + hp_c_24 e * vidx (hp_v_vec_13 e) (minus_i64 (i + 1) (1 - 3
  * hp_cap_k e))%Z + hp_c_25 e * vidx (hp_v_vec_14 e) (minus_i64 (i + 1) (1 - 3 * hp_cap_k e))%Z +
  hp_c_26 e * vidx (hp_v_vec_15 e) (minus_i64 (i + 1) (- 3 * hp_cap_k e - hp_ell e + 1))%Z +
  hp_c_27 e * vidx (hp_v_vec_16 e) (minus_i64 (i + 1) (3 * hp_cap_k e - hp_shiftlength_1 e + 2))%Z +
  hp_c_28 e * vidx (hp_v_vec_17 e) (minus_i64 (i + 1) (2 - 3 * hp_cap_k e))%Z + hp_c_29 e
  * vidx (hp_v_vec_18 e) (minus_i64 (i + 1) (- 3 * hp_cap_k e - hp_cap_s_a e - hp_cap_s_b e
  - hp_cap_s_c e - hp_cap_s_d e + 1))%Z + hp_c_30 e * vidx (hp_v_vec_18 e) (minus_i64 (i + 1) (- 3
  * hp_cap_k e - hp_cap_s_a e - hp_cap_s_b e - hp_cap_s_c e - hp_cap_s_d e + 2))%Z + hp_c_31 e
  * vidx (hp_v_vec_19 e) (minus_i64 (i + 1) (- 2 * hp_cap_k e - hp_cap_s_a e - hp_cap_s_b e
  - hp_cap_s_c e - hp_cap_s_d e - 1))%Z + hp_c_32 e * vidx (hp_v_vec_20 e) (minus_i64 (i + 1) (2
  - hp_cap_h e))%Z + hp_c_33 e * vidx (hp_v_vec_21 e) (minus_i64 (i + 1) (1 - 3 * hp_cap_k e))%Z +
  hp_c_34 e * vidx (hp_v_vec_22 e) (minus_i64 (i + 1) (- hp_cap_s_a e - hp_cap_s_b e - hp_cap_s_c e
  - hp_cap_s_d e + 2))%Z + hp_c_9 e * vidx (hp_v_vec_6 e) (minus_i64 (i + 1) (1
  - hp_shiftlength_5 e))%Z.
Definition hp_h_vec_3 (e : hp_s6) : list F := expression_vector (hp_h_vec_3_at e) (hp_maxshift e +
  hp_vovectorsize e)%Z.

(** *** The evaluation round: lines 738-854 of [prove] and 1084-1192 of [verify].
    [hp_ctx] holds what both sides know after the challenge z. *)
Record hp_ctx := mkHPCtx {
  hp_ctx_pub :> hp_pub; hp_q_mu : F; hp_q_nu : F; hp_q_beta : F; hp_q_alpha : F; hp_q_omega : F;
  hp_q_z : F; hp_q_y : F; hp_q_y_1 : F }.
(** snarks/voproof_hpr.rs:738 [y] *)
Definition hp_y (e : hp_s6) (z : F) : F := eval_vector_expression (hp_omega e / z) (fun i =>
  vidx (hp_h_vec e) i) (hp_vovectorsize e + 1)%Z.
(** snarks/voproof_hpr.rs:739-745 [y_1] *)
Definition hp_y_1 (e : hp_s6) (z : F) : F := eval_vector_expression (hp_omega e / z) (fun i =>
  vidx (hp_w_vec_1 e) i) (hp_vovectorsize e + 1)%Z.
(** snarks/voproof_hpr.rs:746 [y_2] *)
Definition hp_p_y_2 (e : hp_ctx) : F := eval_vector_as_poly (hp_x_vec e) (hp_q_omega e / hp_q_z e).
(** snarks/voproof_hpr.rs:747-767 [c_35] *)
Definition hp_p_c_35 (e : hp_ctx) : F := 1 * (power (hp_q_alpha e) 6%Z * (hp_q_omega e - 1
  * hp_q_z e) * (hp_gamma e * hp_q_omega e - 1 * hp_q_z e) * (- hp_q_beta e * hp_q_y e
  * power (hp_q_omega e / hp_q_z e) (hp_cap_h e) + 1 * hp_p_y_2 e + hp_q_y_1 e * power (hp_q_omega e
  / hp_q_z e) (hp_cap_h e + 1)%Z + power (hp_q_omega e / hp_q_z e) (hp_cap_h e))
  - power (hp_q_alpha e) 2%Z * hp_q_z e * power (hp_q_omega e / hp_q_z e) (hp_cap_h e + 3
  * hp_cap_k e + 1)%Z * (1 - power (hp_q_omega e / hp_q_z e) (- hp_cap_h e + hp_cap_s_a e +
  hp_cap_s_b e + hp_cap_s_c e + hp_cap_s_d e)%Z) * (hp_gamma e * hp_q_omega e - 1 * hp_q_z e) - 1
  * hp_q_z e * (hp_q_mu e * (1 - power (hp_q_omega e / hp_q_z e) (hp_cap_h e)) * (hp_gamma e
  * hp_q_omega e - 1 * hp_q_z e) - (hp_q_omega e - 1 * hp_q_z e) * (1 - power (hp_gamma e
  * hp_q_omega e / hp_q_z e) (hp_cap_h e)))) / ((hp_q_omega e - 1 * hp_q_z e) * (hp_gamma e
  * hp_q_omega e - 1 * hp_q_z e)).
(** snarks/voproof_hpr.rs:768-789 [c_36] *)
Definition hp_p_c_36 (e : hp_ctx) : F := (power (hp_q_alpha e) 4%Z * (hp_q_mu e * hp_q_nu e * 1
  * hp_q_y e * power (hp_q_z e) (3 * hp_cap_k e + 1)%Z * (hp_q_omega e - 1 * hp_q_z e) * (1
  - power (hp_q_z e) (hp_ell e)) + power (hp_q_z e) (3 * hp_cap_k e + 2)%Z * power (hp_q_omega e
  / hp_q_z e) (3 * hp_cap_k e + 1)%Z * (1 - power (hp_q_z e) (hp_ell e)) * (1 - power (hp_q_omega e
  / hp_q_z e) (hp_cap_s_a e + hp_cap_s_b e + hp_cap_s_c e + hp_cap_s_d e)%Z)) + hp_q_alpha e
  * power 1 2%Z * hp_q_z e * (1 - power (hp_q_z e) (3 * hp_cap_k e + 1)%Z) * (1
  - power (hp_q_omega e / hp_q_z e) (3 * hp_cap_k e + 1)%Z) + power 1 2%Z * hp_q_z e * (1
  - power (hp_q_z e) (hp_cap_h e)) * (1 - power (hp_q_omega e / hp_q_z e) (hp_cap_h e)))
  / ((hp_q_omega e - 1 * hp_q_z e) * (1 - hp_q_z e)).
(** snarks/voproof_hpr.rs:790-798 [c_37] *)
Definition hp_p_c_37 (e : hp_ctx) : F := - hp_q_alpha e * power 1 2%Z * hp_q_z e * (hp_q_nu e * (1
  - power (hp_q_omega e / hp_q_z e) (3 * hp_cap_k e + 1)%Z) * (hp_gamma e * hp_q_omega e - 1
  * hp_q_z e) - (hp_q_omega e - 1 * hp_q_z e) * (1 - power (hp_gamma e * hp_q_omega e / hp_q_z e) (3
  * hp_cap_k e + 1)%Z)) / ((hp_q_omega e - 1 * hp_q_z e) * (hp_gamma e * hp_q_omega e - 1
  * hp_q_z e)).
(** snarks/voproof_hpr.rs:799-802 [c_38] *)
Definition hp_p_c_38 (e : hp_ctx) : F := - power (hp_q_alpha e) 4%Z * hp_q_mu e * 1 * hp_q_y e
  * power (hp_q_z e) (3 * hp_cap_k e + 1)%Z.
(** snarks/voproof_hpr.rs:803-806 [c_39] *)
Definition hp_p_c_39 (e : hp_ctx) : F := - power (hp_q_alpha e) 4%Z * hp_q_nu e * 1 * hp_q_y e
  * power (hp_q_z e) (3 * hp_cap_k e + 1)%Z.
(** snarks/voproof_hpr.rs:807 [c_40] *)
Definition hp_p_c_40 (e : hp_ctx) : F := power (hp_q_alpha e) 4%Z * 1 * hp_q_y e * power (hp_q_z e)
  (3 * hp_cap_k e + 1)%Z.
(** snarks/voproof_hpr.rs:808-818 [c_41] *)
Definition hp_p_c_41 (e : hp_ctx) : F := power (hp_q_alpha e) 5%Z * power (hp_q_omega e / hp_q_z e)
  (2 * hp_cap_k e + hp_cap_s_a e + hp_cap_s_b e + hp_cap_s_c e + hp_cap_s_d e + 1)%Z * (hp_q_y_1 e
  * power (hp_q_z e) (- 2 * hp_cap_k e + hp_vovectorsize e)%Z * (hp_q_omega e - 1 * hp_q_z e) +
  power (hp_q_z e) (- 3 * hp_cap_k e + hp_vovectorsize e + 1)%Z * (1 - power (hp_q_omega e
  / hp_q_z e) (hp_cap_k e))) / (hp_q_omega e - 1 * hp_q_z e).
(** snarks/voproof_hpr.rs:819-822 [c_42] *)
Definition hp_p_c_42 (e : hp_ctx) : F := - power (hp_q_alpha e) 6%Z * hp_q_beta e * 1 * hp_q_y e
  * power (hp_q_z e) (3 * hp_cap_k e + 1)%Z.
(** snarks/voproof_hpr.rs:823-838 [c_43] *)
Definition hp_p_c_43 (e : hp_ctx) : F := power (hp_q_alpha e) 6%Z * 1 * (hp_q_alpha e
  * power (hp_q_omega e / hp_q_z e) (3 * hp_cap_k e + hp_cap_s_a e + hp_cap_s_b e + hp_cap_s_c e +
  hp_cap_s_d e)%Z * (hp_q_omega e - 1 * hp_q_z e) + hp_q_z e * (1 - hp_q_z e) * (1
  - power (hp_q_omega e / hp_q_z e) (3 * hp_cap_k e + hp_cap_s_a e + hp_cap_s_b e + hp_cap_s_c e +
  hp_cap_s_d e + 1)%Z)) / (hp_q_omega e - 1 * hp_q_z e).
(** snarks/voproof_hpr.rs:839-852 [c_44] *)
Definition hp_p_c_44 (e : hp_ctx) : F := power (hp_q_z e) (hp_vovectorsize e) * power (hp_q_omega e
  / hp_q_z e) (3 * hp_cap_k e + hp_cap_s_a e + hp_cap_s_b e + hp_cap_s_c e + hp_cap_s_d e + 1)%Z
  * (1 - power (hp_q_omega e / hp_q_z e) (2 * hp_cap_k e + hp_cap_s_a e + hp_cap_s_b e +
  hp_cap_s_c e + hp_cap_s_d e + 2)%Z) / (hp_q_omega e - 1 * hp_q_z e).
(** snarks/voproof_hpr.rs:853 [c_45] *)
Definition hp_p_c_45 (e : hp_ctx) : F := - power (hp_q_z e) (- hp_cap_d e)%Z.
(** snarks/voproof_hpr.rs:854 [c_46] *)
Definition hp_p_c_46 (e : hp_ctx) : F := - hp_q_z e.

(** the same bindings in [verify] *)
(** snarks/voproof_hpr.rs:1084 [y_2] *)
Definition hp_v_y_2 (e : hp_ctx) : F := eval_vector_as_poly (hp_x_vec e) (hp_q_omega e / hp_q_z e).
(** snarks/voproof_hpr.rs:1085-1105 [c_35] *)
Definition hp_v_c_35 (e : hp_ctx) : F := 1 * (power (hp_q_alpha e) 6%Z * (hp_q_omega e - 1
  * hp_q_z e) * (hp_gamma e * hp_q_omega e - 1 * hp_q_z e) * (- hp_q_beta e * hp_q_y e
  * power (hp_q_omega e / hp_q_z e) (hp_cap_h e) + 1 * hp_v_y_2 e + hp_q_y_1 e * power (hp_q_omega e
  / hp_q_z e) (hp_cap_h e + 1)%Z + power (hp_q_omega e / hp_q_z e) (hp_cap_h e))
  - power (hp_q_alpha e) 2%Z * hp_q_z e * power (hp_q_omega e / hp_q_z e) (hp_cap_h e + 3
  * hp_cap_k e + 1)%Z * (1 - power (hp_q_omega e / hp_q_z e) (- hp_cap_h e + hp_cap_s_a e +
  hp_cap_s_b e + hp_cap_s_c e + hp_cap_s_d e)%Z) * (hp_gamma e * hp_q_omega e - 1 * hp_q_z e) - 1
  * hp_q_z e * (hp_q_mu e * (1 - power (hp_q_omega e / hp_q_z e) (hp_cap_h e)) * (hp_gamma e
  * hp_q_omega e - 1 * hp_q_z e) - (hp_q_omega e - 1 * hp_q_z e) * (1 - power (hp_gamma e
  * hp_q_omega e / hp_q_z e) (hp_cap_h e)))) / ((hp_q_omega e - 1 * hp_q_z e) * (hp_gamma e
  * hp_q_omega e - 1 * hp_q_z e)).
(** snarks/voproof_hpr.rs:1106-1127 [c_36] *)
Definition hp_v_c_36 (e : hp_ctx) : F := (power (hp_q_alpha e) 4%Z * (hp_q_mu e * hp_q_nu e * 1
  * hp_q_y e * power (hp_q_z e) (3 * hp_cap_k e + 1)%Z * (hp_q_omega e - 1 * hp_q_z e) * (1
  - power (hp_q_z e) (hp_ell e)) + power (hp_q_z e) (3 * hp_cap_k e + 2)%Z * power (hp_q_omega e
  / hp_q_z e) (3 * hp_cap_k e + 1)%Z * (1 - power (hp_q_z e) (hp_ell e)) * (1 - power (hp_q_omega e
  / hp_q_z e) (hp_cap_s_a e + hp_cap_s_b e + hp_cap_s_c e + hp_cap_s_d e)%Z)) + hp_q_alpha e
  * power 1 2%Z * hp_q_z e * (1 - power (hp_q_z e) (3 * hp_cap_k e + 1)%Z) * (1
  - power (hp_q_omega e / hp_q_z e) (3 * hp_cap_k e + 1)%Z) + power 1 2%Z * hp_q_z e * (1
  - power (hp_q_z e) (hp_cap_h e)) * (1 - power (hp_q_omega e / hp_q_z e) (hp_cap_h e)))
  / ((hp_q_omega e - 1 * hp_q_z e) * (1 - hp_q_z e)).
(** snarks/voproof_hpr.rs:1128-1136 [c_37] *)
Definition hp_v_c_37 (e : hp_ctx) : F := - hp_q_alpha e * power 1 2%Z * hp_q_z e * (hp_q_nu e * (1
  - power (hp_q_omega e / hp_q_z e) (3 * hp_cap_k e + 1)%Z) * (hp_gamma e * hp_q_omega e - 1
  * hp_q_z e) - (hp_q_omega e - 1 * hp_q_z e) * (1 - power (hp_gamma e * hp_q_omega e / hp_q_z e) (3
  * hp_cap_k e + 1)%Z)) / ((hp_q_omega e - 1 * hp_q_z e) * (hp_gamma e * hp_q_omega e - 1
  * hp_q_z e)).
(** snarks/voproof_hpr.rs:1137-1140 [c_38] *)
Definition hp_v_c_38 (e : hp_ctx) : F := - power (hp_q_alpha e) 4%Z * hp_q_mu e * 1 * hp_q_y e
  * power (hp_q_z e) (3 * hp_cap_k e + 1)%Z.
(** snarks/voproof_hpr.rs:1141-1144 [c_39] *)
Definition hp_v_c_39 (e : hp_ctx) : F := - power (hp_q_alpha e) 4%Z * hp_q_nu e * 1 * hp_q_y e
  * power (hp_q_z e) (3 * hp_cap_k e + 1)%Z.
(** snarks/voproof_hpr.rs:1145 [c_40] *)
Definition hp_v_c_40 (e : hp_ctx) : F := power (hp_q_alpha e) 4%Z * 1 * hp_q_y e * power (hp_q_z e)
  (3 * hp_cap_k e + 1)%Z.
(** snarks/voproof_hpr.rs:1146-1156 [c_41] *)
Definition hp_v_c_41 (e : hp_ctx) : F := power (hp_q_alpha e) 5%Z * power (hp_q_omega e / hp_q_z e)
  (2 * hp_cap_k e + hp_cap_s_a e + hp_cap_s_b e + hp_cap_s_c e + hp_cap_s_d e + 1)%Z * (hp_q_y_1 e
  * power (hp_q_z e) (- 2 * hp_cap_k e + hp_vovectorsize e)%Z * (hp_q_omega e - 1 * hp_q_z e) +
  power (hp_q_z e) (- 3 * hp_cap_k e + hp_vovectorsize e + 1)%Z * (1 - power (hp_q_omega e
  / hp_q_z e) (hp_cap_k e))) / (hp_q_omega e - 1 * hp_q_z e).
(** snarks/voproof_hpr.rs:1157-1160 [c_42] *)
Definition hp_v_c_42 (e : hp_ctx) : F := - power (hp_q_alpha e) 6%Z * hp_q_beta e * 1 * hp_q_y e
  * power (hp_q_z e) (3 * hp_cap_k e + 1)%Z.
(** snarks/voproof_hpr.rs:1161-1176 [c_43] *)
Definition hp_v_c_43 (e : hp_ctx) : F := power (hp_q_alpha e) 6%Z * 1 * (hp_q_alpha e
  * power (hp_q_omega e / hp_q_z e) (3 * hp_cap_k e + hp_cap_s_a e + hp_cap_s_b e + hp_cap_s_c e +
  hp_cap_s_d e)%Z * (hp_q_omega e - 1 * hp_q_z e) + hp_q_z e * (1 - hp_q_z e) * (1
  - power (hp_q_omega e / hp_q_z e) (3 * hp_cap_k e + hp_cap_s_a e + hp_cap_s_b e + hp_cap_s_c e +
  hp_cap_s_d e + 1)%Z)) / (hp_q_omega e - 1 * hp_q_z e).
(** snarks/voproof_hpr.rs:1177-1190 [c_44] *)
Definition hp_v_c_44 (e : hp_ctx) : F := power (hp_q_z e) (hp_vovectorsize e) * power (hp_q_omega e
  / hp_q_z e) (3 * hp_cap_k e + hp_cap_s_a e + hp_cap_s_b e + hp_cap_s_c e + hp_cap_s_d e + 1)%Z
  * (1 - power (hp_q_omega e / hp_q_z e) (2 * hp_cap_k e + hp_cap_s_a e + hp_cap_s_b e +
  hp_cap_s_c e + hp_cap_s_d e + 2)%Z) / (hp_q_omega e - 1 * hp_q_z e).
(** snarks/voproof_hpr.rs:1191 [c_45] *)
Definition hp_v_c_45 (e : hp_ctx) : F := - power (hp_q_z e) (- hp_cap_d e)%Z.
(** snarks/voproof_hpr.rs:1192 [c_46] *)
Definition hp_v_c_46 (e : hp_ctx) : F := - hp_q_z e.

(** divisors of lines 738-852 in evaluation order (z of omega / z; then those of c_35, c_36, c_37,
    c_41, c_43, c_44); [power(z, -cap_d)] returns z unchanged for z = 0 and does not divide. *)
Definition hp_divisors (e : hp_ctx) : outcome error unit :=
  let z := hp_q_z e in let omega := hp_q_omega e in let gamma := hp_gamma e in
  let! _ := nonzero z in
  let! _ := nonzero ((omega - 1 * z) * (gamma * omega - 1 * z)) in
  let! _ := nonzero ((omega - 1 * z) * (1 - z)) in
  let! _ := nonzero ((omega - 1 * z) * (gamma * omega - 1 * z)) in
  let! _ := nonzero (omega - 1 * z) in
  let! _ := nonzero (omega - 1 * z) in
  nonzero (omega - 1 * z).
(** snarks/voproof_hpr.rs:855-885 [g_vec], entry i before the addition of line 886 *)
Definition hp_g_at (e : hp_s6) (q : hp_ctx) (i : Z) : F := linear_combination 0 [((hp_p_c_35 q),
  (vidx (hp_s_vec e) i)); ((hp_p_c_37 q), (vidx (hp_h_vec e) i)); ((hp_p_c_38 q), (vidx (hp_w_vec e)
  i)); ((hp_p_c_39 q), (vidx (hp_u_vec e) i)); ((hp_p_c_40 q), (vidx (hp_y_vec e) i));
  ((hp_p_c_41 q), (vidx (hp_w_vec_1 e) i)); ((hp_p_c_42 q), (vidx (hp_v_vec e) i)); ((hp_p_c_43 q),
  (vidx (hp_r_vec_tilde e) i)); ((hp_p_c_44 q), (vidx (hp_t_vec e) i)); ((hp_p_c_45 q),
  (vidx (hp_h_vec_2 e) (- hp_cap_d e + i + hp_maxshift e + hp_vovectorsize e)%Z)); ((hp_p_c_46 q),
  (vidx (hp_h_vec_3 e) i))].
Definition hp_g_vec (e : hp_s6) (q : hp_ctx) : outcome error (list F) := add_to_first_item
  (expression_vector (hp_g_at e q) (hp_cap_d e)) (hp_p_c_36 q).

(** *** Keys, proofs, transcripts *)
(** lines 16-25 *)
Record hp_vk := mkHPVK {
  hp_vk_cm_u_vec : G1; hp_vk_cm_w_vec : G1; hp_vk_cm_v_vec : G1; hp_vk_cm_y_vec : G1;
  hp_vk_kzg_vk : verifier_key G1 G2; hp_vk_size : HPRSize; hp_vk_degree_bound : nat }.
(** lines 4-14 *)
Record hp_pk := mkHPPK {
  hp_pk_verifier_key : hp_vk; hp_pk_powers : list G1; hp_pk_max_degree : nat;
  hp_pk_cap_m_mat : list nat * list nat * list F;
  hp_pk_u_vec : list F; hp_pk_w_vec : list F; hp_pk_v_vec : list F; hp_pk_y_vec : list F }.
(** lines 27-40 *)
Record hp_proof := mkHPProof {
  hp_cm_w_vec_1 : G1; hp_cm_s_vec : G1; hp_cm_h_vec : G1; hp_cm_r_vec_tilde : G1; hp_cm_t_vec : G1;
  hp_cm_h_vec_2 : G1; hp_cm_h_vec_3 : G1; hp_pf_y : F; hp_pf_y_1 : F;
  hp_cap_w : G1; hp_cap_w_1 : G1 }.

Variable H : list (item F G1) -> F.
Variable gamma : F.   (* generator_of!: FftField::GENERATOR *)
(** snarks/voproof_hpr.rs:177-186 challenge [mu] of prove *)
Definition hp_p_ch_mu (vk : hp_vk) (x : list F) (cm_w_vec_1 : G1) : F := H [IF 1; IFs x; IG
  (hp_vk_cm_u_vec vk); IG (hp_vk_cm_w_vec vk); IG (hp_vk_cm_v_vec vk); IG (hp_vk_cm_y_vec vk); IG
  cm_w_vec_1].
(** snarks/voproof_hpr.rs:196-206 challenge [nu] of prove *)
Definition hp_p_ch_nu (vk : hp_vk) (x : list F) (cm_w_vec_1 cm_s_vec : G1) : F := H [IF 1; IFs x; IG
  (hp_vk_cm_u_vec vk); IG (hp_vk_cm_w_vec vk); IG (hp_vk_cm_v_vec vk); IG (hp_vk_cm_y_vec vk); IG
  cm_w_vec_1; IG cm_s_vec].
(** snarks/voproof_hpr.rs:215-226 challenge [beta] of prove *)
Definition hp_p_ch_beta (vk : hp_vk) (x : list F) (cm_w_vec_1 cm_s_vec cm_h_vec : G1) : F := H [IF
  1; IFs x; IG (hp_vk_cm_u_vec vk); IG (hp_vk_cm_w_vec vk); IG (hp_vk_cm_v_vec vk); IG
  (hp_vk_cm_y_vec vk); IG cm_w_vec_1; IG cm_s_vec; IG cm_h_vec].
(** snarks/voproof_hpr.rs:257-269 challenge [alpha] of prove *)
Definition hp_p_ch_alpha (vk : hp_vk) (x : list F) (cm_w_vec_1 cm_s_vec cm_h_vec cm_r_vec_tilde :
  G1) : F := H [IF 1; IFs x; IG (hp_vk_cm_u_vec vk); IG (hp_vk_cm_w_vec vk); IG (hp_vk_cm_v_vec vk);
  IG (hp_vk_cm_y_vec vk); IG cm_w_vec_1; IG cm_s_vec; IG cm_h_vec; IG cm_r_vec_tilde].
(** snarks/voproof_hpr.rs:348-361 challenge [omega] of prove *)
Definition hp_p_ch_omega (vk : hp_vk) (x : list F) (cm_w_vec_1 cm_s_vec cm_h_vec cm_r_vec_tilde
  cm_t_vec : G1) : F := H [IF 1; IFs x; IG (hp_vk_cm_u_vec vk); IG (hp_vk_cm_w_vec vk); IG
  (hp_vk_cm_v_vec vk); IG (hp_vk_cm_y_vec vk); IG cm_w_vec_1; IG cm_s_vec; IG cm_h_vec; IG
  cm_r_vec_tilde; IG cm_t_vec].
(** snarks/voproof_hpr.rs:722-737 challenge [z] of prove *)
Definition hp_p_ch_z (vk : hp_vk) (x : list F) (cm_w_vec_1 cm_s_vec cm_h_vec cm_r_vec_tilde cm_t_vec
  cm_h_vec_2 cm_h_vec_3 : G1) : F := H [IF 1; IFs x; IG (hp_vk_cm_u_vec vk); IG (hp_vk_cm_w_vec vk);
  IG (hp_vk_cm_v_vec vk); IG (hp_vk_cm_y_vec vk); IG cm_w_vec_1; IG cm_s_vec; IG cm_h_vec; IG
  cm_r_vec_tilde; IG cm_t_vec; IG cm_h_vec_2; IG cm_h_vec_3].
(** snarks/voproof_hpr.rs:920-940 challenge [rand_xi] of prove *)
Definition hp_p_ch_rand_xi (vk : hp_vk) (x : list F) (cm_w_vec_1 cm_s_vec cm_h_vec cm_r_vec_tilde
  cm_t_vec cm_h_vec_2 cm_h_vec_3 cm_g : G1) (omega y y_1 z : F) : F := H [IF 1; IFs x; IG
  (hp_vk_cm_u_vec vk); IG (hp_vk_cm_w_vec vk); IG (hp_vk_cm_v_vec vk); IG (hp_vk_cm_y_vec vk); IG
  cm_w_vec_1; IG cm_s_vec; IG cm_h_vec; IG cm_r_vec_tilde; IG cm_t_vec; IG cm_h_vec_2; IG
  cm_h_vec_3; IG cm_g; IF (omega / z); IF y; IF y_1; IF z].
(** snarks/voproof_hpr.rs:941-961 challenge [rand_xi_2] of prove *)
Definition hp_p_ch_rand_xi_2 (vk : hp_vk) (x : list F) (cm_w_vec_1 cm_s_vec cm_h_vec cm_r_vec_tilde
  cm_t_vec cm_h_vec_2 cm_h_vec_3 cm_g : G1) (omega y y_1 z : F) : F := H [IF (1 + 1); IFs x; IG
  (hp_vk_cm_u_vec vk); IG (hp_vk_cm_w_vec vk); IG (hp_vk_cm_v_vec vk); IG (hp_vk_cm_y_vec vk); IG
  cm_w_vec_1; IG cm_s_vec; IG cm_h_vec; IG cm_r_vec_tilde; IG cm_t_vec; IG cm_h_vec_2; IG
  cm_h_vec_3; IG cm_g; IF (omega / z); IF y; IF y_1; IF z].
(** snarks/voproof_hpr.rs:1008-1017 challenge [mu] of verify *)
Definition hp_v_ch_mu (vk : hp_vk) (x : list F) (cm_w_vec_1 : G1) : F := H [IF 1; IFs x; IG
  (hp_vk_cm_u_vec vk); IG (hp_vk_cm_w_vec vk); IG (hp_vk_cm_v_vec vk); IG (hp_vk_cm_y_vec vk); IG
  cm_w_vec_1].
(** snarks/voproof_hpr.rs:1018-1028 challenge [nu] of verify *)
Definition hp_v_ch_nu (vk : hp_vk) (x : list F) (cm_w_vec_1 cm_s_vec : G1) : F := H [IF 1; IFs x; IG
  (hp_vk_cm_u_vec vk); IG (hp_vk_cm_w_vec vk); IG (hp_vk_cm_v_vec vk); IG (hp_vk_cm_y_vec vk); IG
  cm_w_vec_1; IG cm_s_vec].
(** snarks/voproof_hpr.rs:1029-1040 challenge [beta] of verify *)
Definition hp_v_ch_beta (vk : hp_vk) (x : list F) (cm_w_vec_1 cm_s_vec cm_h_vec : G1) : F := H [IF
  1; IFs x; IG (hp_vk_cm_u_vec vk); IG (hp_vk_cm_w_vec vk); IG (hp_vk_cm_v_vec vk); IG
  (hp_vk_cm_y_vec vk); IG cm_w_vec_1; IG cm_s_vec; IG cm_h_vec].
(** snarks/voproof_hpr.rs:1041-1053 challenge [alpha] of verify *)
Definition hp_v_ch_alpha (vk : hp_vk) (x : list F) (cm_w_vec_1 cm_s_vec cm_h_vec cm_r_vec_tilde :
  G1) : F := H [IF 1; IFs x; IG (hp_vk_cm_u_vec vk); IG (hp_vk_cm_w_vec vk); IG (hp_vk_cm_v_vec vk);
  IG (hp_vk_cm_y_vec vk); IG cm_w_vec_1; IG cm_s_vec; IG cm_h_vec; IG cm_r_vec_tilde].
(** snarks/voproof_hpr.rs:1054-1067 challenge [omega] of verify *)
Definition hp_v_ch_omega (vk : hp_vk) (x : list F) (cm_w_vec_1 cm_s_vec cm_h_vec cm_r_vec_tilde
  cm_t_vec : G1) : F := H [IF 1; IFs x; IG (hp_vk_cm_u_vec vk); IG (hp_vk_cm_w_vec vk); IG
  (hp_vk_cm_v_vec vk); IG (hp_vk_cm_y_vec vk); IG cm_w_vec_1; IG cm_s_vec; IG cm_h_vec; IG
  cm_r_vec_tilde; IG cm_t_vec].
(** snarks/voproof_hpr.rs:1068-1083 challenge [z] of verify *)
Definition hp_v_ch_z (vk : hp_vk) (x : list F) (cm_w_vec_1 cm_s_vec cm_h_vec cm_r_vec_tilde cm_t_vec
  cm_h_vec_2 cm_h_vec_3 : G1) : F := H [IF 1; IFs x; IG (hp_vk_cm_u_vec vk); IG (hp_vk_cm_w_vec vk);
  IG (hp_vk_cm_v_vec vk); IG (hp_vk_cm_y_vec vk); IG cm_w_vec_1; IG cm_s_vec; IG cm_h_vec; IG
  cm_r_vec_tilde; IG cm_t_vec; IG cm_h_vec_2; IG cm_h_vec_3].
(** snarks/voproof_hpr.rs:1222-1242 challenge [rand_xi] of verify *)
Definition hp_v_ch_rand_xi (vk : hp_vk) (x : list F) (cm_w_vec_1 cm_s_vec cm_h_vec cm_r_vec_tilde
  cm_t_vec cm_h_vec_2 cm_h_vec_3 cm_g : G1) (omega y y_1 z : F) : F := H [IF 1; IFs x; IG
  (hp_vk_cm_u_vec vk); IG (hp_vk_cm_w_vec vk); IG (hp_vk_cm_v_vec vk); IG (hp_vk_cm_y_vec vk); IG
  cm_w_vec_1; IG cm_s_vec; IG cm_h_vec; IG cm_r_vec_tilde; IG cm_t_vec; IG cm_h_vec_2; IG
  cm_h_vec_3; IG cm_g; IF (omega / z); IF y; IF y_1; IF z].
(** snarks/voproof_hpr.rs:1243-1263 challenge [rand_xi_2] of verify *)
Definition hp_v_ch_rand_xi_2 (vk : hp_vk) (x : list F) (cm_w_vec_1 cm_s_vec cm_h_vec cm_r_vec_tilde
  cm_t_vec cm_h_vec_2 cm_h_vec_3 cm_g : G1) (omega y y_1 z : F) : F := H [IF (1 + 1); IFs x; IG
  (hp_vk_cm_u_vec vk); IG (hp_vk_cm_w_vec vk); IG (hp_vk_cm_v_vec vk); IG (hp_vk_cm_y_vec vk); IG
  cm_w_vec_1; IG cm_s_vec; IG cm_h_vec; IG cm_r_vec_tilde; IG cm_t_vec; IG cm_h_vec_2; IG
  cm_h_vec_3; IG cm_g; IF (omega / z); IF y; IF y_1; IF z].
(** snarks/voproof_hpr.rs:887-913 [cm_g] *)
Definition hp_p_cm_g (vk : hp_vk) (q : hp_ctx) (cm_w_vec_1 cm_s_vec cm_h_vec cm_r_vec_tilde cm_t_vec
  cm_h_vec_2 cm_h_vec_3 : G1) : G1 := commitment_linear_combination (vk_g (hp_vk_kzg_vk vk))
  (hp_p_c_36 q) [(cm_s_vec, (hp_p_c_35 q)); (cm_h_vec, (hp_p_c_37 q)); ((hp_vk_cm_w_vec vk),
  (hp_p_c_38 q)); ((hp_vk_cm_u_vec vk), (hp_p_c_39 q)); ((hp_vk_cm_y_vec vk), (hp_p_c_40 q));
  (cm_w_vec_1, (hp_p_c_41 q)); ((hp_vk_cm_v_vec vk), (hp_p_c_42 q)); (cm_r_vec_tilde,
  (hp_p_c_43 q)); (cm_t_vec, (hp_p_c_44 q)); (cm_h_vec_2, (hp_p_c_45 q)); (cm_h_vec_3,
  (hp_p_c_46 q))].
(** snarks/voproof_hpr.rs:1193-1219 [cm_g] *)
Definition hp_v_cm_g (vk : hp_vk) (q : hp_ctx) (cm_w_vec_1 cm_s_vec cm_h_vec cm_r_vec_tilde cm_t_vec
  cm_h_vec_2 cm_h_vec_3 : G1) : G1 := commitment_linear_combination (vk_g (hp_vk_kzg_vk vk))
  (hp_v_c_36 q) [(cm_s_vec, (hp_v_c_35 q)); (cm_h_vec, (hp_v_c_37 q)); ((hp_vk_cm_w_vec vk),
  (hp_v_c_38 q)); ((hp_vk_cm_u_vec vk), (hp_v_c_39 q)); ((hp_vk_cm_y_vec vk), (hp_v_c_40 q));
  (cm_w_vec_1, (hp_v_c_41 q)); ((hp_vk_cm_v_vec vk), (hp_v_c_42 q)); (cm_r_vec_tilde,
  (hp_v_c_43 q)); (cm_t_vec, (hp_v_c_44 q)); (cm_h_vec_2, (hp_v_c_45 q)); (cm_h_vec_3,
  (hp_v_c_46 q))].

(** lines 51-58 [get_max_degree] *)
Definition hp_get_max_degree (size : HPRSize) : nat :=
  5 * hs_ncols size + 2 * hs_adensity size + 2 * hs_bdensity size + 2 * hs_cdensity size
  + 2 * hs_ddensity size + 2.

(** lines 70-73 [setup]: KZG setup with the sampled trapdoor and generators *)
Definition hp_setup (size : nat) (beta : F) (g : G1) (h : G2) := setup size beta g h.

(** lines 75-151 [index] *)
Definition hp_index (pp : universal_params G1 G2) (cs : HPR F) : outcome error (hp_pk * hp_vk) :=
  let! size := hpr_get_size cs in
  let max_degree := hp_get_max_degree size in
  let cap_d := length (up_powers_of_g pp) in
  let! _ := assert_ (max_degree <? cap_d)%nat in
  let powers_of_g := up_powers_of_g pp in
  let cap_s := (Z.of_nat (hs_adensity size) + Z.of_nat (hs_bdensity size)
                + Z.of_nat (hs_cdensity size) + Z.of_nat (hs_ddensity size))%Z in
  let cap_m_mat := concat_matrix_horizontally (hs_ncols size) (h_arows cs) (h_brows cs) (h_crows cs)
                     (h_acols cs) (h_bcols cs) (h_ccols cs) (h_avals cs) (h_bvals cs) (h_cvals cs)
                     (h_drows cs) (h_dvals cs) in
  let u_vec := int_array_to_power_vector (fst (fst cap_m_mat)) gamma in
  let w_vec := int_array_to_power_vector (snd (fst cap_m_mat)) gamma in
  let v_vec := snd cap_m_mat in
  let y_vec := hadamard_vector u_vec w_vec in
  let! cm_u_vec := commit_vector powers_of_g u_vec cap_s in
  let! cm_w_vec := commit_vector powers_of_g w_vec cap_s in
  let! cm_v_vec := commit_vector powers_of_g v_vec cap_s in
  let! cm_y_vec := commit_vector powers_of_g y_vec cap_s in
  let! kvk := kzg_vk pp in
  let vk := mkHPVK cm_u_vec cm_w_vec cm_v_vec cm_y_vec kvk size cap_d in
  Ok (mkHPPK vk powers_of_g max_degree cap_m_mat u_vec w_vec v_vec y_vec, vk).

(** lines 153-165 of [prove], 981-1002 of [verify] *)
Definition hp_pub_of (vk : hp_vk) (x : list F) : hp_pub :=
  let size := hp_vk_size vk in
  mkHPPub (Z.of_nat (hs_nrows size)) (Z.of_nat (hs_ncols size)) (Z.of_nat (hs_adensity size))
          (Z.of_nat (hs_bdensity size)) (Z.of_nat (hs_cdensity size))
          (Z.of_nat (hs_ddensity size)) (Z.of_nat (hp_vk_degree_bound vk)) gamma x.

(** lines 166-175: the three witness parts concatenated, padded, randomized and committed *)
Definition hp_round1 (pk : hp_pk) (x : list F) (w : list F * list F * list F) (delta_vec : list F)
  : outcome error (hp_s1 * G1) :=
  let e := hp_pub_of (hp_pk_verifier_key pk) x in
  let '(wa, wb, wc) := w in
  let! w_vec_1 := zero_pad_and_concat (vector_concat [wa; wb; wc]) (Z.to_nat (hp_vovectorsize e)) [delta_vec] in
  let! cm_w_vec_1 := commit_vector (hp_pk_powers pk) w_vec_1 (hp_vovectorsize e + 1)%Z in
  Ok (mkHPS1 e (hp_pk_u_vec pk) (hp_pk_w_vec pk) (hp_pk_v_vec pk) (hp_pk_y_vec pk) w_vec_1, cm_w_vec_1).

(** lines 187-195 *)
Definition hp_round2 (pk : hp_pk) (e : hp_s2) : outcome error (list F * G1) :=
  let! c_vec := left_sparse_mvp (hp_pk_cap_m_mat pk) (hp_r_vec e) (hp_cap_h e) (3 * hp_cap_k e + 1)%Z in
  let s_vec := concat_neg_vector (hp_r_vec e) c_vec in
  let! cm_s_vec := commit_vector (hp_pk_powers pk) s_vec (hp_cap_h e + 3 * hp_cap_k e + 1)%Z in
  Ok (s_vec, cm_s_vec).

(** lines 207-214 *)
Definition hp_round3 (pk : hp_pk) (e : hp_s3) : outcome error (list F * G1) :=
  let! cm_h_vec := commit_vector (hp_pk_powers pk) (hp_h_val e) (3 * hp_cap_k e + hp_ell e + 1)%Z in
  Ok (hp_h_val e, cm_h_vec).

(** lines 227-252 *)
Definition hp_round4 (pk : hp_pk) (e : hp_s4) (delta_vec_1 : list F) : outcome error (list F * G1) :=
  let r_vec_tilde := vector_concat [hp_r_acc e; delta_vec_1] in
  let! cm_r_vec_tilde := commit_vector (hp_pk_powers pk) r_vec_tilde (hp_vovectorsize e + 1)%Z in
  Ok (r_vec_tilde, cm_r_vec_tilde).

(** lines 270-347 *)
Definition hp_round5 (pk : hp_pk) (e : hp_s5) (delta_vec_2 : list F) : outcome error (list F * G1) :=
  let t_vec := vector_concat [delta_vec_2; hp_t_vec_tail e] in
  let! cm_t_vec := commit_vector (hp_pk_powers pk) t_vec (hp_maxshift e + 2)%Z in
  Ok (t_vec, cm_t_vec).

(** lines 362-721; the division of c_13 panics when its divisor is zero, and [vector_power_mul!] of
    line 447-452 overflows (a panic in the debug profile) when its length argument is negative *)
Definition hp_round6 (pk : hp_pk) (e : hp_s6) : outcome error (G1 * G1) :=
  let! _ := nonzero (hp_gamma e * hp_omega e) in
  let! _ := assert_ (0 <=? - hp_cap_h e + hp_ell e)%Z in
  let! cm_h_vec_2 := commit_vector (hp_pk_powers pk) (hp_h_vec_2 e) (hp_cap_d e) in
  let! cm_h_vec_3 := commit_vector (hp_pk_powers pk) (hp_h_vec_3 e) (hp_maxshift e + hp_vovectorsize e)%Z in
  Ok (cm_h_vec_2, cm_h_vec_3).

(** lines 738-745 *)
Definition hp_ctx_of (e : hp_s6) (z : F) : hp_ctx :=
  mkHPCtx e (hp_mu e) (hp_nu e) (hp_beta e) (hp_alpha e) (hp_omega e) z (hp_y e z) (hp_y_1 e z).

(** lines 738-917: the combined polynomial, checked to vanish at z *)
Definition hp_round7 (e : hp_s6) (z : F) : outcome error (hp_ctx * list F) :=
  let q := hp_ctx_of e z in
  let! _ := hp_divisors q in
  let! g_vec := hp_g_vec e q in
  let! _ := check_poly_eval (strip g_vec) z 0 in
  Ok (q, g_vec).

(** lines 152-979 [prove]; the three randomizer vectors are sampled with one element each *)
Definition hp_prove (pk : hp_pk) (x : list F) (w : list F * list F * list F) (delta delta_1 delta_2 : F)
  : outcome error hp_proof :=
  let vk := hp_pk_verifier_key pk in
  let! (s1, cm_w_vec_1) := hp_round1 pk x w [delta] in
  let s2 := mkHPS2 s1 (hp_p_ch_mu vk x cm_w_vec_1) in
  let! (s_vec, cm_s_vec) := hp_round2 pk s2 in
  let s3 := mkHPS3 s2 s_vec (hp_p_ch_nu vk x cm_w_vec_1 cm_s_vec) in
  let! (h_vec, cm_h_vec) := hp_round3 pk s3 in
  let s4 := mkHPS4 s3 h_vec (hp_p_ch_beta vk x cm_w_vec_1 cm_s_vec cm_h_vec) in
  let! (r_vec_tilde, cm_r_vec_tilde) := hp_round4 pk s4 [delta_1] in
  let s5 := mkHPS5 s4 r_vec_tilde (hp_p_ch_alpha vk x cm_w_vec_1 cm_s_vec cm_h_vec cm_r_vec_tilde) in
  let! (t_vec, cm_t_vec) := hp_round5 pk s5 [delta_2] in
  let omega := hp_p_ch_omega vk x cm_w_vec_1 cm_s_vec cm_h_vec cm_r_vec_tilde cm_t_vec in
  let s6 := mkHPS6 s5 t_vec omega in
  let! (cm_h_vec_2, cm_h_vec_3) := hp_round6 pk s6 in
  let z := hp_p_ch_z vk x cm_w_vec_1 cm_s_vec cm_h_vec cm_r_vec_tilde cm_t_vec cm_h_vec_2 cm_h_vec_3 in
  let! (q, g_vec) := hp_round7 s6 z in
  let cm_g := hp_p_cm_g vk q cm_w_vec_1 cm_s_vec cm_h_vec cm_r_vec_tilde cm_t_vec cm_h_vec_2 cm_h_vec_3 in
  let y := hp_q_y q in
  let y_1 := hp_q_y_1 q in
  let rand_xi := hp_p_ch_rand_xi vk x cm_w_vec_1 cm_s_vec cm_h_vec cm_r_vec_tilde cm_t_vec
                   cm_h_vec_2 cm_h_vec_3 cm_g omega y y_1 z in
  let rand_xi_2 := hp_p_ch_rand_xi_2 vk x cm_w_vec_1 cm_s_vec cm_h_vec cm_r_vec_tilde cm_t_vec
                   cm_h_vec_2 cm_h_vec_3 cm_g omega y y_1 z in
  let! (cap_w, cap_w_1) := batch_open (hp_pk_powers pk) [strip h_vec; strip (hp_w_vec_1 s6)]
                             [strip g_vec] (omega / z) z rand_xi rand_xi_2 in
  Ok (mkHPProof cm_w_vec_1 cm_s_vec cm_h_vec cm_r_vec_tilde cm_t_vec cm_h_vec_2 cm_h_vec_3
        y y_1 cap_w cap_w_1).

(** lines 980-1287 [verify]; [randomizer] is the random scalar of [batch_check] *)
Definition hp_verify (vk : hp_vk) (x : list F) (pf : hp_proof) (randomizer : F)
  : outcome error unit :=
  let cm_w_vec_1 := hp_cm_w_vec_1 pf in
  let cm_s_vec := hp_cm_s_vec pf in
  let cm_h_vec := hp_cm_h_vec pf in
  let cm_r_vec_tilde := hp_cm_r_vec_tilde pf in
  let cm_t_vec := hp_cm_t_vec pf in
  let cm_h_vec_2 := hp_cm_h_vec_2 pf in
  let cm_h_vec_3 := hp_cm_h_vec_3 pf in
  let y := hp_pf_y pf in
  let y_1 := hp_pf_y_1 pf in
  let mu := hp_v_ch_mu vk x cm_w_vec_1 in
  let nu := hp_v_ch_nu vk x cm_w_vec_1 cm_s_vec in
  let beta := hp_v_ch_beta vk x cm_w_vec_1 cm_s_vec cm_h_vec in
  let alpha := hp_v_ch_alpha vk x cm_w_vec_1 cm_s_vec cm_h_vec cm_r_vec_tilde in
  let omega := hp_v_ch_omega vk x cm_w_vec_1 cm_s_vec cm_h_vec cm_r_vec_tilde cm_t_vec in
  let z := hp_v_ch_z vk x cm_w_vec_1 cm_s_vec cm_h_vec cm_r_vec_tilde cm_t_vec cm_h_vec_2 cm_h_vec_3 in
  let q := mkHPCtx (hp_pub_of vk x) mu nu beta alpha omega z y y_1 in
  let! _ := hp_divisors q in
  let cm_g := hp_v_cm_g vk q cm_w_vec_1 cm_s_vec cm_h_vec cm_r_vec_tilde cm_t_vec cm_h_vec_2 cm_h_vec_3 in
  let z1 := omega / z in
  let z2 := z in
  let rand_xi := hp_v_ch_rand_xi vk x cm_w_vec_1 cm_s_vec cm_h_vec cm_r_vec_tilde cm_t_vec
                   cm_h_vec_2 cm_h_vec_3 cm_g omega y y_1 z in
  let rand_xi_2 := hp_v_ch_rand_xi_2 vk x cm_w_vec_1 cm_s_vec cm_h_vec cm_r_vec_tilde cm_t_vec
                   cm_h_vec_2 cm_h_vec_3 cm_g omega y y_1 z in
  if batch_check (hp_vk_kzg_vk vk) [cm_h_vec; cm_w_vec_1] [cm_g] z1 z2 rand_xi rand_xi_2
       [y; y_1] [0] (hp_cap_w pf) (hp_cap_w_1 pf) randomizer
  then Ok tt else Err VerificationFail.

End HP.
Arguments hp_pub F : clear implicits.
Arguments hp_s1 F : clear implicits.
Arguments hp_s2 F : clear implicits.
Arguments hp_s3 F : clear implicits.
Arguments hp_s4 F : clear implicits.
Arguments hp_s5 F : clear implicits.
Arguments hp_s6 F : clear implicits.
Arguments hp_ctx F : clear implicits.
Arguments hp_vk G1 G2 : clear implicits.
Arguments hp_pk F G1 G2 : clear implicits.
Arguments hp_proof F G1 : clear implicits.

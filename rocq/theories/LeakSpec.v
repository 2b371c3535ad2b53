(** LeakSpec.v: a public test for guesses of a committed vector. *)
From Verif Require Import Base Spec Tools CS KZG Snark PovPE Pov R1 RP HP SoundSpec.
Local Open Scope F_scope.

Section LeakSpec.
Context {F G1 G2 GT : Type} {fo : FieldOps F} {po : PairingOps F G1 G2 GT}.

(** Given the commitment c of a vector of length n extended by one unknown blinding scalar, and the
    value y of the extended vector (as a polynomial) at the point r: does the vector [guess], padded
    with zeros, fit?  The value determines the blinding scalar, and with it the commitment. *)
Definition guess_test (powers : list G1) (n : nat) (c : G1) (r y : F) (guess : list F) : bool :=
  match zero_pad (E:=error) guess n with
  | Ok p => match commit_vector powers (p ++ [(y - peval p r) / fpow r n]) (Z.of_nat n + 1) with
            | Ok c' => veqb c' c
            | _ => false
            end
  | _ => false
  end.

(** Two vectors are the same up to trailing zeros. *)
Definition same_vector (u v : list F) : Prop := forall i, coef u i = coef v i.

(** The proofs of a witness -- made with any hash function and any blinding scalars -- allow anyone to
    test guesses of it: the test accepts the witness, and any different witness is rejected unless the
    point at which the vector is revealed, a quotient of two challenges, is one of n values. *)
Definition guesses_testable {W Pf : Type} (n : nat) (differ : W -> W -> Prop)
  (proves : (list (item F G1) -> F) -> W -> Pf -> Prop) (point : (list (item F G1) -> F) -> Pf -> F)
  (test : (list (item F G1) -> F) -> Pf -> W -> bool) : Prop :=
  (forall H w pf, proves H w pf -> point H pf <> 0 -> test H pf w = true) /\
  (forall w w', differ w w' ->
     most n (fun r => forall H pf, proves H w pf -> point H pf = r -> r <> 0 -> test H pf w' = false)).
(** The point omega / z at which a proof reveals a value of the committed vector, computed from the
    proof as the verifiers do. *)
Definition pv_point (H : list (item F G1) -> F) (vk : pv_vk G1 G2) (x : @POVInstance F) (pf : pv_proof F G1) : F :=
  pv_v_ch_omega H vk x (pv_cm_w_vec pf) (pv_cm_r_vec pf) (pv_cm_t_vec_1 pf) /
  pv_v_ch_z H vk x (pv_cm_w_vec pf) (pv_cm_r_vec pf) (pv_cm_t_vec_1 pf) (pv_cm_h_vec_1 pf) (pv_cm_h_vec_2 pf).
Definition pe_point (H : list (item F G1) -> F) (vk : pe_vk G1 G2) (x : @POVInstance F) (pf : pe_proof F G1) : F :=
  pe_v_ch_omega H vk x (pe_cm_u_vec pf) (pe_cm_v_vec pf) (pe_cm_r_vec pf) (pe_cm_t_vec_1 pf) /
  pe_v_ch_z H vk x (pe_cm_u_vec pf) (pe_cm_v_vec pf) (pe_cm_r_vec pf) (pe_cm_t_vec_1 pf) (pe_cm_h_vec_1 pf) (pe_cm_h_vec_2 pf).
Definition r1_point (H : list (item F G1) -> F) (vk : r1_vk G1 G2) (x : list F) (pf : r1_proof F G1) : F :=
  r1_v_ch_omega H vk x (r1_cm_u_vec_1 pf) (r1_cm_s_vec pf) (r1_cm_h_vec pf) (r1_cm_r_vec_tilde pf) (r1_cm_t_vec pf) /
  r1_v_ch_z H vk x (r1_cm_u_vec_1 pf) (r1_cm_s_vec pf) (r1_cm_h_vec pf) (r1_cm_r_vec_tilde pf) (r1_cm_t_vec pf)
    (r1_cm_h_vec_2 pf) (r1_cm_h_vec_3 pf).
Definition rp_point (H : list (item F G1) -> F) (vk : rp_vk G1 G2) (x : list F) (pf : rp_proof F G1) : F :=
  rp_v_ch_omega H vk x (rp_cm_y_vec_1 pf) (rp_cm_w_vec pf) (rp_cm_r_vec pf) (rp_cm_c_vec pf) (rp_cm_rnu_vec pf)
    (rp_cm_t_vec pf) (rp_cm_r_vec_tilde pf) (rp_cm_t_vec_1 pf) /
  rp_v_ch_z H vk x (rp_cm_y_vec_1 pf) (rp_cm_w_vec pf) (rp_cm_r_vec pf) (rp_cm_c_vec pf) (rp_cm_rnu_vec pf)
    (rp_cm_t_vec pf) (rp_cm_r_vec_tilde pf) (rp_cm_t_vec_1 pf) (rp_cm_h_vec_1 pf) (rp_cm_h_vec_2 pf).
Definition hp_point (H : list (item F G1) -> F) (vk : hp_vk G1 G2) (x : list F) (pf : hp_proof F G1) : F :=
  hp_v_ch_omega H vk x (hp_cm_w_vec_1 pf) (hp_cm_s_vec pf) (hp_cm_h_vec pf) (hp_cm_r_vec_tilde pf) (hp_cm_t_vec pf) /
  hp_v_ch_z H vk x (hp_cm_w_vec_1 pf) (hp_cm_s_vec pf) (hp_cm_h_vec pf) (hp_cm_r_vec_tilde pf) (hp_cm_t_vec pf)
    (hp_cm_h_vec_2 pf) (hp_cm_h_vec_3 pf).

(** The tests, from the public keys, the instance, the proof and a guessed witness. *)
Definition pv_test (pk : pv_pk F G1 G2) (x : @POVInstance F) (H : list (item F G1) -> F) (pf : pv_proof F G1) (w : @POVWitness F) : bool :=
  let vk := pv_pk_verifier_key pk in let '(a, b, c) := w in
  guess_test (pv_pk_powers pk) (3 * ps_n (pv_vk_size vk)) (pv_cm_w_vec pf) (pv_point H vk x pf) (pv_pf_y pf) (a ++ b ++ c).
(** the left operands, and the right operands of the multiplication gates *)
Definition pe_left (size : POVSize) (w : @POVWitness F) : list F :=
  let '(a, b, c) := w in firstn (ps_n size) a ++ firstn (ps_nmul size) b.
Definition pe_test (pk : pe_pk F G1 G2) (x : @POVInstance F) (H : list (item F G1) -> F) (pf : pe_proof F G1) (w : @POVWitness F) : bool :=
  let vk := pe_pk_verifier_key pk in
  guess_test (pe_pk_powers pk) (3 * ps_n (pe_vk_size vk)) (pe_cm_u_vec pf) (pe_point H vk x pf) (pe_pf_y pf) (pe_left (pe_vk_size vk) w).
(** the products of the rows of the three matrices, in the order of the proving key, with (1, x, w) *)
Definition rows_times (h k : nat) (M : list nat * list nat * list F) (x w : list F) : option (list F) :=
  let '(rows, cols, vals) := M in
  match sparse_mvp (E:=error) (3 * Z.of_nat h) (Z.of_nat k) rows cols vals ([1] ++ x ++ w) with Ok v => Some v | _ => None end.
Definition r1_test (pk : r1_pk F G1 G2) (x : list F) (H : list (item F G1) -> F) (pf : r1_proof F G1) (w : list F) : bool :=
  let vk := r1_pk_verifier_key pk in let size := r1_vk_size vk in
  match rows_times (rs_nrows size) (rs_ncols size) (r1_pk_cap_m_mat pk) x w with
  | Some v => guess_test (r1_pk_powers pk) (rs_ncols size + rs_adensity size + rs_bdensity size + rs_cdensity size)
      (r1_cm_u_vec_1 pf) (r1_point H vk x pf) (r1_pf_y_1 pf) (v ++ [1] ++ x ++ w)
  | None => false
  end.
Definition rp_test (pk : rp_pk F G1 G2) (x : list F) (H : list (item F G1) -> F) (pf : rp_proof F G1) (w : list F) : bool :=
  let vk := rp_pk_verifier_key pk in let size := rp_vk_size vk in
  match rows_times (rs_nrows size) (rs_ncols size) (rp_pk_cap_m_mat pk) x w with
  | Some v => guess_test (rp_pk_powers pk) (rs_adensity size + rs_bdensity size + rs_cdensity size)
      (rp_cm_y_vec_1 pf) (rp_point H vk x pf) (rp_pf_y_1 pf) v
  | None => false
  end.
Definition hp_test (pk : hp_pk F G1 G2) (x : list F) (H : list (item F G1) -> F) (pf : hp_proof F G1) (w : list F * list F * list F) : bool :=
  let vk := hp_pk_verifier_key pk in let size := hp_vk_size vk in let '(wa, wb, wc) := w in
  guess_test (hp_pk_powers pk) (3 * hs_ncols size + hs_adensity size + hs_bdensity size + hs_cdensity size + hs_ddensity size + 1)
    (hp_cm_w_vec_1 pf) (hp_point H vk x pf) (hp_pf_y_1 pf) (wa ++ wb ++ wc).
End LeakSpec.

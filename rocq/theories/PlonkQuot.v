(** PlonkQuot.v: model of the quotient polynomial of plonk-core (plonk-core/src/proof_system/quotient_poly.rs)
    and of the rounds of the prover up to it (plonk-core/src/proof_system/prover.rs:165-431).
    Polynomials are lists of coefficients. The Fourier transforms of ark-poly are modelled by their
    definition: evaluation at the points of the domain or of its coset, and the inverse formula. *)
From Verif Require Import Base Tools KZG Plonk PlonkSpec PlonkPI PlonkProver.
Local Open Scope F_scope.

(** plonk-core/src/error.rs [Error::InvalidEvalDomainSize], the only error of these functions *)
Inductive quot_error := InvalidEvalDomainSize.
(** results of functions that return no error, and [unwrap] on those that do *)
Definition lift {E E' A} (o : outcome E A) : outcome E' A := match o with Ok a => Ok a | _ => Panic end.

Section PlonkQuot.
Context {F : Type} {fo : FieldOps F} {po : PrimeFieldOps F}.

(** ark-poly [EvaluationDomain::ifft]: the input is resized to the domain, which is generated by [omega] *)
Definition ifft (omega : F) (n : nat) (v : list F) : list F :=
  map (fun i => finv (from_Z (Z.of_nat n)) * sumn n (fun j => nth j v 0 * fpow (finv omega) (i * j))) (seq 0 n).
(** ark-poly [coset_fft] and [coset_ifft]; [g]: the generator of the multiplicative group, [eta]: of the domain of size m *)
Definition coset_fft (g eta : F) (m : nat) (l : list F) : list F := map (fun i => peval l (g * fpow eta i)) (seq 0 m).
Definition coset_ifft (g eta : F) (m : nat) (v : list F) : list F :=
  map (fun i => nth i (ifft eta m v) 0 * fpow (finv g) i) (seq 0 m).

(** the challenges of the prover *)
Record chal := mk_chal { ch_zeta : F; ch_beta : F; ch_gamma : F; ch_delta : F; ch_eps : F; ch_alpha : F; ch_seps : seps F; ch_lookup : F }.
(** the values of all polynomials at a point, and at the next one where they are used *)
Record point := mk_point { p_x : F; p_l1 : F; p_sel : sel F; p_pi : F; p_v : vals F; p_sl : F; p_sr : F; p_so : F; p_sf : F; p_z : F; p_z' : F;
  p_f : F; p_t : F; p_t' : F; p_h1 : F; p_h1' : F; p_h2 : F; p_z2 : F; p_z2' : F }.
(** quotient_poly.rs:193-196: the numerator, with the terms of quotient_poly.rs:209-329 and of widget/lookup.rs:43-152 *)
Definition numerator (ca cd : F) (ch : chal) (p : point) : outcome error F :=
  let! l := lookup_term (ch_delta ch) (ch_eps ch) (ch_zeta ch) (ch_lookup ch) (q_lookup (p_sel p)) (p_v p)
              (p_f p) (p_t p) (p_t' p) (p_h1 p) (p_h1' p) (p_h2 p) (p_z2 p) (p_z2' p) (p_l1 p) in
  Ok (gate_term ca cd (ch_seps ch) (p_sel p) (p_pi p) (p_v p)
      + permutation_term (ch_alpha ch) (ch_beta ch) (ch_gamma ch) (p_x p) (p_l1 p) (p_v p)
          (p_sl p) (p_sr p) (p_so p) (p_sf p) (p_z p) (p_z' p)
      + l).

(** the polynomials of the key and of the prover *)
Record key := mk_key { k_sel : sel (list F); k_sigma : column -> list F }.
Record polys := mk_polys { P_w : column -> list F; P_pi : list F; P_z : list F; P_z2 : list F; P_f : list F; P_t : list F; P_h1 : list F; P_h2 : list F }.
Definition sel_map {A B} (f : A -> B) (s : sel A) : sel B :=
  mkSel (f (q_m s)) (f (q_l s)) (f (q_r s)) (f (q_o s)) (f (q_4 s)) (f (q_c s)) (f (q_hl s)) (f (q_hr s)) (f (q_h4 s))
    (f (q_arith s)) (f (q_range s)) (f (q_logic s)) (f (q_fixed s)) (f (q_var s)) (f (q_lookup s)).
(** quotient_poly.rs:338-350 [compute_first_lagrange_poly_scaled]; the scaling of the values by alpha^2 is in [permutation_term] *)
Definition l1_poly (omega : F) (n : nat) : list F := ifft omega n (1 :: repeat 0 (n - 1)).
(** preprocess.rs:463-483 [compute_vanishing_poly_over_coset] *)
Definition v_h (g eta : F) (n i : nat) : F := fpow g n * fpow eta (n * i) - 1.
(** quotient_poly.rs:34-205 [compute]; [eta]: the generator of the domain of size 8 n, if there is one.
    The evaluations of the key on the coset (preprocess.rs:181-235) are taken here. The vectors that are used at
    the next point are extended with their first eight elements, and read at i + 8. *)
Definition quotient (ca cd omega g : F) (eta : option F) (n : nat) (ch : chal) (k : key) (P : polys) : outcome quot_error (list F) :=
  match eta with
  | None => Err InvalidEvalDomainSize
  | Some eta =>
    let m := (8 * n)%nat in
    let ev l := coset_fft g eta m l in
    let ev' l := ev l ++ firstn 8 (ev l) in
    let at_ l i := nth i (ev l) 0 in
    let next l i := nth (i + 8) (ev' l) 0 in
    let value i := mk_point (at_ [0; 1] i) (at_ (l1_poly omega n) i) (sel_map (fun l => at_ l i) (k_sel k)) (at_ (P_pi P) i)
      (mk_vals (at_ (P_w P Left) i) (at_ (P_w P Right) i) (at_ (P_w P Output) i) (at_ (P_w P Fourth) i)
         (next (P_w P Left) i) (next (P_w P Right) i) (next (P_w P Fourth) i))
      (at_ (k_sigma k Left) i) (at_ (k_sigma k Right) i) (at_ (k_sigma k Output) i) (at_ (k_sigma k Fourth) i) (at_ (P_z P) i) (next (P_z P) i)
      (at_ (P_f P) i) (at_ (P_t P) i) (next (P_t P) i) (at_ (P_h1 P) i) (next (P_h1 P) i) (at_ (P_h2 P) i) (at_ (P_z2 P) i) (next (P_z2 P) i) in
    let! q := lift (map_out (fun i => let! nu := numerator ca cd ch (value i) in
                                      let! d := unwrap_opt (inverse (v_h g eta n i)) in Ok (nu * d)) (seq 0 m)) in
    Ok (coset_ifft g eta m q)
  end.
(** prover.rs:104-118 [split_tx_poly] *)
Definition split_tx_poly (n : nat) (t : list F) : list (list F) :=
  let buf := firstn (8 * n) t ++ repeat 0 (8 * n - length t) in
  map (fun k => firstn n (skipn (k * n) buf)) (seq 0 8).

(** preprocess.rs:297-420 [preprocess_shared]: the selectors, padded to the domain, and the permutation polynomials *)
Definition preprocess (omega : F) (n : nat) (c : composer F) (s : sigmas) : outcome error key :=
  let p f := ifft omega n (map f (c_sel c)) in
  let! sg := compute_sigma_polynomials omega n s in
  Ok (mk_key (mkSel (p q_m) (p q_l) (p q_r) (p q_o) (p q_4) (p q_c) (p q_hl) (p q_hr) (p q_h4) (p q_arith) (p q_range) (p q_logic)
        (p q_fixed) (p q_var) (p q_lookup)) (fun col => ifft omega n (sg col))).
(** prover.rs:120-123 [to_scalars] and prover.rs:184-188: the wires of a column, padded with zeros; [HashMap] indexing
    panics for a variable without a value, [n - len] for a circuit that is too large *)
Definition wire_values (n : nat) (vals : list F) (vars : list nat) : outcome error (list F) :=
  let! _ := assert_ (length vars <=? n)%nat in
  let! l := map_out (fun x => unwrap_opt (nth_error vals x)) vars in
  Ok (l ++ repeat 0 (n - length vars)).
Definition prover_wires (n : nat) (c : composer F) : outcome error (column -> list F) :=
  let! l := wire_values n (c_vals c) (c_wl c) in
  let! r := wire_values n (c_vals c) (c_wr c) in
  let! o := wire_values n (c_vals c) (c_wo c) in
  let! f := wire_values n (c_vals c) (c_w4 c) in
  Ok (fun col => match col with Left => l | Right => r | Output => o | Fourth => f end).
(** prover.rs:170-373, without the commitments and the transcript: the polynomials that are committed to, for given
    challenges; [sg]: the values of the permutation polynomials. The six assertions are prover.rs:309-315. *)
Definition prover_polys (omega : F) (n : nat) (c : composer F) (sg : column -> list F) (ch : chal) : outcome quot_error polys :=
  let zeta := ch_zeta ch in let beta := ch_beta ch in let gamma := ch_gamma ch in let dl := ch_delta ch in let eps := ch_eps ch in
  let! ws := lift (prover_wires n c) in
  let! _ := assert_ (length (c_sel c) <=? n)%nat in
  let qs := map q_lookup (c_sel c) ++ repeat 0 (n - length (c_sel c)) in
  let! r := lift (lookup_round n (c_table c) qs ws zeta) in
  let '(t, f, h1, h2) := r in
  let! _ := assert_ (negb (feqb beta gamma || feqb beta dl || feqb beta eps || feqb gamma dl || feqb gamma eps || feqb dl eps)) in
  let! z := lift (compute_permutation_poly omega n ws beta gamma sg) in
  let! z2 := lift (compute_lookup_permutation_poly n f t h1 h2 dl eps) in
  let! pi := lift (pi_evals (c_pi c) n) in
  let p := ifft omega n in
  Ok (mk_polys (fun col => p (ws col)) (p pi) (p z) (p z2) (p f) (p t) (p h1) (p h2)).
(** preprocess.rs and prover.rs:170-429: the quotient for given challenges *)
Definition prove_quotient (ca cd omega g : F) (eta : option F) (n : nat) (c : composer F) (s : sigmas) (ch : chal) : outcome quot_error (key * polys * list F) :=
  let! k := lift (preprocess omega n c s) in
  let! sg := lift (compute_sigma_polynomials omega n s) in
  let! P := prover_polys omega n c sg ch in
  let! t := quotient ca cd omega g eta n ch k P in
  Ok (k, P, t).
End PlonkQuot.
Arguments chal : clear implicits.
Arguments point : clear implicits.
Arguments key : clear implicits.
Arguments polys : clear implicits.

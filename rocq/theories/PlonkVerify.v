(** PlonkVerify.v: model of the linearisation polynomial and of the verifier of plonk-core
    (plonk-core/src/proof_system/linearisation_poly.rs, proof.rs, and the functions of the widgets that they call).
    Simplifications: a commitment is the polynomial that it commits to, so that [PC::multi_scalar_mul] is the linear
    combination of the polynomials, and [PC::check] is the equation that the KZG check of ark-poly-commit
    establishes: the combination of the polynomials with the powers of the opening challenge has the combined
    value at the point. The challenges are arguments. *)
From Verif Require Import Base Tools KZG Plonk PlonkSpec PlonkPI PlonkProver PlonkQuot.
From Coq Require Import String.
Local Open Scope F_scope.

(** error.rs [InvalidEvalDomainSize], [ProofVerificationError] *)
Inductive verify_error := NoDomain | ProofVerificationError.

Section PlonkVerify.
Context {F : Type} {fo : FieldOps F} {po : PrimeFieldOps F}.

(** linearisation_poly.rs:34-158 [ProofEvaluations] with [WireEvaluations], [PermutationEvaluations], [LookupEvaluations]
    and [CustomEvaluations], the last as a list of labels and values *)
Record evals := mk_evals { e_a : F; e_b : F; e_c : F; e_d : F; e_sl : F; e_sr : F; e_so : F; e_perm : F;
  e_qlookup : F; e_z2n : F; e_h1 : F; e_h1n : F; e_h2 : F; e_f : F; e_t : F; e_tn : F; e_custom : list (string * F) }.
(** linearisation_poly.rs:118-126 [get]: the first value with the label, or a panic *)
Definition get {E} (label : string) (l : list (string * F)) : outcome E F :=
  match find (fun p => String.eqb (fst p) label) l with Some p => Ok (snd p) | None => Panic end.
(** the custom values that prover and verifier read: [from_evaluations] of widget/range.rs:29-32, widget/logic.rs:36-48,
    widget/ecc/fixed_base_scalar_mul.rs:54-69 and widget/ecc/curve_addition.rs:35-44, and widget/arithmetic.rs:158 *)
Record custom := mk_custom { u_qarith : F; u_qc : F; u_ql : F; u_qr : F; u_an : F; u_bn : F; u_dn : F }.
Definition read_custom {E} (l : list (string * F)) : outcome E custom :=
  let! qa := get "q_arith_eval" l in let! qc := get "q_c_eval" l in let! ql := get "q_l_eval" l in let! qr := get "q_r_eval" l in
  let! an := get "a_next_eval" l in let! bn := get "b_next_eval" l in let! dn := get "d_next_eval" l in
  Ok (mk_custom qa qc ql qr an bn dn).
Definition eval_vals (e : evals) (u : custom) : vals F := mk_vals (e_a e) (e_b e) (e_c e) (e_d e) (u_an u) (u_bn u) (u_dn u).

(** linearisation_poly.rs:205-272: the evaluations that the prover sends *)
Definition honest_evals (omega : F) (k : key F) (P : polys F) (x : F) : evals :=
  let at_ l := peval l x in
  let next l := peval l (x * omega) in
  mk_evals (at_ (P_w P Left)) (at_ (P_w P Right)) (at_ (P_w P Output)) (at_ (P_w P Fourth))
    (at_ (k_sigma k Left)) (at_ (k_sigma k Right)) (at_ (k_sigma k Output)) (next (P_z P))
    (at_ (q_lookup (k_sel k))) (next (P_z2 P)) (at_ (P_h1 P)) (next (P_h1 P)) (at_ (P_h2 P)) (at_ (P_f P)) (at_ (P_t P)) (next (P_t P))
    [("q_arith_eval", at_ (q_arith (k_sel k))); ("q_c_eval", at_ (q_c (k_sel k))); ("q_l_eval", at_ (q_l (k_sel k))); ("q_r_eval", at_ (q_r (k_sel k)));
     ("q_hl_eval", at_ (q_hl (k_sel k))); ("q_hr_eval", at_ (q_hr (k_sel k))); ("q_h4_eval", at_ (q_h4 (k_sel k)));
     ("a_next_eval", next (P_w P Left)); ("b_next_eval", next (P_w P Right)); ("d_next_eval", next (P_w P Fourth))]%string.

(** proof.rs:623-637 [compute_first_lagrange_evaluation]; [zh]: x^n - 1. The unwrap fails at x = 1. *)
Definition first_lagrange {E} (n : nat) (zh x : F) : outcome E F :=
  let! d := unwrap_opt (inverse (from_Z (Z.of_nat n) * (x - 1))) in Ok (zh * d).
(** proof.rs:641-682 [compute_barycentric_eval]; [batch_inversion] leaves zeros as they are *)
Definition barycentric (omega : F) (n : nat) (v : list F) (x : F) : F :=
  let nu := (fpow x n - 1) * finv (from_Z (Z.of_nat n)) in
  let idx := filter (fun i => negb (feqb (nth i v 0) 0)) (seq 0 (List.length v)) in
  let inv0 y := match inverse y with Some z => z | None => 0 end in
  fold_left fadd (map (fun i => inv0 (fpow (finv omega) i * x - 1) * nth i v 0) idx) 0 * nu.

(** *** The prover *)
(** widget/arithmetic.rs:76-96 [compute_linearisation] *)
Definition arithmetic_lin (s : sel (list F)) (a b c d qa : F) : list F :=
  pscale qa (padd (padd (padd (padd (padd (padd (padd (padd
    (pscale (a * b) (q_m s)) (pscale a (q_l s))) (pscale b (q_r s))) (pscale c (q_o s))) (pscale d (q_4 s)))
    (pscale (fpow a 5) (q_hl s))) (pscale (fpow b 5) (q_hr s))) (pscale (fpow d 5) (q_h4 s))) (q_c s)).
(** linearisation_poly.rs:362-420 [compute_gate_constraint_satisfiability] and widget/mod.rs:83-94 [linearisation_term] *)
Definition gates_lin (ca cd : F) (e : seps F) (s : sel (list F)) (u : custom) (v : vals F) : list F :=
  padd (padd (padd (padd (arithmetic_lin s (v_a v) (v_b v) (v_c v) (v_d v) (u_qarith u))
    (pscale (range_constraints (s_range e) v) (q_range s)))
    (pscale (logic_constraints (s_logic e) (u_qc u) v) (q_logic s)))
    (pscale (fixed_constraints ca cd (s_fixed e) (u_ql u) (u_qr u) (u_qc u) v) (q_fixed s)))
    (pscale (var_constraints ca cd (s_var e) v) (q_var s)).
(** permutation.rs:155-296 [compute_linearisation] and the three functions that it calls;
    [evaluate_all_lagrange_coefficients(x)[0]] is the value of the first Lagrange polynomial *)
Definition permutation_lin (omega : F) (n : nat) (x alpha beta gamma a b c d sl sr so z' : F) (z sf : list F) : list F :=
  let bz := beta * x in
  let a1 := (a + bz + gamma) * (b + coset Right * bz + gamma) * (c + coset Output * bz + gamma) * (d + coset Fourth * bz + gamma) * alpha in
  let b1 := (a + beta * sl + gamma) * (b + beta * sr + gamma) * (c + beta * so + gamma) * (beta * z') * alpha in
  padd (padd (pscale a1 z) (pscale (- b1) sf)) (pscale (peval (l1_poly omega n) x * (alpha * alpha)) z).
(** widget/lookup.rs:155-203 [compute_linearisation] *)
Definition lookup_lin (l1 a b c d f t t' h1' h2 z2' dl eps zeta : F) (z2 h1 ql : list F) (sep : F) : outcome error (list F) :=
  let sep_sq := sep * sep in
  let sep_cu := sep * sep_sq in
  let one_plus := dl + 1 in
  let eps1 := eps * one_plus in
  let! tuple := lc [a; b; c; d] zeta in
  Ok (padd (padd (pscale ((tuple - f) * sep) ql)
        (pscale (one_plus * (eps + f) * (eps1 + t + dl * t') * sep_sq + l1 * sep_cu) z2))
        (pscale (- z2' * sep_sq * (eps1 + h2 + dl * h1')) h1)).
(** linearisation_poly.rs:161-360 [compute]; [ts]: the eight parts of the quotient *)
Definition linearisation (ca cd omega : F) (n : nat) (k : key F) (P : polys F) (ts : list (list F)) (ch : chal F) (x : F) : outcome error (list F * evals) :=
  let e := honest_evals omega k P x in
  let zh := fpow x n - 1 in
  let xn := zh + 1 in
  let! l1 := first_lagrange n zh x in
  let! u := read_custom (e_custom e) in
  let gates := gates_lin ca cd (ch_seps ch) (k_sel k) u (eval_vals e u) in
  let! lookup := lookup_lin l1 (e_a e) (e_b e) (e_c e) (e_d e) (e_f e) (e_t e) (e_tn e) (e_h1n e) (e_h2 e) (e_z2n e)
                   (ch_delta ch) (ch_eps ch) (ch_zeta ch) (P_z2 P) (P_h1 P) (q_lookup (k_sel k)) (ch_lookup ch) in
  let perm := permutation_lin omega n x (ch_alpha ch) (ch_beta ch) (ch_gamma ch) (e_a e) (e_b e) (e_c e) (e_d e) (e_sl e) (e_sr e) (e_so e) (e_perm e) (P_z P) (k_sigma k Fourth) in
  let t i := nth i ts [] in
  let q := pscale zh (fold_left (fun acc i => padd (pscale xn acc) (t i)) [6; 5; 4; 3; 2; 1; 0]%nat (t 7%nat)) in
  Ok (padd (padd (padd gates perm) lookup) (pscale (- (1)) q), e).

(** *** The verifier *)
(** commitment.rs:37-51 [multi_scalar_mul] *)
Definition multi_scalar_mul (sp : list (F * list F)) : list F := fold_right (fun p acc => padd (pscale (fst p) (snd p)) acc) [] sp.
(** the equation that [PC::check] establishes *)
Definition pc_check (comms : list (list F)) (x : F) (values : list F) (ch : F) : bool :=
  feqb (peval (map (fun l => peval l x) comms) ch) (peval values ch).
(** proof.rs:52-119 [Proof], without the openings, and the four commitments to the columns of the table (widget/mod.rs:137-160) *)
Record proof := mk_proof { pf_w : column -> list F; pf_z : list F; pf_z2 : list F; pf_f : list F; pf_h1 : list F; pf_h2 : list F; pf_t : list (list F); pf_evals : evals }.

(** proof.rs:432-487 [compute_r0] *)
Definition compute_r0 (omega : F) (n : nat) (pi : list F) (ch : chal F) (x l1 : F) (e : evals) : F :=
  let pi_eval := barycentric omega n pi x in
  let alpha := ch_alpha ch in let beta := ch_beta ch in let gamma := ch_gamma ch in let dl := ch_delta ch in let eps := ch_eps ch in
  let sep := ch_lookup ch in
  let sep_sq := sep * sep in
  let sep_cu := sep_sq * sep in
  let b_0 := e_a e + beta * e_sl e + gamma in
  let b_1 := e_b e + beta * e_sr e + gamma in
  let b_2 := e_c e + beta * e_so e + gamma in
  let b_3 := (e_d e + gamma) * e_perm e * alpha in
  let b := b_0 * b_1 * b_2 * b_3 in
  let c := l1 * (alpha * alpha) in
  let eps1 := eps * (1 + dl) in
  let d_0 := sep_sq * e_z2n e in
  let d_1 := eps1 + dl * e_h2 e in
  let d_2 := eps1 + e_h2 e + dl * e_h1n e in
  let d := d_0 * d_1 * d_2 in
  let e := sep_cu * l1 in
  pi_eval - b - c - d - e.
(** widget/arithmetic.rs:152-186 [compute_linearisation_commitment] *)
Definition arithmetic_comm (s : sel (list F)) (a b c d qa : F) : list (F * list F) :=
  [(a * b * qa, q_m s); (a * qa, q_l s); (b * qa, q_r s); (d * qa, q_4 s); (c * qa, q_o s);
   (fpow a 5 * qa, q_hl s); (fpow b 5 * qa, q_hr s); (fpow d 5 * qa, q_h4 s); (qa, q_c s)].
(** widget/lookup.rs:245-304 [compute_linearisation_commitment] *)
Definition lookup_comm (e : evals) (dl eps zeta sep l1 : F) (z2 h1 ql : list F) : outcome error (list (F * list F)) :=
  let one_plus := 1 + dl in
  let eps1 := eps * one_plus in
  let sep_sq := sep * sep in
  let sep_cu := sep_sq * sep in
  let! tuple := lc [e_a e; e_b e; e_c e; e_d e] zeta in
  Ok [((tuple - e_f e) * sep, ql);
      (one_plus * (eps + e_f e) * (eps1 + e_t e + dl * e_tn e) * sep_sq + l1 * sep_cu, z2);
      (- e_z2n e * sep_sq * (eps1 + e_h2 e + dl * e_h1n e), h1)].
(** permutation.rs:331-394 [compute_linearisation_commitment] *)
Definition permutation_comm (e : evals) (x alpha beta gamma l1 : F) (z sf : list F) : list (F * list F) :=
  let xx := (e_a e + beta * x + gamma) * (e_b e + beta * coset Right * x + gamma) * (e_c e + beta * coset Output * x + gamma)
            * ((e_d e + beta * coset Fourth * x + gamma) * alpha) in
  let y := - ((e_a e + beta * e_sl e + gamma) * (e_b e + beta * e_sr e + gamma) * (e_c e + beta * e_so e + gamma) * (beta * e_perm e * alpha)) in
  [(xx + l1 * (alpha * alpha), z); (y, sf)].
(** proof.rs:490-606 [compute_linearisation_commitment] and widget/mod.rs:98-124 [extend_linearisation_commitment] *)
Definition linearisation_commitment (ca cd : F) (n : nat) (k : key F) (pf : proof) (u : custom) (ch : chal F) (x l1 : F) : outcome error (list F) :=
  let e := pf_evals pf in
  let v := eval_vals e u in
  let sp := ch_seps ch in
  let! lookup := lookup_comm e (ch_delta ch) (ch_eps ch) (ch_zeta ch) (ch_lookup ch) l1 (pf_z2 pf) (pf_h1 pf) (q_lookup (k_sel k)) in
  let zh := fpow x n - 1 in
  let xn := zh + 1 in
  let t_1 := - zh in let t_2 := t_1 * xn in let t_3 := t_2 * xn in let t_4 := t_3 * xn in
  let t_5 := t_4 * xn in let t_6 := t_5 * xn in let t_7 := t_6 * xn in let t_8 := t_7 * xn in
  let t i := nth i (pf_t pf) [] in
  Ok (multi_scalar_mul (arithmetic_comm (k_sel k) (e_a e) (e_b e) (e_c e) (e_d e) (u_qarith u)
    ++ [(range_constraints (s_range sp) v, q_range (k_sel k)); (logic_constraints (s_logic sp) (u_qc u) v, q_logic (k_sel k));
        (fixed_constraints ca cd (s_fixed sp) (u_ql u) (u_qr u) (u_qc u) v, q_fixed (k_sel k)); (var_constraints ca cd (s_var sp) v, q_var (k_sel k))]
    ++ lookup
    ++ permutation_comm e x (ch_alpha ch) (ch_beta ch) (ch_gamma ch) l1 (pf_z pf) (k_sigma k Fourth)
    ++ [(t_1, t 0%nat); (t_2, t 1%nat); (t_3, t 2%nat); (t_4, t 3%nat); (t_5, t 4%nat); (t_6, t 5%nat); (t_7, t 6%nat); (t_8, t 7%nat)])).
(** proof.rs:121-430 [verify]; [omega]: the generator of the domain of size n, if there is one; [tables]: the commitments to
    the four columns of the table *)
Definition verify (ca cd : F) (omega : option F) (n : nat) (k : key F) (tables : list (list F)) (pub : list (nat * F)) (pf : proof)
    (ch : chal F) (x aw saw : F) : outcome verify_error unit :=
  match omega with
  | None => Err NoDomain
  | Some omega =>
    let beta := ch_beta ch in let gamma := ch_gamma ch in let dl := ch_delta ch in let eps := ch_eps ch in let zeta := ch_zeta ch in
    let e := pf_evals pf in
    let! _ := assert_ (negb (feqb beta gamma || feqb beta dl || feqb beta eps || feqb gamma dl || feqb gamma eps || feqb dl eps)) in
    let! l1 := first_lagrange n (fpow x n - 1) x in
    let! pi := lift (pi_evals pub n) in
    let r0 := compute_r0 omega n pi ch x l1 e in
    let! u := read_custom (e_custom e) in
    let! lin := lift (linearisation_commitment ca cd n k pf u ch x l1) in
    let zeta_sq := zeta * zeta in
    let table := multi_scalar_mul (combine [1; zeta; zeta_sq; zeta_sq * zeta] tables) in
    if pc_check [lin; k_sigma k Left; k_sigma k Right; k_sigma k Output; pf_f pf; pf_h2 pf; table; pf_w pf Left; pf_w pf Right; pf_w pf Output; pf_w pf Fourth]
         x [- r0; e_sl e; e_sr e; e_so e; e_f e; e_h2 e; e_t e; e_a e; e_b e; e_c e; e_d e] aw then
    if pc_check [pf_z pf; pf_w pf Left; pf_w pf Right; pf_w pf Fourth; pf_h1 pf; pf_z2 pf; table]
         (x * omega) [e_perm e; u_an u; u_bn u; u_dn u; e_h1n e; e_z2n e; e_tn e] saw then Ok tt
    else Err ProofVerificationError
    else Err ProofVerificationError
  end.
(** lookup/preprocess.rs:45-68 [preprocess]: the polynomials of the columns of the table *)
Definition table_polys (omega : F) (n : nat) (table : list (F * F * F * F)) : outcome error (list (list F)) :=
  let! cols := map_out (pad_set n) (table_columns table) in Ok (map (ifft omega n) cols).
(** prover.rs:460-620: the proof *)
Definition prove_evals (ca cd omega : F) (n : nat) (k : key F) (P : polys F) (t : list F) (ch : chal F) (x : F) : outcome error proof :=
  let ts := split_tx_poly n t in
  let! r := linearisation ca cd omega n k P ts ch x in
  Ok (mk_proof (P_w P) (P_z P) (P_z2 P) (P_f P) (P_h1 P) (P_h2 P) ts (snd r)).
End PlonkVerify.
Arguments evals : clear implicits.
Arguments custom : clear implicits.
Arguments proof : clear implicits.

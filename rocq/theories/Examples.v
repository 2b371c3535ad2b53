(** Examples.v: model of the example programs of voproof/src/main.rs.
    The random samples (trapdoor and generators of the setup, blinding scalars of the provers, the
    scalar of the verifier, the draws of the random system) are explicit arguments.  Printing is not
    modelled, except for the line "Verification pass" of [main]. *)
From Verif Require Import Base Tools CS KZG Snark Fib RC R1 HP.
Local Open Scope F_scope.

(** *** ark-relations: the part of [ConstraintSystem] used by the example circuit (external contract) *)
(** variables are ordered as listed, instance and witness variables by their number; the constant one
    is the first instance variable, so new instance variables are numbered from 1 *)
Inductive ark_var := AOne | AInst (i : nat) | AWit (i : nat).
Definition ark_var_compare (x y : ark_var) : comparison :=
  match x, y with
  | AOne, AOne => Eq | AOne, _ => Lt | _, AOne => Gt
  | AInst i, AInst j => Nat.compare i j | AInst _, AWit _ => Lt | AWit _, AInst _ => Gt
  | AWit i, AWit j => Nat.compare i j
  end.

Section Ark.
Context {F : Type} {fo : FieldOps F}.
Definition ark_lc := list (F * ark_var).
(** [LinearCombination + Variable]: sorted, the coefficients of equal variables are added *)
Fixpoint ark_plus (l : ark_lc) (v : ark_var) : ark_lc :=
  match l with
  | [] => [(1, v)]
  | (c, u) :: l' =>
      match ark_var_compare v u with
      | Lt => (1, v) :: l
      | Eq => (c + 1, u) :: l'
      | Gt => (c, u) :: ark_plus l' v
      end
  end.
(** the system under construction: values of the instance variables (with the leading one) and of the
    witness variables, and the constraints in the order in which they were enforced *)
Record ark_system := mkSystem {
  as_inst : list F; as_wit : list F; as_cons : list (ark_lc * ark_lc * ark_lc) }.
Definition ark_new : ark_system := mkSystem [1] [] [].
Definition ark_input (s : ark_system) (x : F) : ark_system * ark_var :=
  (mkSystem (as_inst s ++ [x]) (as_wit s) (as_cons s), AInst (length (as_inst s))).
Definition ark_witness (s : ark_system) (x : F) : ark_system * ark_var :=
  (mkSystem (as_inst s) (as_wit s ++ [x]) (as_cons s), AWit (length (as_wit s))).
Definition ark_enforce (s : ark_system) (a b c : ark_lc) : ark_system :=
  mkSystem (as_inst s) (as_wit s) (as_cons s ++ [(a, b, c)]).
(** [to_matrices]: zero coefficients are dropped; columns: instance variables, then witness variables *)
Definition ark_column (ninst : nat) (v : ark_var) : nat :=
  match v with AOne => 0 | AInst i => i | AWit i => ninst + i end.
Definition ark_row (ninst : nat) (l : ark_lc) : list (F * nat) :=
  map (fun cv => (fst cv, ark_column ninst (snd cv))) (filter (fun cv => negb (is_zero (fst cv))) l).
Definition ark_to_matrices (s : ark_system) : ArkMatrices (F:=F) :=
  let n := length (as_inst s) in
  mkArk n (length (as_wit s)) (length (as_cons s))
    (map (fun abc => ark_row n (fst (fst abc))) (as_cons s))
    (map (fun abc => ark_row n (snd (fst abc))) (as_cons s))
    (map (fun abc => ark_row n (snd abc)) (as_cons s)).

(** *** main.rs:31-73 [TestCircuit::generate_constraints] *)
(** the [Err(AssignmentMissing)] of a closure on a missing value *)
Definition ok_or {A} (x : option A) : outcome unit A := match x with Some a => Ok a | None => Err tt end.
(** the loop of lines 60-63 *)
Fixpoint ex_wit_loop (n : nat) (a : option F) (va vb : ark_var) (s : ark_system) : outcome unit ark_system :=
  match n with
  | O => Ok s
  | S n' =>
      let! xv := ok_or a in
      let '(s, v) := ark_witness s xv in
      let s := ark_enforce s (ark_plus (ark_plus [] va) vb) (ark_plus [] AOne) (ark_plus (ark_plus [] v) vb) in
      ex_wit_loop n' a va vb s
  end.
(** the loop of lines 65-67 *)
Fixpoint ex_mul_loop (n : nat) (va vb vc : ark_var) (s : ark_system) : ark_system :=
  match n with
  | O => s
  | S n' => ex_mul_loop n' va vb vc (ark_enforce s (ark_plus [] va) (ark_plus [] vb) (ark_plus [] vc))
  end.
(** both subtractions underflow for small sizes *)
Definition ex_generate (a b : option F) (num_variables num_constraints : nat) (s : ark_system)
  : outcome unit ark_system :=
  let! xa := ok_or a in
  let '(s, va) := ark_input s xa in
  let! xb := ok_or b in
  let '(s, vb) := ark_input s xb in
  let! xa := ok_or a in
  let! xb := ok_or b in
  let '(s, vc) := ark_input s (xa * xb) in
  if (num_variables <? 3)%nat then Panic else
  let! s := ex_wit_loop (num_variables - 3) a va vb s in
  if (num_constraints <? 1)%nat then Panic else
  let s := ex_mul_loop (num_constraints - 1) va vb vc s in
  Ok (ark_enforce s [] [] []).
(** lines 121-132: the system; [unwrap] *)
Definition ex_r1cs {E} (a b : F) (num_variables num_constraints : nat) : outcome E (R1CS F) :=
  let! s := unwrap (ex_generate (Some a) (Some b) num_variables num_constraints ark_new) in
  r1cs_from_ark (ark_to_matrices s).
End Ark.

(** the random samples of a run *)
Record ex_draws (F G1 G2 : Type) := mkExDraws {
  ex_beta : F; ex_g : G1; ex_h : G2;   (* setup *)
  ex_d : nat -> F;                     (* blinding scalars of the prover, in order *)
  ex_rnd : F }.                        (* scalar of the verifier *)
Arguments mkExDraws {_ _ _}. Arguments ex_beta {_ _ _}. Arguments ex_g {_ _ _}. Arguments ex_h {_ _ _}.
Arguments ex_d {_ _ _}. Arguments ex_rnd {_ _ _}.

Section Run.
Context {F G1 G2 GT : Type} {fo : FieldOps F} {pfo : PrimeFieldOps F} {po : PairingOps F G1 G2 GT}.
Variable H : list (item F G1) -> F.
Variable gamma : F.

(** main.rs:75-99 [run_fibonacci_example] *)
(** lines 78-80: 0, 1, 2, ... as field elements *)
Fixpoint ex_fields {E} (from n : nat) : outcome E (list F) :=
  match n with
  | O => Ok []
  | S n' => let! x := to_field (Z.of_nat from) in let! l := ex_fields (S from) n' in Ok (x :: l)
  end.
(** lines 81-85: [w] grows by one element per step, computed from its last two *)
Fixpoint ex_fib_loop (t : list F) (w : list F) : list F :=
  match t with
  | [] => w
  | ti :: t' => ex_fib_loop t' (w ++ [nth (length w - 2) w 0 + nth (length w - 1) w 0 * ti])
  end.
Definition run_fibonacci_example (n : nat) (dr : ex_draws F G1 G2) : outcome error unit :=
  let! a := to_field 1 in
  let b := a in
  let! t := ex_fields 0 n in
  let w := ex_fib_loop t [a; b] in
  let c := last w 0 in
  let x := mkFibIns a b c in
  let wit := skipn 2 w in
  let cs := mkFibCS n t in
  let! pp := fb_setup (G1:=G1) (G2:=G2) (fb_get_max_degree n) (ex_beta dr) (ex_g dr) (ex_h dr) in
  let! (pk, vk) := fb_index pp cs in
  let! pf := fb_prove H pk x wit (ex_d dr 0) (ex_d dr 1) (ex_d dr 2) in
  fb_verify H vk x pf (ex_rnd dr).

(** main.rs:101-118 [run_range_check_example].  Simplification: the witness of line 109, computed with
    64-bit floating point numbers, is an argument (its length is [n]). *)
Definition run_range_check_example (n range : nat) (w : list F) (dr : ex_draws F G1 G2) : outcome error unit :=
  let cs := mkRCCS n range in
  let! pp := rc_setup (G1:=G1) (G2:=G2) (rc_get_max_degree cs) (ex_beta dr) (ex_g dr) (ex_h dr) in
  let! (pk, vk) := rc_index pp cs in
  let! pf := rc_prove H pk w (ex_d dr 0) (ex_d dr 1) (ex_d dr 2) (ex_d dr 3) (ex_d dr 4) (ex_d dr 5) in
  rc_verify H vk pf (ex_rnd dr).

(** main.rs:120-178 [run_r1cs_example], for arbitrary values and sizes of the circuit; the program has
    a = 3, b = 2 and 5 variables and constraints.  Its witness, the value of [a] for every witness
    variable, is written for that size (two entries). *)
Definition run_r1cs_example (a b : F) (num_variables num_constraints : nat) (dr : ex_draws F G1 G2)
  : outcome error unit :=
  let x := [a; b; a * b] in
  let w := repeat a (num_variables - 3) in
  let! cs := ex_r1cs a b num_variables num_constraints in
  let! _ := r1cs_satisfy cs x w in
  let! size := r1cs_get_size cs in
  let! max_degree := unwrap_opt (r1_get_max_degree size) in
  let! pp := unwrap (r1_setup (G1:=G1) (G2:=G2) (max_degree + 10) (ex_beta dr) (ex_g dr) (ex_h dr)) in
  let! (pk, vk) := unwrap (r1_index gamma pp cs) in
  let! pf := r1_prove H gamma pk x w (ex_d dr 0) (ex_d dr 1) (ex_d dr 2) in
  r1_verify H gamma vk x pf (ex_rnd dr).

(** main.rs:180-215 [run_hpr_example] *)
Definition run_hpr_example (scale : nat) (sys : hpr_draws (F:=F)) (dr : ex_draws F G1 G2) : outcome error unit :=
  let! (cs, x, w) := generate_random_hpr scale scale (scale / 5) sys in
  let! _ := hpr_satisfy cs x (fst (fst w)) (snd (fst w)) (snd w) in
  let! size := hpr_get_size cs in
  let! pp := unwrap (hp_setup (G1:=G1) (G2:=G2) (hp_get_max_degree size + 10) (ex_beta dr) (ex_g dr) (ex_h dr)) in
  let! (pk, vk) := unwrap (hp_index gamma pp cs) in
  let! pf := hp_prove H gamma pk x w (ex_d dr 0) (ex_d dr 1) (ex_d dr 2) in
  hp_verify H gamma vk x pf (ex_rnd dr).

(** main.rs:217-243 [main]: how the program ends, and how often it printed "Verification pass".
    The first two examples end the program with exit code -1 on an error, the others only print it. *)
Inductive ex_ending := Aborted | Exited | Finished.
Definition ex_main (witness : list F) (sys : hpr_draws (F:=F)) (dr1 dr2 dr3 dr4 : ex_draws F G1 G2) : ex_ending * nat :=
  let later (p : nat) (r : outcome error unit) (k : nat -> ex_ending * nat) :=
    match r with Panic => (Aborted, p) | Err _ => k p | Ok _ => k (S p) end in
  let first (p : nat) (r : outcome error unit) (k : nat -> ex_ending * nat) :=
    match r with Panic => (Aborted, p) | Err _ => (Exited, p) | Ok _ => k (S p) end in
  first 0%nat (run_range_check_example 5 10 witness dr1) (fun p =>
  first p (run_fibonacci_example 5 dr2) (fun p =>
  later p (run_hpr_example 5 sys dr3) (fun p =>
  later p (let! a := to_field 3 in let! b := to_field 2 in run_r1cs_example a b 5 5 dr4) (fun p =>
  (Finished, p))))).
End Run.

(** Circuit.v: model of voproof/src/cs/circuit/fan_in_two.rs and of the conversion
    circuit -> POV of cs/pov.rs.  A method taking [&mut self] is a state transformer
    [circ -> circ * outcome]: the state is returned even when the method reports an error. *)
From Verif Require Import Base Tools CS.
Local Open Scope F_scope.

(** error.rs (the variants used here; string payloads dropped) *)
Inductive cerr :=
| GatesAreNotEmpty | VariableNotSet (i : nat) | VariableAlreadySet | VariableAlreadySetAsOutput
| CircuitHasNoGlobalInput | VariableNotConnected (i : nat) | AllVariablesAreInputs
| CircuitNotComplete | InputSizeNotSupported (expected got : nat) | VariableIsNotOutput (i : nat)
| ConnectedVariablesDoNotHaveWire | TryingToConnectTheSameVariable.

(** fan_in_two.rs:63-67 [InputWireType] *)
Inductive side := SL | SR.
(** fan_in_two.rs:75-79 [InputGateWire] *)
Inductive inwire := IAdd (i : nat) (s : side) | IMul (i : nat) (s : side).
(** fan_in_two.rs:81-86 [OutputGateWire]; also 46-51 [GateRef] *)
Inductive outwire := OAdd (i : nat) | OMul (i : nat) | OConst (i : nat).
(** fan_in_two.rs:88-92 [GateWire] *)
Inductive wire := WIn (w : inwire) | WOut (w : outwire).

Section Circ.
Context {F : Type} {fo : FieldOps F}.

(** fan_in_two.rs:122-127 [Variable] *)
Record var := mkVar { v_in : list inwire; v_out : option outwire; v_val : option F }.
(** fan_in_two.rs:20-32 [AddGate], [MulGate]; 34-38 [ConstGate] *)
Record gate := mkGate { g_l : nat; g_r : nat; g_o : nat }.
Record cgate := mkCGate { cg_o : nat; cg_v : F }.

(** fan_in_two.rs:6-18 [FanInTwoCircuit].  The hash maps are association lists with one entry per
    key. Simplification: [const_vars_cache] is keyed by the value itself; the code uses its [Debug]
    string, which is injective on field elements (and integers). *)
Record circ := mkCirc {
  c_add : list gate; c_mul : list gate; c_const : list cgate;
  c_pub : list wire; c_nin : nat; c_outs : list nat; c_vars : list var;
  c_eqs : list (nat * nat);
  c_addc : list (nat * nat * nat); c_mulc : list (nat * nat * nat); c_constc : list (F * nat) }.

Definition set_add c x := mkCirc x (c_mul c) (c_const c) (c_pub c) (c_nin c) (c_outs c) (c_vars c) (c_eqs c) (c_addc c) (c_mulc c) (c_constc c).
Definition set_mul c x := mkCirc (c_add c) x (c_const c) (c_pub c) (c_nin c) (c_outs c) (c_vars c) (c_eqs c) (c_addc c) (c_mulc c) (c_constc c).
Definition set_const c x := mkCirc (c_add c) (c_mul c) x (c_pub c) (c_nin c) (c_outs c) (c_vars c) (c_eqs c) (c_addc c) (c_mulc c) (c_constc c).
Definition set_pub c x := mkCirc (c_add c) (c_mul c) (c_const c) x (c_nin c) (c_outs c) (c_vars c) (c_eqs c) (c_addc c) (c_mulc c) (c_constc c).
Definition set_nin c x := mkCirc (c_add c) (c_mul c) (c_const c) (c_pub c) x (c_outs c) (c_vars c) (c_eqs c) (c_addc c) (c_mulc c) (c_constc c).
Definition set_outs c x := mkCirc (c_add c) (c_mul c) (c_const c) (c_pub c) (c_nin c) x (c_vars c) (c_eqs c) (c_addc c) (c_mulc c) (c_constc c).
Definition set_vars c x := mkCirc (c_add c) (c_mul c) (c_const c) (c_pub c) (c_nin c) (c_outs c) x (c_eqs c) (c_addc c) (c_mulc c) (c_constc c).
Definition set_eqs c x := mkCirc (c_add c) (c_mul c) (c_const c) (c_pub c) (c_nin c) (c_outs c) (c_vars c) x (c_addc c) (c_mulc c) (c_constc c).
Definition set_addc c x := mkCirc (c_add c) (c_mul c) (c_const c) (c_pub c) (c_nin c) (c_outs c) (c_vars c) (c_eqs c) x (c_mulc c) (c_constc c).
Definition set_mulc c x := mkCirc (c_add c) (c_mul c) (c_const c) (c_pub c) (c_nin c) (c_outs c) (c_vars c) (c_eqs c) (c_addc c) x (c_constc c).
Definition set_constc c x := mkCirc (c_add c) (c_mul c) (c_const c) (c_pub c) (c_nin c) (c_outs c) (c_vars c) (c_eqs c) (c_addc c) (c_mulc c) x.

(** State transformers. *)
Definition M (A : Type) := circ -> circ * outcome cerr A.
Definition ret {A} (a : A) : M A := fun c => (c, Ok a).
Definition fail {A} (e : cerr) : M A := fun c => (c, Err e).
Definition panic {A} : M A := fun c => (c, Panic).
Definition bind {A B} (m : M A) (f : A -> M B) : M B :=
  fun c => match m c with
           | (c', Ok a) => f a c'
           | (c', Err e) => (c', Err e)
           | (c', Panic) => (c', Panic)
           end.
Definition gets {A} (f : circ -> A) : M A := fun c => (c, Ok (f c)).
Definition modify (f : circ -> circ) : M unit := fun c => (f c, Ok tt).
(** reading method of [&self] *)
Definition query {A} (f : circ -> outcome cerr A) : M A := fun c => (c, f c).
(** [.unwrap()] on the result of a state transformer *)
Definition unwrapM {A} (m : M A) : M A :=
  fun c => match m c with (c', Err _) => (c', Panic) | r => r end.
Local Notation "'do' x <- m ; e" := (bind m (fun x => e)) (at level 200, x pattern, m at level 100, e at level 200).

(** fan_in_two.rs:135-149 [new] *)
Definition new_circ : circ := mkCirc [] [] [] [] 0 [] [] [] [] [] [].

(** fan_in_two.rs:151-165 *)
Definition add_num (c : circ) := length (c_add c).
Definition mul_num (c : circ) := length (c_mul c).
Definition const_num (c : circ) := length (c_const c).
Definition gate_num (c : circ) := (add_num c + mul_num c + const_num c)%nat.
(** fan_in_two.rs:167-173 [get_consts] *)
Definition get_consts (c : circ) : list F := map cg_v (c_const c).

(** fan_in_two.rs:214-216 [get_var_mut]: checked indexing, then an in-place update that may fail *)
Definition with_var (i : nat) (f : var -> var * outcome cerr unit) : M unit :=
  fun c => match nth_error (c_vars c) i with
           | None => (c, Panic)
           | Some v => let '(v', r) := f v in (set_vars c (upd (c_vars c) i (fun _ => v')), r)
           end.
(** fan_in_two.rs:218-220 [get_var] *)
Definition get_var (c : circ) (i : nat) : outcome cerr var :=
  match nth_error (c_vars c) i with Some v => Ok v | None => Panic end.
(** fan_in_two.rs:234-240 [get_var_value] *)
Definition get_var_value (c : circ) (i : nat) : outcome cerr F :=
  let! v := get_var c i in
  match v_val v with Some x => Ok x | None => Err (VariableNotSet i) end.

(** fan_in_two.rs:746-751 [is_gate_input], [is_gate_output] (Variable) *)
Definition is_gate_input (v : var) : bool := match v_in v with [] => false | _ => true end.
Definition is_gate_output (v : var) : bool := match v_out v with None => false | _ => true end.
(** fan_in_two.rs:673-675 [assign]; 677-684 [assign_no_overwrite] *)
Definition v_assign (x : F) (v : var) : var * outcome cerr unit := (mkVar (v_in v) (v_out v) (Some x), Ok tt).
Definition v_assign_no_overwrite (x : F) (v : var) : var * outcome cerr unit :=
  match v_val v with
  | None => (mkVar (v_in v) (v_out v) (Some x), Ok tt)
  | Some _ => (v, Err VariableAlreadySet)
  end.
(** fan_in_two.rs:720-746 input branches of [add_add_gate]/[add_mul_gate] (Variable) *)
Definition v_push_in (w : inwire) (v : var) : var * outcome cerr unit :=
  (mkVar (v_in v ++ [w]) (v_out v) (v_val v), Ok tt).
(** fan_in_two.rs output branches with [assert_not_output] (Variable) *)
Definition v_set_out (w : outwire) (v : var) : var * outcome cerr unit :=
  match v_out v with
  | Some _ => (v, Err VariableAlreadySetAsOutput)
  | None => (mkVar (v_in v) (Some w) (v_val v), Ok tt)
  end.
(** fan_in_two.rs:698-718 [try_get_input_wire], [try_get_any_wire] *)
Definition first_in (v : var) : option inwire := match v_in v with [] => None | w :: _ => Some w end.
Definition any_wire (v : var) : option wire :=
  match first_in v with
  | Some w => Some (WIn w)
  | None => match v_out v with Some w => Some (WOut w) | None => None end
  end.

(** fan_in_two.rs:242-244 is omitted (get_wire_value below); 246-248 [set_var] *)
Definition set_var (i : nat) (x : F) : M unit := with_var i (v_assign x).

(** fan_in_two.rs:258-263 [add_new_variable] *)
Definition add_new_variable : M nat := fun c =>
  (set_vars c (c_vars c ++ [mkVar [] None None]), Ok (length (c_vars c))).
(** fan_in_two.rs:265-271 [assert_no_gate] *)
Definition no_gate (c : circ) : bool :=
  match c_add c, c_mul c, c_const c with [], [], [] => true | _, _, _ => false end.
(** fan_in_two.rs:273-278 [add_global_input_variable] *)
Definition add_global_input_variable : M nat :=
  do ok <- gets no_gate;
  if ok : bool then
    do r <- add_new_variable;
    do _ <- modify (fun c => set_nin c (S (c_nin c)));
    ret r
  else fail GatesAreNotEmpty.

(** fan_in_two.rs:280-302 [add_add_gate] *)
Definition add_add_gate (a b o : nat) : M unit :=
  do _ <- modify (fun c => set_add c (c_add c ++ [mkGate a b o]));
  do k <- gets (fun c => (add_num c - 1)%nat);
  do _ <- with_var a (v_push_in (IAdd k SL));
  do _ <- with_var b (v_push_in (IAdd k SR));
  with_var o (v_set_out (OAdd k)).
(** fan_in_two.rs:304-326 [add_mul_gate] *)
Definition add_mul_gate (a b o : nat) : M unit :=
  do _ <- modify (fun c => set_mul c (c_mul c ++ [mkGate a b o]));
  do k <- gets (fun c => (mul_num c - 1)%nat);
  do _ <- with_var a (v_push_in (IMul k SL));
  do _ <- with_var b (v_push_in (IMul k SR));
  with_var o (v_set_out (OMul k)).
(** fan_in_two.rs:328-336 [add_const_gate] *)
Definition add_const_gate (x : F) (o : nat) : M unit :=
  do _ <- modify (fun c => set_const c (c_const c ++ [mkCGate o x]));
  do k <- gets (fun c => (const_num c - 1)%nat);
  with_var o (v_set_out (OConst k)).

(** HashMap::get on the caches *)
Fixpoint lookup2 (k : nat * nat) (l : list (nat * nat * nat)) : option nat :=
  match l with
  | [] => None
  | (a, b, o) :: l' => if (fst k =? a)%nat && (snd k =? b)%nat then Some o else lookup2 k l'
  end.
Fixpoint lookupF (k : F) (l : list (F * nat)) : option nat :=
  match l with
  | [] => None
  | (x, o) :: l' => if feqb k x then Some o else lookupF k l'
  end.

Definition sort2 (a b : nat) : nat * nat := if (a <? b)%nat then (a, b) else (b, a).

(** fan_in_two.rs:338-349 [add_vars] *)
Definition add_vars (a b : nat) : M nat :=
  let '(a, b) := sort2 a b in
  do cached <- gets (fun c => lookup2 (a, b) (c_addc c));
  match cached with
  | Some v => ret v
  | None =>
    do r <- add_new_variable;
    do _ <- unwrapM (add_add_gate a b r);
    do _ <- modify (fun c => set_addc c ((a, b, r) :: c_addc c));
    ret r
  end.
(** fan_in_two.rs:351-362 [mul_vars] *)
Definition mul_vars (a b : nat) : M nat :=
  let '(a, b) := sort2 a b in
  do cached <- gets (fun c => lookup2 (a, b) (c_mulc c));
  match cached with
  | Some v => ret v
  | None =>
    do r <- add_new_variable;
    do _ <- unwrapM (add_mul_gate a b r);
    do _ <- modify (fun c => set_mulc c ((a, b, r) :: c_mulc c));
    ret r
  end.
(** fan_in_two.rs:364-375 [const_var] *)
Definition const_var (x : F) : M nat :=
  do cached <- gets (fun c => lookupF x (c_constc c));
  match cached with
  | Some v => ret v
  | None =>
    do r <- add_new_variable;
    do _ <- unwrapM (add_const_gate x r);
    do _ <- modify (fun c => set_constc c ((x, r) :: c_constc c));
    ret r
  end.

(** fan_in_two.rs:250-256 [get_gate] (checked indexing), 377-391 [eval_gate] *)
Definition eval_gate (g : outwire) : M unit :=
  match g with
  | OAdd k => do g <- query (fun c => unwrap_opt (nth_error (c_add c) k));
              do x <- query (fun c => get_var_value c (g_l g));
              do y <- query (fun c => get_var_value c (g_r g));
              set_var (g_o g) (x + y)
  | OMul k => do g <- query (fun c => unwrap_opt (nth_error (c_mul c) k));
              do x <- query (fun c => get_var_value c (g_l g));
              do y <- query (fun c => get_var_value c (g_r g));
              set_var (g_o g) (x * y)
  | OConst k => do g <- query (fun c => unwrap_opt (nth_error (c_const c) k));
                set_var (cg_o g) (cg_v g)
  end.

(** fan_in_two.rs:397-404: loop of [mark_as_complete]; outputs found so far stay recorded
    when an unconnected variable is met. *)
Fixpoint scan_vars (i : nat) (l : list var) (outs : list nat) : list nat * outcome cerr unit :=
  match l with
  | [] => (outs, Ok tt)
  | v :: l' =>
    if negb (is_gate_input v) && negb (is_gate_output v) then (outs, Err (VariableNotConnected i))
    else scan_vars (S i) l' (if is_gate_input v then outs else outs ++ [i])
  end.
(** fan_in_two.rs:411-413 [is_complete] *)
Definition is_complete (c : circ) : bool := match c_outs c with [] => false | _ => true end.
(** fan_in_two.rs:393-409 [mark_as_complete] *)
Definition mark_as_complete : M unit := fun c =>
  if (c_nin c =? 0)%nat then (c, Err CircuitHasNoGlobalInput) else
  let '(outs, r) := scan_vars 0 (c_vars c) (c_outs c) in
  let c' := set_outs c outs in
  match r with
  | Ok _ => if is_complete c' then (c', Ok tt) else (c', Err AllVariablesAreInputs)
  | _ => (c', r)
  end.

(** fan_in_two.rs:415-420 [assert_complete], 422-438 [assert_input_size], [assert_io_size],
    513-521 [get_input_size], [get_io_size] *)
Definition assert_complete (c : circ) : outcome cerr unit :=
  if is_complete c then Ok tt else Err CircuitNotComplete.
Definition get_input_size (c : circ) : outcome cerr nat :=
  let! _ := assert_complete c in Ok (c_nin c).
Definition get_io_size (c : circ) : outcome cerr nat :=
  let! _ := assert_complete c in Ok (length (c_pub c)).
Definition assert_size (expected n : nat) : outcome cerr unit :=
  if (expected =? n)%nat then Ok tt else Err (InputSizeNotSupported expected n).

(** fan_in_two.rs:440-442 [mark_wire_as_public], 444-453 [mark_variable_as_public] *)
Definition mark_wire_as_public (w : wire) : M unit := modify (fun c => set_pub c (c_pub c ++ [w])).
Definition mark_variable_as_public (i : nat) : M unit :=
  do v <- query (fun c => get_var c i);
  match v_out v with
  | Some w => mark_wire_as_public (WOut w)
  | None => match first_in v with Some w => mark_wire_as_public (WIn w) | None => panic end
  end.

(** fan_in_two.rs:455-464 [assign_global_inputs]: zip of the inputs with the first variables *)
Fixpoint assign_all (input : list F) (vars : list var) : list var :=
  match input, vars with
  | x :: input', v :: vars' => mkVar (v_in v) (v_out v) (Some x) :: assign_all input' vars'
  | _, _ => vars
  end.
Definition assign_global_inputs (input : list F) : M unit :=
  do n <- query get_input_size;
  do _ <- query (fun _ => assert_size n (length input));
  modify (fun c => set_vars c (assign_all input (c_vars c))).

(** fan_in_two.rs:466-486 [get_var_from_wire] (checked indexing) *)
Definition var_of_wire (c : circ) (w : wire) : option nat :=
  match w with
  | WIn (IAdd k SL) => option_map g_l (nth_error (c_add c) k)
  | WIn (IAdd k SR) => option_map g_r (nth_error (c_add c) k)
  | WIn (IMul k SL) => option_map g_l (nth_error (c_mul c) k)
  | WIn (IMul k SR) => option_map g_r (nth_error (c_mul c) k)
  | WOut (OAdd k) => option_map g_o (nth_error (c_add c) k)
  | WOut (OMul k) => option_map g_o (nth_error (c_mul c) k)
  | WOut (OConst k) => option_map cg_o (nth_error (c_const c) k)
  end.
(** fan_in_two.rs:242-244 [get_wire_value] *)
Definition get_wire_value (c : circ) (w : wire) : outcome cerr F :=
  let! i := unwrap_opt (var_of_wire c w) in get_var_value c i.

(** fan_in_two.rs:488-496 [assign_public_io] *)
Fixpoint assign_wires (l : list (F * wire)) : M unit :=
  match l with
  | [] => ret tt
  | (x, w) :: l' =>
    do i <- query (fun c => unwrap_opt (var_of_wire c w));
    do _ <- with_var i (v_assign_no_overwrite x);
    assign_wires l'
  end.
Definition assign_public_io (input : list F) : M unit :=
  do n <- query get_io_size;
  do _ <- query (fun _ => assert_size n (length input));
  do ws <- gets c_pub;
  assign_wires (combine input ws).

(** fan_in_two.rs:503-509: loop of [evaluate] over the variables after the inputs *)
Fixpoint eval_from (i n : nat) : M unit :=
  match n with
  | O => ret tt
  | S n' =>
    do v <- query (fun c => get_var c i);
    match v_out v with
    | Some g => do _ <- eval_gate g; eval_from (S i) n'
    | None => fail (VariableIsNotOutput i)
    end
  end.
(** fan_in_two.rs:498-511 [evaluate] *)
Definition evaluate (input : list F) : M unit :=
  do _ <- assign_global_inputs input;
  do n <- gets (fun c => length (c_vars c));
  eval_from (length input) (n - length input).

(** [collect::<Result<Vec<_>, _>>]: stops at the first error *)
Fixpoint collect {A B} (f : A -> outcome cerr B) (l : list A) : outcome cerr (list B) :=
  match l with
  | [] => Ok []
  | x :: l' => let! y := f x in let! r := collect f l' in Ok (y :: r)
  end.

(** fan_in_two.rs:523-529 [get_output] *)
Definition get_output (c : circ) : outcome cerr (list F) := collect (get_var_value c) (c_outs c).

(** fan_in_two.rs:537-549 [get_offset], 551-553 [get_wire_global_index] *)
Definition wire_index (c : circ) (w : wire) : nat :=
  match w with
  | WIn (IAdd k SL) => k + mul_num c
  | WIn (IAdd k SR) => k + (gate_num c + mul_num c)
  | WIn (IMul k SL) => k + 0
  | WIn (IMul k SR) => k + gate_num c
  | WOut (OAdd k) => k + (gate_num c * 2 + mul_num c)
  | WOut (OMul k) => k + gate_num c * 2
  | WOut (OConst k) => k + (gate_num c * 3 - const_num c)
  end%nat.

(** fan_in_two.rs:555-568 [get_instance] *)
Definition get_instance (c : circ) : outcome cerr (list nat * list F) :=
  let! vals := collect (get_wire_value c) (c_pub c) in
  Ok (map (wire_index c) (c_pub c), vals).

(** fan_in_two.rs:570-614 [get_witness]; [F::default()] is zero *)
Definition get_witness (c : circ) : outcome cerr (list F * list F * list F) :=
  let gv := get_var_value c in
  let! la := collect (fun g => gv (g_l g)) (c_mul c) in
  let! lb := collect (fun g => gv (g_l g)) (c_add c) in
  let! ra := collect (fun g => gv (g_r g)) (c_mul c) in
  let! rb := collect (fun g => gv (g_r g)) (c_add c) in
  let! oa := collect (fun g => gv (g_o g)) (c_mul c) in
  let! ob := collect (fun g => gv (g_o g)) (c_add c) in
  let! oc := collect (fun g => gv (cg_o g)) (c_const c) in
  Ok (la ++ lb ++ repeat 0 (const_num c), ra ++ rb ++ repeat 0 (const_num c), oa ++ ob ++ oc).

(** slice::windows(2) *)
Fixpoint windows2 {A} (l : list A) : list (A * A) :=
  match l with
  | x :: ((y :: _) as l') => (x, y) :: windows2 l'
  | _ => []
  end.
(** fan_in_two.rs:178-194: the wires of one variable, input wires first *)
Definition var_wires (v : var) : list wire :=
  map WIn (v_in v) ++ match v_out v with Some w => [WOut w] | None => [] end.
(** fan_in_two.rs:196-210 the pair of an asserted equality *)
Definition eq_pair (c : circ) (ab : nat * nat) : outcome cerr (nat * nat) :=
  let! va := get_var c (fst ab) in
  match any_wire va with
  | None => Err ConnectedVariablesDoNotHaveWire
  | Some wa =>
    let! vb := get_var c (snd ab) in
    match any_wire vb with
    | None => Err ConnectedVariablesDoNotHaveWire
    | Some wb => Ok (wire_index c wa, wire_index c wb)
    end
  end.
(** fan_in_two.rs:175-212 [get_wiring] *)
Definition get_wiring (c : circ) : outcome cerr (list (nat * nat)) :=
  let! _ := assert_complete c in
  let l1 := flat_map (fun v => windows2 (map (wire_index c) (var_wires v))) (c_vars c) in
  let! l2 := collect (eq_pair c) (c_eqs c) in
  Ok (l1 ++ l2).

(** fan_in_two.rs:619-625 [assert_equal] *)
Definition assert_equal (a b : nat) : M unit :=
  if (a =? b)%nat then fail TryingToConnectTheSameVariable
  else modify (fun c => set_eqs c (c_eqs c ++ [(a, b)])).

(** cs/pov.rs:74-83 [From<FanInTwoCircuit> for POV] *)
Definition pov_from_circuit (c : circ) : outcome cerr (POV F) :=
  let! w := unwrap (get_wiring c) in
  Ok (mkPOV (get_consts c) w (mul_num c) (add_num c)).

End Circ.
Arguments circ F : clear implicits.
Arguments var F : clear implicits.
Notation "'do' x <- m ; e" := (bind m (fun x => e)) (at level 200, x pattern, m at level 100, e at level 200).

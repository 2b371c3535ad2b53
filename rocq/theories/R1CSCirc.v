(** R1CSCirc.v: model of voproof/src/cs/circuit/mod.rs (R1CS -> circuit) and of the
    R1CS -> POV helpers of cs/pov.rs.  [HashMap] iteration order is an argument [ord]:
    any function returning a permutation of the map's entries. *)
From Verif Require Import Base Tools CS Circuit.
Local Open Scope F_scope.

(** cs/circuit/mod.rs:9-13 [Matrix] *)
Inductive mat := MA | MB | MC.
Definition mat_eqb (x y : mat) : bool :=
  match x, y with MA, MA | MB, MB | MC, MC => true | _, _ => false end.

Section RC.
Context {F : Type} {fo : FieldOps F}.
Implicit Types (s : R1CS F).

Fixpoint foldM {A B} (f : B -> A -> M (F:=F) B) (l : list A) (b : B) : M (F:=F) B :=
  match l with
  | [] => ret b
  | x :: l' => do b' <- f b x; foldM f l' b'
  end.
Fixpoint mapM {A B} (f : A -> M (F:=F) B) (l : list A) : M (F:=F) (list B) :=
  match l with
  | [] => ret []
  | x :: l' => do y <- f x; do r <- mapM f l'; ret (y :: r)
  end.

(** (row, column, matrix) *)
Definition pos := (nat * nat * mat)%type.
(** a [HashMap<F, Vec<pos>>]; one entry per key *)
Definition posmap := list (F * list pos).
(** [entry(v).or_insert(Vec::new()).push(p)] *)
Fixpoint map_push (v : F) (p : pos) (m : posmap) : posmap :=
  match m with
  | [] => [(v, [p])]
  | (u, l) :: m' => if feqb u v then (u, l ++ [p]) :: m' else (u, l) :: map_push v p m'
  end.
(** cs/circuit/mod.rs:23-56: zip, filter non-zero values, push (with [f] applied to the value) *)
Definition push_matrix (t : mat) (f : F -> F) (rows cols : list nat) (vals : list F) (m : posmap) : posmap :=
  fold_left (fun m e => let '(r, c, v) := e in map_push (f v) (r, c, t) m)
            (filter (fun e => negb (is_zero (snd e))) (combine (combine rows cols) vals)) m.
Definition value_to_position_lists s : posmap :=
  push_matrix MC (fun v => - v) (r_crows s) (r_ccols s) (r_cvals s)
   (push_matrix MB (fun v => v) (r_brows s) (r_bcols s) (r_bvals s)
     (push_matrix MA (fun v => v) (r_arows s) (r_acols s) (r_avals s) [])).

(** a_mul_results, b_mul_results, c_mul_results *)
Definition rows3 := (list (list nat) * list (list nat) * list (list nat))%type.
(** [mul_results[ri].push(var)], checked indexing *)
Definition push_row (t : mat) (ri var : nat) (x : rows3) : M (F:=F) rows3 :=
  let '(a, b, c) := x in
  let l := match t with MA => a | MB => b | MC => c end in
  if (ri <? length l)%nat then
    let l' := upd l ri (fun row => row ++ [var]) in
    ret (match t with MA => (l', b, c) | MB => (a, l', c) | MC => (a, b, l') end)
  else panic.
Fixpoint assoc_nat (k : nat) (l : list (nat * nat)) : option nat :=
  match l with
  | [] => None
  | (a, o) :: l' => if (k =? a)%nat then Some o else assoc_nat k l'
  end.
(** checked indexing of [input_vars] *)
Definition input_at (inputs : list nat) (i : nat) : M (F:=F) nat := fun c => (c, unwrap_opt (nth_error inputs i)).

(** cs/circuit/mod.rs:66-95: one position of the value [v] *)
Definition mul_item (inputs : list nat) (zero cvar : nat) (v : F)
  (st : list (nat * nat) * rows3) (p : pos) : M (F:=F) (list (nat * nat) * rows3) :=
  let '(cache, rows) := st in
  let '(ri, ci, t) := p in
  do cv <-
    (if is_zero v then ret (cache, zero)
     else if (0 <? ci)%nat then
       if is_one v then do x <- input_at inputs (ci - 1); ret (cache, x)
       else match assoc_nat (ci - 1) cache with
            | Some h => ret (cache, h)
            | None => do x <- input_at inputs (ci - 1);
                      do h <- mul_vars cvar x;
                      ret ((ci - 1, h) :: cache, h)%nat
            end
     else ret (cache, cvar));
  do rows' <- push_row t ri (snd cv) rows;
  ret (fst cv, rows').
(** cs/circuit/mod.rs:61-65 and 96-97: all positions of one value; a new cache per value *)
Definition mul_group (inputs : list nat) (zero : nat) (rows : rows3) (g : (F * list pos) * nat) : M (F:=F) rows3 :=
  do st <- foldM (mul_item inputs zero (snd g) (fst (fst g))) (snd (fst g)) ([], rows);
  ret (snd st).
(** cs/circuit/mod.rs:98-138: the sum of one row *)
Definition sum_row (zero : nat) (row : list nat) : M (F:=F) nat :=
  match row with
  | [] => ret zero
  | x :: l => foldM add_vars l x
  end.
(** cs/circuit/mod.rs:139-147: one constraint *)
Definition row_constraint (zero : nat) (abc : nat * nat * nat) : M (F:=F) unit :=
  let '(a, b, c) := abc in
  do m <- mul_vars a b;
  do x <- add_vars m c;
  unwrapM (assert_equal x zero).

(** cs/circuit/mod.rs:15-158 [From<R1CS>]; [ncols - 1] underflows for 0 columns *)
Definition r1cs_to_circuit (ord : posmap -> posmap) s : M (F:=F) unit :=
  if (r_ncols s =? 0)%nat then panic else
  do inputs <- mapM (fun _ => unwrapM add_global_input_variable) (seq 0 (r_ncols s - 1));
  do zero <- const_var 0;
  let groups := ord (value_to_position_lists s) in
  do cvars <- mapM (fun g => const_var (fst g)) groups;
  let empty := repeat [] (r_nrows s) in
  do rows <- foldM (mul_group inputs zero) (combine groups cvars) (empty, empty, empty);
  let '(ra, rb, rc) := rows in
  do sa <- mapM (sum_row zero) ra;
  do sb <- mapM (sum_row zero) rb;
  do sc <- mapM (sum_row zero) rc;
  do _ <- mapM (row_constraint zero) (combine (combine sa sb) sc);
  do _ <- unwrapM mark_as_complete;
  do _ <- mapM (fun x => unwrapM (mark_variable_as_public x)) (firstn (r_input_size s) inputs);
  ret tt.

(** cs/pov.rs:137-146 [pov_pair_from_r1cs_pair] *)
Definition pov_pair (ord : posmap -> posmap) s (ins : list F) : outcome cerr (POV F * (list nat * list F)) :=
  let '(c, r) := r1cs_to_circuit ord s new_circ in
  let! _ := r in
  let '(c, r) := unwrapM (assign_public_io ins) c in
  let! _ := r in
  let! x := unwrap (get_instance c) in
  let! p := pov_from_circuit c in
  Ok (p, x).
(** cs/pov.rs:148-170 [pov_triple_from_r1cs_triple] *)
Definition pov_triple (ord : posmap -> posmap) s (ins wit : list F)
  : outcome cerr (POV F * (list nat * list F) * (list F * list F * list F)) :=
  let '(c, r) := r1cs_to_circuit ord s new_circ in
  let! _ := r in
  let '(c, r) := unwrapM (evaluate (ins ++ wit)) c in
  let! _ := r in
  let! x := unwrap (get_instance c) in
  let! w := unwrap (get_witness c) in
  let! p := pov_from_circuit c in
  Ok (p, x, w).
End RC.

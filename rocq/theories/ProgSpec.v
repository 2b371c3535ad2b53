(** ProgSpec.v: specification of what a user of the circuit builder writes: a straight-line
    program over earlier results.  Nothing here refers to the model of the circuit. *)
From Verif Require Import Base.
Local Open Scope F_scope.

Section Prog.
Context {F : Type} {fo : FieldOps F}.

(** One call to the builder.  [PAdd i j] adds the results of the i-th and j-th value-producing
    calls (counted from 0), and so on. *)
Inductive instr :=
| PInput | PAdd (i j : nat) | PMul (i j : nat) | PConst (x : F)   (* value-producing *)
| PEq (i j : nat) | PPub (i : nat) | PComplete                    (* no value *)
| PEval (inp : list F) | PAssign (io : list F).                   (* earlier evaluations *)
Definition program := list instr.

(** The values a program computes on given inputs. *)
Fixpoint prog_values_from (p : program) (inp : list F) (acc : list F) : list F :=
  match p with
  | [] => acc
  | PInput :: p' => prog_values_from p' (tl inp) (acc ++ [hd 0 inp])
  | PAdd i j :: p' => prog_values_from p' inp (acc ++ [nth i acc 0 + nth j acc 0])
  | PMul i j :: p' => prog_values_from p' inp (acc ++ [nth i acc 0 * nth j acc 0])
  | PConst x :: p' => prog_values_from p' inp (acc ++ [x])
  | _ :: p' => prog_values_from p' inp acc
  end.
Definition prog_values (p : program) (inp : list F) : list F := prog_values_from p inp [].

(** number of inputs, asserted equalities, public results *)
Fixpoint prog_inputs (p : program) : nat :=
  match p with [] => 0 | PInput :: p' => S (prog_inputs p') | _ :: p' => prog_inputs p' end.
Fixpoint prog_eqs (p : program) : list (nat * nat) :=
  match p with [] => [] | PEq i j :: p' => (i, j) :: prog_eqs p' | _ :: p' => prog_eqs p' end.
Fixpoint prog_pubs (p : program) : list nat :=
  match p with [] => [] | PPub i :: p' => i :: prog_pubs p' | _ :: p' => prog_pubs p' end.

(** every assertion of the program holds on these inputs *)
Definition prog_asserts_hold (p : program) (inp : list F) : Prop :=
  forall i j, In (i, j) (prog_eqs p) -> nth i (prog_values p inp) 0 = nth j (prog_values p inp) 0.
(** the values of the public results *)
Definition prog_public_values (p : program) (inp : list F) : list F :=
  map (fun i => nth i (prog_values p inp) 0) (prog_pubs p).
(** result k is an operand of some addition or multiplication *)
Definition prog_uses (p : program) (k : nat) : Prop :=
  exists j, In (PAdd k j) p \/ In (PAdd j k) p \/ In (PMul k j) p \/ In (PMul j k) p.
End Prog.
Arguments instr F : clear implicits.
Arguments program F : clear implicits.

(** SnarkSpec.v: the relations proved by the arguments, stated without reference to the code. *)
From Verif Require Import Base.
Local Open Scope F_scope.

Section SnarkSpec.
Context {F : Type} {fo : FieldOps F}.

(** The generalised Fibonacci sequence with multipliers [t]: starting from the pair (a, b), every
    step produces [v = a + b * t_i] and continues with (b, v). *)
Fixpoint fib_walk (a b : F) (t : list F) : list F :=
  match t with
  | [] => []
  | ti :: t' => let v := a + b * ti in v :: fib_walk b v t'
  end.
(** [w] is the sequence started by (a, b) and its last member is [c] *)
Definition fib_holds (a b c : F) (t w : list F) : Prop := w = fib_walk a b t /\ last w 0 = c.
End SnarkSpec.

(** PlonkGatesSpec.v: the gates of plonk-core without and with the lookup gate. *)
From Verif Require Import Base Tools KZG Plonk PlonkSpec PlonkProver.
Local Open Scope F_scope.

Section PlonkGatesSpec.
Context {F : Type} {fo : FieldOps F} {po : PrimeFieldOps F}.
Variables ca cd : F.

Definition lookup_ok (table : list (F * F * F * F)) (s : sel F) (v : vals F) : Prop :=
  q_lookup s <> 0 -> In (v_a v, v_b v, v_c v, v_d v) table \/ table = [] /\ (v_a v, v_b v, v_c v, v_d v) = (0, 0, 0, 0).
Definition with_lookup (q : F) (s : sel F) : sel F :=
  {| q_m := q_m s; q_l := q_l s; q_r := q_r s; q_o := q_o s; q_4 := q_4 s; q_c := q_c s; q_hl := q_hl s; q_hr := q_hr s; q_h4 := q_h4 s;
     q_arith := q_arith s; q_range := q_range s; q_logic := q_logic s; q_fixed := q_fixed s; q_var := q_var s; q_lookup := q |}.
(** The gate, whatever its lookup selector is. *)
Definition gates_ok (s : sel F) (pi : F) (v : vals F) : Prop :=
  row_ok ca cd [] (with_lookup 0 s) pi (v_a v) (v_b v) (v_c v) (v_d v) (v_a' v) (v_b' v) (v_d' v).
(** A logic gate is an AND or an XOR gate. *)
Definition logic_kind (s : sel F) : Prop := q_logic s <> 0 -> q_c s = 1 \/ q_c s = - (1).
End PlonkGatesSpec.

(** Snark.v: the parts shared by the generated arguments of voproof/src/snarks. *)
From Verif Require Import Base Tools KZG.
Local Open Scope F_scope.

Section Snark.
Context {F G1 G2 GT : Type} {fo : FieldOps F} {po : PairingOps F G1 G2 GT}.

(** One serialized item of a transcript (tools/mod.rs:1000-1028 [to_bytes!],
    [get_randomness_from_hash!]).  A challenge is [H items] for an arbitrary function [H] from item
    lists to the field: [hash_to_field] of the serialization.  Simplification: the serialization of
    the items is not expanded to bytes here, so nothing is assumed about collisions. *)
Inductive item :=
| IF (a : F)            (* a field element *)
| IG (c : G1)           (* a commitment *)
| INs (l : list nat)    (* a vector of u64 *)
| IFs (l : list F).     (* a vector of field elements *)

(** tools/mod.rs:279-284 [minus_i64!] *)
Definition minus_i64 (u v : Z) : Z := (u - v + 1)%Z.

(** tools/mod.rs:844-852 [commit_vector!] and 830-835 [define_commit_vector!]: the degree is cast to
    u64; a negative one becomes at least 2^63, so that the slice of the powers is out of range. *)
Definition commit_vector (powers : list G1) (v : list F) (deg : Z) : outcome error G1 :=
  if (deg <? 0)%Z then Panic else unwrap (vector_to_commitment powers v (Z.to_nat deg)).

(** tools/mod.rs:442-455 [commitment_linear_combination!] *)
Definition commitment_linear_combination (g : G1) (one : F) (l : list (G1 * F)) : G1 :=
  vadd (fold_right vadd v0 (map (fun cc => vscale (snd cc) (fst cc)) l)) (vscale one g).

(** tools/mod.rs:1154-1159 [add_to_first_item!] *)
Definition add_to_first_item (v : list F) (a : F) : outcome error (list F) :=
  match v with [] => Panic | x :: v' => Ok (x + a :: v') end.

(** division of field elements (ark-ff [Div]): the divisor is inverted and unwrapped.  The model
    divides with the total [fdiv] and checks the divisors with this function. *)
Definition nonzero (a : F) : outcome error unit := if is_zero a then Panic else Ok tt.

(** tools/mod.rs:1329-1341 [check_poly_eval!] *)
Definition check_poly_eval (p : list F) (z y : F) : outcome error unit :=
  if feqb (peval p z) y then Ok tt else Err PolynomialEvaluationUnexpected.

(** tools/mod.rs:1384-1399 [check_vector_eq!] *)
Definition check_vector_eq_o (u v : list F) : outcome error unit :=
  if check_vector_eq u v then Ok tt else Err VectorNotEqual.

End Snark.
Arguments item : clear implicits.

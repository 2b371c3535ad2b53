(** PlonkSpec.v: when an assignment of values to variables satisfies a circuit, and what it means that
    a gadget computes a relation. *)
From Verif Require Import Base Tools KZG Plonk.
Local Open Scope F_scope.

Section PlonkSpec.
Context {F : Type} {fo : FieldOps F} {po : PrimeFieldOps F}.
(** the coefficients of the curve *)
Variables ca cd : F.

Definition quad (x : F) : Prop := exists k, (0 <= k < 4)%Z /\ x = from_Z k.
Definition four : F := from_Z 4.

(** The gate with selectors s and public input pi, whose wires have the values a, b, c, d, holds when the
    left, right and fourth wires of the next gate have the values a', b', d'. *)
Definition row_ok (table : list (F * F * F * F)) (s : sel F) (pi a b c d a' b' d' : F) : Prop :=
  q_arith s * (q_m s * a * b + q_l s * a + q_r s * b + q_o s * c + q_4 s * d +
    q_hl s * fpow a 5 + q_hr s * fpow b 5 + q_h4 s * fpow d 5 + q_c s) + pi = 0 /\
  (q_range s <> 0 -> quad (c - four * d) /\ quad (b - four * c) /\ quad (a - four * b) /\ quad (d' - four * a)) /\
  (q_logic s <> 0 -> exists x y z, (0 <= x < 4)%Z /\ (0 <= y < 4)%Z /\ (0 <= z < 4)%Z /\
     a' - four * a = from_Z x /\ b' - four * b = from_Z y /\ d' - four * d = from_Z z /\ c = from_Z (x * y) /\
     (q_c s = 1 -> z = Z.land x y) /\ (q_c s = - (1) -> z = Z.lxor x y)) /\
  (q_fixed s <> 0 -> let bit := d' - d - d in
     (bit = 0 \/ bit = 1 \/ bit = - (1)) /\ c = bit * q_c s /\
     let xa := q_l s * bit in let ya := bit * bit * (q_r s - 1) + 1 in
     a' * (1 + cd * (c * a * b)) = xa * b + ya * a /\ b' * (1 - cd * (c * a * b)) = ya * b - ca * (xa * a)) /\
  (q_var s <> 0 -> d' = a * d /\
     a' * (1 + cd * (a * d * (b * c))) = a * d + b * c /\ b' * (1 - cd * (a * d * (b * c))) = b * d - ca * (a * c)) /\
  (q_lookup s <> 0 -> In (a, b, c, d) table \/ table = [] /\ (a, b, c, d) = (0, 0, 0, 0)).

(** The variable on a wire; the circuit is padded with gates without selectors. *)
Definition wires (c : composer F) (col : column) : list nat :=
  match col with Left => c_wl c | Right => c_wr c | Output => c_wo c | Fourth => c_w4 c end.
Definition wire_var (c : composer F) (col : column) (i : nat) : nat := nth i (wires c col) (c_zero c).
Definition sel_at (c : composer F) (i : nat) : sel F := nth i (c_sel c) no_sel.

(** Every gate holds, and the gate after the last one is the first. *)
Definition satisfies (c : composer F) (a : nat -> F) : Prop :=
  forall i, (i < circuit_bound c)%nat ->
    let w col j := a (wire_var c col (j mod circuit_bound c)%nat) in
    row_ok (c_table c) (sel_at c i) (pi_get (c_pi c) i)
      (w Left i) (w Right i) (w Output i) (w Fourth i) (w Left (i + 1)%nat) (w Right (i + 1)%nat) (w Fourth (i + 1)%nat).

(** the variables 0, ..., nvars - 1 exist *)
Definition nvars (c : composer F) : nat := length (c_map c).
Definition same_upto (n : nat) (a a' : nat -> F) : Prop := forall v, (v < n)%nat -> a' v = a v.

(** The gates added between c and c' restrict the assignments exactly to those with R (new variables
    can always be chosen). *)
Definition enforces (c c' : composer F) (R : (nat -> F) -> Prop) : Prop :=
  forall a, (exists a', same_upto (nvars c) a a' /\ satisfies c' a') <-> satisfies c a /\ R a.
(** The same, for the possible values of the variable returned by a gadget. *)
Definition computes (c c' : composer F) (out : nat) (R : (nat -> F) -> F -> Prop) : Prop :=
  forall a y, (exists a', same_upto (nvars c) a a' /\ a' out = y /\ satisfies c' a') <-> satisfies c a /\ R a y.
Definition computes2 (c c' : composer F) (out : nat * nat) (R : (nat -> F) -> F -> F -> Prop) : Prop :=
  forall a x y, (exists a', same_upto (nvars c) a a' /\ a' (fst out) = x /\ a' (snd out) = y /\ satisfies c' a') <->
    satisfies c a /\ R a x y.

(** The values stored by the builder (the witness of the prover) satisfy the circuit. *)
Definition values (c : composer F) (v : nat) : F := nth v (c_vals c) 0.
Definition honest (c : composer F) : Prop := satisfies c (values c).

(** R is a constraint on the variables of c: exactly R is enforced, and the witness of the prover
    remains good exactly when it has R. *)
Definition constrains (c c' : composer F) (R : (nat -> F) -> Prop) : Prop :=
  enforces c c' R /\ same_upto (nvars c) (values c) (values c') /\ (honest c' <-> honest c /\ R (values c)).
(** A new variable is defined: it can have exactly the values in R, and the witness of the prover remains good. *)
Definition outputs (c c' : composer F) (out : nat) (R : (nat -> F) -> F -> Prop) : Prop :=
  computes c c' out R /\ same_upto (nvars c) (values c) (values c') /\ (honest c' <-> honest c).
Definition outputs2 (c c' : composer F) (out : nat * nat) (R : (nat -> F) -> F * F -> Prop) : Prop :=
  computes2 c c' out (fun a x y => R a (x, y)) /\ same_upto (nvars c) (values c) (values c') /\ (honest c' <-> honest c).

(** *** Curves: a x^2 + y^2 = 1 + d x^2 y^2 *)
Definition on_curve (p : F * F) : Prop := ca * (fst p * fst p) + snd p * snd p = 1 + cd * (fst p * fst p * (snd p * snd p)).
(** r is the sum of p and q, with the denominators multiplied out *)
Definition add_rel (p q r : F * F) : Prop :=
  let k := cd * (fst p * fst q * (snd p * snd q)) in
  fst r * (1 + k) = fst p * snd q + snd p * fst q /\ snd r * (1 - k) = snd p * snd q - ca * (fst p * fst q).
(** a is a square and d is not *)
Definition complete_curve : Prop := ca <> 0 /\ (exists s, ca = s * s) /\ (forall t, cd <> t * t).
Definition signed (e : Z) (g : F * F) : F * F := if (e =? 0)%Z then (0, 1) else if (e =? 1)%Z then g else (- fst g, snd g).
(** signed digits, highest first *)
Definition digit (e : Z) : Prop := (e = -1 \/ e = 0 \/ e = 1)%Z.
Definition digits_val (s : Z) (ds : list Z) : Z := fold_left (fun s e => (2 * s + e)%Z) ds s.
(** r is obtained from p by adding each point of the list with the sign of its digit *)
Fixpoint sums (ds : list Z) (base : list (F * F)) (p r : F * F) : Prop :=
  match ds, base with
  | [], [] => r = p
  | e :: ds, g :: base => exists q, add_rel p (signed e g) q /\ sums ds base q r
  | _, _ => False
  end.
(** r is obtained from acc by doubling and adding p for each bit, highest first *)
Fixpoint mul_rel (bits : list bool) (p acc r : F * F) : Prop :=
  match bits with
  | [] => r = acc
  | b :: bits => exists r1 r2, add_rel acc acc r1 /\ add_rel r1 (if b then p else (0, 1)) r2 /\ mul_rel bits p r2 r
  end.
Definition pnt (p : nat * nat) a : F * F := (a (fst p), a (snd p)).
Definition below_pt (p : nat * nat) (n : nat) : Prop := (fst p < n)%nat /\ (snd p < n)%nat.
(** g, 2g, 4g, ... *)
Fixpoint doublings (g : F * F) (l : list (F * F)) : Prop :=
  match l with [] => True | p :: l => p = g /\ exists g', add_rel g g g' /\ doublings g' l end.
(** the lowest bits of an integer, lowest first *)
Definition zbits (nb : nat) (z : Z) : list bool := map (fun i => Z.testbit z (Z.of_nat i)) (seq 0 nb).
(** r is k times g, computed with nb signed digits *)
Definition signed_mul (nb : nat) (k : Z) (g r : F * F) : Prop :=
  exists base ds, length base = nb /\ doublings g base /\ Forall digit ds /\ digits_val 0 ds = k /\ sums ds (rev base) (0, 1) r.
(** r is k times p, computed with nb bits *)
Definition binary_mul (nb : nat) (k : Z) (p r : F * F) : Prop :=
  (0 <= k < 2 ^ Z.of_nat nb)%Z /\ mul_rel (rev (zbits nb k)) p (0, 1) r.

(** The circuits that can be built. *)
Variables (size : nat) (chk : F * F -> bool).
Inductive built : composer F -> Prop :=
| built_new r s c : new_composer r s = Ok c -> built c
| built_input v c : built c -> built (snd (add_input v c))
| built_poly a b o m l r q k pi c c' : built c -> poly_gate a b o m l r q k pi c = Ok c' -> built c'
| built_arithmetic g c o c' : built c -> arithmetic_gate g c = Ok (o, c') -> built c'
| built_boolean a c o c' : built c -> boolean_gate a c = Ok (o, c') -> built c'
| built_full vs ss c o c' : built c -> full_affine_transform_gate vs ss c = Ok (o, c') -> built c'
| built_partial vs ss c o c' : built c -> partial_affine_transform_gate vs ss c = Ok (o, c') -> built c'
| built_lookup a b o d pi c v c' : built c -> lookup_gate a b o d pi c = Ok (v, c') -> built c'
| built_range w n c c' : built c -> range_gate size w n c = Ok c' -> built c'
| built_logic a b n xor c o c' : built c -> logic_gate size a b n xor c = Ok (o, c') -> built c'
| built_point_addition p q c r c' : built c -> point_addition_gate ca cd chk p q c = Ok (r, c') -> built c'
| built_fixed_base s g c r c' : built c -> fixed_base_scalar_mul size ca cd s g c = Ok (r, c') -> built c'
| built_blinding r s c c' : built c -> add_blinding_factors r s c = Ok c' -> built c'
| built_dummy c c' : built c -> add_dummy_constraints c = Ok c' -> built c'
| built_row r c : built c -> built (insert_row r c)
| built_dummy_table c : built c -> built (add_dummy_lookup_table c).
End PlonkSpec.

(** KZG.v: model of voproof/src/kzg/mod.rs, voproof/src/kzg/data_structures.rs and of the
    commitment helpers of voproof/src/snarks/mod.rs. *)
From Verif Require Import Base Tools.
Local Open Scope F_scope.

(** ** External contracts: pairing friendly groups (ark-ec).
    A group of prime order r is a one-dimensional vector space over the field with r elements.
    Affine and projective representations of a point are identified, and a prepared G2 point is
    identified with the point.  The target group is written additively ([is_one] is [= v0]). *)
Class VS (F V : Type) := mkVS {
  v0 : V; vadd : V -> V -> V; vneg : V -> V; vscale : F -> V -> V; veqb : V -> V -> bool }.
Class VSLaws (F V : Type) {fo : FieldOps F} {vs : VS F V} := mkVSLaws {
  vadd_assoc : forall a b c : V, vadd a (vadd b c) = vadd (vadd a b) c;
  vadd_comm : forall a b : V, vadd a b = vadd b a;
  vadd_0_l : forall a : V, vadd v0 a = a;
  vadd_neg_r : forall a : V, vadd a (vneg a) = v0;
  vscale_add : forall (x y : F) (a : V), vscale (x + y) a = vadd (vscale x a) (vscale y a);
  vscale_vadd : forall (x : F) (a b : V), vscale x (vadd a b) = vadd (vscale x a) (vscale x b);
  vscale_mul : forall (x y : F) (a : V), vscale (x * y) a = vscale x (vscale y a);
  vscale_1 : forall a : V, vscale 1 a = a;
  veqb_eq : forall a b : V, veqb a b = true <-> a = b;
  (** prime order: any non-identity element generates the group *)
  one_dim : forall g a : V, g <> v0 -> exists c : F, a = vscale c g }.

Class PairingOps (F G1 G2 GT : Type) := mkPairing {
  p_vs1 :> VS F G1; p_vs2 :> VS F G2; p_vst :> VS F GT;
  pairing : G1 -> G2 -> GT }.
Class PairingLaws (F G1 G2 GT : Type) {fo : FieldOps F} {po : PairingOps F G1 G2 GT} := mkPairingLaws {
  p_l1 :> VSLaws F G1; p_l2 :> VSLaws F G2; p_lt :> VSLaws F GT;
  pairing_add_l : forall (a b : G1) (h : G2), pairing (vadd a b) h = vadd (pairing a h) (pairing b h);
  pairing_add_r : forall (a : G1) (h k : G2), pairing a (vadd h k) = vadd (pairing a h) (pairing a k);
  pairing_scale_l : forall (x : F) (a : G1) (h : G2), pairing (vscale x a) h = vscale x (pairing a h);
  pairing_scale_r : forall (x : F) (a : G1) (h : G2), pairing a (vscale x h) = vscale x (pairing a h);
  pairing_nondeg : forall (a : G1) (h : G2), pairing a h = v0 -> a = v0 \/ h = v0 }.

Definition vsub {F V} {vs : VS F V} (a b : V) : V := vadd a (vneg b).

(** error.rs: the errors the modelled functions can return. *)
Inductive error :=
| DegreeIsZero
| TooManyCoefficients (num_coefficients num_powers : nat)
| UnsupportedDegreeBound (bound : nat)
| IncorrectDegreeBound (poly_degree degree_bound supported_degree : nat)
| VerificationFail
| PolynomialEvaluationUnexpected   (* the strings carried by these two are not modelled *)
| VectorNotEqual.

Section KZG.
Context {F G1 G2 GT : Type} {fo : FieldOps F} {po : PairingOps F G1 G2 GT}.

(** kzg/data_structures.rs:16-36 [UniversalParams] *)
Record universal_params := mkUP {
  up_powers_of_g : list G1; up_h : G2; up_beta_h : G2;
  up_prepared_h : G2; up_prepared_beta_h : G2 }.

(** kzg/data_structures.rs:66-69 [max_degree]: [len() - 1] underflows on [empty()]. *)
Definition max_degree (pp : universal_params) : outcome error nat :=
  if (length (up_powers_of_g pp) =? 0)%nat then Panic
  else Ok (length (up_powers_of_g pp) - 1)%nat.

(** kzg/data_structures.rs:134-151 [VerifierKey] *)
Record verifier_key := mkVK {
  vk_g : G1; vk_h : G2; vk_beta_h : G2; vk_prepared_h : G2; vk_prepared_beta_h : G2 }.

(** kzg/data_structures.rs:231-251 [PreparedVerifierKey::prepare] and 308-322
    [PreparedCommitment::prepare]: the list of successive doublings of a point. *)
Fixpoint doublings (bits : nat) (g : G1) : list G1 :=
  match bits with O => [] | S k => g :: doublings k (vadd g g) end.

(** kzg/data_structures.rs:289-296 [AddAssign<(F, &Commitment)> for Commitment] *)
Definition commitment_add_assign (self : G1) (f : F) (other : G1) : G1 :=
  vadd (vscale f other) self.

(** kzg/mod.rs:53-60: the powers of beta pushed by the loop of [setup]. *)
Fixpoint beta_powers (n : nat) (cur beta : F) : list F :=
  match n with O => [] | S k => cur :: beta_powers k (cur * beta) beta end.

(** kzg/mod.rs:43-84 [setup]; the three random samples are arguments.  [FixedBaseMSM::msm]
    multiplies the base by each scalar (external contract). *)
Definition setup (max_degree : nat) (beta : F) (g : G1) (h : G2) : outcome error universal_params :=
  if (max_degree <? 1)%nat then Err DegreeIsZero else
  let powers_of_beta := 1 :: beta_powers max_degree beta beta in
  let beta_h := vscale beta h in
  Ok (mkUP (map (fun b => vscale b g) powers_of_beta) h beta_h h beta_h).

(** [VariableBaseMSM::msm_bigint] (external contract): sum of products, cut at the shorter list. *)
Definition msm (bases : list G1) (scalars : list F) : G1 :=
  fold_right vadd v0 (map (fun bs => vscale (snd bs) (fst bs)) (combine bases scalars)).

(** kzg/mod.rs:353-363 [check_degree_is_too_large] *)
Definition check_degree_is_too_large (degree num_powers : nat) : outcome error unit :=
  let num_coefficients := (degree + 1)%nat in
  if (num_powers <? num_coefficients)%nat then Err (TooManyCoefficients num_coefficients num_powers)
  else Ok tt.

(** kzg/mod.rs:414-434 [skip_leading_zeros_and_convert_to_bigints(_vec)]: the number of leading zeros *)
Fixpoint leading_zeros (l : list F) : nat :=
  match l with [] => 0 | x :: l' => if is_zero x then S (leading_zeros l') else 0 end.

(** kzg/mod.rs:98-103 and its copies: multi scalar multiplication without the leading zeros;
    the slice [powers[k..]] panics when k exceeds the length. *)
Definition commit_coeffs (powers : list G1) (coeffs : list F) : outcome error G1 :=
  let k := leading_zeros coeffs in
  if (length powers <? k)%nat then Panic else Ok (msm (skipn k powers) (skipn k coeffs)).

(** kzg/mod.rs:87-109 [commit_with_coefficients]: [coeffs.len() - 1] underflows on the empty vector. *)
Definition commit_with_coefficients (powers : list G1) (coeffs : list F) : outcome error G1 :=
  if (length coeffs =? 0)%nat then Panic else
  let! _ := check_degree_is_too_large (length coeffs - 1) (length powers) in
  commit_coeffs powers coeffs.

(** [DensePolynomial::degree]: zero for the zero polynomial.  A polynomial is its coefficient list
    without trailing zeros, which all constructors of ark-poly guarantee. *)
Definition degree (p : list F) : nat := (length p - 1)%nat.

(** kzg/mod.rs:112-131 [commit] *)
Definition commit (powers : list G1) (p : list F) : outcome error G1 :=
  let! _ := check_degree_is_too_large (degree p) (length powers) in
  commit_coeffs powers p.

(** kzg/mod.rs:133-135 [commit_single] *)
Definition commit_single (g : G1) (c : F) : outcome error G1 := Ok (vscale c g).

(** kzg/mod.rs:142-161 [compute_witness_polynomial]; for degree 0 the index [degree - 1]
    underflows (or is out of bounds of the empty vector). *)
Definition compute_witness_polynomial (p : list F) (point : F) : outcome error (list F) :=
  let d := degree p in
  if (d =? 0)%nat then Panic else
  let w := upd (repeat 0 d) (d - 1) (fun _ => nth d p 0) in
  let w := fold_left (fun w i => upd w i (fun _ => nth (i + 1) p 0 + nth (i + 1) w 0 * point))
                     (rev (seq 0 (d - 1))) w in
  Ok (strip w).

(** kzg/mod.rs:163-185 [open_with_witness_polynomial] *)
Definition open_with_witness_polynomial (powers : list G1) (w : list F) : outcome error G1 :=
  let! _ := check_degree_is_too_large (degree w) (length powers) in
  commit_coeffs powers w.

(** kzg/mod.rs:188-206 [open] *)
Definition open (powers : list G1) (p : list F) (point : F) : outcome error G1 :=
  let! _ := check_degree_is_too_large (degree p) (length powers) in
  let! w := compute_witness_polynomial p point in
  open_with_witness_polynomial powers w.

(** kzg/mod.rs:219-221, the degree checks of [batch_open] *)
Fixpoint check_degrees (fs : list (list F)) (n : nat) : outcome error unit :=
  match fs with
  | [] => Ok tt
  | f :: fs' => let! _ := check_degree_is_too_large (degree f) n in check_degrees fs' n
  end.

(** kzg/mod.rs:229-236: the combined witness polynomial.  [DensePolynomial] addition and scalar
    multiplication return normalised polynomials (ark-poly contract). *)
Fixpoint combine_witness (fs : list (list F)) (z xi xi_power : F) (acc : list F)
  : outcome error (list F) :=
  match fs with
  | [] => Ok acc
  | f :: fs' => let! w := compute_witness_polynomial f z in
                combine_witness fs' z xi (xi_power * xi) (strip (padd acc (strip (pscale xi_power w))))
  end.

(** kzg/mod.rs:210-258 [batch_open] *)
Definition batch_open (powers : list G1) (fs gs : list (list F)) (z zz xi xi_2 : F)
  : outcome error (G1 * G1) :=
  let! _ := check_degrees (fs ++ gs) (length powers) in
  let! wf := combine_witness fs z xi 1 [] in
  let! wg := combine_witness gs zz xi_2 1 [] in
  let! proof := open_with_witness_polynomial powers wf in
  let! proof_2 := open_with_witness_polynomial powers wg in
  Ok (proof, proof_2).

(** kzg/mod.rs:262-285 [check] *)
Definition check (vk : verifier_key) (comm : G1) (point value : F) (proof : G1) : bool :=
  let lhs := pairing (vsub comm (vscale value (vk_g vk))) (vk_h vk) in
  let rhs := pairing proof (vsub (vk_beta_h vk) (vscale point (vk_h vk))) in
  veqb lhs rhs.

(** kzg/mod.rs:317-328, one of the two accumulation loops of [batch_check]: (total, y) with the
    commitments scaled by [r] and the values not. *)
Fixpoint batch_combine (cvs : list (G1 * F)) (xi xi_power r : F) (q : G1) (y : F) : G1 * F :=
  match cvs with
  | [] => (q, y)
  | (c, v) :: l => batch_combine l xi (xi_power * xi) r (vadd q (vscale (xi_power * r) c)) (y + xi_power * v)
  end.

(** kzg/mod.rs:289-351 [batch_check]; the u128 randomizer is an argument.  The first loop scales
    by [xi_power] alone (randomizer 1). *)
Definition batch_check (vk : verifier_key) (f_commitments g_commitments : list G1)
  (z zz xi xi_2 : F) (f_values g_values : list F) (proof proof_2 : G1) (randomizer : F) : bool :=
  let '(q, y) := batch_combine (combine f_commitments f_values) xi 1 1 v0 0 in
  let total_q := vsub q (vscale y (vk_g vk)) in
  let '(q2, y2) := batch_combine (combine g_commitments g_values) xi_2 1 randomizer v0 0 in
  let total_q_2 := vsub q2 (vscale (y2 * randomizer) (vk_g vk)) in
  let point_f := vadd (vadd (vadd total_q total_q_2) (vscale z proof))
                      (vscale (randomizer * zz) proof_2) in
  let total_w := vadd proof (vscale randomizer proof_2) in
  veqb (vadd (pairing point_f (vk_prepared_h vk)) (pairing (vneg total_w) (vk_prepared_beta_h vk))) v0.

(** kzg/mod.rs:386-411 [check_degrees_and_bounds]; [search] stands for [slice::binary_search(..).is_ok()]
    of the standard library.  The label carried by the error is not modelled. *)
Definition check_degrees_and_bounds (search : list nat -> nat -> bool) (supported_degree max_degree : nat)
  (enforced : option (list nat)) (degree_bound : option nat) (p_degree : nat) : outcome error unit :=
  match degree_bound with
  | None => Ok tt
  | Some bound =>
    match enforced with
    | None => Err (UnsupportedDegreeBound bound)
    | Some l =>
      if negb (search l bound) then Err (UnsupportedDegreeBound bound)
      else if (bound <? p_degree)%nat || (max_degree <? bound)%nat
      then Err (IncorrectDegreeBound p_degree bound supported_degree)
      else Ok tt
    end
  end.

(** snarks/fibonacci.rs:83-92 (and the same expression in [index] of every other argument): the KZG
    verifier key extracted from the parameters; [powers_of_g[0]] panics on empty parameters. *)
Definition kzg_vk (pp : universal_params) : outcome error verifier_key :=
  match up_powers_of_g pp with
  | [] => Panic
  | g :: _ => Ok (mkVK g (up_h pp) (up_beta_h pp) (up_prepared_h pp) (up_prepared_beta_h pp))
  end.

(** snarks/mod.rs:37-50 [vector_to_commitment] *)
Definition vector_to_commitment (powers : list G1) (vec : list F) (degree : nat) : outcome error G1 :=
  let offset := if (degree <? length vec)%nat then 0%nat else (degree - length vec)%nat in
  if (length powers <? offset)%nat then Panic
  else commit_with_coefficients (skipn offset powers) vec.

(** snarks/mod.rs:52-57 [scalar_to_commitment] *)
Definition scalar_to_commitment (g : G1) (c : F) : outcome error G1 := commit_single g c.

End KZG.
Arguments universal_params : clear implicits.
Arguments verifier_key : clear implicits.

(** ** Serialization (ark-serialize).  Bytes are integers; [mode] is the compression mode. *)
Class Ser (A : Type) := mkSer {
  ser : bool -> A -> list Z;
  deser : bool -> bool -> list Z -> option (A * list Z) }.
Class SerLaws (A : Type) {s : Ser A} := mkSerLaws {
  ser_deser : forall m v (a : A) rest, deser m v (ser m a ++ rest) = Some (a, rest) }.

(** little endian encoding of integers on k bytes (u64 is k = 8) *)
Fixpoint le_bytes (k : nat) (z : Z) : list Z :=
  match k with O => [] | S k' => (z mod 256)%Z :: le_bytes k' (z / 256)%Z end.
Fixpoint le_value (l : list Z) : Z :=
  match l with [] => 0 | b :: l' => (b + 256 * le_value l')%Z end.
Definition deser_u64 (l : list Z) : option (Z * list Z) :=
  if (length l <? 8)%nat then None else Some (le_value (firstn 8 l), skipn 8 l).

(** [Vec<T>]: the length as a u64, then the elements. *)
Definition ser_vec {A} {s : Ser A} (m : bool) (l : list A) : list Z :=
  le_bytes 8 (Z.of_nat (length l)) ++ flat_map (ser m) l.
Fixpoint deser_n {A} {s : Ser A} (m v : bool) (n : nat) (l : list Z) : option (list A * list Z) :=
  match n with
  | O => Some ([], l)
  | S k => match deser m v l with
           | None => None
           | Some (a, l1) => match deser_n m v k l1 with
                             | None => None
                             | Some (r, l2) => Some (a :: r, l2)
                             end
           end
  end.
Definition deser_vec {A} {s : Ser A} (m v : bool) (l : list Z) : option (list A * list Z) :=
  match deser_u64 l with
  | None => None
  | Some (n, l') => deser_n m v (Z.to_nat n) l'
  end.

Section SerKZG.
Context {G1 G2 : Type} {s1 : Ser G1} {s2 : Ser G2}.

(** kzg/data_structures.rs:79-90 [UniversalParams::serialize_with_mode] *)
Definition ser_up (m : bool) (pp : universal_params G1 G2) : list Z :=
  ser_vec m (up_powers_of_g pp) ++ ser m (up_h pp) ++ ser m (up_beta_h pp).
(** kzg/data_structures.rs:93-112 [UniversalParams::deserialize_with_mode]; preparation of a point
    is the identity in this model. *)
Definition deser_up (m v : bool) (l : list Z) : option (universal_params G1 G2 * list Z) :=
  match deser_vec m v l with
  | None => None
  | Some (ps, l) =>
    match deser m v l with
    | None => None
    | Some (h, l) =>
      match deser m v l with
      | None => None
      | Some (bh, l) => Some (mkUP ps h bh h bh, l)
      end
    end
  end.

(** kzg/data_structures.rs:153-163 [VerifierKey::serialize_with_mode] *)
Definition ser_vk (m : bool) (vk : verifier_key G1 G2) : list Z :=
  ser m (vk_g vk) ++ ser m (vk_h vk) ++ ser m (vk_beta_h vk).
(** kzg/data_structures.rs:183-203 [VerifierKey::deserialize_with_mode] *)
Definition deser_vk (m v : bool) (l : list Z) : option (verifier_key G1 G2 * list Z) :=
  match deser m v l with
  | None => None
  | Some (g, l) =>
    match deser m v l with
    | None => None
    | Some (h, l) =>
      match deser m v l with
      | None => None
      | Some (bh, l) => Some (mkVK g h bh h bh, l)
      end
    end
  end.
(** kzg/data_structures.rs:71-77 and 165-169: [serialized_size]; [size] is that of a group element. *)
Definition up_serialized_size (size1 : G1 -> nat) (size2 : G2 -> nat) (pp : universal_params G1 G2) : nat :=
  (8 + fold_right plus 0%nat (map size1 (up_powers_of_g pp)) + size2 (up_h pp) + size2 (up_beta_h pp))%nat.
Definition vk_serialized_size (size1 : G1 -> nat) (size2 : G2 -> nat) (vk : verifier_key G1 G2) : nat :=
  (size1 (vk_g vk) + size2 (vk_h vk) + size2 (vk_beta_h vk))%nat.
End SerKZG.

(** ** A concrete pairing: G1 = G2 = GT = F written additively, e(a,b) = a b.  Used for the
    non-vacuity examples only (discrete logarithms are trivial here). *)
#[global] Instance vs_self {F} {fo : FieldOps F} : VS F F :=
  {| v0 := f0; vadd := fadd; vneg := fopp; vscale := fmul; veqb := feqb |}.
#[global] Instance pairing_self {F} {fo : FieldOps F} : PairingOps F F F F :=
  {| p_vs1 := vs_self; p_vs2 := vs_self; p_vst := vs_self; pairing := fmul |}.

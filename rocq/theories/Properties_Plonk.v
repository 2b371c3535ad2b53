(** Properties_Plonk.v: the gates and gadgets of the circuit builder of plonk-core (C64 - C70). *)
From Verif Require Import Base Tools IntProofs KZG SnarkProofs Plonk PlonkSpec PlonkProofs PlonkGadgets PlonkSelect PlonkRange PlonkRows
  PlonkLogic PlonkLogicOk PlonkPoint PlonkFixed PlonkVarBase PlonkEcc PlonkBuilt Properties_Snark Properties_Sound.
Local Open Scope F_scope.

Section S.
Context {F : Type} {fo : FieldOps F} {fl : FieldLaws F} {po : PrimeFieldOps F} {pl : PrimeFieldLaws F}.
Add Field Fpropplonk : F_th.
Variables (ca cd : F) (size : nat) (chk : F * F -> bool).
Implicit Types (c : composer F) (a : nat -> F).
Notation satisfies := (satisfies ca cd).
Notation honest := (honest ca cd).
Notation constrains := (constrains ca cd).
Notation outputs := (outputs ca cd).
Notation outputs2 := (outputs2 ca cd).
Notation computes := (computes ca cd).
Notation computes2 := (computes2 ca cd).
Notation built := (built ca cd size chk).
Notation ext := (ext ca cd).
Notation total := (total ca cd).
Notation complete_curve := (complete_curve ca cd).
Notation on_curve := (on_curve ca cd).
Notation add_rel := (add_rel ca cd).
(** the characteristic is odd *)
Notation odd_field := (2 < modulus (F:=F))%Z.

(** *** helpers *)
Lemma two_nz : odd_field -> (1 + 1 : F) <> 0.
Proof.
  intros M E. assert (to_Z (from_Z 2 : F) = 2%Z) as A by (rewrite to_from_Z; apply Z.mod_small; lia).
  change 2%Z with (1 + 1)%Z in A. rewrite from_Z_add, !from_Z_1, E in A.
  rewrite <- from_Z_0, to_from_Z, Z.mod_0_l in A; lia.
Qed.
Lemma bwf c : odd_field -> built c -> wf c.
Proof. intros M B. exact (built_wf ca cd size chk M c B). Qed.
Lemma constrains_of c c' R : wf c -> ext c c' R -> (forall a a', same_upto (nvars c) a a' -> R a -> R a') -> constrains c c' R.
Proof.
  intros W E HR. assert (same_upto (nvars c) (values c) (values c')) as S by (intros v Hv; now apply (ext_vals _ _ _ _ _ E)).
  split; [now apply enforces_old|]. split; [exact S|].
  rewrite (honest_ext _ _ _ _ _ W E). split; intros [A B]; split; auto.
  - apply (HR (values c') (values c)); auto. intros v Hv. symmetry. now apply S.
  - now apply (HR (values c) (values c')).
Qed.
Lemma outputs_of c c' out R Q : wf c -> total c c' Q ->
  (forall a, satisfies c' a -> Q a -> forall y, R a y <-> y = a out) -> (forall a a' y, same_upto (nvars c) a a' -> R a y <-> R a' y) ->
  outputs c c' out R.
Proof.
  intros W T A B. split; [|split].
  - now apply (total_computes ca cd _ _ _ _ Q).
  - intros v Hv. now apply (t_vals _ _ _ _ _ T).
  - apply T.
Qed.
Lemma outputs2_of c c' p (f : (nat -> F) -> F * F) : wf c -> total c c' (fun a => pnt p a = f a) ->
  (forall a a', same_upto (nvars c) a a' -> f a' = f a) -> outputs2 c c' p (fun a r => r = f a).
Proof.
  intros W T E. split; [|split].
  - intros a x y. split.
    + intros [a' [S [<- [<- H]]]]. destruct (t_sound _ _ _ _ _ T _ H) as [H1 Q]. split.
      * exact (proj2 (satisfies_same ca cd c a a' W S) H1).
      * change (pnt p a' = f a). rewrite Q. now apply E.
    + intros [H Q]. destruct (t_complete _ _ _ _ _ T _ H) as [a' [S H']]. exists a'. split; [exact S|].
      destruct (t_sound _ _ _ _ _ T _ H') as [_ Q']. rewrite (E _ _ S), <- Q in Q'. injection Q' as A B. auto.
  - intros v Hv. now apply (t_vals _ _ _ _ _ T).
  - apply T.
Qed.

(** *** C64: the arithmetic gates *)
Definition opt0 (pi : option F) : F := match pi with Some p => p | None => 0 end.

Theorem c64_poly_gate x y o m l r q k pi c c' : odd_field -> built c -> poly_gate x y o m l r q k pi c = Ok c' ->
  constrains c c' (fun a => m * (a x * a y) + l * a x + r * a y + q * a o + k + opt0 pi = 0).
Proof.
  intros M B H. apply bwf in B; auto. apply (poly_gate_ext ca cd) in H; auto. destruct H as [E [_ [L1 [L2 L3]]]].
  apply constrains_of; auto.
  - apply (ext_iff ca cd _ _ _ _ E). intros a. unfold pi_val, opt0. split; intros A; refine (eq_trans _ A); ring.
  - intros a a' S A. rewrite !S by auto. exact A.
Qed.
Theorem c64_poly_gate_succeeds x y o m l r q k pi c : odd_field -> built c ->
  (exists c', poly_gate x y o m l r q k pi c = Ok c') <-> (x < nvars c /\ y < nvars c /\ o < nvars c)%nat.
Proof.
  intros M B. apply bwf in B; auto. split.
  - intros [c' H]. apply (poly_gate_ext ca cd) in H; auto. tauto.
  - intros [L1 [L2 L3]]. apply add_gate_ok; auto. apply (wf_zero _ B).
Qed.
Theorem c64_constrain_to_constant x k pi c c' : odd_field -> built c -> constrain_to_constant x k pi c = Ok c' ->
  constrains c c' (fun a => a x + opt0 pi = k).
Proof.
  intros M B H. apply bwf in B; auto. apply (constrain_ext ca cd) in H; auto. destruct H as [E [_ L]].
  apply constrains_of; auto. intros a a' S A. now rewrite S.
Qed.
Theorem c64_assert_equal x y c c' : odd_field -> built c -> assert_equal x y c = Ok c' -> constrains c c' (fun a => a x = a y).
Proof.
  intros M B H. apply bwf in B; auto. apply (assert_equal_ext ca cd) in H; auto. destruct H as [E [_ [L1 L2]]].
  apply constrains_of; auto. intros a a' S A. now rewrite !S.
Qed.
Theorem c64_boolean_gate x c o c' : odd_field -> built c -> boolean_gate x c = Ok (o, c') ->
  o = x /\ constrains c c' (fun a => a x = 0 \/ a x = 1).
Proof.
  intros M B H. apply bwf in B; auto. apply (boolean_ext ca cd) in H; auto. destruct H as [-> [E [_ L]]]. split; auto.
  apply constrains_of; auto. intros a a' S A. now rewrite S.
Qed.
Theorem c64_constant_witness v c x c' : odd_field -> built c -> add_witness_to_circuit_description v c = Ok (x, c') ->
  outputs c c' x (fun _ y => y = v).
Proof.
  intros M B H. apply bwf in B; auto. apply (witness_total ca cd) in H; auto. destruct H as [T _].
  apply (outputs_of _ _ _ _ _ B T).
  - intros a _ -> y. reflexivity.
  - reflexivity.
Qed.
(** The equation of an arithmetic gate on x and y, apart from its output. *)
Definition gate_sum (g : gate F) (x y : nat) a : F :=
  g_mul g * (a x * a y) + fst (g_add g) * a x + snd (g_add g) * a y +
  match g_fan_in_3 g with Some (q, v) => q * a v | None => 0 end + g_const g + opt0 (g_pi g).
Lemma gate_lin_eq c g x y a : g_lin c g x y a = gate_sum g x y a.
Proof. unfold g_lin, gate_sum, g_in4, pi_val, opt0. destruct (g_fan_in_3 g) as [[q v]|]; cbn [fst snd]; ring. Qed.
Lemma gate_sum_same c g x y a a' : same_upto (nvars c) a a' -> (x < nvars c)%nat -> (y < nvars c)%nat -> (snd (g_in4 c g) < nvars c)%nat ->
  gate_sum g x y a' = gate_sum g x y a.
Proof.
  intros S Lx Ly L4. unfold gate_sum. unfold g_in4 in L4. destruct (g_fan_in_3 g) as [[q v]|]; cbn [snd] in L4; rewrite !S by auto; reflexivity.
Qed.
Theorem c64_arithmetic_gate_given g x y o c out c' : odd_field -> built c -> g_witness g = Some (x, y, Some o) ->
  arithmetic_gate g c = Ok (out, c') -> out = o /\ constrains c c' (fun a => gate_sum g x y a + g_out g * a o = 0).
Proof.
  intros M B G H. apply bwf in B; auto. apply (arithmetic_ext_some ca cd _ _ _ _ _ _ _ B G) in H. destruct H as [-> [_ [E [L1 [L2 [L3 L4]]]]]].
  split; auto. apply constrains_of; auto.
  - apply (ext_iff ca cd _ _ _ _ E). intros a. now rewrite gate_lin_eq.
  - intros a a' S A. now rewrite (gate_sum_same c g x y a a'), S.
Qed.
Theorem c64_arithmetic_gate_new g x y c out c' : odd_field -> built c -> g_witness g = Some (x, y, None) ->
  arithmetic_gate g c = Ok (out, c') ->
  out = nvars c /\ computes c c' out (fun a v => gate_sum g x y a + g_out g * v = 0) /\
  (g_out g = 1 \/ g_out g = - (1) -> outputs c c' out (fun a v => gate_sum g x y a + g_out g * v = 0)).
Proof.
  intros M B G H. apply bwf in B; auto. apply (arithmetic_ext_none ca cd _ _ _ _ _ _ B G) in H. destruct H as [-> [N [E [[L1 [L2 L4]] V]]]].
  assert (computes c c' (nvars c) (fun a v => gate_sum g x y a + g_out g * v = 0)) as C.
  { apply (computes_intro ca cd _ _ _ _ _ B E). intros a _ v. split.
    - intros [a' [S [<- Q]]]. rewrite gate_lin_eq, (gate_sum_same c g x y a a') in Q; auto.
    - intros Q. exists (fun i => if (i =? nvars c)%nat then v else a i). split; [|split].
      + intros i Hi. destruct (Nat.eqb_spec i (nvars c)); [lia|reflexivity].
      + now rewrite Nat.eqb_refl.
      + rewrite Nat.eqb_refl, gate_lin_eq. refine (eq_trans _ Q). f_equal. apply (gate_sum_same c); auto.
        intros i Hi. destruct (Nat.eqb_spec i (nvars c)); [lia|reflexivity]. }
  split; auto. split; [exact C|]. intros HO. split; [exact C|]. split; [intros i Hi; now apply (ext_vals _ _ _ _ _ E)|].
  rewrite (honest_ext _ _ _ _ _ B E). split; [tauto|]. intros A. split; auto. rewrite V, !gate_lin_eq.
  rewrite (gate_sum_same c g x y (values c) (values c')); auto; [|intros i Hi; now apply (ext_vals _ _ _ _ _ E)].
  destruct HO as [-> | ->]; ring.
Qed.
(** The stored value of a new output is wrong for other output coefficients q unless q^2 = 1. *)
Theorem c64_output_coefficient_refuted g x y c out c' : odd_field -> built c -> g_witness g = Some (x, y, None) ->
  arithmetic_gate g c = Ok (out, c') ->
  honest c' <-> honest c /\ (gate_sum g x y (values c) = 0 \/ g_out g * g_out g = 1).
Proof.
  intros M B G H. apply bwf in B; auto. apply (arithmetic_ext_none ca cd _ _ _ _ _ _ B G) in H. destruct H as [-> [N [E [[L1 [L2 L4]] V]]]].
  rewrite (honest_ext _ _ _ _ _ B E), V, !gate_lin_eq.
  rewrite (gate_sum_same c g x y (values c) (values c')); auto; [|intros i Hi; now apply (ext_vals _ _ _ _ _ E)].
  set (s := gate_sum g x y (values c)). set (q := g_out g). split; intros [A D]; split; auto.
  - assert (s * (1 - q * q) = 0) as Z by (rewrite <- D; ring). apply fmul_integral in Z. destruct Z as [Z|Z]; auto. right.
    transitivity (1 - (1 - q * q)); [ring|]. rewrite Z. ring.
  - destruct D as [->|D]; [ring|]. transitivity (s * (1 - q * q)); [ring|]. rewrite D. ring.
Qed.
Theorem c64_arithmetic_gate_succeeds g c : odd_field -> built c ->
  (exists r, arithmetic_gate g c = Ok r) <->
  exists x y o, g_witness g = Some (x, y, o) /\ (x < nvars c)%nat /\ (y < nvars c)%nat /\
    (forall o', o = Some o' -> (o' < nvars c)%nat) /\ (forall q v, g_fan_in_3 g = Some (q, v) -> (v < nvars c)%nat).
Proof.
  intros M B. apply bwf in B; auto. split.
  - intros [[out c'] H]. destruct (g_witness g) as [[[x y] o]|] eqn:G; [|unfold arithmetic_gate in H; rewrite G in H; discriminate].
    exists x, y, o. split; auto. destruct o as [o|].
    + apply (arithmetic_ext_some ca cd _ _ _ _ _ _ _ B G) in H. destruct H as [_ [_ [_ [L1 [L2 [L3 L4]]]]]]. repeat split; auto.
      * now intros o' [= <-].
      * intros q v E. unfold g_in4 in L4. now rewrite E in L4.
    + apply (arithmetic_ext_none ca cd _ _ _ _ _ _ B G) in H. destruct H as [_ [_ [_ [[L1 [L2 L4]] _]]]]. repeat split; auto.
      * discriminate.
      * intros q v E. unfold g_in4 in L4. now rewrite E in L4.
  - intros [x [y [o [G [L1 [L2 [L3 L4]]]]]]]. destruct (arithmetic_ok g x y o c) as [out [c' H]]; eauto.
Qed.

(** *** C65: tests, selections, affine transformations and lookups *)
Theorem c65_is_zero x c out c' : odd_field -> built c -> is_zero_with_output x c = Ok (out, c') ->
  outputs c c' out (fun a y => (a x = 0 -> y = 1) /\ (a x <> 0 -> y = 0)).
Proof.
  intros M B H. apply bwf in B; auto.
  assert (forall v y, zero_test v y <-> (v = 0 -> y = 1) /\ (v <> 0 -> y = 0)) as Z.
  { intros v y. unfold zero_test. destruct (feq_dec v 0); tauto. }
  split; [|split].
  - intros a y. rewrite <- Z. now apply (is_zero_computes ca cd).
  - apply (is_zero_ext ca cd) in H; auto. destruct H as [v [_ [_ [_ [_ [E _]]]]]]. intros i Hi. now apply (ext_vals _ _ _ _ _ E).
  - now apply (is_zero_honest ca cd) in H.
Qed.
Theorem c65_is_equal x y c out c' : odd_field -> built c -> is_eq_with_output x y c = Ok (out, c') ->
  outputs c c' out (fun a v => (a x = a y -> v = 1) /\ (a x <> a y -> v = 0)).
Proof.
  intros M B H. apply bwf in B; auto. split; [|split].
  - pose proof (is_eq_computes ca cd _ _ _ _ _ B H) as C. intros a v. specialize (C a v). rewrite C. clear C.
    destruct (feq_dec (a x) (a y)); split; intros A; split; try tauto; intuition.
  - destruct (is_eq_inv ca cd _ _ _ _ _ B H) as [d [c1 [W1 [D HZ]]]].
    apply (is_zero_ext ca cd) in HZ; auto. destruct HZ as [v [_ [_ [_ [_ [E _]]]]]]. apply (defines_total ca cd) in D; auto. pose proof (t_n _ _ _ _ _ D).
    intros i Hi. rewrite (ext_vals _ _ _ _ _ E) by lia. now apply (t_vals _ _ _ _ _ D).
  - now apply (is_eq_honest ca cd) in H.
Qed.
(** The first value for bit 1, the second for bit 0. *)
Theorem c65_conditional_select bit x y c out c' : odd_field -> built c -> (y < nvars c)%nat -> conditional_select bit x y c = Ok (out, c') ->
  outputs c c' out (fun a v => v = a bit * a x + (1 - a bit) * a y).
Proof.
  intros M B Ly H. apply bwf in B; auto. apply (cond_select_total ca cd) in H; auto. destruct H as [T [_ [L1 L2]]].
  apply (outputs_of _ _ _ _ _ B T).
  - intros a _ -> v. reflexivity.
  - intros a a' v S. now rewrite !S.
Qed.
Theorem c65_conditional_select_zero bit x c out c' : odd_field -> built c -> conditional_select_zero bit x c = Ok (out, c') ->
  outputs c c' out (fun a v => v = a bit * a x).
Proof.
  intros M B H. apply bwf in B; auto. apply (cond_zero_total ca cd) in H; auto. destruct H as [T [_ [_ [L1 L2]]]].
  apply (outputs_of _ _ _ _ _ B T).
  - intros a _ -> v. reflexivity.
  - intros a a' v S. now rewrite !S.
Qed.
Theorem c65_conditional_select_one bit x c out c' : odd_field -> built c -> conditional_select_one bit x c = Ok (out, c') ->
  outputs c c' out (fun a v => v = a bit * a x + (1 - a bit) * 1).
Proof.
  intros M B H. apply bwf in B; auto. apply (cond_one_total ca cd) in H; auto. destruct H as [T [_ [_ [L1 L2]]]].
  apply (outputs_of _ _ _ _ _ B T).
  - intros a _ -> v. now replace ((1 - a bit) * 1) with (1 - a bit) by ring.
  - intros a a' v S. now rewrite !S.
Qed.
Theorem c65_full_affine_transform x y z s0 s1 s2 s3 s4 c out c' : odd_field -> built c ->
  full_affine_transform_gate (x, y, z) (s0, s1, s2, s3, s4) c = Ok (out, c') ->
  s4 <> 0 /\ outputs c c' out (fun a v => s0 * fpow (a x) 5 + s1 * fpow (a y) 5 + s2 * fpow (a z) 5 + s3 + s4 * v = 0).
Proof.
  intros M B H. apply bwf in B; auto. apply (full_total ca cd) in H; auto. destruct H as [T [_ [_ [N [L1 [L2 L3]]]]]].
  split; auto. apply (outputs_of _ _ _ _ _ B T).
  - intros a _ -> v. set (s := s0 * _ + _ + _ + s3). split.
    + intros E. transitivity ((s + s4 * v - s) / s4); [field; auto|]. rewrite E. field; auto.
    + intros ->. field; auto.
  - intros a a' v S. now rewrite !S.
Qed.
Theorem c65_partial_affine_transform x y z s0 s1 s2 s3 s4 c out c' : odd_field -> built c ->
  partial_affine_transform_gate (x, y, z) (s0, s1, s2, s3, s4) c = Ok (out, c') ->
  s4 <> 0 /\ outputs c c' out (fun a v => s0 * fpow (a x) 5 + s1 * a y + s2 * a z + s3 + s4 * v = 0).
Proof.
  intros M B H. apply bwf in B; auto. apply (partial_total ca cd) in H; auto. destruct H as [T [_ [_ [N [L1 [L2 L3]]]]]].
  split; auto. apply (outputs_of _ _ _ _ _ B T).
  - intros a _ -> v. set (s := s0 * _ + _ + _ + s3). split.
    + intros E. transitivity ((s + s4 * v - s) / s4); [field; auto|]. rewrite E. field; auto.
    + intros ->. field; auto.
  - intros a a' v S. now rewrite !S.
Qed.
(** A lookup gate holds exactly for the rows of a non-empty table.  Its public input must be zero. *)
Theorem c65_lookup_gate x y z t pi c out c' : odd_field -> built c -> c_table c <> [] -> lookup_gate x y z t pi c = Ok (out, c') ->
  out = z /\ constrains c c' (fun a => opt0 pi = 0 /\ In (a x, a y, a z, match t with Some t => a t | None => 0 end) (c_table c)).
Proof.
  intros M B HT H. apply bwf in B; auto. apply (lookup_ext ca cd) in H; auto. cbv zeta in H. destruct H as [-> [_ [[L1 [L2 [L3 L4]]] E]]].
  split; auto. set (u := match t with Some t => t | None => c_zero c end) in *.
  assert (forall a, satisfies c a -> match t with Some t => a t | None => 0 end = a u) as EU.
  { intros a Ha. unfold u. destruct t; auto. symmetry. now apply (satisfies_zero ca cd c a). }
  set (R := fun a => opt0 pi = 0 /\ In (a x, a y, a z, a u) (c_table c)).
  assert (constrains c c' R) as [C1 [C2 C3]].
  { apply constrains_of; auto.
    - apply (ext_iff ca cd _ _ _ _ E). intros a. unfold R, opt0, pi_val. tauto.
    - intros a a' S A. unfold R. now rewrite !S. }
  split; [|split; [auto|]].
  - intros a. rewrite (C1 a). unfold R. split; intros [A D]; split; auto; rewrite (EU a A) in *; auto.
  - rewrite C3. unfold R. split; intros [A D]; split; auto; rewrite (EU _ A) in *; auto.
Qed.

(** *** C66: range checks *)
Theorem c66_range_gate w nb c c' : odd_field -> built c -> range_gate size w nb c = Ok c' ->
  constrains c c' (fun a => (to_Z (a w) < 2 ^ Z.of_nat nb)%Z).
Proof.
  intros M B H. apply bwf in B; auto. split; [|split].
  - intros a. rewrite (range_enforces ca cd _ _ _ _ _ B H a). split; intros [A D]; split; auto.
    + destruct D as [z [Hz ->]]. rewrite to_from_Z. pose proof (Z.mod_le z (modulus (F:=F))). lia.
    + exists (to_Z (a w)). split; [|now rewrite from_to_Z]. pose proof (to_Z_range (a w)). lia.
  - pose proof (range_gate_inv ca cd _ _ _ _ _ B H) as I. cbv zeta in I. destruct I as [_ [_ [_ [_ [p [c5 [_ [E [_ [EA _]]]]]]]]]].
    apply (assert_equal_ext ca cd) in EA; [|apply (ext_wf _ _ _ _ _ E)]. destruct EA as [E' _]. pose proof (ext_n _ _ _ _ _ E).
    intros v Hv. rewrite (ext_vals _ _ _ _ _ E') by lia. now apply (ext_vals _ _ _ _ _ E).
  - exact (range_honest ca cd _ _ _ _ _ B H).
Qed.
(** An even, positive number of bits that is at most the size of the integers. *)
Theorem c66_range_gate_succeeds w nb c : odd_field -> built c ->
  (exists c', range_gate size w nb c = Ok c') <-> (w < nvars c)%nat /\ (nb mod 2 = 0)%nat /\ (0 < nb <= size)%nat.
Proof. intros M B. exact (range_gate_ok ca cd size w nb c (bwf c M B)). Qed.

(** *** C67: and, xor *)
(** The output is the bitwise operation on the low bits in the witness of an honest prover, *)
Theorem c67_logic_gate_honest x y nb xor c out c' : odd_field -> built c -> logic_gate 256 x y nb xor c = Ok (out, c') ->
  (honest c' <-> honest c) /\
  (honest c -> values c' out = from_Z ((if xor then Z.lxor else Z.land)
     (to_Z (values c x) mod 2 ^ Z.of_nat nb)%Z (to_Z (values c y) mod 2 ^ Z.of_nat nb)%Z)).
Proof.
  intros M B H. apply bwf in B; auto. split; [exact (logic_honest ca cd _ _ _ _ _ _ _ _ M B H)|].
  intros A. rewrite (logic_value ca cd _ _ _ _ _ _ _ M B A H). unfold lop. now destruct xor.
Qed.
(** but a cheating prover can choose any number of nb bits as the output, whatever the inputs are: the
    gate does not read them. *)
Theorem c67_logic_gate_unbound_refuted x y nb xor c out c' : odd_field -> built c -> logic_gate size x y nb xor c = Ok (out, c') ->
  computes c c' out (fun _ v => (to_Z v < 2 ^ Z.of_nat nb)%Z).
Proof.
  intros M B H. apply bwf in B; auto. intros a v. rewrite (logic_computes ca cd _ _ _ _ _ _ _ _ M B H a v).
  split; intros [A D]; split; auto.
  - destruct D as [z [Hz ->]]. rewrite to_from_Z. pose proof (Z.mod_le z (modulus (F:=F))). lia.
  - exists (to_Z v). split; [|now rewrite from_to_Z]. pose proof (to_Z_range v). lia.
Qed.
(** It needs integers of 256 bits. *)
Theorem c67_logic_gate_succeeds x y nb xor c : (4 < modulus (F:=F))%Z -> built c ->
  (exists r, logic_gate size x y nb xor c = Ok r) <->
  (x < nvars c)%nat /\ (y < nvars c)%nat /\ (nb mod 2 = 0)%nat /\ (nb <= 256)%nat /\ (nb = 0 \/ 256 <= size)%nat.
Proof. intros M B. apply (logic_gate_ok ca cd); auto. apply bwf; auto. lia. Qed.

(** *** C68: points *)
(** On a complete curve the relation of the gate has exactly one solution, which is on the curve. *)
Theorem c68_sum_unique p q : odd_field -> complete_curve -> on_curve p -> on_curve q ->
  exists r, on_curve r /\ forall r', add_rel p q r' <-> r' = r.
Proof.
  intros M C P Q. exists (te_add ca cd p q). split.
  - apply te_add_on_curve; auto. now apply two_nz.
  - apply te_add_rel; auto. now apply two_nz.
Qed.
Lemma point_vals p q c r c' : wf c -> point_addition_gate ca cd chk p q c = Ok (r, c') -> same_upto (nvars c) (values c) (values c').
Proof.
  destruct p as [x1 y1], q as [x2 y2], r as [x3 y3]. intros W H. apply (point_addition_inv ca cd) in H; auto. cbv zeta in H.
  destruct H as [_ [_ [_ [_ [_ [_ [E _]]]]]]]. intros v Hv. now apply (ext_vals _ _ _ _ _ E).
Qed.
Theorem c68_point_addition p q c r c' : odd_field -> built c -> point_addition_gate ca cd chk p q c = Ok (r, c') ->
  computes2 c c' r (fun a x y => add_rel (pnt p a) (pnt q a) (x, y)).
Proof.
  intros M B H. apply bwf in B; auto. destruct p as [x1 y1], q as [x2 y2], r as [x3 y3].
  exact (point_addition_computes ca cd _ _ _ _ _ _ _ _ _ B H).
Qed.
Theorem c68_point_addition_honest p q c r c' : odd_field -> built c -> complete_curve ->
  on_curve (pnt p (values c)) -> on_curve (pnt q (values c)) -> point_addition_gate ca cd chk p q c = Ok (r, c') ->
  same_upto (nvars c) (values c) (values c') /\ (honest c' <-> honest c).
Proof.
  intros M B C P Q H. apply bwf in B; auto. split; [eapply point_vals; eauto|]. destruct p as [x1 y1], q as [x2 y2], r as [x3 y3].
  exact (point_addition_honest ca cd (two_nz M) _ _ _ _ _ _ _ _ _ B C P Q H).
Qed.
Theorem c68_identity c p c' : odd_field -> built c -> point_identity c = Ok (p, c') -> outputs2 c c' p (fun _ r => r = (0, 1)).
Proof. intros M B H. apply bwf in B; auto. apply (identity_total ca cd) in H; auto. destruct H as [T _]. now apply (outputs2_of c c' p (fun _ => (0, 1))). Qed.
Theorem c68_assert_equal_point p q c c' : odd_field -> built c -> assert_equal_point p q c = Ok c' -> constrains c c' (fun a => pnt p a = pnt q a).
Proof.
  intros M B H. apply bwf in B; auto. apply (equal_point_ext ca cd) in H; auto. destruct H as [E [_ [L1 L2]]].
  apply constrains_of; auto. intros a a' S A. now rewrite (pnt_same (nvars c) p a a'), (pnt_same (nvars c) q a a').
Qed.
Theorem c68_assert_equal_public_point p (v : F * F) c c' : odd_field -> built c -> assert_equal_public_point p v c = Ok c' -> constrains c c' (fun a => pnt p a = v).
Proof.
  intros M B H. apply bwf in B; auto. apply (public_point_ext ca cd) in H; auto. destruct H as [E [_ L1]].
  apply constrains_of; auto. intros a a' S A. now rewrite (pnt_same (nvars c) p a a').
Qed.
Theorem c68_add_affine (v : F * F) c p c' : odd_field -> built c -> add_affine v c = (p, c') -> outputs2 c c' p (fun _ _ => True) /\ pnt p (values c') = v.
Proof.
  intros M B H. apply bwf in B; auto. apply (affine_ext ca cd) in H; auto. destruct H as [E [-> [N V]]]. split; auto. split; [|split].
  - intros a x y. cbn [fst snd]. split.
    + intros [a' [S [_ [_ Ha]]]]. split; auto. apply (ext_sat _ _ _ _ _ E) in Ha. exact (proj2 (satisfies_same ca cd c a a' B S) (proj1 Ha)).
    + intros [Ha _]. set (a' := fun i => if (i =? nvars c)%nat then x else if (i =? S (nvars c))%nat then y else a i).
      assert (same_upto (nvars c) a a') as S.
      { intros i Hi. unfold a'. destruct (Nat.eqb_spec i (nvars c)); [lia|]. destruct (Nat.eqb_spec i (S (nvars c))); [lia|reflexivity]. }
      exists a'. split; [exact S|]. unfold a' at 1 2. rewrite Nat.eqb_refl. split; auto. split.
      * destruct (Nat.eqb_spec (Datatypes.S (nvars c)) (nvars c)); [lia|now rewrite Nat.eqb_refl].
      * apply (ext_sat _ _ _ _ _ E). split; auto. exact (proj1 (satisfies_same ca cd c a a' B S) Ha).
  - intros v' Hv. now apply (ext_vals _ _ _ _ _ E).
  - rewrite (honest_ext _ _ _ _ _ B E). tauto.
Qed.
Theorem c68_add_public_affine (v : F * F) c p c' : odd_field -> built c -> add_public_affine v c = Ok (p, c') -> outputs2 c c' p (fun _ r => r = v).
Proof. intros M B H. apply bwf in B; auto. apply (public_affine_total ca cd) in H; auto. destruct H as [T _]. now apply (outputs2_of c c' p (fun _ => v)). Qed.
Theorem c68_add_constant_affine (v : F * F) c p c' : odd_field -> built c -> add_affine_to_circuit_description v c = Ok (p, c') -> outputs2 c c' p (fun _ r => r = v).
Proof. intros M B H. apply bwf in B; auto. apply (description_affine_total ca cd) in H; auto. destruct H as [T _]. now apply (outputs2_of c c' p (fun _ => v)). Qed.
(** For bit 1 the first point, for bit 0 the second one. *)
Definition select_rel (x : F) (p1 p0 r : F * F) : Prop :=
  fst r = x * fst p1 + (1 - x) * fst p0 /\ snd r = x * snd p1 + (1 - x) * snd p0.
Lemma select_blend x p1 p0 r : select_rel x p1 p0 r <-> r = blend x p1 p0.
Proof. unfold select_rel, blend. destruct r as [u v]. cbn [fst snd]. split; [intros [-> ->]; reflexivity|intros [= -> ->]; auto]. Qed.
Lemma outputs2_iff c c' p (R R' : (nat -> F) -> F * F -> Prop) : (forall a r, R a r <-> R' a r) -> outputs2 c c' p R -> outputs2 c c' p R'.
Proof. intros E [A B]. split; auto. intros a x y. rewrite <- E. apply A. Qed.
Theorem c68_select_bit p1 p0 r : (select_rel 1 p1 p0 r <-> r = p1) /\ (select_rel 0 p1 p0 r <-> r = p0).
Proof.
  rewrite !select_blend. unfold blend. destruct p1 as [x1 y1], p0 as [x0 y0]. cbn [fst snd].
  replace (1 * x1 + (1 - 1) * x0) with x1 by ring. replace (1 * y1 + (1 - 1) * y0) with y1 by ring.
  replace (0 * x1 + (1 - 0) * x0) with x0 by ring. replace (0 * y1 + (1 - 0) * y0) with y0 by ring. tauto.
Qed.
Theorem c68_conditional_point_select p1 p0 bit c p c' : odd_field -> built c -> below_pt p1 (nvars c) -> below_pt p0 (nvars c) -> (bit < nvars c)%nat ->
  conditional_point_select p1 p0 bit c = Ok (p, c') -> outputs2 c c' p (fun a r => select_rel (a bit) (pnt p1 a) (pnt p0 a) r).
Proof.
  intros M B L1 L0 LB H. apply bwf in B; auto. apply (point_select_total ca cd) in H; auto. destruct H as [T _].
  apply (outputs2_iff _ _ _ (fun a r => r = blend (a bit) (pnt p1 a) (pnt p0 a))); [intros a r; symmetry; apply select_blend|].
  apply (outputs2_of c c' p (fun a => blend (a bit) (pnt p1 a) (pnt p0 a))); auto.
  intros a a' S. now rewrite (pnt_same (nvars c) p1 a a'), (pnt_same (nvars c) p0 a a'), S.
Qed.
Theorem c68_conditional_point_neg bit p c q c' : odd_field -> built c -> below_pt p (nvars c) -> (bit < nvars c)%nat ->
  conditional_point_neg bit p c = Ok (q, c') -> outputs2 c c' q (fun a r => select_rel (a bit) (- fst (pnt p a), snd (pnt p a)) (pnt p a) r).
Proof.
  intros M B L LB H. apply bwf in B; auto. apply (point_neg_total ca cd) in H; auto. destruct H as [T _].
  apply (outputs2_iff _ _ _ (fun a r => r = blend (a bit) (- fst (pnt p a), snd (pnt p a)) (pnt p a))); [intros a r; symmetry; apply select_blend|].
  apply (outputs2_of c c' q (fun a => blend (a bit) (- fst (pnt p a), snd (pnt p a)) (pnt p a))); auto.
  intros a a' S. now rewrite (pnt_same (nvars c) p a a'), S.
Qed.
Theorem c68_conditional_select_identity bit p c q c' : odd_field -> built c -> below_pt p (nvars c) -> (bit < nvars c)%nat ->
  conditional_select_identity bit p c = Ok (q, c') -> outputs2 c c' q (fun a r => select_rel (a bit) (pnt p a) (0, 1) r).
Proof.
  intros M B L LB H. apply bwf in B; auto. apply (select_identity_total ca cd) in H; auto. destruct H as [T _].
  apply (outputs2_iff _ _ _ (fun a r => r = blend (a bit) (pnt p a) (0, 1))); [intros a r; symmetry; apply select_blend|].
  apply (outputs2_of c c' q (fun a => blend (a bit) (pnt p a) (0, 1))); auto.
  intros a a' S. now rewrite (pnt_same (nvars c) p a a'), S.
Qed.

(** *** C69: multiplication by scalars *)
Lemma doublings_multiples : odd_field -> complete_curve -> forall n g, on_curve g -> forall l, length l = n -> (doublings ca cd g l <-> l = point_multiples ca cd g n).
Proof.
  intros M C. pose proof (two_nz M) as T. induction n as [|n IH]; intros g G [|p l] L; try discriminate L; cbn [doublings point_multiples]; [tauto|].
  injection L as L. split.
  - intros [-> [g' [E D]]]. apply (te_add_rel ca cd T g g C G G) in E. subst g'. f_equal. apply IH; auto. now apply te_add_on_curve.
  - intros [= -> ->]. split; auto. exists (te_add ca cd g g). split; [now apply te_add_rel|]. exact (proj2 (IH (te_add ca cd g g) (te_add_on_curve ca cd T g g C G G) _ (multiples_length ca cd n _)) eq_refl).
Qed.
Theorem c69_fixed_base s g c r c' : odd_field -> (modulus (F:=F) <= 2 ^ Z.of_nat size)%Z -> complete_curve -> on_curve g -> built c ->
  fixed_base_scalar_mul size ca cd s g c = Ok (r, c') ->
  outputs2 c c' r (fun a q => exists k, from_Z k = a s /\ signed_mul ca cd (modulus_bits (F:=F)) k g q).
Proof.
  intros M SZ C G B H. apply bwf in B; auto. destruct r as [x3 y3]. split; [|split].
  - intros a x y. rewrite (fixed_base_computes ca cd _ _ _ _ _ _ _ B H a x y). unfold fixed_scalar, signed_mul, fixed_base. split; intros [A [k [K D]]]; split; auto; exists k; split; auto.
    + destruct D as [ds [D1 [D2 D3]]]. exists (point_multiples ca cd g (modulus_bits (F:=F))), ds. split; [apply multiples_length|].
      split; [|auto]. exact (proj2 (doublings_multiples M C _ g G _ (multiples_length ca cd _ g)) eq_refl).
    + destruct D as [base [ds [L [D0 [D1 [D2 D3]]]]]]. apply (doublings_multiples M C _ g G _ L) in D0. subst base. exists ds. auto.
  - apply (fixed_base_inv ca cd) in H; auto. cbv zeta in H. destruct H as [_ [_ [_ [_ [_ [E _]]]]]]. intros v Hv. now apply (ext_vals _ _ _ _ _ E).
  - exact (fixed_base_honest ca cd (two_nz M) _ _ _ _ _ _ _ B SZ C G H).
Qed.
(** The gadget panics for scalars whose non-adjacent form is longer than the modulus. *)
Theorem c69_fixed_base_succeeds_refuted s g c : odd_field -> (modulus (F:=F) <= 2 ^ Z.of_nat size)%Z -> built c ->
  (exists r, fixed_base_scalar_mul size ca cd s g c = Ok r) <->
  (s < nvars c)%nat /\ (3 * to_Z (values c s) < 2 ^ (Z.of_nat (modulus_bits (F:=F)) + 1))%Z.
Proof. intros M SZ B. apply bwf in B; auto. exact (fixed_base_ok ca cd _ _ _ _ B SZ). Qed.
Theorem c69_variable_base w p c r c' : odd_field -> (modulus (F:=F) <= 2 ^ Z.of_nat size)%Z -> complete_curve -> built c -> below_pt p (nvars c) ->
  on_curve (pnt p (values c)) -> variable_base_scalar_mul size ca cd chk w p c = Ok (r, c') ->
  outputs2 c c' r (fun a q => exists k, from_Z k = a w /\ binary_mul ca cd (modulus_bits (F:=F)) k (pnt p a) q).
Proof.
  intros M SZ C B L P H. apply bwf in B; auto. split; [|split].
  - exact (var_base_computes ca cd _ _ _ _ _ _ _ B L H).
  - apply (var_base_inv ca cd) in H; auto. cbv zeta in H. destruct H as [_ [_ [_ [E _]]]]. intros v Hv. now apply (ext_vals _ _ _ _ _ E).
  - exact (var_base_honest ca cd _ _ _ _ _ _ _ (two_nz M) SZ C B L P H).
Qed.

(** *** C70: the circuits that can be built *)
Theorem c70_well_formed c : odd_field -> built c ->
  check_poly_same_len c = true /\ (forall col, length (wires c col) = c_n c) /\ (forall col v, In v (wires c col) -> (v < nvars c)%nat) /\
  length (c_vals c) = nvars c /\ (c_zero c < nvars c)%nat /\ (forall k v, In (k, v) (c_pi c) -> (k < c_n c)%nat) /\
  (forall a, satisfies c a -> a (c_zero c) = 0).
Proof.
  intros M B. pose proof (bwf c M B) as W. split; [exact (built_same_len ca cd size chk M c B)|]. destruct W as [A1 A2 A3 A4 A5 A6 A7 A8 A9] eqn:E. clear E.
  repeat split; auto. { intros k v H. specialize (A8 k v H). lia. } intros a. apply satisfies_zero. exact (bwf c M B).
Qed.
(** A new circuit accepts all assignments in which the zero variable is zero. *)
Theorem c70_new r s : exists c, new_composer r s = Ok c /\ honest c /\ forall a, satisfies c a <-> a (c_zero c) = 0.
Proof.
  destruct (new_ok ca cd r s) as [c H]. exists c. pose proof (new_wf ca cd r s c H) as [W [A [_ V]]]. split; auto. split; auto. now apply A.
Qed.
(** Blinding factors do not restrict the circuit. *)
Theorem c70_blinding r s c : odd_field -> built c -> exists c', add_blinding_factors r s c = Ok c' /\ built c' /\ constrains c c' (fun _ => True).
Proof.
  intros M B. pose proof (bwf c M B) as W. destruct (blinding_ok ca cd r s c W) as [c' H]. exists c'. split; auto. split; [eapply built_blinding; eauto|].
  apply constrains_of; auto. exact (blinding_ext ca cd r s c c' W H).
Qed.
(** Padding to the size of the evaluation domain does not change the meaning of the circuit. *)
Theorem c70_padding c a : odd_field -> built c ->
  let c' := pad_composer (circuit_bound c - c_n c) c in
  c_n c' = circuit_bound c /\ check_poly_same_len c' = true /\ (satisfies c' a <-> satisfies c a).
Proof.
  intros M B c'. pose proof (bwf c M B) as W. pose proof (bound_ge c) as HB.
  assert (c_n c' = circuit_bound c) as N by (change (c_n c + (circuit_bound c - c_n c) = circuit_bound c)%nat; lia).
  assert (circuit_bound c' = circuit_bound c) as CB.
  { unfold circuit_bound at 1. rewrite N. change (c_table c') with (c_table c). unfold circuit_bound. set (m := Nat.max (c_n c) (length (c_table c))).
    assert (next_power_of_two (next_power_of_two m) = next_power_of_two m /\ m <= next_power_of_two m)%nat as [E1 E2].
    { unfold next_power_of_two at 2 3 4. destruct (Nat.leb_spec m 1) as [L|L]; [split; [reflexivity|lia]|].
      set (j := Nat.log2 (m - 1)). assert (2 <= 2 ^ (j + 1))%nat as P by (replace (j + 1)%nat with (S j) by lia; cbn; pose proof (Nat.pow_nonzero 2 j); lia).
      split.
      - unfold next_power_of_two. destruct (Nat.leb_spec (2 ^ (j + 1)) 1) as [L2|L2]; [lia|]. f_equal. f_equal.
        replace (j + 1)%nat with (S j) by lia. replace (2 ^ S j - 1)%nat with (Nat.pred (2 ^ S j)) by lia.
        rewrite Nat.log2_pred_pow2 by lia. reflexivity.
      - pose proof (Nat.log2_spec (m - 1) ltac:(lia)) as [_ LS]. fold j in LS. replace (j + 1)%nat with (S j) by lia. lia. }
    replace (Nat.max (next_power_of_two m) (length (c_table c))) with (next_power_of_two m) by (unfold m in *; lia). exact E1. }
  assert (forall i, sel_at c' i = sel_at c i) as ES.
  { intros i. unfold sel_at, c'. cbn [pad_composer add_n set_n set_sel c_sel]. destruct (Nat.lt_ge_cases i (length (c_sel c))).
    - now rewrite app_nth1.
    - rewrite app_nth2, (nth_overflow (c_sel c)) by auto. apply nth_repeat. }
  assert (forall col i, wire_var c' col i = wire_var c col i) as EW.
  { intros col i. unfold wire_var. change (c_zero c') with (c_zero c).
    replace (wires c' col) with (wires c col ++ repeat (c_zero c) (circuit_bound c - c_n c)) by (destruct col; reflexivity).
    destruct (Nat.lt_ge_cases i (length (wires c col))).
    - now rewrite app_nth1.
    - rewrite app_nth2, (nth_overflow (wires c col)) by auto. apply nth_repeat. }
  split; auto. split.
  - pose proof (built_same_len ca cd size chk M c B) as E. unfold check_poly_same_len in *. unfold c'. cbn.
    rewrite !andb_true_iff, !Nat.eqb_eq in E. destruct E as [[[E1 E2] E3] E4].
    rewrite !app_length, !repeat_length, E1, E2, E3, E4, Nat.eqb_refl. reflexivity.
  - unfold PlonkSpec.satisfies. rewrite CB. change (c_pi c') with (c_pi c). change (c_table c') with (c_table c).
    split; intros H i Hi; specialize (H i Hi); cbv zeta in *; rewrite ES, !EW in *; exact H.
Qed.
(** Rows added to a non-empty table do not invalidate the gates that there are. *)
Theorem c70_insert_row r c a : odd_field -> built c -> c_table c <> [] -> satisfies c a -> satisfies (insert_row r c) a.
Proof.
  intros M B HT H. pose proof (bwf c M B) as W. pose proof (table_wf (c_table c ++ [r]) c W) as W'.
  assert (forall i, (i < c_n c)%nat -> row_at ca cd c a i) as HA by exact (proj1 (satisfies_iff ca cd c a W) H).
  apply (proj2 (satisfies_iff ca cd _ a W')). intros i Hi. specialize (HA i Hi). unfold row_at in *.
  change (sel_at (set_table (c_table c ++ [r]) c) i) with (sel_at c i).
  unfold row_ok in *. destruct HA as [K1 [K2 [K3 [K4 [K5 K6]]]]]. repeat (split; [assumption|]).
  intros Q. destruct (K6 Q) as [K|[K _]]; [|congruence]. left. apply in_or_app. auto.
Qed.
(** Every gadget builds from a circuit that can be built another one. *)
Ltac step H := apply obind_ok in H; let x := fresh "x" in let E := fresh "E" in destruct H as [x [E H]].
Lemma built_witness v c x c' : built c -> add_witness_to_circuit_description v c = Ok (x, c') -> built c'.
Proof.
  intros B H. unfold add_witness_to_circuit_description in H. destruct (add_input v c) as [x1 c1] eqn:EI. step H. injection H as <- <-.
  refine (built_poly _ _ _ _ _ _ _ _ _ _ _ _ _ _ _ _ E). replace c1 with (snd (add_input v c)) by now rewrite EI. now apply built_input.
Qed.
Lemma built_assert_equal x y c c' : built c -> assert_equal x y c = Ok c' -> built c'.
Proof. intros B H. exact (built_poly _ _ _ _ _ _ _ _ _ _ _ _ _ _ _ B H). Qed.
Lemma built_constrain x k pi c c' : built c -> constrain_to_constant x k pi c = Ok c' -> built c'.
Proof. intros B H. exact (built_poly _ _ _ _ _ _ _ _ _ _ _ _ _ _ _ B H). Qed.
Lemma built_is_zero x c r : built c -> is_zero_with_output x c = Ok r -> built (snd r).
Proof.
  intros B H. unfold is_zero_with_output in H. step H. cbv zeta in H.
  match type of H with context [add_input ?v c] => set (c1 := snd (add_input v c)) in *; assert (built c1) as B1 by (now apply built_input); change (add_input v c) with (nvars c, c1) in H end. cbv beta iota in H.
  match type of H with context [add_input ?v c1] => set (c2 := snd (add_input v c1)) in *; assert (built c2) as B2 by (now apply built_input); change (add_input v c1) with (nvars c1, c2) in H end. cbv beta iota in H.
  step H. destruct x1 as [u c3]. step H. destruct x1 as [u' c4]. injection H as <-. eapply built_arithmetic; [|exact E1]. eapply built_arithmetic; [|exact E0]. exact B2.
Qed.
Lemma built_select bit x y c r : built c -> conditional_select bit x y c = Ok r -> built (snd r).
Proof.
  intros B H. unfold conditional_select in H. step H. destruct x0 as [u1 c1]. step H. destruct x0 as [u2 c2]. step H. destruct x0 as [u3 c3]. destruct r as [u4 c4].
  do 4 (eapply built_arithmetic; [|eassumption]). exact B.
Qed.
Lemma built_select_identity bit p c q c' : built c -> conditional_select_identity bit p c = Ok (q, c') -> built c'.
Proof.
  intros B H. unfold conditional_select_identity in H. step H. destruct x as [x c1]. step H. destruct x0 as [y c2]. injection H as <- <-.
  assert (built c1) as B1 by exact (built_arithmetic _ _ _ _ _ _ _ _ B E).
  unfold conditional_select_one in E0. step E0. step E0.
  match type of E0 with context [add_input ?v c1] => set (d := snd (add_input v c1)) in *; assert (built d) as BD by (now apply built_input); change (add_input v c1) with (nvars c1, d) in E0 end. cbv beta iota in E0.
  step E0. injection E0 as <- <-. exact (built_poly _ _ _ _ _ _ _ _ _ _ _ _ _ _ _ BD E3).
Qed.
Lemma built_decompose bits : forall power acc c r, built c -> decompose_rows bits power acc c = Ok r -> built (snd r).
Proof.
  induction bits as [|b bits IH]; intros power acc c r B H; cbn [decompose_rows] in H; [injection H as <-; auto|].
  step H. destruct x as [u c1]. step H. destruct x as [u' c2]. eapply IH; [|exact H]. eapply built_arithmetic; [|exact E0]. eapply built_boolean; eauto.
Qed.
Lemma built_inputs vs : forall c, built c -> built (snd (add_inputs vs c)).
Proof.
  induction vs as [|v vs IH]; intros c B; cbn [add_inputs]; auto. cbn [add_input]. specialize (IH (snd (add_input v c)) (built_input _ _ _ _ v c B)).
  cbn [add_input snd] in IH. destruct (add_inputs vs _) as [xs c2]. exact IH.
Qed.
Lemma built_double bits : forall p res c r, built c -> double_and_add ca cd chk bits p res c = Ok r -> built (snd r).
Proof.
  induction bits as [|b bits IH]; intros p res c r B H; cbn [double_and_add] in H; [injection H as <-; auto|].
  step H. destruct x as [u c1]. step H. destruct x as [u' c2]. step H. destruct x as [u'' c3]. eapply IH; [|exact H].
  eapply built_point_addition; [|exact E1]. eapply built_select_identity; [|exact E0]. eapply built_point_addition; eauto.
Qed.
Theorem c70_gadgets_build c c' : built c ->
  (exists x k pi, constrain_to_constant x k pi c = Ok c') \/ (exists x y, assert_equal x y c = Ok c') \/
  (exists v x, add_witness_to_circuit_description v c = Ok (x, c')) \/
  (exists x o, is_zero_with_output x c = Ok (o, c')) \/ (exists x y o, is_eq_with_output x y c = Ok (o, c')) \/
  (exists b x y o, conditional_select b x y c = Ok (o, c')) \/ (exists b x o, conditional_select_zero b x c = Ok (o, c')) \/
  (exists b x o, conditional_select_one b x c = Ok (o, c')) \/
  (exists p, point_identity c = Ok (p, c')) \/ (exists p q, assert_equal_point p q c = Ok c') \/
  (exists p v, assert_equal_public_point p v c = Ok c') \/ (exists v p, add_affine v c = (p, c')) \/
  (exists v p, add_public_affine v c = Ok (p, c')) \/ (exists v p, add_affine_to_circuit_description v c = Ok (p, c')) \/
  (exists p q b r, conditional_point_select p q b c = Ok (r, c')) \/ (exists b p r, conditional_point_neg b p c = Ok (r, c')) \/
  (exists b p r, conditional_select_identity b p c = Ok (r, c')) \/
  (exists w p r, variable_base_scalar_mul size ca cd chk w p c = Ok (r, c')) -> built c'.
Proof.
  assert (forall v c p c', built c -> add_affine v c = (p, c') -> built c') as BA.
  { intros v d p d' B H. unfold add_affine in H. injection H as <- <-. change (built (snd (add_input (snd v) (snd (add_input (fst v) d))))). now repeat apply built_input. }
  assert (forall p v c c', built c -> assert_equal_public_point p v c = Ok c' -> built c') as BP.
  { intros p v d d' B H. unfold assert_equal_public_point in H. step H. eapply built_constrain; [|exact H]. eapply built_constrain; eauto. }
  intros B [[x [k [pi H]]]|[[x [y H]]|[[v [x H]]|[[x [o H]]|[[x [y [o H]]]|[[b [x [y [o H]]]]|[[b [x [o H]]]|[[b [x [o H]]]|[[p H]|[[p [q H]]|[[p [v H]]|[[v [p H]]|[[v [p H]]|[[v [p H]]|[[p [q [b [r H]]]]|[[b [p [r H]]]|[[b [p [r H]]]|[w [p [r H]]]]]]]]]]]]]]]]]]]].
  - eapply built_constrain; eauto.
  - eapply built_assert_equal; eauto.
  - eapply built_witness; eauto.
  - exact (built_is_zero _ _ _ B H).
  - unfold is_eq_with_output in H. step H. destruct x0 as [d c1]. exact (built_is_zero _ _ _ (built_arithmetic _ _ _ _ _ _ _ _ B E) H).
  - exact (built_select _ _ _ _ _ B H).
  - exact (built_arithmetic _ _ _ _ _ _ _ _ B H).
  - unfold conditional_select_one in H. step H. step H.
    match type of H with context [add_input ?v c] => set (d := snd (add_input v c)) in *; assert (built d) as BD by (now apply built_input); change (add_input v c) with (nvars c, d) in H end. cbv beta iota in H.
    step H. injection H as <- <-. exact (built_poly _ _ _ _ _ _ _ _ _ _ _ _ _ _ _ BD E1).
  - unfold point_identity in H. step H. destruct x as [one c1]. injection H as <- <-. eapply built_witness; eauto.
  - unfold assert_equal_point in H. step H. eapply built_assert_equal; [|exact H]. eapply built_assert_equal; eauto.
  - eapply BP; eauto.
  - eapply BA; eauto.
  - unfold add_public_affine in H. destruct (add_affine v c) as [[x y] c1] eqn:EA. step H. injection H as <- <-. eapply BP; [|exact E]. eapply BA; eauto.
  - unfold add_affine_to_circuit_description in H. step H. destruct x as [x c1]. step H. destruct x0 as [y c2]. injection H as <- <-. eapply built_witness; [|exact E0]. eapply built_witness; eauto.
  - unfold conditional_point_select in H. step H. destruct x as [x c1]. step H. destruct x0 as [y c2]. injection H as <- <-. exact (built_select _ _ _ _ _ (built_select _ _ _ _ _ B E) E0).
  - unfold conditional_point_neg in H. step H. destruct x as [nx c1]. step H. destruct x as [x c2]. injection H as <- <-. exact (built_select _ _ _ _ _ (built_arithmetic _ _ _ _ _ _ _ _ B E) E0).
  - eapply built_select_identity; eauto.
  - unfold variable_base_scalar_mul in H. step H. step H. destruct x0 as [bits c1]. step H. destruct x0 as [id c2].
    unfold scalar_decomposition in E0. destruct (add_inputs _ c) as [all d] eqn:EI. step E0. step E0. destruct x1 as [acc d2]. step E0. injection E0 as <- <-.
    assert (built d) as B1 by (replace d with (snd (add_inputs (map (fun b => from_Z (bit_Z b)) (to_bits_le size x)) c)) by (now rewrite EI); now apply built_inputs).
    pose proof (built_decompose _ _ _ _ _ B1 E3) as B2. pose proof (built_assert_equal _ _ _ _ B2 E4) as B3.
    unfold point_identity in E1. step E1. destruct x2 as [one c3]. injection E1 as <- <-. pose proof (built_witness _ _ _ _ B3 E0) as B4.
    exact (built_double _ _ _ _ _ B4 H).
Qed.
End S.

(** *** Examples over the field with 101 elements, with the curve x^2 + y^2 = 1 + 2 x^2 y^2 *)
Definition z4 : F101 * F101 * F101 * F101 := (0, 0, 0, 0).
Definition new101 : composer F101 := match new_composer z4 z4 with Ok c => c | _ => mkComposer 0 [] [] [] [] [] [] [] [] 0 [] [] end.
Definition start101 (l : list Z) : composer F101 := fold_left (fun c v => snd (add_input (f101 v) c)) l new101.
Notation one101 := (f101 1).
Notation two101 := (f101 2).
Definition any_point (_ : F101 * F101) := true.
Lemma start101_ok size l : built one101 two101 size any_point (start101 l) /\ honest one101 two101 (start101 l).
Proof.
  assert (odd : (2 < modulus (F:=F101))%Z) by reflexivity.
  unfold start101. rewrite <- fold_left_rev_right. induction (rev l) as [|v l' IH]; cbn [fold_right].
  - assert (new_composer z4 z4 = Ok new101) as E by (unfold new101; destruct (new_ok one101 two101 z4 z4) as [c0 E0]; rewrite E0; reflexivity).
    split; [exact (built_new _ _ _ _ _ _ _ E)|]. destruct (new_wf one101 two101 z4 z4 _ E) as [W [A [_ V]]]. now apply A.
  - destruct IH as [B H]. split; [now apply built_input|]. pose proof (bwf _ _ _ _ _ odd B) as W.
    apply (honest_ext _ _ _ _ _ W (ext_input one101 two101 (f101 v) _ W)). auto.
Qed.
Lemma curve101 : complete_curve one101 two101.
Proof.
  split; [discriminate|]. split; [exists one101; reflexivity|]. intros t E.
  pose proof (F101_all (fun t => negb (feqb two101 (t * t))) eq_refl t) as A. cbn beta in A. rewrite <- E in A. discriminate A.
Qed.
(** variables 9, 10, ...: the inputs *)
Lemma odd101 : (2 < modulus (F:=F101))%Z.
Proof. reflexivity. Qed.
Example c64_example :
  let c := start101 [5; 7]%Z in
  exists out c', arithmetic_gate (with_mul 1 (gate_of 9 10 None)) c = Ok (out, c') /\ honest one101 two101 c' /\ values c' out = f101 35.
Proof.
  cbv zeta. set (g := with_mul 1 (gate_of 9 10 None)). destruct (start101_ok 7 [5; 7]%Z) as [B H].
  destruct (arithmetic_gate g (start101 [5; 7]%Z)) as [[out c']| |] eqn:E.
  2, 3: exfalso; revert E; vm_compute; discriminate.
  exists out, c'. split; auto. destruct (c64_arithmetic_gate_new _ _ _ _ g 9 10 _ _ _ odd101 B eq_refl E) as [_ [_ A]].
  split; [apply A; auto|]. revert E. vm_compute. now intros [= <- <-].
Qed.
(** The stored output is wrong for the coefficient 2. *)
Example c64_output_coefficient_example :
  let c := start101 [5; 7]%Z in
  exists out c', arithmetic_gate (with_out two101 (with_mul 1 (gate_of 9 10 None))) c = Ok (out, c') /\ honest one101 two101 c /\ ~ honest one101 two101 c'.
Proof.
  cbv zeta. set (g := with_out two101 (with_mul 1 (gate_of 9 10 None))). destruct (start101_ok 7 [5; 7]%Z) as [B H].
  destruct (arithmetic_gate g (start101 [5; 7]%Z)) as [[out c']| |] eqn:E.
  2, 3: exfalso; revert E; vm_compute; discriminate.
  exists out, c'. split; auto. split; auto. rewrite (c64_output_coefficient_refuted _ _ _ _ g 9 10 _ _ _ odd101 B eq_refl E).
  intros [_ [A|A]]; vm_compute in A; discriminate A.
Qed.
Ltac run := vm_cast_no_check (@eq_refl bool true).
Definition eq_then_select (c : composer F101) : outcome error (nat * nat * composer F101 * composer F101) :=
  let! (o1, c1) := is_eq_with_output 9 10 c in let! (o2, c2) := conditional_select 11 9 10 c1 in Ok (o1, o2, c1, c2).
Lemma eq_then_select_inv c o1 o2 c1 c2 : eq_then_select c = Ok (o1, o2, c1, c2) -> is_eq_with_output 9 10 c = Ok (o1, c1) /\ conditional_select 11 9 10 c1 = Ok (o2, c2).
Proof.
  intros E. unfold eq_then_select in E. apply obind_ok in E. destruct E as [[o1' c1'] [E1 E]]. apply obind_ok in E. destruct E as [[o2' c2'] [E2 E]]. injection E as -> -> -> ->. auto.
Qed.
Lemma run65 : match eq_then_select (start101 [5; 7; 1]%Z) with
  | Ok (o1, o2, c1, c2) => (10 <? nvars c1)%nat && feqb (values c2 o1) 0 && feqb (values c2 o2) (f101 5) | _ => false end = true.
Proof. run. Qed.
Example c65_example :
  let c := start101 [5; 7; 1]%Z in
  exists o1 c1 o2 c2, is_eq_with_output 9 10 c = Ok (o1, c1) /\ conditional_select 11 9 10 c1 = Ok (o2, c2) /\
    honest one101 two101 c2 /\ values c2 o1 = 0 /\ values c2 o2 = f101 5.
Proof.
  cbv zeta. destruct (start101_ok 7 [5; 7; 1]%Z) as [B H]. pose proof run65 as R.
  destruct (eq_then_select (start101 [5; 7; 1]%Z)) as [[[[o1 o2] c1] c2]| |] eqn:E; [|discriminate R|discriminate R].
  rewrite !andb_true_iff, !feqb_eq, Nat.ltb_lt in R. destruct R as [[L V1] V2].
  apply eq_then_select_inv in E. destruct E as [E1 E2].
  exists o1, c1, o2, c2. split; auto. split; auto.
  destruct (c65_is_equal _ _ _ _ _ _ _ _ _ odd101 B E1) as [_ [_ H1]].
  assert (built one101 two101 7 any_point c1) as B1 by (apply (c70_gadgets_build one101 two101 7 any_point _ c1 B); do 4 right; left; eauto).
  destruct (c65_conditional_select _ _ _ _ _ _ _ _ _ _ odd101 B1 L E2) as [_ [_ H2]]. tauto.
Qed.
(** 45 has 6 bits, and not 4. *)
Lemma run66 : match range_gate 8 9 6 (start101 [45]%Z) with Ok _ => (to_Z (values (start101 [45]%Z) 9) =? 45)%Z | _ => false end = true.
Proof. run. Qed.
Lemma run66' : match range_gate 8 9 4 (start101 [45]%Z) with Ok _ => (to_Z (values (start101 [45]%Z) 9) =? 45)%Z | _ => false end = true.
Proof. run. Qed.
Example c66_example : let c := start101 [45]%Z in exists c', range_gate 8 9 6 c = Ok c' /\ honest one101 two101 c'.
Proof.
  cbv zeta. destruct (start101_ok 8 [45]%Z) as [B H]. pose proof run66 as R.
  destruct (range_gate 8 9 6 (start101 [45]%Z)) as [c1| |] eqn:E1; [|discriminate R|discriminate R]. apply Z.eqb_eq in R.
  exists c1. split; auto. apply (c66_range_gate _ _ _ _ _ _ _ _ odd101 B E1). split; [exact H|]. rewrite R. reflexivity.
Qed.
Example c66_example_too_long : let c := start101 [45]%Z in exists c', range_gate 8 9 4 c = Ok c' /\ ~ honest one101 two101 c'.
Proof.
  cbv zeta. destruct (start101_ok 8 [45]%Z) as [B H]. pose proof run66' as R.
  destruct (range_gate 8 9 4 (start101 [45]%Z)) as [c2| |] eqn:E2; [|discriminate R|discriminate R]. apply Z.eqb_eq in R.
  exists c2. split; auto. rewrite (proj2 (proj2 (c66_range_gate _ _ _ _ _ _ _ _ odd101 B E2))). intros [_ A]. rewrite R in A. discriminate A.
Qed.
(** 5 and 6 is 4, but 0 is accepted as well. *)
Lemma run67 : match logic_gate 256 9 10 4 false (start101 [5; 6]%Z) with Ok (out, c') => feqb (values c' out) (f101 4) | _ => false end = true.
Proof. run. Qed.
Example c67_example :
  let c := start101 [5; 6]%Z in
  exists out c', logic_gate 256 9 10 4 false c = Ok (out, c') /\ honest one101 two101 c' /\ values c' out = f101 4 /\
    exists a, same_upto (nvars c) (values c) a /\ satisfies one101 two101 c' a /\ a out = 0.
Proof.
  cbv zeta. destruct (start101_ok 256 [5; 6]%Z) as [B H]. pose proof run67 as R.
  destruct (logic_gate 256 9 10 4 false (start101 [5; 6]%Z)) as [[out c']| |] eqn:E; [|discriminate R|discriminate R]. apply feqb_eq in R.
  exists out, c'. split; auto. destruct (c67_logic_gate_honest one101 two101 256 _ _ _ _ _ _ _ _ odd101 B E) as [H1 H2].
  split; [tauto|]. split; [exact R|].
  destruct (proj2 (c67_logic_gate_unbound_refuted one101 two101 256 _ _ _ _ _ _ _ _ odd101 B E (values (start101 [5; 6]%Z)) 0)) as [a [A1 [A2 A3]]].
  { split; [exact H|]. reflexivity. }
  exists a. auto.
Qed.
Definition p101 : F101 * F101 := (f101 2, f101 84).
Lemma p101_on_curve : on_curve one101 two101 p101.
Proof. reflexivity. Qed.
Definition is_pt (p q : F101 * F101) : bool := feqb (fst p) (fst q) && feqb (snd p) (snd q).
Lemma is_pt_eq p q : is_pt p q = true -> p = q.
Proof. unfold is_pt. rewrite andb_true_iff, !feqb_eq. destruct p, q. cbn. intros [-> ->]. reflexivity. Qed.
Lemma run68 : let c := start101 [2; 84; 2; 84]%Z in
  match point_addition_gate one101 two101 any_point (9, 10)%nat (11, 12)%nat c with
  | Ok (r, c') => is_pt (pnt (9, 10)%nat (values c)) p101 && is_pt (pnt (11, 12)%nat (values c)) p101 && is_pt (pnt r (values c')) (f101 27, f101 49) | _ => false end = true.
Proof. run. Qed.
Example c68_example :
  let c := start101 [2; 84; 2; 84]%Z in
  exists r c', point_addition_gate one101 two101 any_point (9, 10)%nat (11, 12)%nat c = Ok (r, c') /\ honest one101 two101 c' /\
    pnt r (values c') = (f101 27, f101 49).
Proof.
  cbv zeta. destruct (start101_ok 7 [2; 84; 2; 84]%Z) as [B H]. pose proof run68 as R. cbv zeta in R. set (c := start101 [2; 84; 2; 84]%Z) in *.
  destruct (point_addition_gate one101 two101 any_point (9, 10)%nat (11, 12)%nat c) as [[r c']| |] eqn:E; [|discriminate R|discriminate R].
  rewrite !andb_true_iff in R. destruct R as [[R1 R2] R3]. apply is_pt_eq in R1, R2, R3.
  exists r, c'. split; auto. split; [|exact R3].
  apply (c68_point_addition_honest one101 two101 7 any_point (9, 10)%nat (11, 12)%nat c r c' odd101 B curve101); auto.
  - rewrite R1. exact p101_on_curve.
  - rewrite R2. exact p101_on_curve.
Qed.
(** 5 times a point: the circuit accepts two results, for 5 and for 5 + 101. *)
Lemma run69 : let c := start101 [5; 2; 84]%Z in
  match variable_base_scalar_mul 7 one101 two101 any_point 9 (10, 11)%nat c with
  | Ok (r, c') => feqb (values c 9) (f101 5) && is_pt (pnt (10, 11)%nat (values c)) p101 && is_pt (pnt r (values c')) (f101 36, f101 8) &&
      is_pt (mul_val one101 two101 (rev (zbits (modulus_bits (F:=F101)) 106)) p101 (0, 1)) (f101 27, f101 49) && (nvars c =? 12)%nat && (20 <? c_n c')%nat
  | _ => false end = true.
Proof. run. Qed.
Lemma bits101 : modulus_bits (F:=F101) = 7%nat.
Proof. reflexivity. Qed.
Lemma size101 : (modulus (F:=F101) <= 2 ^ Z.of_nat 7)%Z.
Proof. vm_compute. discriminate. Qed.
Theorem c69_two_results_refuted :
  let c := start101 [5; 2; 84]%Z in
  exists r c', variable_base_scalar_mul 7 one101 two101 any_point 9 (10, 11)%nat c = Ok (r, c') /\ honest one101 two101 c' /\
    pnt r (values c') = (f101 36, f101 8) /\
    exists a, same_upto (nvars c) (values c) a /\ satisfies one101 two101 c' a /\ pnt r a = (f101 27, f101 49).
Proof.
  cbv zeta. destruct (start101_ok 7 [5; 2; 84]%Z) as [B H]. pose proof run69 as R. cbv zeta in R. set (c := start101 [5; 2; 84]%Z) in *.
  destruct (variable_base_scalar_mul 7 one101 two101 any_point 9 (10, 11)%nat c) as [[r c']| |] eqn:E; [|discriminate R|discriminate R].
  rewrite !andb_true_iff, feqb_eq, Nat.eqb_eq in R. destruct R as [[[[[R1 R2] R3] R4] R5] _]. apply is_pt_eq in R2, R3, R4.
  exists r, c'. split; auto.
  assert (below_pt (10, 11)%nat (nvars c)) as L by (rewrite R5; split; cbn; lia).
  assert (on_curve one101 two101 (pnt (10, 11)%nat (values c))) as OC by (rewrite R2; exact p101_on_curve).
  destruct (c69_variable_base _ _ _ _ _ _ _ _ _ odd101 size101 curve101 B L OC E) as [C [_ HH]].
  split; [tauto|]. split; [exact R3|].
  destruct (proj2 (C (values c) (f101 27) (f101 49))) as [a [A1 [A2 [A3 A4]]]].
  - split; [exact H|]. exists 106%Z. rewrite R1, R2, bits101. split; [reflexivity|]. split; [split; [lia|reflexivity]|].
    apply (mul_val_curve one101 two101 (two_nz odd101)); [exact curve101|exact p101_on_curve|reflexivity|]. rewrite bits101 in R4. symmetry. exact R4.
  - exists a. split; [exact A1|]. split; [exact A4|]. unfold pnt. now rewrite A2, A3.
Qed.
(** The multiplication of a constant point panics for the scalar 100, and not for 85. *)
Lemma run69f : match fixed_base_scalar_mul 7 one101 two101 9 p101 (start101 [85]%Z) with Ok _ => true | _ => false end = true.
Proof. run. Qed.
Lemma run69p : match fixed_base_scalar_mul 7 one101 two101 9 p101 (start101 [100]%Z) with Panic => true | _ => false end = true.
Proof. run. Qed.
Example c69_fixed_base_example : let c := start101 [85]%Z in exists r c', fixed_base_scalar_mul 7 one101 two101 9 p101 c = Ok (r, c') /\ honest one101 two101 c'.
Proof.
  cbv zeta. destruct (start101_ok 7 [85]%Z) as [B H]. pose proof run69f as R. set (c := start101 [85]%Z) in *.
  destruct (fixed_base_scalar_mul 7 one101 two101 9 p101 c) as [[r c']| |] eqn:E; [|discriminate R|discriminate R].
  exists r, c'. split; auto. apply (c69_fixed_base _ _ _ _ _ _ _ _ _ odd101 size101 curve101 p101_on_curve B E). exact H.
Qed.
Theorem c69_fixed_base_panics_refuted : fixed_base_scalar_mul 7 one101 two101 9 p101 (start101 [100]%Z) = Panic.
Proof.
  pose proof run69p as R. destruct (fixed_base_scalar_mul 7 one101 two101 9 p101 (start101 [100]%Z)); try discriminate R. reflexivity.
Qed.
Example c70_example : exists c : composer F101, built one101 two101 7 any_point c /\ honest one101 two101 c /\ (20 < c_n c)%nat.
Proof.
  destruct (start101_ok 7 [5; 2; 84]%Z) as [B H]. pose proof run69 as R. cbv zeta in R. set (c := start101 [5; 2; 84]%Z) in *.
  destruct (variable_base_scalar_mul 7 one101 two101 any_point 9 (10, 11)%nat c) as [[r c']| |] eqn:E; [|discriminate R|discriminate R].
  rewrite !andb_true_iff, feqb_eq, Nat.eqb_eq, Nat.ltb_lt in R. destruct R as [[[[[R1 R2] R3] R4] R5] R6]. apply is_pt_eq in R2.
  assert (below_pt (10, 11)%nat (nvars c)) as L by (rewrite R5; split; cbn; lia).
  assert (on_curve one101 two101 (pnt (10, 11)%nat (values c))) as OC by (rewrite R2; exact p101_on_curve).
  exists c'. split; [|split; [|exact R6]].
  - apply (c70_gadgets_build one101 two101 7 any_point c c' B). do 17 right. eauto.
  - apply (c69_variable_base _ _ _ _ _ _ _ _ _ odd101 size101 curve101 B L OC E). exact H.
Qed.

Print Assumptions c64_poly_gate.
Print Assumptions c64_poly_gate_succeeds.
Print Assumptions c64_constrain_to_constant.
Print Assumptions c64_assert_equal.
Print Assumptions c64_boolean_gate.
Print Assumptions c64_constant_witness.
Print Assumptions c64_arithmetic_gate_given.
Print Assumptions c64_arithmetic_gate_new.
Print Assumptions c64_output_coefficient_refuted.
Print Assumptions c64_arithmetic_gate_succeeds.
Print Assumptions c65_is_zero.
Print Assumptions c65_is_equal.
Print Assumptions c65_conditional_select.
Print Assumptions c65_conditional_select_zero.
Print Assumptions c65_conditional_select_one.
Print Assumptions c65_full_affine_transform.
Print Assumptions c65_partial_affine_transform.
Print Assumptions c65_lookup_gate.
Print Assumptions c66_range_gate.
Print Assumptions c66_range_gate_succeeds.
Print Assumptions c67_logic_gate_honest.
Print Assumptions c67_logic_gate_unbound_refuted.
Print Assumptions c67_logic_gate_succeeds.
Print Assumptions c68_sum_unique.
Print Assumptions c68_point_addition.
Print Assumptions c68_point_addition_honest.
Print Assumptions c68_identity.
Print Assumptions c68_assert_equal_point.
Print Assumptions c68_assert_equal_public_point.
Print Assumptions c68_add_affine.
Print Assumptions c68_add_public_affine.
Print Assumptions c68_add_constant_affine.
Print Assumptions c68_select_bit.
Print Assumptions c68_conditional_point_select.
Print Assumptions c68_conditional_point_neg.
Print Assumptions c68_conditional_select_identity.
Print Assumptions c69_fixed_base.
Print Assumptions c69_fixed_base_succeeds_refuted.
Print Assumptions c69_variable_base.
Print Assumptions c70_well_formed.
Print Assumptions c70_new.
Print Assumptions c70_blinding.
Print Assumptions c70_padding.
Print Assumptions c70_insert_row.
Print Assumptions c70_gadgets_build.
Print Assumptions c69_two_results_refuted.

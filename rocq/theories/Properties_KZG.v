(** Properties_KZG.v: theorems C23-C29, C35, C41 about the KZG polynomial commitment scheme. *)
From Coq Require Import Sorted.
From Verif Require Import Base Spec Tools ToolsProofs KZG KZGSpec KZGProofs.
Local Open Scope F_scope.

Section P.
Context {F G1 G2 GT : Type} {fo : FieldOps F} {fl : FieldLaws F}
        {po : PairingOps F G1 G2 GT} {pl : PairingLaws F G1 G2 GT}.

Add Field Fpk : F_th.

Lemma kzg_vk_setup d beta (g : G1) (h : G2) pp : setup d beta g h = Ok pp ->
  (1 <= d)%nat /\ up_powers_of_g pp = srs (d + 1) beta g /\ kzg_vk pp = Ok (vk_for beta g h).
Proof.
  intros H. destruct (le_lt_dec 1 d) as [Hd|Hd].
  - rewrite setup_ok in H by auto. injection H as <-. split; auto. split; auto.
    unfold kzg_vk, srs. rewrite Nat.add_1_r. cbn [up_powers_of_g seq map fpow up_h up_beta_h up_prepared_h up_prepared_beta_h].
    now rewrite vscale_1.
  - rewrite setup_err in H by auto. discriminate.
Qed.

(** C23: [setup] fails exactly for degree 0; otherwise power number i is beta^i g, there are d+1 of
    them, and h, beta h are returned. *)
Theorem c23_setup (d : nat) (beta : F) (g : G1) (h : G2) :
  ((d < 1)%nat -> setup d beta g h = Err DegreeIsZero) /\
  ((1 <= d)%nat -> exists pp, setup d beta g h = Ok pp /\
     length (up_powers_of_g pp) = (d + 1)%nat /\
     (forall i, (i <= d)%nat -> nth_error (up_powers_of_g pp) i = Some (vscale (fpow beta i) g)) /\
     up_h pp = h /\ up_beta_h pp = vscale beta h /\
     up_prepared_h pp = h /\ up_prepared_beta_h pp = vscale beta h /\
     max_degree pp = Ok d).
Proof.
  split; [apply setup_err|]. intros Hd. eexists. split; [now apply setup_ok|].
  cbn [up_powers_of_g up_h up_beta_h up_prepared_h up_prepared_beta_h].
  split; [apply srs_length|]. split.
  - intros i Hi. rewrite (nth_error_nth' _ _ _ v0) by (rewrite srs_length; lia).
    unfold srs. rewrite nth_map_seq by lia. reflexivity.
  - repeat split; auto. unfold max_degree. cbn [up_powers_of_g]. rewrite srs_length.
    destruct (Nat.eqb_spec (d + 1) 0); [lia|]. f_equal. lia.
Qed.

(** C24: commitments are evaluations at the trapdoor. *)
Theorem c24_commit_value (d : nat) (beta : F) (g : G1) (h : G2) pp (p : list F) :
  setup d beta g h = Ok pp -> (length p <= d + 1)%nat ->
  commit (up_powers_of_g pp) p = Ok (vscale (poly_value p beta) g) /\
  (p <> [] -> commit_with_coefficients (up_powers_of_g pp) p = Ok (vscale (poly_value p beta) g)).
Proof.
  intros H Hp. apply kzg_vk_setup in H. destruct H as [Hd [-> _]]. split.
  - apply commit_ok; lia.
  - intros Hn. now apply commit_with_coefficients_ok.
Qed.

(** C24: for any list of powers, vectors longer than the key are refused with an error and the empty
    coefficient vector panics. *)
Theorem c24_commit_too_long (ps : list G1) (p : list F) :
  ((length ps < length p)%nat ->
     commit_with_coefficients ps p = Err (TooManyCoefficients (length p) (length ps))) /\
  ((1 <= length ps)%nat -> (length ps < length p)%nat ->
     commit ps p = Err (TooManyCoefficients (length p) (length ps))) /\
  (p = [] -> commit_with_coefficients ps p = Panic).
Proof.
  split; [apply commit_with_coefficients_err|]. split; [apply commit_err|].
  intros ->. apply commit_with_coefficients_nil.
Qed.

(** C24: linearity and independence of the representation, as consequences for the API. *)
Theorem c24_commit_linear (d : nat) (beta : F) (g : G1) (h : G2) pp (p q r : list F) (a b : F) cp cq cr :
  setup d beta g h = Ok pp ->
  (forall i, coef r i = a * coef p i + b * coef q i) ->
  (length p <= d + 1)%nat -> (length q <= d + 1)%nat -> (length r <= d + 1)%nat ->
  commit (up_powers_of_g pp) p = Ok cp -> commit (up_powers_of_g pp) q = Ok cq ->
  commit (up_powers_of_g pp) r = Ok cr ->
  cr = vadd (vscale a cp) (vscale b cq).
Proof.
  intros H Hr Lp Lq Lr. apply kzg_vk_setup in H. destruct H as [Hd [-> _]].
  rewrite !commit_ok by lia. intros [= <-] [= <-] [= <-]. vnorm. f_equal.
  rewrite <- !peval_poly_value, <- !peval_pscale, <- peval_padd. apply peval_ext.
  intros i. now rewrite coef_padd, !coef_pscale.
Qed.

(** C25: openings of polynomials of degree at least one verify. *)
Theorem c25_open_check (d : nat) (beta : F) (g : G1) (h : G2) pp vk (p : list F) (z : F) :
  h <> v0 -> setup d beta g h = Ok pp -> kzg_vk pp = Ok vk -> (2 <= length p)%nat -> (length p <= d + 1)%nat ->
  exists c w, commit (up_powers_of_g pp) p = Ok c /\ open (up_powers_of_g pp) p z = Ok w /\
              check vk c z (poly_value p z) w = true.
Proof.
  intros Hh H Hvk Hp Hd. apply kzg_vk_setup in H. destruct H as [_ [-> E]].
  rewrite E in Hvk. injection Hvk as <-. now apply open_check.
Qed.

(** C25, failure cases: constant polynomials cannot be opened (panic), longer ones are refused. *)
Theorem c25_open_constant_panics (ps : list G1) (p : list F) (z : F) :
  (1 <= length ps)%nat -> (length p <= 1)%nat -> open ps p z = Panic.
Proof. intros. now apply open_panic. Qed.
Theorem c25_open_too_long (ps : list G1) (p : list F) (z : F) :
  (1 <= length ps)%nat -> (length ps < length p)%nat ->
  open ps p z = Err (TooManyCoefficients (length p) (length ps)).
Proof. apply open_err. Qed.

(** C25: the witness polynomial is the quotient (p(X) - p(z)) / (X - z). *)
Theorem c25_witness_quotient (p : list F) (z : F) : (2 <= length p)%nat ->
  exists w, compute_witness_polynomial p z = Ok w /\ (length w < length p)%nat /\
    forall x, poly_value p x - poly_value p z = (x - z) * poly_value w x.
Proof. apply witness_poly. Qed.

(** C26: what [check] accepts. *)
Theorem c26_check_iff (d : nat) (beta : F) (g : G1) (h : G2) pp vk (c : G1) (z y : F) (w : G1) :
  h <> v0 -> setup d beta g h = Ok pp -> kzg_vk pp = Ok vk ->
  check vk c z y w = true <-> vsub c (vscale y g) = vscale (beta - z) w.
Proof.
  intros Hh H Hvk. apply kzg_vk_setup in H. destruct H as [_ [_ E]]. rewrite E in Hvk. injection Hvk as <-.
  now apply check_iff.
Qed.
Theorem c26_check_unique_value (d : nat) (beta : F) (g : G1) (h : G2) pp vk (c : G1) (z y y' : F) (w : G1) :
  g <> v0 -> h <> v0 -> setup d beta g h = Ok pp -> kzg_vk pp = Ok vk ->
  check vk c z y w = true -> check vk c z y' w = true -> y = y'.
Proof.
  intros Hg Hh H Hvk. apply kzg_vk_setup in H. destruct H as [_ [_ E]]. rewrite E in Hvk. injection Hvk as <-.
  now apply check_unique.
Qed.
(** For an honest commitment to p, an accepted value different from p(z) at z reveals the trapdoor
    equation: the proof must be the group element (p(beta) - y)/(beta - z) g. *)
Theorem c26_wrong_value_needs_trapdoor (d : nat) (beta : F) (g : G1) (h : G2) pp vk (p : list F) c (z y : F) (w : G1) :
  g <> v0 -> h <> v0 -> setup d beta g h = Ok pp -> kzg_vk pp = Ok vk -> (length p <= d + 1)%nat ->
  commit (up_powers_of_g pp) p = Ok c -> beta <> z ->
  (check vk c z y w = true <-> w = vscale ((poly_value p beta - y) / (beta - z)) g).
Proof.
  intros Hg Hh H Hvk Hp Hc Hz. pose proof H as H0. apply kzg_vk_setup in H. destruct H as [Hd [EP E]].
  rewrite E in Hvk. injection Hvk as <-. rewrite EP, commit_ok in Hc by lia. injection Hc as <-.
  rewrite check_iff, vs_sub by auto. assert (beta - z <> 0) as Hbz.
  { intros E0. apply Hz. now apply fsub_0_eq. }
  destruct (one_dim g w Hg) as [k ->]. rewrite vs_mul. split; intros E1; apply vscale_inj in E1; auto; f_equal.
  - rewrite E1. field. auto.
  - rewrite E1. field. auto.
Qed.

(** C27: batch openings of two lists of polynomials verify for the honest values. *)
Theorem c27_batch_complete (d : nat) (beta : F) (g : G1) (h : G2) pp vk (fs gs : list (list F))
  (z zz xi xi2 r : F) :
  g <> v0 -> h <> v0 -> setup d beta g h = Ok pp -> kzg_vk pp = Ok vk ->
  (forall f, In f (fs ++ gs) -> (2 <= length f <= d + 1)%nat) ->
  exists cfs cgs w1 w2,
    (forall i, (i < length fs)%nat -> commit (up_powers_of_g pp) (nth i fs []) = Ok (nth i cfs v0)) /\
    (forall i, (i < length gs)%nat -> commit (up_powers_of_g pp) (nth i gs []) = Ok (nth i cgs v0)) /\
    length cfs = length fs /\ length cgs = length gs /\
    batch_open (up_powers_of_g pp) fs gs z zz xi xi2 = Ok (w1, w2) /\
    batch_check vk cfs cgs z zz xi xi2
      (map (fun f => poly_value f z) fs) (map (fun f => poly_value f zz) gs) w1 w2 r = true.
Proof.
  intros Hg Hh H Hvk Hf. apply kzg_vk_setup in H. destruct H as [Hd [-> E]].
  rewrite E in Hvk. injection Hvk as <-.
  exists (map (fun f => vscale (poly_value f beta) g) fs), (map (fun f => vscale (poly_value f beta) g) gs).
  destruct (batch_complete (d + 1) beta g h fs gs z zz xi xi2 r) as [w1 [w2 [E1 E2]]]; auto; try lia.
  exists w1, w2. assert (forall l, (forall f, In f l -> (2 <= length f <= d + 1)%nat) -> forall i, (i < length l)%nat ->
    commit (srs (d + 1) beta g) (nth i l []) = Ok (nth i (map (fun f => vscale (poly_value f beta) g) l) v0)) as HH.
  { intros l Hl i Hi. specialize (Hl (nth i l []) (nth_In _ _ Hi)). rewrite commit_ok by lia. f_equal.
    rewrite nth_indep with (d' := (fun f => vscale (poly_value f beta) g) []) by (rewrite map_length; lia).
    now rewrite (map_nth (fun f => vscale (poly_value f beta) g)). }
  repeat split; auto.
  - apply HH. intros f Hi. apply Hf, in_or_app; auto.
  - apply HH. intros f Hi. apply Hf, in_or_app; auto.
  - apply map_length.
  - apply map_length.
Qed.

(** C28: if one of the two combined opening equations is false, at most one randomizer accepts. *)
Theorem c28_batch_sound (d : nat) (beta : F) (g : G1) (h : G2) pp vk (cs ds : list G1)
  (z zz xi xi2 : F) (us vs : list F) (w1 w2 : G1) (r r' : F) :
  g <> v0 -> h <> v0 -> setup d beta g h = Ok pp -> kzg_vk pp = Ok vk ->
  length cs = length us -> length ds = length vs ->
  ~ (vsub (lin_comb xi cs) (vscale (poly_value us xi) g) = vscale (beta - z) w1 /\
     vsub (lin_comb xi2 ds) (vscale (poly_value vs xi2) g) = vscale (beta - zz) w2) ->
  batch_check vk cs ds z zz xi xi2 us vs w1 w2 r = true ->
  batch_check vk cs ds z zz xi xi2 us vs w1 w2 r' = true -> r = r'.
Proof.
  intros Hg Hh H Hvk. apply kzg_vk_setup in H. destruct H as [_ [_ E]]. rewrite E in Hvk. injection Hvk as <-.
  now apply batch_check_randomizer.
Qed.

(** C28: the exact equation [batch_check] decides. *)
Theorem c28_batch_iff (d : nat) (beta : F) (g : G1) (h : G2) pp vk (cs ds : list G1)
  (z zz xi xi2 : F) (us vs : list F) (w1 w2 : G1) (r : F) :
  g <> v0 -> h <> v0 -> setup d beta g h = Ok pp -> kzg_vk pp = Ok vk ->
  length cs = length us -> length ds = length vs ->
  batch_check vk cs ds z zz xi xi2 us vs w1 w2 r = true <->
  vadd (vsub (vsub (lin_comb xi cs) (vscale (poly_value us xi) g)) (vscale (beta - z) w1))
       (vscale r (vsub (vsub (lin_comb xi2 ds) (vscale (poly_value vs xi2) g)) (vscale (beta - zz) w2))) = v0.
Proof.
  intros Hg Hh H Hvk. apply kzg_vk_setup in H. destruct H as [_ [_ E]]. rewrite E in Hvk. injection Hvk as <-.
  now apply batch_check_iff.
Qed.

(** C28, the randomizer must be unpredictable: whoever knows it (the arguments of this crate take it
    from a fixed-seed [test_rng()]) can make any claimed values for any commitments verify, from public
    data only. *)
Theorem c28_predictable_randomizer_forgery (d : nat) (beta : F) (g : G1) (h : G2) pp vk (cs ds : list G1)
  (z zz xi xi2 : F) (us vs : list F) (r : F) :
  g <> v0 -> h <> v0 -> setup d beta g h = Ok pp -> kzg_vk pp = Ok vk ->
  length cs = length us -> length ds = length vs -> z <> zz -> r <> 0 ->
  let D := vadd (vsub (lin_comb xi cs) (vscale (poly_value us xi) g))
                (vscale r (vsub (lin_comb xi2 ds) (vscale (poly_value vs xi2) g))) in
  batch_check vk cs ds z zz xi xi2 us vs
    (vscale (1 / (zz - z)) D) (vscale (- (1) / (r * (zz - z))) D) r = true.
Proof.
  intros Hg Hh H Hvk. apply kzg_vk_setup in H. destruct H as [_ [_ E]]. rewrite E in Hvk. injection Hvk as <-.
  now apply batch_check_forge.
Qed.

(** C29: vector commitments. *)
Theorem c29_vector_commitment (d : nat) (beta : F) (g : G1) (h : G2) pp (v : list F) (deg : nat) :
  setup d beta g h = Ok pp -> v <> [] ->
  ((length v <= deg)%nat -> (deg <= d + 1)%nat ->
     vector_to_commitment (up_powers_of_g pp) v deg = Ok (vscale (fpow beta (deg - length v) * poly_value v beta) g)) /\
  ((deg < length v)%nat -> (length v <= d + 1)%nat ->
     vector_to_commitment (up_powers_of_g pp) v deg = Ok (vscale (poly_value v beta) g)).
Proof.
  intros H Hv. apply kzg_vk_setup in H. destruct H as [_ [-> _]].
  pose proof (vector_to_commitment_ok (d + 1) beta g v deg Hv) as HH. cbn zeta in HH. split; intros H1 H2.
  - destruct (Nat.ltb_spec deg (length v)); [lia|]. apply HH. lia.
  - destruct (Nat.ltb_spec deg (length v)); [|lia]. rewrite HH by lia. f_equal. f_equal. simpl. ring.
Qed.
Theorem c29_vector_commitment_refused (ps : list G1) (v : list F) (deg : nat) :
  (1 <= deg <= length ps)%nat -> (length ps < length v)%nat ->
  vector_to_commitment ps v deg = Err (TooManyCoefficients (length v) (length ps)).
Proof. apply vector_to_commitment_err. Qed.
Theorem c29_vector_commitment_empty (ps : list G1) (deg : nat) :
  vector_to_commitment ps ([] : list F) deg = Panic.
Proof. unfold vector_to_commitment. destruct (length ps <? _)%nat; reflexivity. Qed.
Theorem c29_scalar_commitment (g : G1) (c c' : F) :
  scalar_to_commitment g c = Ok (vscale c g) /\
  scalar_to_commitment g (c + c') = Ok (vadd (vscale c g) (vscale c' g)).
Proof. split; [reflexivity|]. unfold scalar_to_commitment, commit_single. now rewrite vscale_add. Qed.
(** Commitment arithmetic: [self += (f, other)] commits to the polynomial p + f q. *)
Theorem c29_commitment_add_assign (d : nat) (beta : F) (g : G1) (h : G2) pp (p q r : list F) (f : F) cp cq :
  setup d beta g h = Ok pp -> (forall i, coef r i = coef p i + f * coef q i) ->
  (length p <= d + 1)%nat -> (length q <= d + 1)%nat -> (length r <= d + 1)%nat ->
  commit (up_powers_of_g pp) p = Ok cp -> commit (up_powers_of_g pp) q = Ok cq ->
  commit (up_powers_of_g pp) r = Ok (commitment_add_assign cp f cq).
Proof.
  intros H Hr Lp Lq Lr. apply kzg_vk_setup in H. destruct H as [Hd [-> _]].
  rewrite !commit_ok by lia. intros [= <-] [= <-]. unfold commitment_add_assign. vnorm. do 2 f_equal.
  rewrite <- !peval_poly_value, <- !peval_pscale, <- peval_padd. apply peval_ext.
  intros i. rewrite coef_padd, !coef_pscale, Hr. ring.
Qed.

(** C42: prepared keys and commitments hold the doublings 2^i P. *)
Theorem c42_prepared_doublings (bits : nat) (P : G1) (i : nat) : (i < bits)%nat ->
  length (doublings (F:=F) bits P) = bits /\
  nth_error (doublings (F:=F) bits P) i = Some (vscale (fpow (1 + 1 : F) i) P).
Proof.
  intros Hi. rewrite doublings_spec, map_length, seq_length. split; auto.
  rewrite (nth_error_nth' _ _ _ v0) by (rewrite map_length, seq_length; lia).
  now rewrite nth_map_seq by lia.
Qed.
End P.

(** C41: a labelled polynomial passes [check_degrees_and_bounds] exactly if it has no degree bound, or its
    bound is one of the (sorted) enforced bounds, is at least its degree and at most the maximum degree. *)
Theorem c41_degree_bounds (search : list nat -> nat -> bool) sup mx enforced bound deg :
  (forall l x, StronglySorted le l -> search l x = true <-> In x l) ->
  (forall l, enforced = Some l -> StronglySorted le l) ->
  check_degrees_and_bounds search sup mx enforced bound deg = Ok tt <->
  (forall b, bound = Some b -> exists l, enforced = Some l /\ In b l /\ (deg <= b <= mx)%nat).
Proof. apply check_degrees_and_bounds_iff. Qed.

(** C35: serialization. *)
Section S.
Context {G1 G2 : Type} {s1 : Ser G1} {s2 : Ser G2} {l1 : SerLaws G1} {l2 : SerLaws G2}.
Theorem c35_universal_params_roundtrip (m v : bool) (pp : universal_params G1 G2) (rest : list Z) :
  (Z.of_nat (length (up_powers_of_g pp)) < 2 ^ 64)%Z ->
  up_prepared_h pp = up_h pp -> up_prepared_beta_h pp = up_beta_h pp ->
  deser_up m v (ser_up m pp ++ rest) = Some (pp, rest).
Proof. apply up_roundtrip. Qed.
Theorem c35_verifier_key_roundtrip (m v : bool) (vk : verifier_key G1 G2) (rest : list Z) :
  vk_prepared_h vk = vk_h vk -> vk_prepared_beta_h vk = vk_beta_h vk ->
  deser_vk m v (ser_vk m vk ++ rest) = Some (vk, rest).
Proof. apply vk_roundtrip. Qed.
Theorem c35_serialized_size (m : bool) (pp : universal_params G1 G2) (vk : verifier_key G1 G2) :
  up_serialized_size (fun g => length (ser m g)) (fun h => length (ser m h)) pp = length (ser_up m pp) /\
  vk_serialized_size (fun g => length (ser m g)) (fun h => length (ser m h)) vk = length (ser_vk m vk).
Proof. split; [apply up_size|apply vk_size]. Qed.
End S.

(** ** Non-vacuity: the integers modulo 101 with the pairing e(a,b) = ab. *)
Example kzg_setup_example : exists pp, setup (F:=F101) (G1:=F101) (G2:=F101) (GT:=F101) 4 (f101 7) (f101 3) (f101 5) = Ok pp
  /\ f101 3 <> v0 /\ f101 5 <> v0.
Proof. eexists. split; [reflexivity|]. split; intros E; apply (f_equal (zval 101)) in E; vm_compute in E; discriminate. Qed.
Example kzg_open_example : exists pp vk c w,
  setup (F:=F101) (G1:=F101) (G2:=F101) (GT:=F101) 4 (f101 7) (f101 3) (f101 5) = Ok pp /\ kzg_vk pp = Ok vk /\
  commit (GT:=F101) (up_powers_of_g pp) [f101 1; f101 2; f101 9] = Ok c /\
  open (GT:=F101) (up_powers_of_g pp) [f101 1; f101 2; f101 9] (f101 10) = Ok w /\
  check (GT:=F101) vk c (f101 10) (f101 12) w = true /\ check (GT:=F101) vk c (f101 10) (f101 13) w = false.
Proof. do 4 eexists. repeat (split; [vm_compute; reflexivity|]). vm_compute; reflexivity. Qed.
(** byte codec of the example group: one byte per element *)
Definition ser101 : Ser F101 := {| ser := fun _ x => [zval 101 x];
  deser := fun _ _ l => match l with [] => None | b :: r => Some (f101 b, r) end |}.
Example ser101_laws : @SerLaws F101 ser101.
Proof.
  constructor. intros m v a rest. cbn. f_equal. f_equal. apply zp_eq. cbn. apply zval_mod.
Qed.
Example c41_example : check_degrees_and_bounds (fun l x => existsb (Nat.eqb x) l) 9 9 (Some [2; 4; 8]%nat) (Some 4%nat) 3%nat = Ok tt /\
  check_degrees_and_bounds (fun l x => existsb (Nat.eqb x) l) 9 9 (Some [2; 4; 8]%nat) (Some 4%nat) 5%nat <> Ok tt /\
  (forall l x, StronglySorted le l -> existsb (Nat.eqb x) l = true <-> In x l).
Proof.
  split; [reflexivity|]. split; [discriminate|]. intros l x _. rewrite existsb_exists. split.
  - intros [y [H E]]. apply Nat.eqb_eq in E. now subst.
  - intros H. exists x. split; auto. apply Nat.eqb_refl.
Qed.

Print Assumptions c23_setup.
Print Assumptions c24_commit_value.
Print Assumptions c24_commit_too_long.
Print Assumptions c24_commit_linear.
Print Assumptions c25_open_check.
Print Assumptions c25_open_constant_panics.
Print Assumptions c25_open_too_long.
Print Assumptions c25_witness_quotient.
Print Assumptions c26_check_iff.
Print Assumptions c26_check_unique_value.
Print Assumptions c26_wrong_value_needs_trapdoor.
Print Assumptions c27_batch_complete.
Print Assumptions c28_batch_sound.
Print Assumptions c28_batch_iff.
Print Assumptions c28_predictable_randomizer_forgery.
Print Assumptions c29_vector_commitment.
Print Assumptions c29_vector_commitment_refused.
Print Assumptions c29_vector_commitment_empty.
Print Assumptions c29_scalar_commitment.
Print Assumptions c29_commitment_add_assign.
Print Assumptions c35_universal_params_roundtrip.
Print Assumptions c35_verifier_key_roundtrip.
Print Assumptions c35_serialized_size.
Print Assumptions c41_degree_bounds.
Print Assumptions c42_prepared_doublings.

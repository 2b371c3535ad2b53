(** KZGProofs.v: proofs about KZG.v *)
From Coq Require Import Sorted.
From Verif Require Import Base Spec Tools ToolsProofs KZG KZGSpec.
Local Open Scope F_scope.

#[global] Instance vslaws_self {F} {fo : FieldOps F} {fl : FieldLaws F} : VSLaws F F.
Proof.
  pose proof (Add := F_th). constructor; intros; cbn [vadd v0 vneg vscale veqb vs_self].
  - apply (Radd_assoc (F_R F_th)).
  - apply (Radd_comm (F_R F_th)).
  - apply (Radd_0_l (F_R F_th)).
  - apply (Ropp_def (F_R F_th)).
  - apply (Rdistr_l (F_R F_th)).
  - rewrite !(Rmul_comm (F_R F_th) x). apply (Rdistr_l (F_R F_th)).
  - symmetry. apply (Rmul_assoc (F_R F_th)).
  - apply (Rmul_1_l (F_R F_th)).
  - apply feqb_eq.
  - exists (fmul a (finv g)). rewrite <- (Rmul_assoc (F_R F_th)).
    rewrite (Finv_l F_th) by auto. now rewrite (Rmul_comm (F_R F_th)), (Rmul_1_l (F_R F_th)).
Qed.
#[global] Instance pairing_laws_self {F} {fo : FieldOps F} {fl : FieldLaws F} : PairingLaws F F F F.
Proof.
  constructor; try exact vslaws_self; intros; cbn [vadd v0 vneg vscale pairing pairing_self vs_self p_vs1 p_vs2 p_vst].
  - apply (Rdistr_l (F_R F_th)).
  - rewrite !(Rmul_comm (F_R F_th) a). apply (Rdistr_l (F_R F_th)).
  - symmetry. apply (Rmul_assoc (F_R F_th)).
  - rewrite !(Rmul_assoc (F_R F_th)). f_equal. apply (Rmul_comm (F_R F_th)).
  - now apply fmul_integral.
Qed.

Section VSP.
Context {F V : Type} {fo : FieldOps F} {fl : FieldLaws F} {vs : VS F V} {vl : VSLaws F V}.
Add Field Fvs : F_th.
Implicit Types (a b : V) (x y : F).

Lemma vadd_0_r a : vadd a v0 = a.
Proof. rewrite (vadd_comm (F:=F)). apply (vadd_0_l (F:=F)). Qed.
Lemma vadd_cancel_l a b c : vadd a b = vadd a c -> b = c.
Proof.
  intros H. rewrite <- (vadd_0_l (F:=F) b), <- (vadd_0_l (F:=F) c), <- (vadd_neg_r (F:=F) a).
  rewrite (vadd_comm (F:=F) a). rewrite <- !(vadd_assoc (F:=F)). now rewrite H.
Qed.
Lemma vscale_0_l a : vscale 0 a = v0.
Proof.
  apply (vadd_cancel_l (vscale 0 a)). rewrite <- vscale_add, vadd_0_r. f_equal. ring.
Qed.
Lemma vneg_scale a : vneg a = vscale (- (1)) a.
Proof.
  apply (vadd_cancel_l a). rewrite (vadd_neg_r (F:=F)).
  transitivity (vadd (vscale 1 a) (vscale (- (1)) a)).
  - rewrite <- vscale_add. replace (1 + - (1)) with (0 : F) by ring. now rewrite vscale_0_l.
  - now rewrite vscale_1.
Qed.
Lemma vscale_0_r x : vscale x (v0 : V) = v0.
Proof. rewrite <- (vscale_0_l v0), <- vscale_mul. f_equal. ring. Qed.
Lemma vs_sum x y a : vadd (vscale x a) (vscale y a) = vscale (x + y) a.
Proof. now rewrite vscale_add. Qed.
Lemma vs_mul x y a : vscale x (vscale y a) = vscale (x * y) a.
Proof. now rewrite vscale_mul. Qed.
Lemma vs_neg x a : vneg (vscale x a) = vscale (- x) a.
Proof. rewrite vneg_scale, vs_mul. f_equal. ring. Qed.
Lemma vs_sub x y a : vsub (vscale x a) (vscale y a) = vscale (x - y) a.
Proof. unfold vsub. rewrite vs_neg, vs_sum. f_equal. ring. Qed.
Lemma vscale_eq_0 x a : vscale x a = v0 -> x = 0 \/ a = v0.
Proof.
  intros H. destruct (feq_dec x 0) as [->|Hx]; auto. right.
  rewrite <- (vscale_1 (F:=F) a). replace (1 : F) with (finv x * x) by (field; auto).
  rewrite vscale_mul, H. apply vscale_0_r.
Qed.
Lemma vscale_inj a x y : a <> v0 -> vscale x a = vscale y a -> x = y.
Proof.
  intros Ha H. apply fsub_0_eq. destruct (vscale_eq_0 (x - y) a) as [|]; auto; [|contradiction].
  rewrite <- vs_sub, H. unfold vsub. apply (vadd_neg_r (F:=F)).
Qed.
Lemma vs_add_l x a : vadd (vscale x a) a = vscale (x + 1) a.
Proof. rewrite vscale_add, vscale_1. reflexivity. Qed.
Lemma veqb_spec a b : reflect (a = b) (veqb a b).
Proof.
  destruct (veqb a b) eqn:E; constructor.
  - now apply (veqb_eq (F:=F)).
  - intros H. apply (veqb_eq (F:=F)) in H. congruence.
Qed.
End VSP.

(** rewrites every vector expression over the single vector a into [vscale _ a] *)
Ltac vnorm := repeat (rewrite ?vs_sum, ?vs_mul, ?vs_neg, ?vs_sub).

Section KZGP.
Context {F G1 G2 GT : Type} {fo : FieldOps F} {fl : FieldLaws F}
        {po : PairingOps F G1 G2 GT} {pl : PairingLaws F G1 G2 GT}.
Add Field Fkzg : F_th.
Implicit Types (g : G1) (h : G2) (z y x beta : F).

Lemma beta_powers_spec n cur beta :
  beta_powers n cur beta = map (fun i => cur * fpow beta i) (seq 0 n).
Proof.
  revert cur; induction n as [|n IH]; intros cur; auto. cbn [beta_powers seq map fpow]. f_equal; [ring|].
  rewrite IH. rewrite <- seq_shift, map_map. apply map_ext. intros i. simpl. ring.
Qed.

(** the powers of the structured reference string: beta^i g, i < n *)
Definition srs (n : nat) beta g : list G1 := map (fun i => vscale (fpow beta i) g) (seq 0 n).

Lemma srs_length n beta g : length (srs n beta g) = n.
Proof. unfold srs. now rewrite map_length, seq_length. Qed.

Lemma setup_ok d beta g h : (1 <= d)%nat ->
  setup d beta g h = Ok (mkUP (srs (d + 1) beta g) h (vscale beta h) h (vscale beta h)).
Proof.
  intros Hd. unfold setup. destruct (Nat.ltb_spec d 1) as [H|_]; [lia|]. do 2 f_equal.
  rewrite beta_powers_spec. unfold srs. rewrite Nat.add_1_r. cbn [seq map fpow]. f_equal.
  rewrite map_map, <- seq_shift, map_map. apply map_ext. intros i. reflexivity.
Qed.

Lemma setup_err d beta g h : (d < 1)%nat -> setup d beta g h = Err DegreeIsZero.
Proof. intros H. unfold setup. destruct (Nat.ltb_spec d 1); [auto|lia]. Qed.

Lemma msm_scaled (f : nat -> F) g (l : list F) s n : (length l <= n)%nat ->
  msm (map (fun i => vscale (f i) g) (seq s n)) l =
  vscale (sumn (length l) (fun i => coef l i * f (s + i)%nat)) g.
Proof.
  revert s n; induction l as [|x l IH]; intros s n Hn.
  - unfold msm. rewrite combine_nil. simpl. symmetry. apply vscale_0_l.
  - destruct n as [|n]; [simpl in Hn; lia|]. cbn [seq map length]. rewrite sumn_shift.
    unfold msm in *. cbn [combine map fold_right fst snd]. rewrite IH by (simpl in Hn; lia).
    vnorm. f_equal. unfold coef at 2. cbn [nth]. rewrite Nat.add_0_r. f_equal.
    apply sumn_ext. intros i _. unfold coef. cbn [nth]. now rewrite Nat.add_succ_r.
Qed.

Lemma skipn_map_seq {A} (f : nat -> A) k s n : (k <= n)%nat ->
  skipn k (map f (seq s n)) = map f (seq (s + k) (n - k)).
Proof.
  revert s n; induction k as [|k IH]; intros s n H.
  - rewrite Nat.add_0_r, Nat.sub_0_r. reflexivity.
  - destruct n; [lia|]. cbn [seq map skipn]. rewrite IH by lia. now rewrite Nat.add_succ_r.
Qed.

Lemma leading_zeros_le (l : list F) : (leading_zeros l <= length l)%nat.
Proof. induction l as [|x l IH]; simpl; [lia|]. destruct (is_zero x); simpl; lia. Qed.
Lemma leading_zeros_0 (l : list F) i : (i < leading_zeros l)%nat -> coef l i = 0.
Proof.
  revert i; induction l as [|x l IH]; intros i; simpl; [lia|].
  destruct (is_zero_spec x) as [->|]; [|lia]. intros H. destruct i; [reflexivity|].
  unfold coef in *. simpl. apply IH. lia.
Qed.
Lemma coef_skipn k (l : list F) i : coef (skipn k l) i = coef l (k + i).
Proof. revert l; induction k as [|k IH]; intros l; simpl; auto. destruct l; simpl; [destruct i; reflexivity|apply IH]. Qed.

Lemma commit_coeffs_shift s n beta g (l : list F) : (length l <= n)%nat ->
  commit_coeffs (map (fun i => vscale (fpow beta i) g) (seq s n)) l =
  Ok (vscale (fpow beta s * peval l beta) g).
Proof.
  intros H. pose proof (leading_zeros_le l) as Hk. unfold commit_coeffs.
  rewrite map_length, seq_length.
  destruct (Nat.ltb_spec n (leading_zeros l)) as [Hb|_]; [lia|]. f_equal.
  rewrite skipn_map_seq by lia.
  rewrite msm_scaled by (rewrite skipn_length; lia). f_equal.
  rewrite skipn_length. rewrite (peval_sumn l beta (length l)) by lia.
  replace (length l) with (leading_zeros l + (length l - leading_zeros l))%nat at 2 by lia.
  rewrite sumn_split. rewrite (sumn_0 (leading_zeros l)).
  - rewrite <- (sumn_mul_l _ (fpow beta s)) || idtac.
    transitivity (fpow beta s * sumn (length l - leading_zeros l)
      (fun i => coef l (leading_zeros l + i) * fpow beta (leading_zeros l + i))); [|ring].
    rewrite <- sumn_mul_l. apply sumn_ext. intros i Hi. rewrite coef_skipn, !fpow_add. ring.
  - intros i Hi. rewrite leading_zeros_0 by auto. ring.
Qed.

Lemma commit_coeffs_ok n beta g (l : list F) : (length l <= n)%nat ->
  commit_coeffs (srs n beta g) l = Ok (vscale (peval l beta) g).
Proof. intros H. unfold srs. rewrite commit_coeffs_shift by auto. f_equal. f_equal. simpl. ring. Qed.

Lemma check_degree_ok d n : (d + 1 <= n)%nat -> check_degree_is_too_large d n = Ok tt.
Proof. intros H. unfold check_degree_is_too_large. destruct (Nat.ltb_spec n (d + 1)); [lia|auto]. Qed.
Lemma check_degree_err d n : (n < d + 1)%nat -> check_degree_is_too_large d n = Err (TooManyCoefficients (d + 1) n).
Proof. intros H. unfold check_degree_is_too_large. destruct (Nat.ltb_spec n (d + 1)); [auto|lia]. Qed.

Lemma commit_with_coefficients_ok n beta g (l : list F) : l <> [] -> (length l <= n)%nat ->
  commit_with_coefficients (srs n beta g) l = Ok (vscale (poly_value l beta) g).
Proof.
  intros Hl H. unfold commit_with_coefficients. destruct l as [|x l]; [congruence|].
  destruct (Nat.eqb_spec (length (x :: l)) 0) as [E|_]; [discriminate|].
  rewrite check_degree_ok by (rewrite srs_length; simpl in *; lia). cbn [obind].
  rewrite commit_coeffs_ok by auto. now rewrite peval_poly_value.
Qed.
Lemma commit_with_coefficients_err (ps : list G1) (l : list F) : (length ps < length l)%nat ->
  commit_with_coefficients ps l = Err (TooManyCoefficients (length l) (length ps)).
Proof.
  intros H. unfold commit_with_coefficients.
  destruct (Nat.eqb_spec (length l) 0) as [E|_]; [lia|].
  rewrite check_degree_err by lia. cbn [obind]. do 2 f_equal. lia.
Qed.
Lemma commit_with_coefficients_nil (ps : list G1) : commit_with_coefficients ps ([] : list F) = Panic.
Proof. reflexivity. Qed.

Lemma commit_ok n beta g (p : list F) : (1 <= n)%nat -> (length p <= n)%nat ->
  commit (srs n beta g) p = Ok (vscale (poly_value p beta) g).
Proof.
  intros Hn H. unfold commit. rewrite check_degree_ok by (rewrite srs_length; unfold degree; lia).
  cbn [obind]. rewrite commit_coeffs_ok by auto. now rewrite peval_poly_value.
Qed.
Lemma commit_err (ps : list G1) (p : list F) : (1 <= length ps)%nat -> (length ps < length p)%nat ->
  commit ps p = Err (TooManyCoefficients (length p) (length ps)).
Proof.
  intros Hn H. unfold commit. rewrite check_degree_err by (unfold degree; lia).
  cbn [obind]. do 2 f_equal. unfold degree. lia.
Qed.

(** witness polynomial *)
Lemma witness_fold (p : list F) z d (k : nat) (w : list F) : (k <= d - 1)%nat -> length w = d ->
  (1 <= d)%nat ->
  (forall i, (k <= i < d)%nat -> nth i w 0 = sumn (d - i) (fun j => nth (i + 1 + j) p 0 * fpow z j)) ->
  let w' := fold_left (fun w i => upd w i (fun _ => nth (i + 1) p 0 + nth (i + 1) w 0 * z))
                     (rev (seq 0 k)) w in
  length w' = d /\
  forall i, (i < d)%nat -> nth i w' 0 = sumn (d - i) (fun j => nth (i + 1 + j) p 0 * fpow z j).
Proof.
  revert w; induction k as [|k IH]; intros w Hk Hw Hd Hi; cbn zeta.
  - simpl. split; auto. intros i H. apply Hi. lia.
  - rewrite seq_S, rev_app_distr. cbn [rev app fold_left Nat.add]. apply IH; auto; try lia.
    + now rewrite upd_length.
    + intros i H. rewrite nth_upd. destruct (Nat.eqb_spec i k) as [->|Hne]; cbn [andb].
      * destruct (Nat.ltb_spec k (length w)) as [_|]; [|lia].
        rewrite (Hi (k + 1)%nat) by lia. replace (d - k)%nat with (S (d - (k + 1)))%nat by lia.
        rewrite sumn_shift. rewrite <- sumn_mul_r. rewrite Nat.add_0_r. f_equal.
        { simpl. ring. }
        apply sumn_ext. intros j Hj. replace (k + 1 + S j)%nat with (k + 1 + 1 + j)%nat by lia.
        simpl. ring.
      * apply Hi. lia.
Qed.

Lemma compute_witness_ok (p : list F) z : (2 <= length p)%nat ->
  exists w, compute_witness_polynomial p z = Ok (strip w) /\ length w = degree p /\
    forall i, (i < degree p)%nat -> coef w i = sumn (degree p - i) (fun j => coef p (i + 1 + j) * fpow z j).
Proof.
  intros Hp. unfold compute_witness_polynomial. set (d := degree p).
  assert (1 <= d)%nat as Hd by (unfold d, degree; lia).
  destruct (Nat.eqb_spec d 0) as [|_]; [lia|].
  eexists. split; [reflexivity|].
  apply (witness_fold p z d (d - 1)); auto.
  - now rewrite upd_length, repeat_length.
  - intros i Hi. replace i with (d - 1)%nat by lia. rewrite nth_upd, repeat_length.
    rewrite Nat.eqb_refl. destruct (Nat.ltb_spec (d - 1) d) as [_|]; [|lia]. cbn [andb].
    replace (d - (d - 1))%nat with 1%nat by lia. simpl.
    replace (d - 1 + 1 + 0)%nat with d by lia. ring.
Qed.

Lemma compute_witness_panic (p : list F) z : (length p <= 1)%nat -> compute_witness_polynomial p z = Panic.
Proof.
  intros H. unfold compute_witness_polynomial, degree.
  destruct (Nat.eqb_spec (length p - 1) 0) as [|]; [auto|lia].
Qed.

(** quotient property: p(X) - p(z) = w(X) (X - z) at every point *)
Lemma witness_quotient (p w : list F) z x : (1 <= length p)%nat -> length w = degree p ->
  (forall i, (i < degree p)%nat -> coef w i = sumn (degree p - i) (fun j => coef p (i + 1 + j) * fpow z j)) ->
  peval p x - peval p z = peval w x * (x - z).
Proof.
  intros Hp Hl Hw. unfold degree in *.
  (* by induction on p *)
  revert w Hl Hw. induction p as [|a p IH]; intros w Hl Hw; [simpl in Hp; lia|].
  destruct p as [|b p].
  - simpl in Hl. destruct w; [simpl; ring|discriminate].
  - destruct w as [|w0 w]; [simpl in Hl; lia|].
    assert (peval (b :: p) x - peval (b :: p) z = peval w x * (x - z)) as IHw.
    { apply IH; [simpl; lia|simpl in *; lia|]. intros i Hi.
      specialize (Hw (S i)). unfold coef in *. cbn [nth length] in Hw.
      rewrite Hw by (simpl in *; lia). replace (S (S (length p)) - 1 - S i)%nat with (length (b :: p) - 1 - i)%nat by (simpl; lia).
      apply sumn_ext. intros j _. reflexivity. }
    assert (w0 = peval (b :: p) z) as Hw0.
    { specialize (Hw 0%nat). unfold coef in Hw. cbn [nth length] in Hw.
      rewrite Hw by (simpl; lia). rewrite (peval_sumn _ _ (length (b :: p))) by lia.
      cbn [length]. apply sumn_ext. intros j _. reflexivity. }
    change (peval (a :: b :: p) x) with (a + x * peval (b :: p) x).
    change (peval (a :: b :: p) z) with (a + z * peval (b :: p) z).
    change (peval (w0 :: w) x) with (w0 + x * peval w x). rewrite Hw0.
    transitivity (x * (peval (b :: p) x - peval (b :: p) z) + (x - z) * peval (b :: p) z); [ring|].
    rewrite IHw. ring.
Qed.

Lemma witness_poly (p : list F) z : (2 <= length p)%nat ->
  exists w, compute_witness_polynomial p z = Ok w /\ (length w < length p)%nat /\
    forall x, poly_value p x - poly_value p z = (x - z) * poly_value w x.
Proof.
  intros Hp. destruct (compute_witness_ok p z Hp) as [w [E [Hl Hw]]].
  exists (strip w). split; auto. split.
  - pose proof (strip_length w). unfold degree in Hl. lia.
  - intros x. rewrite <- !peval_poly_value, peval_strip.
    rewrite (witness_quotient p w z x) by (auto; lia). ring.
Qed.

Lemma open_wp_ok n beta g (w : list F) : (1 <= n)%nat -> (length w <= n)%nat ->
  open_with_witness_polynomial (srs n beta g) w = Ok (vscale (peval w beta) g).
Proof.
  intros Hn H. unfold open_with_witness_polynomial.
  rewrite check_degree_ok by (rewrite srs_length; unfold degree; lia).
  cbn [obind]. now rewrite commit_coeffs_ok by auto.
Qed.

Lemma open_ok n beta g (p : list F) z : (2 <= length p)%nat -> (length p <= n)%nat ->
  exists w, open (srs n beta g) p z = Ok (vscale w g) /\
            poly_value p beta - poly_value p z = (beta - z) * w.
Proof.
  intros Hp Hn. destruct (witness_poly p z Hp) as [w [E [Hl Hw]]].
  exists (peval w beta). unfold open. rewrite check_degree_ok by (rewrite srs_length; unfold degree; lia).
  cbn [obind]. rewrite E. cbn [obind]. rewrite open_wp_ok by lia. split; auto.
  rewrite Hw, peval_poly_value. reflexivity.
Qed.

Lemma open_panic (ps : list G1) (p : list F) z : (length p <= 1)%nat -> (1 <= length ps)%nat -> open ps p z = Panic.
Proof.
  intros H Hps. unfold open. rewrite check_degree_ok by (unfold degree; lia). cbn [obind].
  now rewrite compute_witness_panic.
Qed.
Lemma open_err (ps : list G1) (p : list F) z : (1 <= length ps)%nat -> (length ps < length p)%nat ->
  open ps p z = Err (TooManyCoefficients (length p) (length ps)).
Proof.
  intros Hn H. unfold open. rewrite check_degree_err by (unfold degree; lia).
  cbn [obind]. do 2 f_equal. unfold degree. lia.
Qed.

(** check *)
Lemma pairing_eq_iff (a b : G1) h x y : h <> v0 ->
  pairing (vscale x a) h = pairing b (vscale y h) <-> vscale x a = vscale y b.
Proof.
  intros Hh. rewrite pairing_scale_r, <- pairing_scale_l. split; [|now intros ->].
  intros H. assert (pairing (vadd (vscale x a) (vneg (vscale y b))) h = v0) as E.
  { rewrite pairing_add_l, vneg_scale, (pairing_scale_l (-(1))), H, <- vneg_scale. apply (vadd_neg_r (F:=F)). }
  apply pairing_nondeg in E. destruct E as [E|E]; [|contradiction].
  apply (vadd_cancel_l (F:=F) (vneg (vscale y b))). rewrite (vadd_comm (F:=F) _ (vscale x a)), E.
  rewrite (vadd_comm (F:=F)). symmetry. apply (vadd_neg_r (F:=F)).
Qed.

(** a verifier key belonging to the trapdoor beta *)
Definition vk_for beta g h : verifier_key G1 G2 :=
  mkVK g h (vscale beta h) h (vscale beta h).

Lemma check_iff beta g h c z y w : h <> v0 ->
  check (vk_for beta g h) c z y w = true <-> vsub c (vscale y g) = vscale (beta - z) w.
Proof.
  intros Hh. unfold check, vk_for. cbn [vk_g vk_h vk_beta_h]. rewrite (veqb_eq (F:=F)).
  rewrite vs_sub. rewrite <- (vscale_1 (F:=F) (vsub c _)) at 1.
  rewrite pairing_eq_iff by auto. now rewrite vscale_1.
Qed.

Lemma check_unique beta g h c z y y' w : g <> v0 -> h <> v0 ->
  check (vk_for beta g h) c z y w = true -> check (vk_for beta g h) c z y' w = true -> y = y'.
Proof.
  intros Hg Hh H1 H2. apply check_iff in H1; auto. apply check_iff in H2; auto.
  rewrite <- H1 in H2. destruct (one_dim g c Hg) as [k ->]. rewrite !vs_sub in H2.
  apply vscale_inj in H2; auto. replace y with (k - (k - y)) by ring. rewrite <- H2. ring.
Qed.

Lemma open_check n beta g h (p : list F) z : (2 <= length p)%nat -> (length p <= n)%nat -> h <> v0 ->
  exists c w, commit (srs n beta g) p = Ok c /\ open (srs n beta g) p z = Ok w /\
    check (vk_for beta g h) c z (poly_value p z) w = true.
Proof.
  intros Hp Hn Hh. destruct (open_ok n beta g p z Hp Hn) as [w [E Hw]].
  exists (vscale (poly_value p beta) g), (vscale w g).
  split; [apply commit_ok; lia|]. split; auto. apply check_iff; auto.
  rewrite vs_sub, vs_mul. now rewrite Hw.
Qed.

(** batch *)
(** sum xi^i x_i *)
Definition xi_sum (xi : F) (l : list F) : F := poly_value l xi.

Lemma poly_value_cons x (l : list F) z : poly_value (x :: l) z = x + z * poly_value l z.
Proof. rewrite <- !peval_poly_value. reflexivity. Qed.

Lemma combine_witness_ok (fs : list (list F)) z xi xp acc n beta :
  (forall f, In f fs -> 2 <= length f <= n)%nat -> (length acc <= n)%nat ->
  exists w, combine_witness fs z xi xp acc = Ok w /\ (length w <= n)%nat /\
   (beta - z) * peval w beta =
     (beta - z) * peval acc beta + xp * (poly_value (map (fun f => poly_value f beta - poly_value f z) fs) xi).
Proof.
  revert xp acc; induction fs as [|f fs IH]; intros xp acc Hf Ha.
  - exists acc. split; auto. split; auto. unfold poly_value. simpl. ring.
  - cbn [combine_witness]. destruct (witness_poly f z) as [w [E [Hl Hw]]]; [apply Hf; now left|].
    rewrite E. cbn [obind].
    destruct (IH (xp * xi) (strip (padd acc (strip (pscale xp w))))) as [w' [E' [Hl' Hw']]].
    + intros f' H. apply Hf. now right.
    + specialize (Hf f (or_introl eq_refl)).
      pose proof (strip_length (padd acc (strip (pscale xp w)))) as H1. rewrite padd_length in H1.
      pose proof (strip_length (pscale xp w)) as H2. rewrite pscale_length in H2. lia.
    + exists w'. split; auto. split; auto. rewrite Hw'. cbn [map]. rewrite poly_value_cons.
      rewrite peval_strip, peval_padd, peval_strip, peval_pscale, Hw, <- (peval_poly_value w). ring.
Qed.

Lemma check_degrees_ok (fs : list (list F)) n : (forall f, In f fs -> 1 <= length f <= n)%nat ->
  check_degrees fs n = Ok tt.
Proof.
  induction fs as [|f fs IH]; intros H; auto. cbn [check_degrees].
  rewrite check_degree_ok by (specialize (H f (or_introl eq_refl)); unfold degree; lia).
  cbn [obind]. apply IH. intros f' Hf. apply H. now right.
Qed.

Lemma batch_open_ok n beta g (fs gs : list (list F)) z zz xi xi2 : (1 <= n)%nat ->
  (forall f, In f (fs ++ gs) -> 2 <= length f <= n)%nat ->
  exists w1 w2, batch_open (srs n beta g) fs gs z zz xi xi2 = Ok (vscale w1 g, vscale w2 g) /\
    (beta - z) * w1 = poly_value (map (fun f => poly_value f beta - poly_value f z) fs) xi /\
    (beta - zz) * w2 = poly_value (map (fun f => poly_value f beta - poly_value f zz) gs) xi2.
Proof.
  intros Hn Hf. unfold batch_open. rewrite srs_length, check_degrees_ok by (intros f H; specialize (Hf f H); lia).
  cbn [obind].
  destruct (combine_witness_ok fs z xi 1 [] n beta) as [w1 [E1 [L1 W1]]];
    [intros f H; apply Hf, in_or_app; auto|simpl; lia|].
  destruct (combine_witness_ok gs zz xi2 1 [] n beta) as [w2 [E2 [L2 W2]]];
    [intros f H; apply Hf, in_or_app; auto|simpl; lia|].
  rewrite E1. cbn [obind]. rewrite E2. cbn [obind].
  rewrite !open_wp_ok by auto. cbn [obind].
  exists (peval w1 beta), (peval w2 beta). split; auto.
  rewrite W1, W2. simpl. split; ring.
Qed.

(** the loop of batch_check when the commitments are known multiples of g *)
Lemma batch_combine_spec (cs : list F) (vs : list F) g xi xp r q y :
  length cs = length vs ->
  batch_combine (combine (map (fun c => vscale c g) cs) vs) xi xp r (vscale q g) y =
  (vscale (q + xp * r * poly_value cs xi) g, y + xp * poly_value vs xi).
Proof.
  revert vs xp q y; induction cs as [|c cs IH]; intros vs xp q y Hl; destruct vs as [|v vs]; try discriminate.
  - cbn [map combine batch_combine]. unfold poly_value. cbn [length sumn].
    replace (q + xp * r * 0) with q by ring. replace (y + xp * 0) with y by ring. reflexivity.
  - cbn [map combine batch_combine]. vnorm. rewrite IH by (simpl in Hl; lia).
    rewrite !poly_value_cons. apply f_equal2; [apply (f_equal (fun k => vscale k g))|]; ring.
Qed.

Lemma dlogs (cs : list G1) g : g <> v0 -> exists ks, cs = map (fun k : F => vscale k g) ks /\ length ks = length cs.
Proof.
  intros Hg. induction cs as [|c cs [ks [IH Hl]]]; [exists []; auto|].
  destruct (one_dim g c Hg) as [k ->]. exists (k :: ks). cbn [map length]. rewrite <- IH, Hl. auto.
Qed.

Lemma batch_check_dlog beta g h (cs ds : list F) z zz xi xi2 (us vs : list F) w1 w2 r : g <> v0 -> h <> v0 ->
  length cs = length us -> length ds = length vs ->
  batch_check (vk_for beta g h) (map (fun k => vscale k g) cs) (map (fun k => vscale k g) ds)
    z zz xi xi2 us vs (vscale w1 g) (vscale w2 g) r = true <->
  (poly_value cs xi - poly_value us xi - (beta - z) * w1) +
  r * (poly_value ds xi2 - poly_value vs xi2 - (beta - zz) * w2) = 0.
Proof.
  intros Hg Hh H1 H2. unfold batch_check, vk_for. cbn [vk_g vk_h vk_beta_h vk_prepared_h vk_prepared_beta_h].
  rewrite <- (vscale_0_l (F:=F) g). rewrite !batch_combine_spec by auto.
  vnorm. rewrite (veqb_eq (F:=F)).
  rewrite pairing_scale_r, <- pairing_scale_l, <- pairing_add_l. vnorm.
  assert (pairing g h <> v0) as Hp by (intros E; apply pairing_nondeg in E; tauto).
  rewrite pairing_scale_l. split.
  - intros E. apply vscale_eq_0 in E. destruct E as [E|E]; [|contradiction].
    match type of E with ?k = _ => transitivity k; [ring|exact E] end.
  - intros E. match type of E with ?k = _ => transitivity (vscale k (pairing g h));
      [f_equal; ring|rewrite E; apply vscale_0_l] end.
Qed.

Lemma poly_value_map_sub {A} (f k : A -> F) (l : list A) x :
  poly_value (map (fun a => f a - k a) l) x = poly_value (map f l) x - poly_value (map k l) x.
Proof.
  induction l as [|a l IH]; [unfold poly_value; simpl; ring|]. cbn [map]. rewrite !poly_value_cons, IH. ring.
Qed.

Lemma batch_complete n beta g h (fs gs : list (list F)) z zz xi xi2 r : (1 <= n)%nat -> g <> v0 -> h <> v0 ->
  (forall f, In f (fs ++ gs) -> 2 <= length f <= n)%nat ->
  exists w1 w2, batch_open (srs n beta g) fs gs z zz xi xi2 = Ok (w1, w2) /\
    batch_check (vk_for beta g h) (map (fun f => vscale (poly_value f beta) g) fs)
      (map (fun f => vscale (poly_value f beta) g) gs) z zz xi xi2
      (map (fun f => poly_value f z) fs) (map (fun f => poly_value f zz) gs) w1 w2 r = true.
Proof.
  intros Hn Hg Hh Hf. destruct (batch_open_ok n beta g fs gs z zz xi xi2 Hn Hf) as [w1 [w2 [E [H1 H2]]]].
  exists (vscale w1 g), (vscale w2 g). split; auto.
  rewrite <- (map_map (fun f => poly_value f beta) (fun k => vscale k g)).
  rewrite <- (map_map (fun f => poly_value f beta) (fun k => vscale k g) gs).
  apply batch_check_dlog; auto; try now rewrite !map_length.
  rewrite H1, H2, !poly_value_map_sub. ring.
Qed.

Lemma lin_comb_dlog xi g (ks : list F) : lin_comb xi (map (fun k => vscale k g) ks) = vscale (poly_value ks xi) g.
Proof.
  induction ks as [|k ks IH]; [unfold poly_value; simpl; symmetry; apply vscale_0_l|].
  cbn [map lin_comb fold_right]. change (fold_right _ v0 (map _ ks)) with (lin_comb xi (map (fun k => vscale k g) ks)).
  rewrite IH, poly_value_cons. now vnorm.
Qed.

Lemma batch_check_iff beta g h (cs ds : list G1) z zz xi xi2 (us vs : list F) w1 w2 r : g <> v0 -> h <> v0 ->
  length cs = length us -> length ds = length vs ->
  batch_check (vk_for beta g h) cs ds z zz xi xi2 us vs w1 w2 r = true <->
  vadd (vsub (vsub (lin_comb xi cs) (vscale (poly_value us xi) g)) (vscale (beta - z) w1))
       (vscale r (vsub (vsub (lin_comb xi2 ds) (vscale (poly_value vs xi2) g)) (vscale (beta - zz) w2))) = v0.
Proof.
  intros Hg Hh H1 H2. destruct (dlogs cs g Hg) as [ks [-> L1]]. destruct (dlogs ds g Hg) as [ks' [-> L2]].
  destruct (one_dim g w1 Hg) as [x1 ->]. destruct (one_dim g w2 Hg) as [x2 ->].
  rewrite batch_check_dlog by (auto; rewrite ?map_length in *; lia).
  rewrite !lin_comb_dlog. vnorm. split.
  - intros E. rewrite E. apply vscale_0_l.
  - intros E. apply vscale_eq_0 in E. tauto.
Qed.

Lemma batch_check_randomizer beta g h (cs ds : list G1) z zz xi xi2 (us vs : list F) w1 w2 r r' : g <> v0 -> h <> v0 ->
  length cs = length us -> length ds = length vs ->
  ~ (vsub (lin_comb xi cs) (vscale (poly_value us xi) g) = vscale (beta - z) w1 /\
     vsub (lin_comb xi2 ds) (vscale (poly_value vs xi2) g) = vscale (beta - zz) w2) ->
  batch_check (vk_for beta g h) cs ds z zz xi xi2 us vs w1 w2 r = true ->
  batch_check (vk_for beta g h) cs ds z zz xi xi2 us vs w1 w2 r' = true -> r = r'.
Proof.
  intros Hg Hh H1 H2. destruct (dlogs cs g Hg) as [ks [-> L1]]. destruct (dlogs ds g Hg) as [ks' [-> L2]].
  destruct (one_dim g w1 Hg) as [x1 ->]. destruct (one_dim g w2 Hg) as [x2 ->].
  rewrite !batch_check_dlog by (auto; rewrite ?map_length in *; lia).
  rewrite !lin_comb_dlog. vnorm. intros Hn E1 E2.
  set (A := poly_value ks xi - poly_value us xi - (beta - z) * x1) in *.
  set (B := poly_value ks' xi2 - poly_value vs xi2 - (beta - zz) * x2) in *.
  destruct (feq_dec B 0) as [HB|HB].
  - exfalso. apply Hn. rewrite HB in E1. assert (A = 0) as HA by (rewrite <- E1; ring).
    split; f_equal; apply fsub_0_eq; [exact HA|exact HB].
  - assert ((r - r') * B = 0) as E.
    { replace ((r - r') * B) with ((A + r * B) - (A + r' * B)) by ring. rewrite E1, E2. ring. }
    apply fmul_integral in E. destruct E as [E|E]; [now apply fsub_0_eq|contradiction].
Qed.

Lemma batch_check_forge beta g h (cs ds : list G1) z zz xi xi2 (us vs : list F) r : g <> v0 -> h <> v0 ->
  length cs = length us -> length ds = length vs -> z <> zz -> r <> 0 ->
  let D := vadd (vsub (lin_comb xi cs) (vscale (poly_value us xi) g))
                (vscale r (vsub (lin_comb xi2 ds) (vscale (poly_value vs xi2) g))) in
  batch_check (vk_for beta g h) cs ds z zz xi xi2 us vs
    (vscale (1 / (zz - z)) D) (vscale (- (1) / (r * (zz - z))) D) r = true.
Proof.
  intros Hg Hh H1 H2 Hz Hr. cbn zeta.
  destruct (dlogs cs g Hg) as [ks [-> L1]]. destruct (dlogs ds g Hg) as [ks' [-> L2]].
  rewrite !lin_comb_dlog. vnorm. apply batch_check_dlog; auto; rewrite ?map_length in *; try lia.
  field. split; auto. intros E. apply Hz. symmetry. now apply fsub_0_eq.
Qed.

(** vector commitments *)
Lemma vector_to_commitment_ok n beta g (v : list F) (deg : nat) : v <> [] ->
  let s := if (deg <? length v)%nat then 0%nat else (deg - length v)%nat in
  (s + length v <= n)%nat ->
  vector_to_commitment (srs n beta g) v deg = Ok (vscale (fpow beta s * poly_value v beta) g).
Proof.
  intros Hv s Hn. unfold vector_to_commitment. fold s. rewrite srs_length.
  destruct (Nat.ltb_spec n s) as [|_]; [lia|]. unfold srs. rewrite skipn_map_seq by lia.
  unfold commit_with_coefficients. destruct (Nat.eqb_spec (length v) 0) as [E|_].
  { destruct v; [congruence|discriminate]. }
  assert (0 < length v)%nat by (destruct v; [congruence|simpl; lia]).
  rewrite map_length, seq_length, check_degree_ok by lia. cbn [obind].
  rewrite commit_coeffs_shift by lia. now rewrite peval_poly_value.
Qed.

Lemma vector_to_commitment_err (ps : list G1) (v : list F) (deg : nat) : (1 <= deg <= length ps)%nat ->
  (length ps < length v)%nat ->
  vector_to_commitment ps v deg = Err (TooManyCoefficients (length v) (length ps)).
Proof.
  intros Hd H. unfold vector_to_commitment. destruct (Nat.ltb_spec deg (length v)) as [_|]; [|lia].
  destruct (Nat.ltb_spec (length ps) 0) as [|_]; [lia|]. cbn [skipn]. now apply commit_with_coefficients_err.
Qed.

Lemma doublings_spec bits g : doublings (F:=F) bits g = map (fun i => vscale (fpow (1 + 1) i) g) (seq 0 bits).
Proof.
  revert g; induction bits as [|b IH]; intros g; auto. cbn [doublings seq map fpow]. f_equal.
  - symmetry. apply vscale_1.
  - rewrite IH, <- seq_shift, map_map. apply map_ext. intros i. cbn [fpow].
    rewrite <- (vscale_1 (F:=F) g) at 1 2. vnorm. f_equal. ring.
Qed.

Lemma check_degrees_and_bounds_iff (search : list nat -> nat -> bool) sup mx enforced bound deg :
  (forall (l : list nat) (x : nat), StronglySorted le l -> search l x = true <-> In x l) ->
  (forall l, enforced = Some l -> StronglySorted le l) ->
  check_degrees_and_bounds search sup mx enforced bound deg = Ok tt <->
  (forall b, bound = Some b -> exists l, enforced = Some l /\ In b l /\ (deg <= b <= mx)%nat).
Proof.
  intros Hs He. unfold check_degrees_and_bounds. destruct bound as [b|].
  - destruct enforced as [l|].
    + specialize (He l eq_refl). specialize (Hs l b He). destruct (search l b) eqn:E; cbn [negb].
      * destruct (Nat.ltb_spec b deg); cbn [orb]; [|destruct (Nat.ltb_spec mx b)]; split; intros H'; try discriminate; auto.
        -- destruct (H' b eq_refl) as [l' [_ [_ Hb]]]. lia.
        -- destruct (H' b eq_refl) as [l' [_ [_ Hb]]]. lia.
        -- intros b' [= <-]. exists l. split; auto. split; [now apply Hs|lia].
      * split; [discriminate|]. intros H'. destruct (H' b eq_refl) as [l' [[= <-] [Hi _]]].
        apply Hs in Hi. discriminate.
    + split; [discriminate|]. intros H'. destruct (H' b eq_refl) as [l' [? _]]. discriminate.
  - split; auto. intros _ b Hb. discriminate.
Qed.
End KZGP.

(** serialization *)
Lemma le_bytes_length k z : length (le_bytes k z) = k.
Proof. revert z; induction k; intros; simpl; auto. Qed.
Lemma le_value_bytes k z : (0 <= z < 256 ^ Z.of_nat k)%Z -> le_value (le_bytes k z) = z.
Proof.
  revert z; induction k as [|k IH]; intros z Hz.
  - simpl in *. lia.
  - cbn [le_bytes le_value]. rewrite IH.
    + pose proof (Z.div_mod z 256). lia.
    + rewrite Nat2Z.inj_succ, Z.pow_succ_r in Hz by lia. split.
      * apply Z.div_pos; lia.
      * apply Z.div_lt_upper_bound; lia.
Qed.

Section SerP.
Context {G1 G2 : Type} {s1 : Ser G1} {s2 : Ser G2} {l1 : SerLaws G1} {l2 : SerLaws G2}.

Lemma deser_n_ok {A} {s : Ser A} {l : SerLaws A} m v (xs : list A) rest :
  deser_n m v (length xs) (flat_map (ser m) xs ++ rest) = Some (xs, rest).
Proof.
  induction xs as [|x xs IH]; auto. cbn [length flat_map deser_n].
  rewrite <- app_assoc, ser_deser, IH. reflexivity.
Qed.

Lemma vec_roundtrip {A} {s : Ser A} {l : SerLaws A} m v (xs : list A) rest :
  (Z.of_nat (length xs) < 2 ^ 64)%Z ->
  deser_vec m v (ser_vec m xs ++ rest) = Some (xs, rest).
Proof.
  intros H. unfold deser_vec, ser_vec, deser_u64. rewrite <- app_assoc.
  rewrite app_length, le_bytes_length. destruct (Nat.ltb_spec (8 + length (flat_map (ser m) xs ++ rest)) 8) as [|_]; [lia|].
  rewrite firstn_app, skipn_app, le_bytes_length, Nat.sub_diag.
  rewrite firstn_all2, skipn_all2 by (rewrite le_bytes_length; lia).
  cbn [firstn skipn]. rewrite app_nil_r, le_value_bytes, Nat2Z.id by (change (256 ^ Z.of_nat 8)%Z with (2 ^ 64)%Z; lia).
  apply deser_n_ok.
Qed.

Lemma up_roundtrip m v (pp : universal_params G1 G2) rest :
  (Z.of_nat (length (up_powers_of_g pp)) < 2 ^ 64)%Z ->
  up_prepared_h pp = up_h pp -> up_prepared_beta_h pp = up_beta_h pp ->
  deser_up m v (ser_up m pp ++ rest) = Some (pp, rest).
Proof.
  intros H H1 H2. unfold deser_up, ser_up. rewrite <- !app_assoc, vec_roundtrip by auto.
  rewrite !ser_deser. destruct pp; cbn in *. subst. reflexivity.
Qed.

Lemma vk_roundtrip m v (vk : verifier_key G1 G2) rest :
  vk_prepared_h vk = vk_h vk -> vk_prepared_beta_h vk = vk_beta_h vk ->
  deser_vk m v (ser_vk m vk ++ rest) = Some (vk, rest).
Proof.
  intros H1 H2. unfold deser_vk, ser_vk. rewrite <- !app_assoc, !ser_deser. destruct vk; cbn in *. subst. reflexivity.
Qed.

Lemma up_size m (pp : universal_params G1 G2) :
  up_serialized_size (fun g => length (ser m g)) (fun h => length (ser m h)) pp = length (ser_up m pp).
Proof.
  unfold up_serialized_size, ser_up, ser_vec. rewrite !app_length, le_bytes_length.
  assert (length (flat_map (ser m) (up_powers_of_g pp)) =
          fold_right plus 0%nat (map (fun g => length (ser m g)) (up_powers_of_g pp))) as ->.
  { induction (up_powers_of_g pp); simpl; auto. rewrite app_length. lia. }
  lia.
Qed.
Lemma vk_size m (vk : verifier_key G1 G2) :
  vk_serialized_size (fun g => length (ser m g)) (fun h => length (ser m h)) vk = length (ser_vk m vk).
Proof. unfold vk_serialized_size, ser_vk. rewrite !app_length. lia. Qed.
End SerP.

(** Laurent.v: Laurent polynomials given by index functions, used in the proofs about the
    arguments of voproof/src/snarks.  No code is modelled here. *)
From Verif Require Import Base Spec Tools ToolsProofs KZG Snark.
Local Open Scope F_scope.

Section Laurent.
Context {F : Type} {fo : FieldOps F} {fl : FieldLaws F}.
Add Field Ffl : F_th.
Implicit Types (u v l : list F) (z om a : F).

(** A function f of the 1-based index K stands for the sum of f(K) z^(K-1), K-1 in [-M,M]. *)
Definition supported (M : Z) (f : Z -> F) : Prop := forall K, (K < 1 - M \/ M + 1 < K)%Z -> f K = 0.
Definition lsum (M : Z) (f : Z -> F) (z : F) : F :=
  sumZ (1 - M) (Z.to_nat (2 * M + 1)) (fun K => f K * fpowZ z (K - 1)).
Definition LP (M : Z) (f : Z -> F) (z val : F) : Prop := supported M f /\ lsum M f z = val.

Lemma LP_ext M f g z x : (forall K, f K = g K) -> LP M g z x -> LP M f z x.
Proof.
  intros E [S V]. split.
  - intros K H. rewrite E. now apply S.
  - rewrite <- V. apply sumZ_ext. intros K _. now rewrite E.
Qed.
Lemma LP_val M f z x y : x = y -> LP M f z x -> LP M f z y.
Proof. now intros ->. Qed.
Lemma LP_add M f g z x y : LP M f z x -> LP M g z y -> LP M (fun K => f K + g K) z (x + y).
Proof.
  intros [S1 V1] [S2 V2]. split.
  - intros K H. rewrite S1, S2 by auto. ring.
  - rewrite <- V1, <- V2. unfold lsum. rewrite <- sumZ_add. apply sumZ_ext. intros; ring.
Qed.
Lemma LP_opp M f z x : LP M f z x -> LP M (fun K => - f K) z (- x).
Proof.
  intros [S V]. split.
  - intros K H. rewrite S by auto. ring.
  - rewrite <- V. unfold lsum. rewrite <- sumZ_opp. apply sumZ_ext. intros; ring.
Qed.
Lemma LP_sub M f g z x y : LP M f z x -> LP M g z y -> LP M (fun K => f K - g K) z (x - y).
Proof.
  intros [S1 V1] [S2 V2]. split.
  - intros K H. rewrite S1, S2 by auto. ring.
  - rewrite <- V1, <- V2. unfold lsum. rewrite <- sumZ_sub. apply sumZ_ext. intros; ring.
Qed.
Lemma LP_scale M f z x c : LP M f z x -> LP M (fun K => c * f K) z (c * x).
Proof.
  intros [S V]. split.
  - intros K H. rewrite S by auto. ring.
  - rewrite <- V. unfold lsum. rewrite <- sumZ_mul_l. apply sumZ_ext. intros; ring.
Qed.
Lemma LP_scale_r M f z x c : LP M f z x -> LP M (fun K => f K * c) z (x * c).
Proof. intros H. apply LP_ext with (g := fun K => c * f K); [intros; ring|].
  eapply LP_val; [|apply LP_scale, H]. ring. Qed.

Lemma LP_coefs M l (L : nat) b z : z <> 0 -> (0 <= M)%Z ->
  (forall k, (L <= k)%nat -> coef l k = 0) ->
  (- M <= b - 1)%Z -> (Z.of_nat L + b - 2 <= M)%Z ->
  LP M (fun K => vidx l (minus_i64 K b)) z (fpowZ z (b - 1) * peval l z).
Proof.
  intros Hz HM HL H1 H2.
  assert (forall j, (j < 1 \/ Z.of_nat L < j)%Z -> vidx l j = 0) as HV.
  { intros j Hj. destruct (Z_lt_le_dec j 1) as [H|H]; [apply vidx_out; auto|].
    rewrite vidx_in by lia. apply HL. lia. }
  split.
  - intros K H. apply HV. unfold minus_i64. lia.
  - unfold lsum. rewrite (sumZ_support b L).
    + unfold sumZ.
      assert (peval l z = sumn L (fun i => coef l i * fpow z i)) as ->.
      { rewrite (peval_sumn l z (length l + L)) by lia.
        rewrite Nat.add_comm, sumn_split, (sumn_0 (length l)); [ring|].
        intros i _. rewrite HL by lia. ring. }
      rewrite <- sumn_mul_l. apply sumn_ext. intros i Hi. unfold minus_i64.
      replace (b + Z.of_nat i - b + 1)%Z with (Z.of_nat (S i)) by lia. rewrite vidx_S.
      replace (b + Z.of_nat i - 1)%Z with ((b - 1) + Z.of_nat i)%Z by lia.
      rewrite fpowZ_add_nat by auto. ring.
    + intros K H. rewrite HV; [ring|]. unfold minus_i64. lia.
    + lia.
    + lia.
Qed.
Lemma LP_list M l b z : z <> 0 -> (0 <= M)%Z ->
  (- M <= b - 1)%Z -> (Z.of_nat (length l) + b - 2 <= M)%Z ->
  LP M (fun K => vidx l (minus_i64 K b)) z (fpowZ z (b - 1) * peval l z).
Proof. intros Hz HM H1 H2. apply LP_coefs with (L := length l); auto. intros k Hk. now apply coef_over. Qed.

Lemma coef_poly_mul_over u v om k : (length u + length v - 1 <= k)%nat -> coef (vector_poly_mul u v om) k = 0.
Proof.
  intros H. rewrite coef_vector_poly_mul. unfold conv. apply sumn_0. intros i Hi.
  destruct (Nat.lt_ge_cases i (length u)) as [Hu|Hu].
  - rewrite (coef_over v) by lia. ring.
  - rewrite (coef_over (vector_reverse_omega u om)) by (rewrite reverse_omega_length; lia). ring.
Qed.

(** the shift [|u|-1] of define_vector_poly_mul_shift! is written out *)
Lemma LP_corr M u v om B z : z <> 0 -> (0 <= M)%Z -> (1 <= length u)%nat ->
  (- M <= B - Z.of_nat (length u))%Z -> (B + Z.of_nat (length v) - 2 <= M)%Z ->
  LP M (fun K => vidx (vector_poly_mul u v om) (minus_i64 K (B - (Z.of_nat (length u) - 1)))) z
     (fpowZ z (B - 1) * (peval u (om / z) * peval v z)).
Proof.
  intros Hz HM Hu H1 H2.
  eapply LP_val; [|apply LP_coefs with (L := (length u + length v - 1)%nat); auto; try lia].
  - pose proof (peval_vector_poly_mul u v om z Hz) as E.
    replace (B - (Z.of_nat (length u) - 1) - 1)%Z with ((B - 1) + (1 - Z.of_nat (length u)))%Z by lia.
    rewrite fpowZ_add by auto.
    assert (fpowZ z (1 - Z.of_nat (length u)) * peval (vector_poly_mul u v om) z = peval u (om / z) * peval v z) as Eq.
    { rewrite fpowZ_sub, fpowZ_1, fpowZ_nat by auto.
      transitivity (z * peval (vector_poly_mul u v om) z / fpow z (length u));
        [field; now apply fpow_neq_0|]. rewrite E. field. now apply fpow_neq_0. }
    transitivity (fpowZ z (B - 1) * (fpowZ z (1 - Z.of_nat (length u)) * peval (vector_poly_mul u v om) z)); [ring|].
    rewrite Eq. ring.
  - intros k Hk. apply coef_poly_mul_over. lia.
Qed.

(** sum of x^i, i < m *)
Definition geo (x : F) (m : nat) : F := sumn m (fun i => fpow x i).
Lemma geo_closed x m : x <> 1 -> geo x m = (1 - fpow x m) / (1 - x).
Proof.
  intros H. unfold geo. rewrite geo_sum_div by auto. field. split; intros E; apply H.
  - symmetry; now apply fsub_0_eq.
  - now apply fsub_0_eq.
Qed.
Lemma geoZ x m : x <> 0 -> x <> 1 -> (0 <= m)%Z -> geo x (Z.to_nat m) = (1 - fpowZ x m) / (1 - x).
Proof. intros H0 H1 Hm. rewrite geo_closed, fpowZ_nonneg by auto. reflexivity. Qed.
Lemma fpowZ_div x y k : x <> 0 -> y <> 0 -> fpowZ (x / y) k = fpowZ x k / fpowZ y k.
Proof.
  intros Hx Hy. replace (x / y) with (x * finv y) by (field; auto).
  rewrite fpowZ_mul_base by (auto; now apply finv_neq_0).
  assert (fpowZ (finv y) k = finv (fpowZ y k)) as ->; [|field; now apply fpowZ_neq_0].
  apply fmul_cancel_l with (a := fpowZ y k); [now apply fpowZ_neq_0|].
  rewrite <- fpowZ_mul_base by (auto; now apply finv_neq_0).
  replace (y * finv y) with 1 by (field; auto). rewrite fpowZ_1_l. field. now apply fpowZ_neq_0.
Qed.
Lemma fpowZ_2m x k : x <> 0 -> fpowZ x (2 * k) = fpowZ x k * fpowZ x k.
Proof. intros H. rewrite <- fpowZ_add by auto. f_equal. lia. Qed.
Lemma fpowZ_3m x k : x <> 0 -> fpowZ x (3 * k) = fpowZ x k * fpowZ x k * fpowZ x k.
Proof. intros H. rewrite <- !fpowZ_add by auto. f_equal. lia. Qed.
Lemma fpowZ_4m x k : x <> 0 -> fpowZ x (4 * k) = fpowZ x k * fpowZ x k * fpowZ x k * fpowZ x k.
Proof. intros H. rewrite <- !fpowZ_add by auto. f_equal. lia. Qed.
Lemma pw x k : x <> 0 -> power x k = fpowZ x k. Proof. intros; now apply power_spec. Qed.
Lemma pw_pos (x : F) (k : positive) : power x (Z.pos k) = fpow x (Pos.to_nat k).
Proof. rewrite <- (positive_nat_Z k) at 1. apply power_pos. lia. Qed.
Lemma fpowZ_pos (x : F) (k : positive) : fpowZ x (Z.pos k) = fpow x (Pos.to_nat k).
Proof. reflexivity. Qed.
Lemma eval_vidx (l : list F) x k : (Z.of_nat (length l) <= k)%Z ->
  eval_vector_expression x (fun i => vidx l i) k = peval l x.
Proof.
  intros H. rewrite eval_vector_expression_sum, (peval_sumn l x (Z.to_nat k)) by lia.
  apply sumn_ext. intros i _. now rewrite vidx_S.
Qed.
Lemma geo_0 x : geo x 0 = 0. Proof. reflexivity. Qed.
Lemma fpowZ_posm x (p : positive) k : x <> 0 -> fpowZ x (Z.pos p * k) = fpow (fpowZ x k) (Pos.to_nat p).
Proof.
  intros H. rewrite <- (positive_nat_Z p). induction (Pos.to_nat p) as [|n IH]; [apply fpowZ_0|].
  replace (Z.of_nat (S n) * k)%Z with (Z.of_nat n * k + k)%Z by lia. rewrite fpowZ_add, IH by auto.
  cbn [fpow]. ring.
Qed.
Lemma fpowZ_negc x (p : positive) : x <> 0 -> fpowZ x (Z.neg p) = finv (fpow x (Pos.to_nat p)).
Proof. intros H. change (Z.neg p) with (- Z.pos p)%Z. now rewrite fpowZ_opp. Qed.
Lemma fpowZ_finv x k : x <> 0 -> fpowZ (finv x) k = finv (fpowZ x k).
Proof.
  intros H. apply fmul_cancel_l with (a := fpowZ x k); [now apply fpowZ_neq_0|].
  rewrite <- fpowZ_mul_base by (auto; now apply finv_neq_0).
  replace (x * finv x) with 1 by (field; auto). rewrite fpowZ_1_l. field. now apply fpowZ_neq_0.
Qed.
Lemma peval_powers_geo a m z : peval (powers a m) z = geo (a * z) m.
Proof. apply peval_powers. Qed.

Lemma vector_power_mul_0 v a : a <> 0 -> forall i, vidx (vector_power_mul v a 0) i = 0.
Proof.
  intros Ha i. destruct (Z_lt_le_dec i 1) as [Hi|Hi]; [apply vidx_out; auto|]. rewrite vidx_in by lia.
  set (k := Z.to_nat (i - 1)). clearbody k. clear i Hi.
  destruct (Nat.lt_ge_cases k (length v - 1)) as [Hk|Hk].
  - unfold coef, vector_power_mul. rewrite nth_scan_zrange by lia.
    rewrite (power_spec a) by auto. change (Z.of_nat 0) with 0%Z. rewrite fpowZ_0.
    induction (S k) as [|j IH]; [reflexivity|]. rewrite fold_zrange_S, IH.
    replace (Z.of_nat (S j) - 0)%Z with (Z.of_nat (S j)) by lia. ring.
  - apply coef_over. rewrite vector_power_mul_length. lia.
Qed.
Lemma vidx_power_mul v a m i : a <> 0 ->
  vidx (vector_power_mul v a m) i = sumn m (fun t => fpow a t * vidx v (i - Z.of_nat t)).
Proof.
  intros Ha. destruct m as [|m]; [now apply vector_power_mul_0|]. apply vidx_vector_power_mul. lia.
Qed.

Lemma LP_pow M v a m b z : z <> 0 -> a <> 0 -> (0 <= M)%Z ->
  (- M <= b - 1)%Z -> (Z.of_nat (m + length v) + b - 3 <= M)%Z ->
  LP M (fun K => vidx (vector_power_mul v a m) (minus_i64 K b)) z
     (fpowZ z (b - 1) * (geo (a * z) m * peval v z)).
Proof.
  intros Hz Ha HM H1 H2. destruct m as [|m].
  - apply LP_ext with (g := fun _ => 0); [intros; now apply vector_power_mul_0|].
    split; [intros K _; reflexivity|]. rewrite geo_0. unfold lsum. rewrite sumZ_0; [ring|]. intros; ring.
  - eapply LP_val; [|apply LP_coefs with (L := (S m + length v - 1)%nat); auto; try lia].
    + rewrite peval_vector_power_mul, peval_powers_geo by lia. ring.
    + intros k Hk. apply coef_over. rewrite vector_power_mul_length. lia.
Qed.

Lemma vidx_powers_pv a m i : a <> 0 -> vidx (powers a m) i = power_vidx a (Z.of_nat m) i.
Proof.
  intros Ha. unfold power_vidx. destruct (Z.leb_spec 1 i) as [H|H]; cbn [andb].
  - rewrite vidx_in, coef_powers by lia. destruct (Z.leb_spec i (Z.of_nat m)).
    + destruct (Nat.ltb_spec (Z.to_nat (i - 1)) m); [|lia].
      rewrite power_spec, fpowZ_nonneg by (auto; lia). reflexivity.
    + destruct (Nat.ltb_spec (Z.to_nat (i - 1)) m); [lia|reflexivity].
  - apply vidx_out. lia.
Qed.
Lemma LP_powvec M a (m : Z) b z : z <> 0 -> a <> 0 -> (0 <= M)%Z -> (0 <= m)%Z ->
  (- M <= b - 1)%Z -> (m + b - 2 <= M)%Z ->
  LP M (fun K => power_vidx a m (minus_i64 K b)) z (fpowZ z (b - 1) * geo (a * z) (Z.to_nat m)).
Proof.
  intros Hz Ha HM Hm H1 H2.
  apply LP_ext with (g := fun K => vidx (powers a (Z.to_nat m)) (minus_i64 K b)).
  - intros K. rewrite vidx_powers_pv by auto. f_equal. lia.
  - eapply LP_val; [|apply LP_list; auto; rewrite powers_length; lia]. now rewrite peval_powers_geo.
Qed.
Lemma range_power_vidx (m i : Z) : range_index 1 m i = power_vidx (1 : F) m i.
Proof.
  unfold range_index, power_vidx. destruct (_ && _); auto.
  rewrite power_spec, fpowZ_1_l by apply f1_neq_0. reflexivity.
Qed.
Lemma LP_range M (m : Z) b z : z <> 0 -> (0 <= M)%Z -> (0 <= m)%Z ->
  (- M <= b - 1)%Z -> (m + b - 2 <= M)%Z ->
  LP M (fun K => range_index 1 m (minus_i64 K b)) z (fpowZ z (b - 1) * geo z (Z.to_nat m)).
Proof.
  intros. apply LP_ext with (g := fun K => power_vidx 1 m (minus_i64 K b)).
  - intros K. apply range_power_vidx.
  - eapply LP_val; [|apply LP_powvec; auto using f1_neq_0]. do 2 f_equal. ring.
Qed.
Lemma LP_delta M b z : z <> 0 -> (0 <= M)%Z -> (- M <= b - 1 <= M)%Z ->
  LP M (fun K => delta K b) z (fpowZ z (b - 1)).
Proof.
  intros Hz HM Hb. split.
  - intros K HK. unfold delta. destruct (Z.eqb_spec K b); [lia|reflexivity].
  - unfold lsum. rewrite (sumZ_single _ _ b).
    + unfold delta. rewrite Z.eqb_refl. ring.
    + lia.
    + intros i _ Hi. unfold delta. destruct (Z.eqb_spec i b); [contradiction|ring].
Qed.

(** reverse_omega and its product with a power vector, as correlations *)
Lemma vidx_ext l l' i : (forall k, coef l k = coef l' k) -> vidx l i = vidx l' i.
Proof. intros E. rewrite !vidx_coefZ. unfold coefZ. destruct (_ <? 0)%Z; auto. apply E. Qed.
Lemma vidx_reverse u om i : vidx (vector_reverse_omega u om) i = vidx (vector_poly_mul u [1] om) i.
Proof.
  apply vidx_ext. intros k. rewrite coef_vector_poly_mul. unfold conv.
  rewrite (sumn_single (S k) k); [|lia|].
  - rewrite Nat.sub_diag. unfold coef at 3. cbn [nth]. ring.
  - intros i0 Hi Hne. unfold coef at 2. destruct (k - i0)%nat as [|[|j]] eqn:E; [lia| |]; cbn [nth]; ring.
Qed.
Lemma vidx_reverse_pow u om a m i : a <> 0 ->
  vidx (vector_power_mul (vector_reverse_omega u om) a m) i = vidx (vector_poly_mul u (powers a m) om) i.
Proof.
  intros Ha. destruct m as [|m].
  - rewrite vector_power_mul_0 by auto. symmetry. destruct (Z_lt_le_dec i 1); [apply vidx_out; lia|].
    rewrite vidx_in, coef_vector_poly_mul by lia. unfold conv. apply sumn_0. intros j _.
    change (powers a 0) with (@nil F). unfold coef at 2. destruct (_ - j)%nat; cbn [nth]; ring.
  - apply vidx_ext. intros k. rewrite coef_vector_power_mul, coef_vector_poly_mul by lia. apply conv_comm.
Qed.
Lemma LP_reverse M u om B z : z <> 0 -> (0 <= M)%Z -> (1 <= length u)%nat ->
  (- M <= B - Z.of_nat (length u))%Z -> (B - 1 <= M)%Z ->
  LP M (fun K => vidx (vector_reverse_omega u om) (minus_i64 K (B - (Z.of_nat (length u) - 1)))) z
     (fpowZ z (B - 1) * peval u (om / z)).
Proof.
  intros. eapply LP_ext; [intros K; apply vidx_reverse|].
  eapply LP_val; [|apply LP_corr; auto; cbn [length]; lia]. simpl. ring.
Qed.
Lemma LP_reverse_pow M u om a m B z : z <> 0 -> a <> 0 -> (0 <= M)%Z -> (1 <= length u)%nat ->
  (- M <= B - Z.of_nat (length u))%Z -> (B + Z.of_nat m - 2 <= M)%Z ->
  LP M (fun K => vidx (vector_power_mul (vector_reverse_omega u om) a m) (minus_i64 K (B - (Z.of_nat (length u) - 1)))) z
     (fpowZ z (B - 1) * (peval u (om / z) * geo (a * z) m)).
Proof.
  intros. eapply LP_ext; [intros K; apply vidx_reverse_pow; auto|].
  eapply LP_val; [|apply LP_corr; auto; rewrite powers_length; lia]. now rewrite peval_powers_geo.
Qed.

(** the two halves of a Laurent polynomial without constant term *)
Lemma LP_halves M f z x : z <> 0 -> (0 <= M)%Z -> LP M f z x -> f 1%Z = 0 ->
  fpowZ z (- M) * peval (expression_vector (fun i => f (i - M)%Z) M) z +
  z * peval (expression_vector (fun i => f (i + 1)%Z) M) z = x.
Proof.
  intros Hz HM [S V] H1. rewrite <- V. unfold lsum.
  replace (Z.to_nat (2 * M + 1)) with (Z.to_nat M + (1 + Z.to_nat M))%nat by lia.
  rewrite !sumZ_split. rewrite !peval_expression_vector, !eval_vector_expression_sum.
  unfold sumZ. cbn [sumn]. rewrite <- !sumn_mul_l.
  replace (1 - M + Z.of_nat (Z.to_nat M) + Z.of_nat 0)%Z with 1%Z by lia. rewrite H1.
  match goal with |- ?a + ?b = ?c + (0 + ?k + ?d) => assert (a = c) as ->; [|assert (b = d) as ->; [|ring]] end.
  - apply sumn_ext. intros i _. replace (Z.of_nat (Datatypes.S i) - M)%Z with (1 - M + Z.of_nat i)%Z by lia.
    replace (1 - M + Z.of_nat i - 1)%Z with (- M + Z.of_nat i)%Z by lia. rewrite fpowZ_add_nat by auto. ring.
  - apply sumn_ext. intros i _.
    replace (Z.of_nat (Datatypes.S i) + 1)%Z with (1 - M + Z.of_nat (Z.to_nat M) + Z.of_nat 1 + Z.of_nat i)%Z by lia.
    replace (1 - M + Z.of_nat (Z.to_nat M) + Z.of_nat 1 + Z.of_nat i - 1)%Z with (1 + Z.of_nat i)%Z by lia.
    rewrite fpowZ_add_nat, fpowZ_1 by auto. ring.
Qed.

(** *** The constant term as a sum over positions *)
Lemma corr_at u v om B (a : Z) N : om <> 0 -> (0 <= a)%Z -> (1 <= length u)%nat ->
  (Z.of_nat (length u) + a <= Z.of_nat N)%Z ->
  fpowZ om a * vidx (vector_poly_mul u v om) (minus_i64 1 (B - (Z.of_nat (length u) - 1))) =
  sumZ 1 N (fun i => fpowZ om (i - 1) * (vidx u (i - a) * vidx v (i - a + 1 - B))).
Proof.
  intros Ho Ha Hu HN.
  rewrite (sumZ_support (a + 1) (length u)); [|intros i Hi; rewrite (vidx_out u) by lia; ring|lia|lia].
  rewrite <- (sumZ_shift 1 (length u) a) || idtac.
  replace (a + 1)%Z with (1 + a)%Z by lia. rewrite <- (sumZ_shift 1 (length u) a).
  rewrite (sumZ_ext 1 (length u) _ (fun i => fpowZ om a * (fpowZ om (i - 1) * (vidx u i * vidx v (i + 1 - B))))).
  2:{ intros i _. replace (i + a - 1)%Z with (a + (i - 1))%Z by lia. rewrite fpowZ_add by auto.
      replace (i + a - a)%Z with i by lia. ring. }
  rewrite sumZ_mul_l. f_equal. unfold minus_i64.
  set (j := (1 - (B - (Z.of_nat (length u) - 1)) + 1)%Z).
  destruct (Z_lt_le_dec j 1) as [Hj|Hj].
  - rewrite vidx_out by lia. symmetry. apply sumZ_0. intros i Hi. rewrite (vidx_out v) by lia. ring.
  - rewrite vidx_in by lia. rewrite coef_vector_poly_mul. unfold conv.
    set (k := Z.to_nat (j - 1)).
    (* i-th term of conv: rev_omega u at i, v at k - i *)
    transitivity (sumn (length u) (fun i => coef (vector_reverse_omega u om) i * vidx v (Z.of_nat k - Z.of_nat i + 1))).
    + destruct (Nat.le_gt_cases (S k) (length u)) as [Hk|Hk].
      * replace (length u) with (S k + (length u - S k))%nat by lia. rewrite sumn_split.
        rewrite (sumn_0 (length u - S k)); [|intros i Hi; rewrite vidx_out by lia; ring].
        transitivity (sumn (S k) (fun i => coef (vector_reverse_omega u om) i * vidx v (Z.of_nat k - Z.of_nat i + 1))); [|ring].
        apply sumn_ext. intros i Hi. rewrite vidx_in by lia. do 2 f_equal. lia.
      * replace (S k) with (length u + (S k - length u))%nat by lia. rewrite sumn_split.
        rewrite (sumn_0 (S k - length u)); [|intros i Hi; rewrite (coef_over (vector_reverse_omega u om)) by (rewrite reverse_omega_length; lia); ring].
        transitivity (sumn (length u) (fun i => coef (vector_reverse_omega u om) i * coef v (k - i))); [ring|].
        apply sumn_ext. intros i Hi. rewrite vidx_in by lia. do 2 f_equal. lia.
    + unfold sumZ. rewrite (sumn_rev (length u)). apply sumn_ext. intros i Hi.
      rewrite coef_reverse_omega by lia.
      replace (length u - 1 - (length u - 1 - i))%nat with i by lia.
      replace (1 + Z.of_nat i - 1)%Z with (Z.of_nat i) by lia. rewrite fpowZ_nat.
      replace (1 + Z.of_nat i)%Z with (Z.of_nat (S i)) by lia. rewrite vidx_S.
      replace (Z.of_nat k - Z.of_nat (length u - 1 - i) + 1)%Z with (Z.of_nat (S i) + 1 - B)%Z by lia. ring.
Qed.
Lemma corr_at0 u v om B N : om <> 0 -> (1 <= length u)%nat ->
  (Z.of_nat (length u) <= Z.of_nat N)%Z ->
  vidx (vector_poly_mul u v om) (minus_i64 1 (B - (Z.of_nat (length u) - 1))) =
  sumZ 1 N (fun i => fpowZ om (i - 1) * (vidx u i * vidx v (i + 1 - B))).
Proof.
  intros Ho Hu HN. pose proof (corr_at u v om B 0 N Ho ltac:(lia) Hu ltac:(lia)) as E.
  rewrite fpowZ_0 in E. transitivity (1 * vidx (vector_poly_mul u v om) (minus_i64 1 (B - (Z.of_nat (length u) - 1)))); [ring|].
  rewrite E. apply sumZ_ext. intros i _. do 3 f_equal; lia.
Qed.

(** powers of the inverse of omega: a sum over a range of positions *)
Lemma pow_at v om m (b j : Z) N : om <> 0 -> (Z.of_nat m <= b + 1)%Z -> (b + 1 <= Z.of_nat N)%Z ->
  fpowZ om b * vidx (vector_power_mul v (finv om) m) j =
  sumZ 1 N (fun i => fpowZ om (i - 1) * (range_index (b + 2 - Z.of_nat m) (b + 1) i * vidx v (i + j - b - 1))).
Proof.
  intros Ho Hm HN. rewrite vidx_power_mul by now apply finv_neq_0.
  rewrite (sumZ_support (b + 2 - Z.of_nat m) m); [| |lia|lia].
  2:{ intros i Hi. unfold range_index.
      destruct (Z.leb_spec (b + 2 - Z.of_nat m) i), (Z.leb_spec i (b + 1)); cbn [andb]; try ring. lia. }
  unfold sumZ. rewrite (sumn_rev m (fun i => fpowZ om _ * _)). rewrite <- sumn_mul_l. apply sumn_ext. intros t Ht.
  replace (b + 2 - Z.of_nat m + Z.of_nat (m - 1 - t))%Z with (b + 1 - Z.of_nat t)%Z by lia.
  unfold range_index. destruct (Z.leb_spec (b + 2 - Z.of_nat m) (b + 1 - Z.of_nat t)); [|lia].
  destruct (Z.leb_spec (b + 1 - Z.of_nat t) (b + 1)); [|lia]. cbn [andb].
  replace (b + 1 - Z.of_nat t - 1)%Z with (b - Z.of_nat t)%Z by lia.
  rewrite fpowZ_sub, fpowZ_nat by auto.
  replace (b + 1 - Z.of_nat t + j - b - 1)%Z with (j - Z.of_nat t)%Z by lia.
  assert (fpow (finv om) t = finv (fpow om t)) as ->.
  { apply fmul_cancel_l with (a := fpow om t); [now apply fpow_neq_0|].
    transitivity (fpow (finv om) t * fpow om t); [ring|]. rewrite fpow_finv by auto. field. now apply fpow_neq_0. }
  field. now apply fpow_neq_0.
Qed.
Lemma single_at (f : Z -> F) om (k : Z) N : (1 <= k <= Z.of_nat N)%Z ->
  fpowZ om (k - 1) * f k = sumZ 1 N (fun i => fpowZ om (i - 1) * (delta i k * f i)).
Proof.
  intros Hk. rewrite (sumZ_single 1 N k); [| lia |].
  - unfold delta. rewrite Z.eqb_refl. ring.
  - intros i _ Hi. unfold delta. destruct (Z.eqb_spec i k); [contradiction|ring].
Qed.

(** the same with the offset b as it appears in the code *)
Lemma LP_corr' M u v om b z : z <> 0 -> (0 <= M)%Z -> (1 <= length u)%nat ->
  (- M <= b - 1)%Z -> (b + Z.of_nat (length u) + Z.of_nat (length v) - 3 <= M)%Z ->
  LP M (fun K => vidx (vector_poly_mul u v om) (minus_i64 K b)) z
     (fpowZ z (b + Z.of_nat (length u) - 2) * (peval u (om / z) * peval v z)).
Proof.
  intros. assert (exists B, b = B - (Z.of_nat (length u) - 1))%Z as [B ->]
    by (exists (b + Z.of_nat (length u) - 1)%Z; lia).
  eapply LP_val; [|apply LP_corr; auto; lia]. do 2 f_equal. lia.
Qed.
Lemma LP_reverse' M u om b z : z <> 0 -> (0 <= M)%Z -> (1 <= length u)%nat ->
  (- M <= b - 1)%Z -> (b + Z.of_nat (length u) - 2 <= M)%Z ->
  LP M (fun K => vidx (vector_reverse_omega u om) (minus_i64 K b)) z
     (fpowZ z (b + Z.of_nat (length u) - 2) * peval u (om / z)).
Proof.
  intros. assert (exists B, b = B - (Z.of_nat (length u) - 1))%Z as [B ->]
    by (exists (b + Z.of_nat (length u) - 1)%Z; lia).
  eapply LP_val; [|apply LP_reverse; auto; lia]. do 2 f_equal. lia.
Qed.
Lemma LP_reverse_pow' M u om a m b z : z <> 0 -> a <> 0 -> (0 <= M)%Z -> (1 <= length u)%nat ->
  (- M <= b - 1)%Z -> (b + Z.of_nat (length u) + Z.of_nat m - 3 <= M)%Z ->
  LP M (fun K => vidx (vector_power_mul (vector_reverse_omega u om) a m) (minus_i64 K b)) z
     (fpowZ z (b + Z.of_nat (length u) - 2) * (peval u (om / z) * geo (a * z) m)).
Proof.
  intros. assert (exists B, b = B - (Z.of_nat (length u) - 1))%Z as [B ->]
    by (exists (b + Z.of_nat (length u) - 1)%Z; lia).
  eapply LP_val; [|apply LP_reverse_pow; auto; lia]. do 2 f_equal. lia.
Qed.
Lemma corr_at' u v om b (a : Z) N : om <> 0 -> (0 <= a)%Z -> (1 <= length u)%nat ->
  (Z.of_nat (length u) + a <= Z.of_nat N)%Z ->
  fpowZ om a * vidx (vector_poly_mul u v om) (minus_i64 1 b) =
  sumZ 1 N (fun i => fpowZ om (i - 1) * (vidx u (i - a) * vidx v (i - a + 2 - b - Z.of_nat (length u)))).
Proof.
  intros. assert (exists B, b = B - (Z.of_nat (length u) - 1))%Z as [B ->]
    by (exists (b + Z.of_nat (length u) - 1)%Z; lia).
  rewrite (corr_at _ _ _ _ _ N) by auto. apply sumZ_ext. intros i _. do 3 f_equal. lia.
Qed.
Lemma corr_at0' u v om b N : om <> 0 -> (1 <= length u)%nat ->
  (Z.of_nat (length u) <= Z.of_nat N)%Z ->
  vidx (vector_poly_mul u v om) (minus_i64 1 b) =
  sumZ 1 N (fun i => fpowZ om (i - 1) * (vidx u i * vidx v (i + 2 - b - Z.of_nat (length u)))).
Proof.
  intros. assert (exists B, b = B - (Z.of_nat (length u) - 1))%Z as [B ->]
    by (exists (b + Z.of_nat (length u) - 1)%Z; lia).
  rewrite (corr_at0 _ _ _ _ N) by auto. apply sumZ_ext. intros i _. do 3 f_equal. lia.
Qed.

(** [x] is the sum of om^(i-1) f(i) over the positions 1..N *)
Definition CT (om : F) (N : nat) (x : F) (f : Z -> F) : Prop :=
  x = sumZ 1 N (fun i => fpowZ om (i - 1) * f i).
Lemma CT_add om N x y f g : CT om N x f -> CT om N y g -> CT om N (x + y) (fun i => f i + g i).
Proof. intros -> ->. unfold CT. rewrite <- sumZ_add. apply sumZ_ext. intros; ring. Qed.
Lemma CT_sub om N x y f g : CT om N x f -> CT om N y g -> CT om N (x - y) (fun i => f i - g i).
Proof. intros -> ->. unfold CT. rewrite <- sumZ_sub. apply sumZ_ext. intros; ring. Qed.
Lemma CT_opp om N x f : CT om N x f -> CT om N (- x) (fun i => - f i).
Proof. intros ->. unfold CT. rewrite <- sumZ_opp. apply sumZ_ext. intros; ring. Qed.
Lemma CT_scale om N x f c : CT om N x f -> CT om N (c * x) (fun i => c * f i).
Proof. intros ->. unfold CT. rewrite <- sumZ_mul_l. apply sumZ_ext. intros; ring. Qed.
Lemma CT_ext om N x f g : (forall i, (1 <= i <= Z.of_nat N)%Z -> f i = g i) -> CT om N x f -> CT om N x g.
Proof. intros E ->. apply sumZ_ext. intros i Hi. rewrite E by lia. reflexivity. Qed.
Lemma CT_0 om N x f : (forall i, (1 <= i <= Z.of_nat N)%Z -> f i = 0) -> CT om N x f -> x = 0.
Proof. intros E ->. apply sumZ_0. intros i Hi. rewrite E by lia. ring. Qed.
Lemma CT_shift om N (a : Z) x f : om <> 0 -> CT om N (fpowZ om a * x) f -> CT om N x (fun i => fpowZ om (- a) * f i).
Proof.
  intros Ho E. unfold CT in *. transitivity (fpowZ om (- a) * (fpowZ om a * x)).
  - rewrite fpowZ_opp by auto. field. now apply fpowZ_neq_0.
  - rewrite E, <- sumZ_mul_l. apply sumZ_ext. intros; ring.
Qed.
Lemma CT_corr u v om b (a : Z) N : om <> 0 -> (0 <= a)%Z -> (1 <= length u)%nat ->
  (Z.of_nat (length u) + a <= Z.of_nat N)%Z ->
  CT om N (vidx (vector_poly_mul u v om) (minus_i64 1 b))
     (fun i => fpowZ om (- a) * (vidx u (i - a) * vidx v (i - a + 2 - b - Z.of_nat (length u)))).
Proof. intros. apply CT_shift with (f := fun i => vidx u (i - a) * vidx v (i - a + 2 - b - Z.of_nat (length u))); auto.
  now apply corr_at'. Qed.
Lemma CT_reverse u om b (a : Z) N : om <> 0 -> (0 <= a)%Z -> (1 <= length u)%nat ->
  (Z.of_nat (length u) + a <= Z.of_nat N)%Z ->
  CT om N (vidx (vector_reverse_omega u om) (minus_i64 1 b))
     (fun i => fpowZ om (- a) * (vidx u (i - a) * delta (i - a + 2 - b - Z.of_nat (length u)) 1)).
Proof.
  intros. rewrite vidx_reverse. eapply CT_ext; [|apply CT_corr with (a := a); auto]. intros i _. cbn beta.
  do 2 f_equal. unfold delta. destruct (Z.eqb_spec (i - a + 2 - b - Z.of_nat (length u)) 1) as [->|Hn]; [reflexivity|].
  destruct (Z_lt_le_dec (i - a + 2 - b - Z.of_nat (length u)) 1); [apply vidx_out; lia|].
  rewrite vidx_in by lia. apply coef_over. cbn [length]. lia.
Qed.
Lemma CT_reverse_pow u om al (m : Z) b (a : Z) N : om <> 0 -> al <> 0 -> (0 <= a)%Z -> (0 <= m)%Z -> (1 <= length u)%nat ->
  (Z.of_nat (length u) + a <= Z.of_nat N)%Z ->
  CT om N (vidx (vector_power_mul (vector_reverse_omega u om) al (Z.to_nat m)) (minus_i64 1 b))
     (fun i => fpowZ om (- a) * (vidx u (i - a) * power_vidx al m (i - a + 2 - b - Z.of_nat (length u)))).
Proof.
  intros. rewrite vidx_reverse_pow by auto. eapply CT_ext; [|apply CT_corr with (a := a); auto]. intros i _. cbn beta.
  rewrite vidx_powers_pv by auto. now rewrite Z2Nat.id.
Qed.
Lemma CT_pow v om (m b j : Z) N : om <> 0 -> (0 <= m)%Z -> (m <= b + 1)%Z -> (b + 1 <= Z.of_nat N)%Z ->
  CT om N (vidx (vector_power_mul v (finv om) (Z.to_nat m)) j)
     (fun i => fpowZ om (- b) * (range_index (b + 2 - m) (b + 1) i * vidx v (i + j - b - 1))).
Proof.
  intros Ho H0 H1 H2. apply CT_shift with (f := fun i => range_index (b + 2 - m) (b + 1) i * vidx v (i + j - b - 1)); auto.
  unfold CT. rewrite (pow_at _ _ _ _ _ N) by (auto; lia). apply sumZ_ext. intros i _. now rewrite Z2Nat.id.
Qed.
Lemma CT_single (g : Z -> F) om (b : Z) N : om <> 0 -> (0 <= b)%Z -> (b + 1 <= Z.of_nat N)%Z ->
  CT om N (g 1%Z) (fun i => fpowZ om (- b) * (delta i (b + 1) * g (i - b)%Z)).
Proof.
  intros Ho H0 H1. apply CT_shift with (f := fun i => delta i (b + 1) * g (i - b)%Z); auto.
  unfold CT. rewrite <- (single_at (fun i => g (i - b)%Z)) by lia.
  replace (b + 1 - 1)%Z with b by lia. replace (b + 1 - b)%Z with 1%Z by lia. reflexivity.
Qed.
Lemma delta_sub (i k : Z) : delta (i - k + 1) 1 = (delta i k : F).
Proof. unfold delta. destruct (Z.eqb_spec (i - k + 1) 1), (Z.eqb_spec i k); auto; lia. Qed.
Lemma delta_idem (i k : Z) : delta i k * delta i k = (delta i k : F).
Proof. unfold delta. destruct (Z.eqb i k); ring. Qed.
End Laurent.

(** Normalisation of powers with symbolic exponents: every [fpowZ x E] with [E] linear becomes a
    product of powers of [fpowZ x atom] and of [x]. *)
Ltac fpz_const p := let n := eval compute in (Pos.to_nat p) in n.
Ltac fpz_push x E :=
  lazymatch E with
  | (?a + ?b)%Z => rewrite (fpowZ_add x a b) by assumption; fpz_push x a; fpz_push x b
  | (?a - ?b)%Z => rewrite (fpowZ_sub x a b) by assumption; fpz_push x a; fpz_push x b
  | (- ?a)%Z => rewrite (fpowZ_opp x a) by assumption; fpz_push x a
  | (Z.pos ?p * ?a)%Z => rewrite (fpowZ_posm x p a) by assumption;
      (let n := fpz_const p in change (Pos.to_nat p) with n); fpz_push x a
  | (Z.neg ?p * ?a)%Z => replace (fpowZ x (Z.neg p * a)) with (fpowZ x (- (Z.pos p * a))) by (f_equal; lia);
      fpz_push x (- (Z.pos p * a))%Z
  | 0%Z => rewrite (fpowZ_0 x)
  | Z.pos ?p => rewrite (fpowZ_pos x p); (let n := fpz_const p in change (Pos.to_nat p) with n)
  | Z.neg ?p => rewrite (fpowZ_negc x p) by assumption; (let n := fpz_const p in change (Pos.to_nat p) with n)
  | _ => idtac
  end.
Ltac fpz_step :=
  match goal with
  | |- context [fpowZ ?x ?E] =>
      lazymatch E with
      | (_ + _)%Z => idtac | (_ - _)%Z => idtac | (- _)%Z => idtac | (_ * _)%Z => idtac
      | 0%Z => idtac | Z.pos _ => idtac | Z.neg _ => idtac
      end;
      let H := fresh "H" in let E' := fresh "E'" in
      evar (E' : Z); assert (E = E') as H by (ring_simplify; subst E'; reflexivity);
      let E1 := eval unfold E' in E' in subst E';
      (tryif constr_eq E E1 then idtac else rewrite H); clear H; fpz_push x E1
  end.
Ltac fpz := repeat fpz_step; cbn [fpow].

(** Constant terms: the power of [om] in the coefficient [c] fixes the positions of a term. *)
Ltac ct_pow om c :=
  match c with
  | context [power om ?a] => a
  | context [fpowZ om ?a] => a
  | context [om] => constr:(1%Z)
  | _ => constr:(0%Z)
  end.
Ltac ct_leaf om c :=
  let sh := ct_pow om c in
  lazymatch goal with
  | |- CT _ _ (vidx (vector_poly_mul _ _ _) (minus_i64 1 _)) _ => apply CT_corr with (a := sh)
  | |- CT _ _ (vidx (vector_power_mul (vector_reverse_omega _ _) _ (Z.to_nat _)) (minus_i64 1 _)) _ =>
      apply CT_reverse_pow with (a := sh)
  | |- CT _ _ (vidx (vector_power_mul _ _ (Z.to_nat _)) _) _ => apply CT_pow with (b := sh)
  | |- CT _ _ (vidx (vector_reverse_omega _ _) (minus_i64 1 _)) _ => apply CT_reverse with (a := sh)
  | |- CT _ _ (vidx ?l (minus_i64 1 ?B)) _ => apply (CT_single (fun i => vidx l (minus_i64 i B))) with (b := sh)
  | |- CT _ _ (range_index ?s ?t (minus_i64 1 ?B)) _ => apply (CT_single (fun i => range_index s t (minus_i64 i B))) with (b := sh)
  | |- CT _ _ (power_vidx ?s ?t (minus_i64 1 ?B)) _ => apply (CT_single (fun i => power_vidx s t (minus_i64 i B))) with (b := sh)
  | |- CT _ _ (delta 1 ?B) _ => apply (CT_single (fun i => delta i B)) with (b := sh)
  end.
Ltac ct_tree om :=
  repeat first [ apply CT_add | apply CT_sub | apply CT_opp ];
  lazymatch goal with |- CT _ _ (?c * _) _ => apply CT_scale; ct_leaf om c end.
(** normal forms of the index arguments *)
Ltac idx_norm E :=
  let H := fresh "H" in let E' := fresh "E'" in
  evar (E' : Z); assert (E = E') as H by (ring_simplify; subst E'; reflexivity);
  let E1 := eval unfold E' in E' in subst E';
  (tryif constr_eq E E1 then idtac else rewrite !H); clear H.
Ltac idx_step :=
  match goal with
  | |- context [vidx _ ?E] => progress idx_norm E
  | |- context [delta ?E ?E2] => first [progress idx_norm E | progress idx_norm E2]
  | |- context [range_index ?E1 ?E2 ?E] => first [progress idx_norm E | progress idx_norm E1 | progress idx_norm E2]
  | |- context [power_vidx _ ?E1 ?E] => first [progress idx_norm E | progress idx_norm E1]
  end.
(** equal entries written with different index expressions *)
Ltac same_idx :=
  match goal with
  | |- context [vidx ?v ?a] => match goal with |- context [vidx v ?b] =>
      tryif constr_eq a b then fail else replace (vidx v b) with (vidx v a) by (f_equal; lia) end
  end.

(** Laurent2.v: leaves of the Laurent-polynomial trees for [power_power_mul!] products. *)
From Verif Require Import Base Spec Tools ToolsProofs ToolsProofs2 CS KZG Snark Laurent.
Local Open Scope F_scope.

Section Laurent2.
Context {F : Type} {fo : FieldOps F} {fl : FieldLaws F}.
Add Field Fl2 : F_th.

Lemma vidx_ppm a n b m i : (0 < n)%nat -> (0 < m)%nat ->
  vidx (power_power_mul a n b m) i = vidx (vector_power_mul (powers b m) a n) i.
Proof.
  intros Hn Hm. apply vidx_ext. intros k. rewrite coef_power_power_mul, coef_vector_power_mul by auto. reflexivity.
Qed.
Lemma LP_ppm M a (n : Z) c (m : Z) b z : z <> 0 -> a <> 0 -> (0 <= M)%Z -> (0 < n)%Z -> (0 < m)%Z ->
  (- M <= b - 1)%Z -> (n + m + b - 3 <= M)%Z ->
  LP M (fun K => vidx (power_power_mul a (Z.to_nat n) c (Z.to_nat m)) (minus_i64 K b)) z
     (fpowZ z (b - 1) * (geo (a * z) (Z.to_nat n) * geo (c * z) (Z.to_nat m))).
Proof.
  intros. eapply LP_ext; [intros K; apply vidx_ppm; lia|]. eapply LP_val; [|apply LP_pow; auto; rewrite powers_length; lia].
  now rewrite peval_powers_geo.
Qed.
Lemma CT_ppm om (m n b j : Z) N : om <> 0 -> (0 < m)%Z -> (0 < n)%Z -> (m <= b + 1)%Z -> (b + 1 <= Z.of_nat N)%Z ->
  CT om N (vidx (power_power_mul (finv om) (Z.to_nat m) 1 (Z.to_nat n)) j)
     (fun i => fpowZ om (- b) * (range_index (b + 2 - m) (b + 1) i * range_index 1 n (i + j - b - 1))).
Proof.
  intros. rewrite vidx_ppm by lia. eapply CT_ext; [|apply CT_pow with (b := b); auto; lia].
  intros i _. cbn beta. rewrite range_power_vidx, vidx_powers_pv, Z2Nat.id by (try apply f1_neq_0; lia). reflexivity.
Qed.
(** a power vector with a base other than 1/om: the base is absorbed in the weights *)
Lemma CT_pow_g v om ga (m b j : Z) N : om <> 0 -> ga <> 0 -> (0 <= m)%Z -> (m <= b + 1)%Z -> (b + 1 <= Z.of_nat N)%Z ->
  CT om N (vidx (vector_power_mul v (1 / (ga * om)) (Z.to_nat m)) j)
     (fun i => fpowZ om (- b) * (range_index (b + 2 - m) (b + 1) i * (fpowZ ga (i - 1 - b) * vidx v (i + j - b - 1)))).
Proof.
  intros Ho Hg H0 H1 H2. assert (ga * om <> 0) as Hgo by now apply fmul_neq_0.
  replace (1 / (ga * om)) with (finv (ga * om)) by (field; auto).
  pose proof (CT_pow v (ga * om) m b j N Hgo H0 H1 H2) as E. unfold CT in *. rewrite E. apply sumZ_ext. intros i _.
  rewrite !(fpowZ_mul_base ga om) by auto. replace (i - 1 - b)%Z with ((i - 1) + - b)%Z by lia.
  rewrite (fpowZ_add ga (i - 1)) by auto. ring.
Qed.
Lemma vidx_powers_1 a (n j : Z) : a <> 0 -> (0 <= n)%Z ->
  power_vidx a n j = vidx (vector_power_mul [1] a (Z.to_nat n)) j.
Proof.
  intros Ha Hn. rewrite vidx_power_mul by auto.
  replace (power_vidx a n j) with (power_vidx a (Z.of_nat (Z.to_nat n)) j) by (f_equal; lia).
  rewrite <- vidx_powers_pv by auto.
  destruct (Z_lt_le_dec j 1) as [Hj|Hj].
  - rewrite vidx_out by auto. symmetry. apply sumn_0. intros t _. rewrite vidx_out by lia. ring.
  - rewrite vidx_in, coef_powers by auto. destruct (Nat.ltb_spec (Z.to_nat (j - 1)) (Z.to_nat n)) as [H|H].
    + rewrite (sumn_single _ (Z.to_nat (j - 1))); auto.
      * replace (j - Z.of_nat (Z.to_nat (j - 1)))%Z with 1%Z by lia. cbn. ring.
      * intros t _ Ht. destruct (Z_lt_le_dec (j - Z.of_nat t) 1); [rewrite vidx_out by lia; ring|].
        rewrite vidx_in, coef_over by (cbn [length]; lia). ring.
    + symmetry. apply sumn_0. intros t Ht. rewrite vidx_in, coef_over by (cbn [length]; lia). ring.
Qed.
Lemma CT_powvec om (n b j : Z) N : om <> 0 -> (0 <= n)%Z -> (n <= b + 1)%Z -> (b + 1 <= Z.of_nat N)%Z ->
  CT om N (power_vidx (finv om) n j)
     (fun i => fpowZ om (- b) * (range_index (b + 2 - n) (b + 1) i * delta (i + j - b - 1) 1)).
Proof.
  intros. rewrite vidx_powers_1 by (auto; now apply finv_neq_0). eapply CT_ext; [|apply CT_pow with (b := b); auto].
  intros i _. cbn beta. do 2 f_equal. unfold delta. destruct (Z.eqb_spec (i + j - b - 1) 1) as [->|Hn]; [reflexivity|].
  destruct (Z_lt_le_dec (i + j - b - 1) 1); [apply vidx_out; lia|]. rewrite vidx_in by lia. apply coef_over. cbn [length]. lia.
Qed.
Lemma range_idem s t i : range_index s t i * range_index s t i = (range_index s t i : F).
Proof. unfold range_index. destruct (_ && _); ring. Qed.
End Laurent2.

(** ToolsProofs.v: lemmas about Tools.v. *)
From Verif Require Import Base Spec Tools.
From Coq Require Import ZifyBool.
Local Open Scope F_scope.

Section TP.
Context {F : Type} {fo : FieldOps F} {fl : FieldLaws F}.
Add Field Ffield_tp : F_th.

(** *** power *)
Lemma power_0 e : power (0 : F) e = 0.
Proof. unfold power. destruct (is_zero_spec (0:F)); [reflexivity|congruence]. Qed.

Lemma power_spec (a : F) e : a <> 0 -> power a e = fpowZ a e.
Proof.
  intros Ha. unfold power. destruct (is_zero_spec a); [contradiction|].
  destruct (is_one_spec a) as [->|H1]; cbn [orb].
  - now rewrite fpowZ_1_l.
  - destruct (Z.ltb_spec e 0) as [He|He].
    + replace e with (- Z.of_nat (Z.to_nat (- e)))%Z at 2 by lia. now rewrite fpowZ_neg.
    + now rewrite fpowZ_nonneg by lia.
Qed.

Lemma power_nat (a : F) (n : nat) : a <> 0 -> power a (Z.of_nat n) = fpow a n.
Proof. intros H. rewrite power_spec, fpowZ_nat by auto. reflexivity. Qed.

Lemma power_pos (a : F) (n : nat) : (0 < n)%nat -> power a (Z.of_nat n) = fpow a n.
Proof.
  intros Hn. destruct (feq_dec a 0) as [->|Ha]; [|now apply power_nat].
  now rewrite power_0, fpow_0_l.
Qed.

(** *** vidx, ranges, scans *)
Lemma vidx_coefZ (v : list F) i : vidx v i = coefZ v (i - 1).
Proof.
  unfold vidx, coefZ. destruct (Z.ltb_spec (i - 1) 0) as [H|H].
  - destruct (Z.leb_spec 1 i); [lia|reflexivity].
  - destruct (Z.leb_spec 1 i); [|lia]. cbn [andb].
    destruct (Z.leb_spec i (Z.of_nat (length v))); [reflexivity|].
    rewrite nth_overflow; [reflexivity|lia].
Qed.
Lemma vidx_out (v : list F) i : (i < 1 \/ Z.of_nat (length v) < i)%Z -> vidx v i = 0.
Proof. intros H. unfold vidx. destruct (Z.leb_spec 1 i); cbn [andb]; auto. destruct (Z.leb_spec i (Z.of_nat (length v))); auto; lia. Qed.
Lemma vidx_in (v : list F) i : (1 <= i)%Z -> vidx v i = coef v (Z.to_nat (i - 1)).
Proof. intros H. rewrite vidx_coefZ. unfold coefZ, coef. destruct (Z.ltb_spec (i - 1) 0); [lia|reflexivity]. Qed.
Lemma vidx_S (v : list F) (i : nat) : vidx v (Z.of_nat (S i)) = coef v i.
Proof. rewrite vidx_in by lia. f_equal. lia. Qed.

Lemma coef_over (v : list F) i : (length v <= i)%nat -> coef v i = 0.
Proof. apply nth_overflow. Qed.

Lemma zrange_length n : length (zrange n) = Z.to_nat n.
Proof. unfold zrange. now rewrite map_length, seq_length. Qed.
Lemma nth_zrange n i d : (i < Z.to_nat n)%nat -> nth i (zrange n) d = Z.of_nat (S i).
Proof. intros H. unfold zrange. now rewrite nth_map_seq. Qed.
Lemma zrange_S (n : nat) : zrange (Z.of_nat (S n)) = zrange (Z.of_nat n) ++ [Z.of_nat (S n)].
Proof. unfold zrange. rewrite !Nat2Z.id, seq_S, map_app. reflexivity. Qed.

Lemma expression_vector_length (e : Z -> F) n : length (expression_vector e n) = Z.to_nat n.
Proof. unfold expression_vector. now rewrite map_length, zrange_length. Qed.
Lemma nth_expression_vector (e : Z -> F) n i :
  (i < Z.to_nat n)%nat -> coef (expression_vector e n) i = e (Z.of_nat (S i)).
Proof.
  intros H. unfold coef, expression_vector, zrange. rewrite map_map. rewrite nth_map_seq by auto.
  f_equal.
Qed.
Lemma vidx_expression_vector (e : Z -> F) n i :
  vidx (expression_vector e n) i = if (1 <=? i)%Z && (i <=? n)%Z then e i else 0.
Proof.
  unfold vidx. rewrite expression_vector_length.
  destruct (Z.leb_spec 1 i) as [H1|H1]; cbn [andb]; auto.
  destruct (Z.leb_spec i (Z.of_nat (Z.to_nat n))); destruct (Z.leb_spec i n); try lia; auto.
  fold (coef (expression_vector e n) (Z.to_nat (i - 1))).
  rewrite nth_expression_vector by lia. f_equal. lia.
Qed.

Lemma scan_length A B (f : A -> B -> A) acc l : length (scan f acc l) = length l.
Proof. revert acc; induction l as [|x l IH]; intros acc; simpl; auto. Qed.
Lemma nth_scan A B (f : A -> B -> A) acc l i d :
  (i < length l)%nat -> nth i (scan f acc l) d = fold_left f (firstn (S i) l) acc.
Proof.
  revert acc i; induction l as [|x l IH]; intros acc i H; simpl in H; [lia|].
  destruct i as [|i]; [reflexivity|]. cbn [scan nth]. rewrite IH by lia. reflexivity.
Qed.
Lemma firstn_zrange i n : (i <= Z.to_nat n)%nat -> firstn i (zrange n) = zrange (Z.of_nat i).
Proof.
  intros H. unfold zrange. rewrite firstn_map. f_equal.
  rewrite Nat2Z.id. replace (Z.to_nat n) with (i + (Z.to_nat n - i))%nat by lia.
  rewrite seq_app, firstn_app, seq_length.
  replace (i - i)%nat with 0%nat by lia. rewrite firstn_all2 by (rewrite seq_length; lia).
  simpl. now rewrite app_nil_r.
Qed.
Lemma fold_zrange_S A (f : A -> Z -> A) acc (n : nat) :
  fold_left f (zrange (Z.of_nat (S n))) acc = f (fold_left f (zrange (Z.of_nat n)) acc) (Z.of_nat (S n)).
Proof. rewrite zrange_S, fold_left_app. reflexivity. Qed.
Lemma nth_scan_zrange A (f : A -> Z -> A) acc n i d :
  (i < Z.to_nat n)%nat ->
  nth i (scan f acc (zrange n)) d = fold_left f (zrange (Z.of_nat (S i))) acc.
Proof. intros H. rewrite nth_scan by now rewrite zrange_length. now rewrite firstn_zrange by lia. Qed.

(** *** polynomials *)
Lemma peval_poly_value l z : peval l z = poly_value l z.
Proof.
  unfold poly_value. induction l as [|c l IH]; auto. cbn [length]. rewrite sumn_shift. cbn [peval].
  rewrite IH. unfold coef; simpl. rewrite <- sumn_mul_l.
  rewrite (sumn_ext _ (fun i => z * (nth i l 0 * fpow z i)) (fun i => nth i l 0 * (z * fpow z i))); [ring|].
  intros; ring.
Qed.
Lemma coef_padd u v i : coef (padd u v) i = coef u i + coef v i.
Proof.
  unfold coef. revert v i; induction u as [|a u IH]; intros v i.
  - simpl. destruct i; ring.
  - destruct v as [|b v]; [cbn [padd]; destruct i; simpl; ring|]. cbn [padd].
    destruct i as [|i]; simpl; [ring|apply IH].
Qed.
Lemma coef_pscale c u i : coef (pscale c u) i = c * coef u i.
Proof.
  unfold coef, pscale. revert i; induction u as [|a u IH]; intros [|i]; simpl; try ring. apply IH.
Qed.
Lemma conv_nil_l v k : conv [] v k = 0.
Proof. unfold conv. apply sumn_0. intros i _. unfold coef. rewrite nth_overflow by (simpl; lia). ring. Qed.
Lemma coef_pmul u v k : coef (pmul u v) k = conv u v k.
Proof.
  revert k; induction u as [|a u IH]; intros k.
  - rewrite conv_nil_l. unfold coef. simpl. destruct k; reflexivity.
  - cbn [pmul]. rewrite coef_padd, coef_pscale. unfold conv. rewrite sumn_shift.
    rewrite Nat.sub_0_r. f_equal. destruct k as [|k].
    + simpl. reflexivity.
    + change (coef (0 :: pmul u v) (S k)) with (coef (pmul u v) k). rewrite IH. reflexivity.
Qed.
Lemma coef_strip l i : coef (strip l) i = coef l i.
Proof.
  unfold coef. revert i; induction l as [|x l IH]; intros i; auto. cbn [strip].
  destruct (strip l) as [|y s] eqn:E.
  - destruct (is_zero_spec x) as [->|Hx].
    + destruct i as [|i]; simpl; auto. rewrite <- IH. destruct i; reflexivity.
    + destruct i as [|i]; simpl; auto. rewrite <- IH. destruct i; reflexivity.
  - destruct i as [|i]; simpl; auto. rewrite <- IH. reflexivity.
Qed.
Lemma strip_length l : (length (strip l) <= length l)%nat.
Proof.
  induction l as [|x l IH]; auto. cbn [strip]. destruct (strip l); [destruct (is_zero x)|]; simpl in *; lia.
Qed.
Lemma peval_sumn l z n : (length l <= n)%nat -> peval l z = sumn n (fun i => coef l i * fpow z i).
Proof.
  intros H. rewrite peval_poly_value. unfold poly_value.
  replace n with (length l + (n - length l))%nat by lia. rewrite sumn_split.
  rewrite (sumn_0 (n - length l)); [ring|]. intros i _. rewrite coef_over by lia. ring.
Qed.
Lemma peval_ext u v z : (forall i, coef u i = coef v i) -> peval u z = peval v z.
Proof.
  intros H. rewrite (peval_sumn u z (length u + length v)), (peval_sumn v z (length u + length v)) by lia.
  apply sumn_ext. intros i _. now rewrite H.
Qed.
Lemma peval_strip l z : peval (strip l) z = peval l z.
Proof. apply peval_ext, coef_strip. Qed.
Lemma peval_padd u v z : peval (padd u v) z = peval u z + peval v z.
Proof.
  revert v; induction u as [|a u IH]; intros [|b v]; simpl; try ring. rewrite IH. ring.
Qed.
Lemma peval_pscale c u z : peval (pscale c u) z = c * peval u z.
Proof. unfold pscale. induction u as [|a u IH]; simpl; [ring|rewrite IH; ring]. Qed.
Lemma peval_pmul u v z : peval (pmul u v) z = peval u z * peval v z.
Proof.
  induction u as [|a u IH]; simpl; [ring|]. rewrite peval_padd, peval_pscale. simpl. rewrite IH. ring.
Qed.
Lemma peval_app u v z : peval (u ++ v) z = peval u z + fpow z (length u) * peval v z.
Proof. induction u as [|a u IH]; simpl; [ring|rewrite IH; ring]. Qed.
Lemma peval_repeat0 n z : peval (repeat 0 n) z = 0.
Proof. induction n as [|n IH]; simpl; [ring|rewrite IH; ring]. Qed.
Lemma peval_map_seq (f : nat -> F) s n z :
  peval (map f (seq s n)) z = sumn n (fun i => f (s + i)%nat * fpow z i).
Proof.
  rewrite peval_poly_value. unfold poly_value. rewrite map_length, seq_length.
  apply sumn_ext. intros i Hi. unfold coef. now rewrite nth_map_seq.
Qed.

Lemma padd_length u v : length (padd u v) = Nat.max (length u) (length v).
Proof. revert v; induction u as [|a u IH]; intros [|b v]; simpl; auto. Qed.
Lemma pscale_length c u : length (pscale c u) = length u.
Proof. apply map_length. Qed.
Lemma pmul_length u v : u <> [] -> v <> [] -> length (pmul u v) = (length u + length v - 1)%nat.
Proof.
  intros Hu Hv. assert (0 < length v)%nat as Lv by (destruct v; simpl; [congruence|lia]).
  induction u as [|a u IH]; [congruence|]. cbn [pmul]. rewrite padd_length, pscale_length.
  cbn [length]. destruct u as [|b u].
  - simpl. lia.
  - rewrite IH by discriminate. cbn [length]. lia.
Qed.

(** *** reverse omega *)
Lemma scale_powers_length op om v : length (scale_powers op om v) = length v.
Proof. revert op; induction v as [|c v IH]; intros op; simpl; auto. Qed.
Lemma coef_scale_powers op om v i : coef (scale_powers op om v) i = coef v i * (op * fpow om i).
Proof.
  unfold coef. revert op i; induction v as [|c v IH]; intros op i; simpl.
  - destruct i; ring.
  - destruct i as [|i]; [simpl; ring|]. rewrite IH. simpl. ring.
Qed.
Lemma reverse_omega_length v om : length (vector_reverse_omega v om) = length v.
Proof. unfold vector_reverse_omega. now rewrite rev_length, scale_powers_length. Qed.
Lemma coef_reverse_omega v om i :
  (i < length v)%nat ->
  coef (vector_reverse_omega v om) i = coef v (length v - 1 - i) * fpow om (length v - 1 - i).
Proof.
  intros H. unfold vector_reverse_omega, coef.
  rewrite rev_nth by (rewrite scale_powers_length; auto). rewrite scale_powers_length.
  replace (length v - S i)%nat with (length v - 1 - i)%nat by lia.
  fold (coef (scale_powers 1 om v) (length v - 1 - i)). rewrite coef_scale_powers. unfold coef. ring.
Qed.
(** X^(|v|-1) f_v(omega/X) *)
Lemma peval_reverse_omega v om z :
  z <> 0 -> z * peval (vector_reverse_omega v om) z = fpow z (length v) * peval v (om / z).
Proof.
  intros Hz. rewrite !peval_poly_value. unfold poly_value. rewrite reverse_omega_length.
  rewrite sumn_rev. rewrite <- !sumn_mul_l. apply sumn_ext. intros i Hi.
  rewrite coef_reverse_omega by lia. replace (length v - 1 - (length v - 1 - i))%nat with i by lia.
  assert (fpow z (length v) = z * fpow z (length v - 1 - i) * fpow z i) as ->.
  { replace (length v) with (1 + (length v - 1 - i) + i)%nat at 1 by lia. rewrite !fpow_add. simpl. ring. }
  assert (fpow om i = fpow z i * fpow (om / z) i) as ->; [|ring].
  rewrite <- fpow_mul_base. f_equal. field; auto.
Qed.

Lemma coef_vector_poly_mul u v om k :
  coef (vector_poly_mul u v om) k = conv (vector_reverse_omega u om) v k.
Proof.
  unfold vector_poly_mul. rewrite coef_strip, coef_pmul. unfold conv. apply sumn_ext. intros i _.
  now rewrite !coef_strip.
Qed.
Lemma peval_vector_poly_mul u v om z :
  z <> 0 -> z * peval (vector_poly_mul u v om) z = fpow z (length u) * peval u (om / z) * peval v z.
Proof.
  intros Hz. unfold vector_poly_mul. rewrite peval_strip, peval_pmul, !peval_strip.
  transitivity (z * peval (vector_reverse_omega u om) z * peval v z); [ring|].
  rewrite peval_reverse_omega by auto. ring.
Qed.

(** *** vector_power_mul *)
(** sum_{t<n} a^t v(i-t), 1-based *)
Lemma vpm_invariant v alpha n (i : nat) : (0 < n)%nat ->
  fold_left (fun acc i => acc * alpha + vidx v i - vidx v (i - Z.of_nat n) * power alpha (Z.of_nat n))
            (zrange (Z.of_nat i)) 0
  = sumn n (fun t => fpow alpha t * vidx v (Z.of_nat i - Z.of_nat t)).
Proof.
  intros Hn. induction i as [|i IH].
  - simpl. symmetry. apply sumn_0. intros t _. rewrite vidx_out by lia. ring.
  - rewrite fold_zrange_S, IH, power_pos by auto.
    destruct n as [|n]; [lia|]. rewrite (sumn_shift n (fun t => fpow alpha t * vidx v (Z.of_nat (S i) - Z.of_nat t))).
    transitivity (alpha * sumn (S n) (fun t => fpow alpha t * vidx v (Z.of_nat i - Z.of_nat t))
       + vidx v (Z.of_nat (S i)) - vidx v (Z.of_nat (S i) - Z.of_nat (S n)) * fpow alpha (S n)); [ring|].
    cbn [sumn].
    replace (Z.of_nat i - Z.of_nat n)%Z with (Z.of_nat (S i) - Z.of_nat (S n))%Z by lia.
    rewrite (sumn_ext n (fun i0 => fpow alpha (S i0) * vidx v (Z.of_nat (S i) - Z.of_nat (S i0)))
               (fun t => alpha * (fpow alpha t * vidx v (Z.of_nat i - Z.of_nat t)))).
    + rewrite sumn_mul_l. replace (Z.of_nat (S i) - Z.of_nat 0)%Z with (Z.of_nat (S i)) by lia. simpl fpow. ring.
    + intros t _. replace (Z.of_nat (S i) - Z.of_nat (S t))%Z with (Z.of_nat i - Z.of_nat t)%Z by lia. simpl. ring.
Qed.

Lemma vector_power_mul_length v alpha n :
  length (vector_power_mul v alpha n) = (n + length v - 1)%nat.
Proof. unfold vector_power_mul. rewrite scan_length, zrange_length. lia. Qed.

Lemma coef_powers a n i : coef (powers a n) i = if (i <? n)%nat then fpow a i else 0.
Proof.
  unfold coef, powers. destruct (Nat.ltb_spec i n).
  - now rewrite nth_map_seq.
  - apply nth_overflow. rewrite map_length, seq_length. lia.
Qed.
Lemma powers_length a n : length (powers a n) = n.
Proof. unfold powers. now rewrite map_length, seq_length. Qed.

Lemma sumn_if n m (f : nat -> F) :
  sumn n (fun i => if (i <? m)%nat then f i else 0) = sumn (Nat.min n m) f.
Proof.
  induction n as [|n IH]; auto. simpl sumn at 1. rewrite IH. destruct (Nat.ltb_spec n m).
  - replace (Nat.min (S n) m) with (S n) by lia. replace (Nat.min n m) with n by lia. reflexivity.
  - replace (Nat.min (S n) m) with (Nat.min n m) by lia. ring.
Qed.

Lemma conv_powers_l a n v k :
  conv (powers a n) v k = sumn n (fun t => fpow a t * vidx v (Z.of_nat (S k) - Z.of_nat t)).
Proof.
  unfold conv. transitivity (sumn (S k) (fun i => if (i <? n)%nat then fpow a i * coef v (k - i) else 0)).
  - apply sumn_ext. intros i _. rewrite coef_powers. destruct (i <? n)%nat; ring.
  - rewrite sumn_if. replace n with (Nat.min (S k) n + (n - Nat.min (S k) n))%nat at 2 by lia.
    rewrite sumn_split.
    rewrite (sumn_0 (n - Nat.min (S k) n)).
    + transitivity (sumn (Nat.min (S k) n) (fun t => fpow a t * vidx v (Z.of_nat (S k) - Z.of_nat t))); [|ring].
      apply sumn_ext. intros i Hi. rewrite vidx_in by lia. do 2 f_equal. lia.
    + intros i Hi. rewrite vidx_out by lia. ring.
Qed.

Lemma coef_vector_power_mul v alpha n k :
  (0 < n)%nat -> coef (vector_power_mul v alpha n) k = conv (powers alpha n) v k.
Proof.
  intros Hn. rewrite conv_powers_l.
  destruct (Nat.lt_ge_cases k (n + length v - 1)) as [Hk|Hk].
  - unfold coef, vector_power_mul. rewrite nth_scan_zrange by lia. apply vpm_invariant. auto.
  - rewrite coef_over by (rewrite vector_power_mul_length; lia).
    symmetry. apply sumn_0. intros t Ht. rewrite vidx_out by lia. ring.
Qed.
Lemma peval_vector_power_mul v alpha n z : (0 < n)%nat ->
  peval (vector_power_mul v alpha n) z = peval (powers alpha n) z * peval v z.
Proof.
  intros Hn. rewrite <- peval_pmul. apply peval_ext. intros i. rewrite coef_vector_power_mul, coef_pmul; auto.
Qed.
(* the same in 1-based form, for all integer indices *)
Lemma vidx_vector_power_mul v alpha n i : (0 < n)%nat ->
  vidx (vector_power_mul v alpha n) i = sumn n (fun t => fpow alpha t * vidx v (i - Z.of_nat t)).
Proof.
  intros Hn. destruct (Z_lt_le_dec i 1) as [Hi|Hi].
  - rewrite vidx_out by lia. symmetry. apply sumn_0. intros t _. rewrite vidx_out by lia. ring.
  - rewrite vidx_in by lia. rewrite coef_vector_power_mul by auto. rewrite conv_powers_l.
    apply sumn_ext. intros t _. do 2 f_equal. lia.
Qed.

(** *** power_power_mul *)
Lemma conv_comm u v k : conv u v k = conv v u k.
Proof.
  unfold conv. rewrite sumn_rev. apply sumn_ext. intros i Hi.
  replace (S k - 1 - i)%nat with (k - i)%nat by lia. replace (k - (k - i))%nat with i by lia. ring.
Qed.

Lemma vidx_powers b m (i : Z) :
  vidx (powers b m) i = if (1 <=? i)%Z && (i <=? Z.of_nat m)%Z then fpow b (Z.to_nat (i - 1)) else 0.
Proof.
  unfold vidx. rewrite powers_length. destruct (Z.leb_spec 1 i); cbn [andb]; auto.
  destruct (Z.leb_spec i (Z.of_nat m)); auto. unfold powers. now rewrite nth_map_seq by lia.
Qed.

Lemma ppm_invariant alpha beta n m (i : nat) : (0 < n)%nat -> (0 < m)%nat -> (i < n + m)%nat ->
  fold_left (ppm_step alpha (power alpha (Z.of_nat n)) beta n m) (zrange (Z.of_nat i)) (0, 1, 0)
  = (sumn n (fun t => fpow alpha t * vidx (powers beta m) (Z.of_nat i - Z.of_nat t)),
     (if (i <? m)%nat then fpow beta i else 0),
     (if (i <? n)%nat then 0 else fpow beta (i - n))).
Proof.
  intros Hn Hm. induction i as [|i IH]; intros Him.
  - simpl. destruct (Nat.ltb_spec 0 m); [|lia]. destruct (Nat.ltb_spec 0 n); [|lia].
    rewrite sumn_0; [reflexivity|]. intros t _. rewrite vidx_out by lia. ring.
  - rewrite fold_zrange_S, IH by lia. unfold ppm_step. f_equal; [f_equal|].
    + rewrite power_pos by auto.
      destruct n as [|n]; [lia|].
      rewrite (sumn_shift n (fun t => fpow alpha t * vidx (powers beta m) (Z.of_nat (S i) - Z.of_nat t))).
      replace (Z.of_nat (S i) - Z.of_nat 0)%Z with (Z.of_nat (S i)) by lia.
      rewrite (sumn_ext n (fun i0 => fpow alpha (S i0) * vidx (powers beta m) (Z.of_nat (S i) - Z.of_nat (S i0)))
               (fun t => alpha * (fpow alpha t * vidx (powers beta m) (Z.of_nat i - Z.of_nat t)))).
      2:{ intros t _. replace (Z.of_nat (S i) - Z.of_nat (S t))%Z with (Z.of_nat i - Z.of_nat t)%Z by lia. simpl. ring. }
      rewrite sumn_mul_l. cbn [sumn]. rewrite !vidx_powers.
      set (S1 := sumn n _).
      destruct (Nat.ltb_spec i m) as [H1|H1].
      * destruct (Z.leb_spec 1 (Z.of_nat (S i))); [|lia]. destruct (Z.leb_spec (Z.of_nat (S i)) (Z.of_nat m)); [|lia].
        cbn [andb]. replace (Z.to_nat (Z.of_nat (S i) - 1)) with i by lia.
        destruct (Nat.ltb_spec i (S n)) as [H2|H2].
        -- destruct (Z.leb_spec 1 (Z.of_nat i - Z.of_nat n)); [lia|]. cbn [andb fpow]. ring.
        -- destruct (Z.leb_spec 1 (Z.of_nat i - Z.of_nat n)); [|lia].
           destruct (Z.leb_spec (Z.of_nat i - Z.of_nat n) (Z.of_nat m)); [|lia]. cbn [andb fpow].
           replace (Z.to_nat (Z.of_nat i - Z.of_nat n - 1)) with (i - S n)%nat by lia. ring.
      * destruct (Z.leb_spec (Z.of_nat (S i)) (Z.of_nat m)); [lia|]. rewrite andb_false_r.
        destruct (Nat.ltb_spec i (S n)) as [H2|H2].
        -- destruct (Z.leb_spec 1 (Z.of_nat i - Z.of_nat n)); [lia|]. cbn [andb fpow]. ring.
        -- destruct (Z.leb_spec 1 (Z.of_nat i - Z.of_nat n)); [|lia]. cbn [andb fpow].
           destruct (Z.leb_spec (Z.of_nat i - Z.of_nat n) (Z.of_nat m)) as [H3|H3]; [|lia].
           replace (Z.to_nat (Z.of_nat i - Z.of_nat n - 1)) with (i - S n)%nat by lia. ring.
    + destruct (Z.leb_spec (Z.of_nat m) (Z.of_nat (S i))); destruct (Nat.ltb_spec (S i) m); try lia; auto.
      destruct (Nat.ltb_spec i m); [|lia]. simpl. ring.
    + destruct (Z.ltb_spec (Z.of_nat (S i)) (Z.of_nat n)); destruct (Nat.ltb_spec (S i) n); try lia; auto.
      destruct (Z.eqb_spec (Z.of_nat (S i)) (Z.of_nat n)).
      * replace (S i - n)%nat with 0%nat by lia. reflexivity.
      * destruct (Nat.ltb_spec i n); [lia|]. replace (S i - n)%nat with (S (i - n)) by lia. simpl. ring.
Qed.

Lemma power_power_mul_length alpha n beta m : length (power_power_mul alpha n beta m) = (n + m - 1)%nat.
Proof. unfold power_power_mul. rewrite map_length, scan_length, zrange_length. lia. Qed.

Lemma coef_power_power_mul alpha n beta m k : (0 < n)%nat -> (0 < m)%nat ->
  coef (power_power_mul alpha n beta m) k = conv (powers alpha n) (powers beta m) k.
Proof.
  intros Hn Hm. rewrite conv_powers_l.
  destruct (Nat.lt_ge_cases k (n + m - 1)) as [Hk|Hk].
  - unfold coef, power_power_mul.
    rewrite nth_indep with (d' := (fun st : F * F * F => fst (fst st)) (0,0,0))
      by (rewrite map_length, scan_length, zrange_length; lia).
    rewrite (map_nth (fun st : F * F * F => fst (fst st))). rewrite nth_scan_zrange by lia. rewrite ppm_invariant by lia. reflexivity.
  - rewrite coef_over by (rewrite power_power_mul_length; lia).
    symmetry. apply sumn_0. intros t Ht. rewrite vidx_out by (rewrite powers_length; lia). ring.
Qed.
Lemma peval_power_power_mul alpha n beta m z : (0 < n)%nat -> (0 < m)%nat ->
  peval (power_power_mul alpha n beta m) z = peval (powers alpha n) z * peval (powers beta m) z.
Proof.
  intros Hn Hm. rewrite <- peval_pmul. apply peval_ext. intros i. rewrite coef_power_power_mul, coef_pmul; auto.
Qed.
Lemma peval_powers a n z : peval (powers a n) z = sumn n (fun i => fpow (a * z) i).
Proof.
  unfold powers. rewrite peval_map_seq. apply sumn_ext. intros i _. simpl. now rewrite fpow_mul_base.
Qed.

(** *** evaluation macros *)
Lemma eve_invariant z (e : Z -> F) (n : nat) :
  fold_left (fun sp i => (fst sp + e i * snd sp, snd sp * z)) (zrange (Z.of_nat n)) (0, 1)
  = (sumn n (fun i => e (Z.of_nat (S i)) * fpow z i), fpow z n).
Proof.
  induction n as [|n IH]; [reflexivity|]. rewrite fold_zrange_S, IH. cbn [fst snd sumn fpow]. f_equal. ring.
Qed.
Lemma eval_vector_expression_sum z e (n : Z) :
  eval_vector_expression z e n = sumn (Z.to_nat n) (fun i => e (Z.of_nat (S i)) * fpow z i).
Proof.
  unfold eval_vector_expression. destruct (Z_le_gt_dec 0 n).
  - replace n with (Z.of_nat (Z.to_nat n)) at 1 by lia. now rewrite eve_invariant.
  - unfold zrange. replace (Z.to_nat n) with 0%nat by lia. reflexivity.
Qed.
Lemma eval_vector_as_poly_peval v z : eval_vector_as_poly v z = peval v z.
Proof.
  unfold eval_vector_as_poly. rewrite eval_vector_expression_sum, Nat2Z.id, peval_poly_value.
  apply sumn_ext. intros i _. now rewrite vidx_S.
Qed.
Lemma peval_expression_vector e n z : peval (expression_vector e n) z = eval_vector_expression z e n.
Proof.
  rewrite eval_vector_expression_sum, peval_poly_value. unfold poly_value.
  rewrite expression_vector_length. apply sumn_ext. intros i Hi. now rewrite nth_expression_vector.
Qed.

(** *** in-place additions, accumulations *)
Lemma aev_invariant (u : list F) e (n : nat) : (n <= length u)%nat ->
  let r := fold_left (fun u i => upd u (Z.to_nat (i - 1)) (fun x => x + e i)) (zrange (Z.of_nat n)) u in
  length r = length u /\
  forall i, nth i r 0 = if (i <? n)%nat then nth i u 0 + e (Z.of_nat (S i)) else nth i u 0.
Proof.
  induction n as [|n IH]; intros Hn.
  - split; auto.
  - destruct IH as [IL IH]; [lia|]. cbn zeta. rewrite fold_zrange_S. rewrite upd_length. split; auto.
    intros i. rewrite nth_upd, IL, IH.
    replace (Z.to_nat (Z.of_nat (S n) - 1)) with n by lia.
    destruct (Nat.eqb_spec i n) as [->|Hne].
    + destruct (Nat.ltb_spec n (length u)); [|lia]. destruct (Nat.ltb_spec n n); [lia|].
      destruct (Nat.ltb_spec n (S n)); [|lia]. reflexivity.
    + cbn [andb]. destruct (Nat.ltb_spec i n); destruct (Nat.ltb_spec i (S n)); try lia; auto.
Qed.
Lemma add_expression_vector_length (u : list F) e :
  length (add_expression_vector_to_vector u e) = length u.
Proof. apply (aev_invariant u e (length u)). lia. Qed.
Lemma coef_add_expression_vector (u : list F) e i : (i < length u)%nat ->
  coef (add_expression_vector_to_vector u e) i = coef u i + e (Z.of_nat (S i)).
Proof.
  intros H. unfold coef, add_expression_vector_to_vector.
  destruct (aev_invariant u e (length u)) as [_ E]; [lia|]. rewrite E.
  destruct (Nat.ltb_spec i (length u)); [reflexivity|lia].
Qed.
Lemma accumulate_length init (e : Z -> F) n op : length (accumulate_vector init e n op) = Z.to_nat n.
Proof. unfold accumulate_vector. now rewrite scan_length, zrange_length. Qed.
Lemma accumulate_plus init (e : Z -> F) n i : (i < Z.to_nat n)%nat ->
  coef (accumulate_vector init e n fadd) i = init + sumn (S i) (fun j => e (Z.of_nat (S j))).
Proof.
  intros H. unfold coef, accumulate_vector. rewrite nth_scan_zrange by auto. clear H.
  induction i as [|i IH]; [simpl; ring|]. rewrite fold_zrange_S, IH. cbn [sumn]. ring.
Qed.
Fixpoint prodn (n : nat) (f : nat -> F) : F := match n with O => 1 | S n' => prodn n' f * f n' end.
Lemma accumulate_mul init (e : Z -> F) n i : (i < Z.to_nat n)%nat ->
  coef (accumulate_vector init e n fmul) i = init * prodn (S i) (fun j => e (Z.of_nat (S j))).
Proof.
  intros H. unfold coef, accumulate_vector. rewrite nth_scan_zrange by auto. clear H.
  induction i as [|i IH]; [simpl; ring|]. rewrite fold_zrange_S, IH. cbn [prodn]. ring.
Qed.
End TP.

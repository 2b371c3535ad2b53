(** SnarkPerm.v: products over permuted positions, and vectors cut out of a witness; shared by the
    arguments with a permutation check. *)
From Verif Require Import Base Spec Tools ToolsProofs ToolsProofs2 PermProofs.
Require Import Coq.Sorting.Permutation.
Local Open Scope F_scope.

Section SnarkPerm.
Context {F : Type} {fo : FieldOps F} {fl : FieldLaws F}.
Add Field Fsp : F_th.

Lemma prodn_ext n (f g : nat -> F) : (forall i, (i < n)%nat -> f i = g i) -> prodn n f = prodn n g.
Proof. induction n as [|n IH]; intros H; cbn [prodn]; auto. rewrite IH by (intros; apply H; lia). now rewrite H by lia. Qed.
Lemma prodn_neq_0 n (f : nat -> F) : (forall i, (i < n)%nat -> f i <> 0) -> prodn n f <> 0.
Proof.
  induction n as [|n IH]; intros H; cbn [prodn]; [apply f1_neq_0|].
  apply fmul_neq_0; [apply IH; intros; apply H; lia|apply H; lia].
Qed.
Lemma prodn_div n (f g : nat -> F) : (forall i, (i < n)%nat -> g i <> 0) ->
  prodn n (fun i => f i * finv (g i)) * prodn n g = prodn n f.
Proof.
  induction n as [|n IH]; intros H; cbn [prodn]; [ring|].
  rewrite <- IH by (intros; apply H; lia). assert (g n <> 0) as Hn by (apply H; lia). field. auto.
Qed.
Fixpoint fprod (l : list F) : F := match l with [] => 1 | x :: l' => x * fprod l' end.
Lemma fprod_app l l' : fprod (l ++ l') = fprod l * fprod l'.
Proof. induction l as [|x l IH]; cbn [fprod app]; [ring|]. rewrite IH. ring. Qed.
Lemma fprod_perm l l' : Permutation l l' -> fprod l = fprod l'.
Proof. intros P. induction P; cbn [fprod]; auto; try congruence. ring. Qed.
Lemma prodn_fprod n (f : nat -> F) : prodn n f = fprod (map f (seq 0 n)).
Proof.
  induction n as [|n IH]; auto. cbn [prodn]. rewrite seq_S, map_app, fprod_app, <- IH. cbn [map fprod Nat.add]. ring.
Qed.
Lemma prodn_sg l n (f : nat -> F) : prodn n (fun i => f (sg l n i)) = prodn n f.
Proof.
  rewrite !prodn_fprod. apply fprod_perm.
  rewrite <- (map_map (sg l n) f). apply Permutation_map.
  assert (map (sg l n) (seq 0 n) = idx l n) as ->; [|apply Permutation_sym, swaps_perm].
  apply (list_eq_nth _ _ _ 0%nat).
  - now rewrite map_length, seq_length, idx_length.
  - intros i Hi. rewrite map_length, seq_length in Hi. rewrite nth_map_seq by auto. reflexivity.
Qed.

(** coefficients of concatenations *)
Lemma coef_app (l1 l2 : list F) i :
  coef (l1 ++ l2) i = if (i <? length l1)%nat then coef l1 i else coef l2 (i - length l1).
Proof.
  unfold coef. destruct (Nat.ltb_spec i (length l1)); [now rewrite app_nth1|now rewrite app_nth2].
Qed.
Lemma coef_repeat_0 k i : coef (repeat (0 : F) k) i = 0.
Proof. apply nth_repeat_any. Qed.
Lemma coef_slice' (a : list F) i j k : (i <= j <= length a)%nat ->
  coef (firstn (j - i) (skipn i a)) k = if (k <? j - i)%nat then coef a (i + k) else 0.
Proof.
  intros H. destruct (Nat.ltb_spec k (j - i)); [apply coef_slice; lia|].
  apply coef_over. rewrite firstn_length, skipn_length. lia.
Qed.
Lemma slice_length (a : list F) i j : (i <= j <= length a)%nat -> length (firstn (j - i) (skipn i a)) = (j - i)%nat.
Proof. intros H. rewrite firstn_length, skipn_length. lia. Qed.
Lemma vidx_coef (l : list F) i (j : nat) : i = (Z.of_nat j + 1)%Z -> vidx l i = coef l j.
Proof. intros ->. rewrite <- vidx_S. f_equal. lia. Qed.
Lemma vidx_app_l (l1 l2 : list F) i : (i <= Z.of_nat (length l1))%Z -> vidx (l1 ++ l2) i = vidx l1 i.
Proof.
  intros H. destruct (Z_le_gt_dec 1 i) as [H1|H1]; [|now rewrite !vidx_out by lia].
  rewrite !vidx_in by lia. rewrite coef_app. destruct (Nat.ltb_spec (Z.to_nat (i - 1)) (length l1)); [auto|lia].
Qed.

(** the running product of a permutation check *)
Lemma grand_product_rec (num den : Z -> F) (N : nat) (dl : list F) i :
  (forall i, (1 <= i <= Z.of_nat N)%Z -> den i <> 0) -> (1 <= i <= Z.of_nat N)%Z ->
  let r := accumulate_vector 1 (fun i => num i * finv (den i)) (Z.of_nat N) fmul ++ dl in
  (delta i 1 + vidx r (i - 1)) * num i = vidx r i * den i.
Proof.
  intros Hd Hi r. set (acc := accumulate_vector 1 (fun i => num i * finv (den i)) (Z.of_nat N) fmul).
  assert (length acc = N) as L by (unfold acc; rewrite accumulate_length; lia).
  assert (forall j, (j < N)%nat -> vidx r (Z.of_nat (S j)) = prodn (S j) (fun k => num (Z.of_nat (S k)) * finv (den (Z.of_nat (S k))))) as V.
  { intros j Hj. unfold r. fold acc. rewrite vidx_app_l by lia. rewrite vidx_S. unfold acc. rewrite accumulate_mul by lia. ring. }
  assert (den i <> 0) as Hdi by auto.
  replace i with (Z.of_nat (S (Z.to_nat (i - 1)))) in * by lia. rewrite V by lia.
  generalize dependent (Z.to_nat (i - 1)). intros j Hj Hdj. cbn [prodn].
  replace (Z.of_nat (S j) - 1)%Z with (Z.of_nat j) by lia. unfold delta.
  destruct j as [|j].
  - change (Z.of_nat 1 =? 1)%Z with true. cbn match. rewrite vidx_out by lia. cbn [prodn]. field. auto.
  - destruct (Z.eqb_spec (Z.of_nat (S (S j))) 1); [lia|]. rewrite V by lia. cbn [prodn].
    assert (den (Z.of_nat (S j)) <> 0) by (apply Hd; lia). field. auto.
Qed.
Lemma grand_product_end (num den : Z -> F) (l : list (nat * nat)) (N : nat) (dl : list F) : (1 <= N)%nat ->
  (forall i, (1 <= i <= Z.of_nat N)%Z -> den i <> 0) ->
  (forall j, (j < N)%nat -> den (Z.of_nat (S j)) = num (Z.of_nat (S (sg l N j)))) ->
  vidx (accumulate_vector 1 (fun i => num i * finv (den i)) (Z.of_nat N) fmul ++ dl) (Z.of_nat N) = 1.
Proof.
  intros HN Hd Hp. set (acc := accumulate_vector 1 (fun i => num i * finv (den i)) (Z.of_nat N) fmul).
  assert (length acc = N) as L by (unfold acc; rewrite accumulate_length; lia).
  rewrite vidx_app_l by lia. replace (Z.of_nat N) with (Z.of_nat (S (N - 1))) by lia. rewrite vidx_S.
  unfold acc. rewrite accumulate_mul by lia. replace (S (N - 1)) with N by lia.
  set (f := fun j => num (Z.of_nat (S j))). set (g := fun j => den (Z.of_nat (S j))).
  assert (prodn N g <> 0) as Hg by (apply prodn_neq_0; intros; apply Hd; lia).
  apply (fmul_cancel_l (prodn N g)); auto.
  change (prodn N g * (1 * prodn N (fun j => f j * finv (g j))) = prodn N g * 1).
  transitivity (prodn N f); [rewrite <- (prodn_div N f g) by (intros; apply Hd; lia); ring|].
  rewrite (prodn_ext N g (fun i => f (sg l N i))) by (intros; apply Hp; auto). rewrite prodn_sg. ring.
Qed.
Lemma pairs_below_dec N l : {pairs_below N l} + {~ pairs_below N l}.
Proof.
  destruct (Forall_Exists_dec (fun p : nat * nat => (fst p < N /\ snd p < N)%nat)) with (l := l) as [D|D].
  - intros p. destruct (lt_dec (fst p) N), (lt_dec (snd p) N); firstorder.
  - left. intros x y Hi. rewrite Forall_forall in D. now apply (D (x, y)).
  - right. intros Hb. apply Exists_exists in D. destruct D as [[x y] [Hi D]]. apply D. now apply Hb.
Qed.
Lemma pvw_cases {E} gamma l N : (exists r, permutation_vector_from_wires (E:=E) gamma l N = Ok r) \/
  permutation_vector_from_wires (E:=E) gamma l N = Panic.
Proof.
  destruct (feq_dec gamma 0) as [E0|Hg]; [right; apply pvw_panic; auto|].
  destruct (pairs_below_dec N l); [left; eexists; now apply pvw_ok|right; apply pvw_panic; auto].
Qed.
(** a satisfied wiring makes the two factors permuted copies of each other *)
Lemma sigma_at {E} gamma l N sigma : permutation_vector_from_wires (E:=E) gamma l N = Ok sigma -> gamma <> 0 /\ pairs_below N l /\
  forall j, (j < N)%nat -> coef sigma j = fpow gamma (sg l N j).
Proof.
  intros Q. destruct (feq_dec gamma 0) as [E0|Hg]; [rewrite pvw_panic in Q; auto; discriminate|].
  assert (pairs_below N l) as Hb by (destruct (pairs_below_dec N l); auto; rewrite pvw_panic in Q; auto; discriminate).
  rewrite pvw_ok in Q by auto. injection Q as <-. split; auto. split; auto. intros j Hj. now apply coef_map_idx.
Qed.
End SnarkPerm.

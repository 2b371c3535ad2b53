(** SparseSum.v: sums over the entries of a sparse matrix, running sums and inverse vectors; shared
    by the R1CS and HPR arguments. *)
From Verif Require Import Base Spec Tools ToolsProofs MatProofs ToolsProofs2 KZG Snark Laurent SnarkPerm.
Local Open Scope F_scope.

Section SparseSum.
Context {F : Type} {fo : FieldOps F} {fl : FieldLaws F}.
Add Field Fss : F_th.

Lemma coef_map_seq n (f : nat -> F) i : (i < n)%nat -> coef (map f (seq 0 n)) i = f i.
Proof. intros. unfold coef. now rewrite nth_map_seq. Qed.
Lemma coef_map_opp (l : list F) i : coef (map fopp l) i = - coef l i.
Proof.
  unfold coef. revert i; induction l as [|x l IH]; intros [|i]; cbn [map nth]; auto; ring.
Qed.

(** sum_c f(c) (sum_r g(r) M(r,c)) = sum over the entries *)
Lemma mat_bilinear (m : entries (F:=F)) h k (g f : nat -> F) : in_shape m h k ->
  sumn k (fun c => f c * sumn h (fun r => mat_at m r c * g r))
  = fsum (map (fun en => let '(r, c, x) := en in g r * f c * x) m).
Proof.
  induction m as [|[[a b] x] m IH]; intros Hs.
  - cbn [map fsum]. apply sumn_0. intros c _. rewrite sumn_0; [ring|]. intros r _. unfold mat_at. cbn. ring.
  - cbn [map fsum]. rewrite <- IH by (intros r c y Hin; apply (Hs r c y); now right).
    destruct (Hs a b x) as [Ha Hb]; [now left|].
    rewrite (sumn_ext k _ (fun c => (if (b =? c)%nat then f c * (x * g a) else 0) + f c * sumn h (fun r => mat_at m r c * g r))).
    + rewrite sumn_add. f_equal. rewrite (sumn_single k b); [|auto|].
      * rewrite Nat.eqb_refl. ring.
      * intros i _ Hi. destruct (Nat.eqb_spec b i); [lia|reflexivity].
    + intros c Hc. rewrite (sumn_ext h _ (fun r => (if (a =? r)%nat && (b =? c)%nat then x * g r else 0) + mat_at m r c * g r)).
      2:{ intros r Hr. rewrite mat_at_cons. destruct (_ && _); ring. }
      rewrite sumn_add. destruct (Nat.eqb_spec b c) as [->|Hne].
      * rewrite (sumn_single h a); [|auto|].
        -- rewrite Nat.eqb_refl. cbn [andb]. ring.
        -- intros i _ Hi. destruct (Nat.eqb_spec a i); [lia|reflexivity].
      * rewrite sumn_0; [ring|]. intros. now rewrite Bool.andb_false_r.
Qed.

Lemma entries_sum rows cols (vals : list F) (phi : nat -> nat -> F -> F) :
  length rows = length vals -> length cols = length vals ->
  fsum (map (fun en => let '(r, c, x) := en in phi r c x) (entries_of rows cols vals))
  = sumn (length vals) (fun j => phi (nth j rows 0%nat) (nth j cols 0%nat) (coef vals j)).
Proof.
  unfold entries_of. revert cols vals; induction rows as [|r rows IH]; intros [|c cols] [|x vals] H1 H2;
    cbn [length] in *; try discriminate; [reflexivity|].
  rewrite sumn_shift. cbn [combine map fsum nth]. rewrite IH by lia. reflexivity.
Qed.

Lemma in_shape_nth rows cols (vals : list F) h k j : length rows = length vals -> length cols = length vals ->
  in_shape (entries_of rows cols vals) h k -> (j < length vals)%nat ->
  (nth j rows 0 < h)%nat /\ (nth j cols 0 < k)%nat.
Proof.
  intros H1 H2 Hs Hj. apply (Hs _ _ (nth j vals 0)). unfold entries_of.
  rewrite <- !combine_nth by (rewrite ?combine_length; lia). apply nth_In. rewrite !combine_length. lia.
Qed.

Lemma power_vector_length rows (g : F) : length (int_array_to_power_vector rows g) = length rows.
Proof. apply map_length. Qed.
Lemma coef_power_vector rows (g : F) j : g <> 0 -> (j < length rows)%nat ->
  coef (int_array_to_power_vector rows g) j = fpow g (nth j rows 0%nat).
Proof.
  intros Hg Hj. unfold int_array_to_power_vector, coef.
  rewrite (nth_indep _ 0 (power g (Z.of_nat 0))) by now rewrite map_length.
  rewrite (map_nth (fun i => power g (Z.of_nat i))). now apply power_nat.
Qed.

(** entries of 1 / (mu - gamma^i) *)
Lemma expression_vector_inverse_length (f : Z -> F) n : length (expression_vector_inverse f n) = Z.to_nat n.
Proof. unfold expression_vector_inverse, batch_inversion. now rewrite map_length, expression_vector_length. Qed.
Lemma coef_expression_vector_inverse (f : Z -> F) n j : (j < Z.to_nat n)%nat -> f (Z.of_nat (S j)) <> 0 ->
  coef (expression_vector_inverse f n) j = finv (f (Z.of_nat (S j))).
Proof.
  intros Hj Hf. unfold expression_vector_inverse, batch_inversion, coef.
  set (g := fun x : F => if is_zero x then x else finv x).
  assert (g 0 = 0) as G0 by (unfold g; destruct (is_zero_spec (0 : F)); congruence).
  change (nth j (map g (expression_vector f n)) 0 = finv (f (Z.of_nat (S j)))).
  rewrite <- G0 at 1. rewrite map_nth. change (nth j (expression_vector f n) 0) with (coef (expression_vector f n) j). rewrite nth_expression_vector by auto. unfold g.
  destruct (is_zero_spec (f (Z.of_nat (S j)))); congruence.
Qed.
Lemma power_vidx_fpow (g : F) n j : g <> 0 -> (Z.of_nat j < n)%Z -> power_vidx g n (Z.of_nat (S j)) = fpow g j.
Proof.
  intros Hg Hj. unfold power_vidx. destruct (Z.leb_spec 1 (Z.of_nat (S j))), (Z.leb_spec (Z.of_nat (S j)) n); try lia.
  cbn [andb]. replace (Z.of_nat (S j) - 1)%Z with (Z.of_nat j) by lia. now apply power_nat.
Qed.

(** running sums *)
Lemma running_sum_at (v : list F) (dl : list F) j : (j < length v)%nat ->
  vidx (accumulate_vector 0 (fun i => vidx v i) (Z.of_nat (length v)) fadd ++ dl) (Z.of_nat (S j)) = sumn (S j) (coef v).
Proof.
  intros Hj. rewrite vidx_app_l by (rewrite accumulate_length; lia). rewrite (vidx_coef _ _ j) by lia.
  rewrite accumulate_plus by lia. rewrite (sumn_ext (S j) (fun j0 => vidx v (Z.of_nat (S j0))) (coef v)); [ring|].
  intros i _. apply vidx_coef. lia.
Qed.
Lemma running_sum_step (v : list F) (dl : list F) i : (1 <= i <= Z.of_nat (length v))%Z ->
  let rt := vidx (accumulate_vector 0 (fun i => vidx v i) (Z.of_nat (length v)) fadd ++ dl) in
  rt i - rt (i - 1)%Z = vidx v i.
Proof.
  intros Hi rt. unfold rt. replace i with (Z.of_nat (S (Z.to_nat (i - 1)))) at 1 by lia.
  rewrite running_sum_at by lia. rewrite (vidx_coef v i (Z.to_nat (i - 1))) by lia.
  destruct (Z.eq_dec i 1) as [->|Hne].
  - change (Z.to_nat (1 - 1)) with 0%nat. change (1 - 1)%Z with 0%Z. rewrite vidx_out by lia. cbn. ring.
  - replace (i - 1)%Z with (Z.of_nat (S (Z.to_nat (i - 2)))) at 2 by lia. rewrite running_sum_at by lia.
    replace (Z.to_nat (i - 1)) with (S (Z.to_nat (i - 2))) by lia. cbn [sumn]. ring.
Qed.
Lemma running_sum_end (v : list F) (dl : list F) : (1 <= length v)%nat ->
  vidx (accumulate_vector 0 (fun i => vidx v i) (Z.of_nat (length v)) fadd ++ dl) (Z.of_nat (length v)) = sumn (length v) (coef v).
Proof.
  intros Hv. replace (length v) with (S (length v - 1)) at 2 by lia. rewrite running_sum_at by lia. f_equal. lia.
Qed.
End SparseSum.

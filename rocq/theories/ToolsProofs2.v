(** ToolsProofs2.v: further lemmas on the vector macros of tools/mod.rs. *)
From Coq Require Import Permutation.
From Verif Require Import Base Spec Tools ToolsProofs MatProofs PermProofs IntProofs.
Local Open Scope F_scope.

Section TP2.
Context {F : Type} {fo : FieldOps F} {fl : FieldLaws F}.
Add Field Ff2 : F_th.

Lemma fold_left_sum {A} (g : A -> F) l a : fold_left (fun y x => y + g x) l a = a + fsum (map g l).
Proof. revert a; induction l as [|x l IH]; intros a; simpl; [ring|rewrite IH; ring]. Qed.

Lemma fsum_map_0 {A} (g : A -> F) l : (forall x, In x l -> g x = 0) -> fsum (map g l) = 0.
Proof.
  induction l as [|x l IH]; simpl; intros H; auto.
  rewrite (H x), IH by auto. ring.
Qed.

Lemma evaluate_sparse_ok x c idx : x <> 0 ->
  evaluate_sparse x c idx = fsum (map (fun ci => fst ci * fpow x (snd ci)) (combine c idx)).
Proof.
  intros Hx. unfold evaluate_sparse. rewrite fold_left_sum.
  rewrite (map_ext _ (fun ci => fst ci * fpow x (snd ci))).
  - ring.
  - intros [a n]. cbn [fst snd]. now rewrite power_nat.
Qed.
Lemma evaluate_sparse_0 c idx : evaluate_sparse 0 c idx = 0.
Proof.
  unfold evaluate_sparse. rewrite fold_left_sum, fsum_map_0; [ring|].
  intros [a n] _. cbn [fst snd]. rewrite power_0. ring.
Qed.

Lemma combine_seq_map {A B} (f : nat * A -> B) (d : A) l s :
  map f (combine (seq s (length l)) l) = map (fun i => f ((s + i)%nat, nth i l d)) (seq 0 (length l)).
Proof.
  revert s; induction l as [|x l IH]; intros s; auto.
  cbn [length seq combine map]. rewrite Nat.add_0_r. f_equal. rewrite IH.
  rewrite <- (seq_shift (length l) 0), map_map. apply map_ext. intros i.
  now rewrite Nat.add_succ_r.
Qed.

Lemma evaluate_short_ok x c : x <> 0 -> evaluate_short x c = poly_value c x.
Proof.
  intros Hx. unfold evaluate_short. rewrite fold_left_sum, (combine_seq_map _ 0), fsum_map_seq.
  unfold poly_value. rewrite (sumn_ext _ _ (fun i => coef c i * fpow x i)); [ring|].
  intros i _. cbn [fst snd Nat.add]. now rewrite power_nat.
Qed.
Lemma evaluate_short_0 c : evaluate_short 0 c = 0.
Proof.
  unfold evaluate_short. rewrite fold_left_sum, fsum_map_0; [ring|].
  intros [n a] _. cbn [fst snd]. rewrite power_0. ring.
Qed.

(** power: the two branches *)
Lemma power_neg_spec (a : F) n : a <> 0 -> power a (- Z.of_nat n) * fpow a n = 1.
Proof. intros H. rewrite power_spec, fpowZ_neg by auto. now apply fpow_finv. Qed.

(** multi_delta, linear combinations *)
Lemma multi_delta_spec i (cjs : list (F * Z)) :
  multi_delta i cjs = fsum (map (fun cj => fst cj * delta i (snd cj)) cjs).
Proof.
  unfold multi_delta.
  assert (forall a, fold_left (fun s cj => if (i =? snd cj)%Z then s + fst cj else s) cjs a
          = a + fsum (map (fun cj => fst cj * delta i (snd cj)) cjs)) as H.
  { induction cjs as [|[c j] l IH]; intros a; cbn [fold_left map fsum fst snd].
    - ring.
    - rewrite IH. unfold delta. destruct (i =? j)%Z; ring. }
  rewrite H. ring.
Qed.
Lemma linear_combination_spec (a : F) cjs :
  linear_combination a cjs = a + fsum (map (fun cj => fst cj * snd cj) cjs).
Proof. unfold linear_combination. apply fold_left_sum. Qed.
Lemma plc_invariant alpha (l : list F) s c :
  fst (fold_left (fun sc a => (fst sc + snd sc * a, snd sc * alpha)) l (s, c)) = s + c * peval l alpha.
Proof.
  revert s c; induction l as [|x l IH]; intros s c; cbn [fold_left peval fst snd].
  - ring.
  - rewrite IH. ring.
Qed.
Lemma power_linear_combination_peval alpha (l : list F) :
  power_linear_combination alpha l = peval l alpha.
Proof. unfold power_linear_combination. rewrite plc_invariant. ring. Qed.

(** hadamard product *)
Lemma hadamard_length (u v : list F) : length (hadamard_vector u v) = Nat.min (length u) (length v).
Proof. unfold hadamard_vector. now rewrite map_length, combine_length. Qed.
Lemma coef_hadamard (u v : list F) i :
  coef (hadamard_vector u v) i = if (i <? Nat.min (length u) (length v))%nat then coef u i * coef v i else 0.
Proof.
  revert v i; induction u as [|a u IH]; intros [|b v] i; unfold hadamard_vector, coef in *; cbn [combine map length Nat.min].
  - destruct i; reflexivity.
  - destruct i; reflexivity.
  - destruct i; reflexivity.
  - destruct i as [|i]; cbn [nth fst snd]; [reflexivity|]. rewrite IH. reflexivity.
Qed.

(** zero padding *)
Lemma zero_pad_ok {E} (u : list F) n : (length u <= n)%nat ->
  exists r, zero_pad (E:=E) u n = Ok r /\ length r = n /\ forall i, coef r i = coef u i.
Proof.
  intros H. unfold zero_pad. destruct (Nat.ltb_spec n (length u)); [lia|].
  eexists. split; [reflexivity|]. split; [rewrite app_length, repeat_length; lia|].
  intros i. unfold coef. destruct (Nat.lt_ge_cases i (length u)) as [Hi|Hi].
  - now rewrite app_nth1.
  - rewrite app_nth2 by lia. rewrite nth_repeat_any. now rewrite nth_overflow.
Qed.
Lemma zero_pad_panic {E} (u : list F) n : (n < length u)%nat -> zero_pad (E:=E) u n = Panic.
Proof. intros H. unfold zero_pad. destruct (Nat.ltb_spec n (length u)); [auto|lia]. Qed.

(** concat_subvec *)
Lemma coef_slice (a : list F) i j k : (j <= length a)%nat -> (k < j - i)%nat ->
  coef (firstn (j - i) (skipn i a)) k = coef a (i + k).
Proof.
  intros H1 H2. unfold coef. rewrite <- (firstn_skipn i a) at 2.
  rewrite app_nth2; rewrite firstn_length_le by lia; [|lia].
  replace (i + k - i)%nat with k by lia.
  rewrite <- (firstn_skipn (j - i) (skipn i a)) at 2. rewrite app_nth1; auto.
  rewrite firstn_length, skipn_length. lia.
Qed.

(** check_vector_eq decides equality *)
Lemma check_vector_eq_spec (u v : list F) : check_vector_eq u v = true <-> u = v.
Proof.
  unfold check_vector_eq. revert v; induction u as [|a u IH]; intros [|b v]; cbn; split; intros H; try congruence; auto.
  - apply andb_true_iff in H. destruct H as [H1 H2]. apply andb_true_iff in H2. destruct H2 as [H2 H3].
    apply feqb_eq in H2. subst. f_equal. apply IH. apply andb_true_iff. auto.
  - injection H as -> ->. rewrite feqb_refl. cbn. apply IH. reflexivity.
Qed.

(** sparse vectors: assignment of (index, value) pairs, last one wins *)
Lemma assign_fold_panic {E} (l : list (nat * F)) :
  fold_left (fun v ia => let! v := v in assign (E:=E) v (fst ia) (snd ia)) l Panic = Panic.
Proof. induction l; auto. Qed.
Lemma sparse_fold_ok {E} (l : list (nat * F)) (v : list F) :
  (forall i a, In (i, a) l -> (i < length v)%nat) ->
  exists r, fold_left (fun v ia => let! v := v in assign (E:=E) v (fst ia) (snd ia)) l (Ok v) = Ok r /\
    length r = length v /\
    (forall i, ~ In i (map fst l) -> coef r i = coef v i) /\
    (NoDup (map fst l) -> forall i a, In (i, a) l -> coef r i = a).
Proof.
  revert v; induction l as [|[i a] l IH]; intros v H.
  - exists v. repeat split; auto. intros _ i a [].
  - cbn [fold_left fst snd obind]. unfold assign at 2.
    assert (i < length v)%nat as Hi by (apply (H i a); now left).
    destruct (Nat.ltb_spec i (length v)); [|lia].
    destruct (IH (upd v i (fun _ => a))) as [r [E1 [L1 [H1 H2]]]].
    { intros j b Hj. rewrite upd_length. apply (H j b). now right. }
    exists r. split; [exact E1|]. rewrite upd_length in L1. split; [auto|]. split.
    + intros j Hj. cbn [map fst] in Hj. rewrite H1 by (intros X; apply Hj; now right).
      unfold coef. rewrite nth_upd. destruct (Nat.eqb_spec j i); auto. subst. exfalso. apply Hj. now left.
    + cbn [map fst]. intros ND j b [X|X].
      * injection X as -> ->. rewrite H1 by now inversion ND.
        unfold coef. rewrite nth_upd, Nat.eqb_refl. destruct (Nat.ltb_spec j (length v)); [auto|lia].
      * apply H2; auto. now inversion ND.
Qed.
Lemma sparse_fold_bad {E} (l : list (nat * F)) (v : list F) i a :
  In (i, a) l -> (length v <= i)%nat ->
  fold_left (fun v ia => let! v := v in assign (E:=E) v (fst ia) (snd ia)) l (Ok v) = Panic.
Proof.
  revert v; induction l as [|[j b] l IH]; intros v H Hi; [destruct H|].
  cbn [fold_left fst snd obind]. unfold assign at 2. destruct (Nat.ltb_spec j (length v)).
  - destruct H as [H|H].
    + injection H as -> ->. lia.
    + apply IH; auto. now rewrite upd_length.
  - apply assign_fold_panic.
Qed.

Lemma combine_NoDup_fst {A B} (l : list A) (l' : list B) : NoDup l -> NoDup (map fst (combine l l')).
Proof.
  revert l'; induction l as [|x l IH]; intros [|y l'] H; cbn; try constructor.
  - intros X. apply in_map_iff in X. destruct X as [[a b] [E X]]. apply in_combine_l in X. cbn in E. subst.
    now inversion H.
  - apply IH. now inversion H.
Qed.

Lemma NoDup_fsum_pick (l : list (nat * F)) k a : NoDup (map fst l) -> In (k, a) l ->
  fsum (map (fun iv => if (fst iv =? k)%nat then snd iv else 0) l) = a.
Proof.
  induction l as [|[j b] l IH]; intros ND H; [destruct H|].
  cbn [map fsum fst snd] in *. destruct H as [H|H].
  - injection H as -> ->. rewrite Nat.eqb_refl, fsum_map_0; [ring|].
    intros [i c] Hi. cbn [fst snd]. destruct (Nat.eqb_spec i k); auto. subst.
    exfalso. inversion ND as [|x l' Hx]; subst. apply Hx. apply in_map_iff. now exists (k, c).
  - rewrite IH by (auto; now inversion ND).
    destruct (Nat.eqb_spec j k); [|ring]. subst. exfalso. inversion ND as [|x l' Hx]; subst.
    apply Hx. apply in_map_iff. now exists (k, a).
Qed.
Lemma fsum_pick_out (l : list (nat * F)) k : ~ In k (map fst l) ->
  fsum (map (fun iv => if (fst iv =? k)%nat then snd iv else 0) l) = 0.
Proof.
  intros H. apply fsum_map_0. intros [i c] Hi. cbn [fst snd]. destruct (Nat.eqb_spec i k); auto.
  subst. exfalso. apply H. apply in_map_iff. now exists (k, c).
Qed.

(** With distinct in-range indices the dense vector is the sum of the (index, value) pairs. *)
Lemma sparse_vector_ok {E} (idx : list nat) (vals : list F) n :
  NoDup idx -> (forall i, In i idx -> (i < n)%nat) ->
  exists r, sparse_vector (E:=E) idx vals n = Ok r /\ length r = n /\
    forall k, coef r k = sparse_at idx vals k.
Proof.
  intros ND H. unfold sparse_vector.
  destruct (sparse_fold_ok (E:=E) (combine idx vals) (repeat 0 n)) as [r [E1 [L1 [H1 H2]]]].
  { intros i a Hi. rewrite repeat_length. apply H. now apply in_combine_l in Hi. }
  rewrite repeat_length in L1.
  exists r. repeat split; auto. intros k. unfold sparse_at.
  destruct (in_dec Nat.eq_dec k (map fst (combine idx vals))) as [Hk|Hk].
  - apply in_map_iff in Hk. destruct Hk as [[i a] [Ei Hi]]. cbn in Ei. subst.
    rewrite (H2 (combine_NoDup_fst _ _ ND) k a Hi). symmetry. apply NoDup_fsum_pick; auto.
    now apply combine_NoDup_fst.
  - rewrite H1 by auto. rewrite fsum_pick_out by auto. apply nth_repeat_any.
Qed.

Lemma peval_sparse_at (l : list (nat * F)) n z :
  (forall i a, In (i, a) l -> (i < n)%nat) ->
  sumn n (fun k => fsum (map (fun iv => if (fst iv =? k)%nat then snd iv else 0) l) * fpow z k)
  = fsum (map (fun iv => snd iv * fpow z (fst iv)) l).
Proof.
  induction l as [|[j b] l IH]; intros H; cbn [map fsum fst snd].
  - apply sumn_0. intros. ring.
  - rewrite <- IH by (intros i a Hi; apply (H i a); now right).
    rewrite (sumn_ext _ _ (fun k => (if (j =? k)%nat then b else 0) * fpow z k +
      fsum (map (fun iv => if (fst iv =? k)%nat then snd iv else 0) l) * fpow z k)) by (intros; ring).
    rewrite sumn_add. f_equal. rewrite (sumn_single n j).
    + now rewrite Nat.eqb_refl.
    + apply (H j b). now left.
    + intros i _ Hne. destruct (Nat.eqb_spec j i); [congruence|ring].
Qed.

Lemma eval_sparse_vector_nz z idx (vals : list F) : z <> 0 ->
  eval_sparse_vector z idx vals = fsum (map (fun iv => snd iv * fpow z (fst iv)) (combine idx vals)).
Proof.
  intros Hz. unfold eval_sparse_vector. f_equal. apply map_ext. intros [i a]. cbn [fst snd].
  rewrite power_nat by auto. ring.
Qed.

(** The sparse evaluation agrees with the dense vector when the indices are distinct. *)
Lemma eval_sparse_vector_ok {E} z idx (vals : list F) n :
  z <> 0 -> NoDup idx -> (forall i, In i idx -> (i < n)%nat) ->
  exists r, sparse_vector (E:=E) idx vals n = Ok r /\ eval_sparse_vector z idx vals = peval r z.
Proof.
  intros Hz ND H. destruct (sparse_vector_ok (E:=E) idx vals n ND H) as [r [E1 [L1 H1]]].
  exists r. split; auto. rewrite (peval_sumn _ _ n) by lia.
  rewrite (sumn_ext _ _ (fun k => fsum (map (fun iv => if (fst iv =? k)%nat then snd iv else 0) (combine idx vals)) * fpow z k))
    by (intros i _; now rewrite H1).
  rewrite peval_sparse_at.
  - now apply eval_sparse_vector_nz.
  - intros i a Hi. apply H. now apply in_combine_l in Hi.
Qed.

Lemma sparse_zero_one_eq {E} idx n :
  sparse_zero_one_vector (F:=F) (E:=E) idx n = sparse_vector idx (map (fun _ => 1) idx) n.
Proof.
  unfold sparse_zero_one_vector, sparse_vector. generalize (Ok (E:=E) (repeat (0 : F) n)).
  induction idx as [|i l IH]; intros v; auto. cbn [map combine fold_left fst snd]. apply IH.
Qed.
Lemma eval_sparse_zero_one_eq z idx :
  eval_sparse_zero_one_vector (F:=F) z idx = eval_sparse_vector z idx (map (fun _ => 1) idx).
Proof.
  unfold eval_sparse_zero_one_vector, eval_sparse_vector. f_equal. induction idx as [|i l IH]; auto.
  cbn [map combine fst snd]. rewrite IH. f_equal. ring.
Qed.

(** batch inversion and uwinverse *)
Lemma uwinverse_length mu (u : list F) nu w :
  length (uwinverse_vector mu u nu w) = Nat.min (length u) (length w).
Proof. unfold uwinverse_vector, batch_inversion. now rewrite !map_length, combine_length. Qed.
Lemma coef_uwinverse mu (u : list F) nu w i : (i < length u)%nat -> (i < length w)%nat ->
  (mu - coef u i) * (nu - coef w i) <> 0 ->
  coef (uwinverse_vector mu u nu w) i * ((mu - coef u i) * (nu - coef w i)) = 1.
Proof.
  unfold uwinverse_vector, batch_inversion, coef.
  revert w i; induction u as [|a u IH]; intros [|b w] i Hi Hj; cbn [length] in *; try lia.
  destruct i as [|i]; cbn [combine map nth fst snd].
  - intros H. destruct (is_zero_spec ((mu - a) * (nu - b))); [congruence|].
    now apply finv_l.
  - apply IH; lia.
Qed.

(** density *)
Lemma compute_density_spec (v : list F) :
  compute_density v = length (filter (fun i => negb (is_zero (coef v i))) (seq 0 (length v))).
Proof.
  unfold compute_density. induction v as [|a v IH]; auto.
  cbn [length seq filter]. unfold coef at 1; cbn [nth].
  assert (length (filter (fun i => negb (is_zero (coef (a :: v) i))) (seq 1 (length v)))
          = length (filter (fun i => negb (is_zero (coef v i))) (seq 0 (length v)))) as X.
  { rewrite <- (seq_shift (length v) 0).
    generalize (seq 0 (length v)). intros l. induction l as [|i l IHl]; auto.
    cbn [map filter]. change (coef (a :: v) (S i)) with (coef v i). destruct (negb _); cbn [length]; rewrite IHl; reflexivity. }
  destruct (negb (is_zero a)); cbn [length]; rewrite IH, X; reflexivity.
Qed.

Lemma left_sparse_mvp_iff {E} (h k : Z) rows cols (vals v res : list F) :
  left_sparse_mvp (E:=E) (rows, cols, vals) v h k = Ok res <->
  (0 < h)%Z /\ (0 < k)%Z /\ Z.of_nat (length v) = h /\
  in_shape (transpose (entries_of rows cols vals)) (Z.to_nat k) (Z.to_nat h) /\
  res = map (mat_vec (transpose (entries_of rows cols vals)) (Z.to_nat h) v) (seq 0 (Z.to_nat k)).
Proof.
  unfold left_sparse_mvp. rewrite sparse_mvp_iff, entries_of_transpose. tauto.
Qed.

(** permutation vector: combined statements *)
Lemma pvw_permutation {E} gamma l n : gamma <> 0 -> pairs_below n l ->
  exists sigma, permutation_vector_from_wires (F:=F) (E:=E) gamma l n = Ok sigma /\
    Permutation (powers gamma n) sigma.
Proof.
  intros Hg Hl. exists (map (fpow gamma) (idx l n)). split; [now apply pvw_ok|].
  unfold powers, idx. apply Permutation_map. apply swaps_perm.
Qed.
Lemma pvw_respects {E} gamma l n (w : list F) : gamma <> 0 -> distinct_powers gamma n -> pairs_below n l ->
  exists sigma, permutation_vector_from_wires (F:=F) (E:=E) gamma l n = Ok sigma /\
    (respects l w -> perm_invariant gamma n sigma w) /\
    (forest l -> perm_invariant gamma n sigma w -> respects l w).
Proof.
  intros Hg Hd Hl. exists (map (fpow gamma) (idx l n)). split; [now apply pvw_ok|].
  rewrite perm_invariant_idx by auto. split.
  - now apply respects_inv.
  - intros Hf Hi. eapply inv_forest_respects; eauto.
Qed.
Lemma pvw_duplicate {E} gamma l i j n : (i < n)%nat -> (j < n)%nat -> pairs_below n l ->
  permutation_vector_from_wires (F:=F) (E:=E) gamma (l ++ [(i, j); (i, j)]) n
  = permutation_vector_from_wires gamma l n.
Proof.
  intros Hi Hj Hl. destruct (feq_dec gamma 0) as [->|Hg].
  - rewrite !pvw_panic; auto.
  - rewrite !pvw_ok, swaps_duplicate; auto. apply pairs_below_app. split; auto.
    intros x y [X|[X|[]]]; injection X as <- <-; auto.
Qed.

(** power iterator *)
Lemma power_iter_ok {E} start end_ (alpha : F) len sh : alpha <> 0 ->
  (power_iter (E:=E) start end_ alpha len sh = Panic /\ (end_ <= start)%nat) \/
  (exists it, power_iter (E:=E) start end_ alpha len sh = Ok it /\ (start < end_)%nat /\
    pi_collect (S (end_ - start)) it
    = Some (map (fun j => if (sh <=? j)%nat && (j <? sh + len)%nat then fpow alpha (j - sh) else 0)
                (seq start (end_ - start)))).
Proof.
  intros Ha. unfold power_iter. destruct (Nat.leb_spec end_ start) as [H|H].
  - left. auto.
  - right. eexists. split; [reflexivity|]. split; [auto|].
    apply pi_collect_spec; auto; lia.
Qed.

(** reversed vector as a polynomial: X * rev(X) = X^|v| f(omega/X) *)
Lemma coef_reverse_omega_out (v : list F) om i : (length v <= i)%nat -> coef (vector_reverse_omega v om) i = 0.
Proof. intros H. apply coef_over. now rewrite reverse_omega_length. Qed.

Lemma vector_poly_mul_value (u v : list F) (om z : F) : z <> 0 ->
  z * poly_value (vector_poly_mul u v om) z = fpow z (length u) * poly_value u (om / z) * poly_value v z.
Proof. intros Hz. rewrite <- !peval_poly_value. now apply peval_vector_poly_mul. Qed.
Lemma eval_vector_as_poly_value (v : list F) z : eval_vector_as_poly v z = poly_value v z.
Proof. rewrite <- peval_poly_value. apply eval_vector_as_poly_peval. Qed.
Lemma add_vector_ok (u v : list F) :
  length (add_vector_to_vector u v) = length u /\
  (forall i, (i < length u)%nat -> coef (add_vector_to_vector u v) i = coef u i + coef v i).
Proof.
  unfold add_vector_to_vector. split; [apply add_expression_vector_length|].
  intros i Hi. rewrite coef_add_expression_vector by auto. now rewrite vidx_S.
Qed.
Lemma eval_sparse_vector_value {E} (z : F) idx (vals : list F) n :
  z <> 0 -> NoDup idx -> (forall i, In i idx -> (i < n)%nat) ->
  exists r, sparse_vector (E:=E) idx vals n = Ok r /\ eval_sparse_vector z idx vals = poly_value r z.
Proof.
  intros Hz ND H. destruct (eval_sparse_vector_ok (E:=E) z idx vals n Hz ND H) as [r [H1 H2]].
  exists r. split; auto. now rewrite <- peval_poly_value.
Qed.
Lemma power_linear_combination_value alpha (l : list F) : power_linear_combination alpha l = poly_value l alpha.
Proof. rewrite <- peval_poly_value. apply power_linear_combination_peval. Qed.
Lemma multi_delta_sum i (cjs : list (F * Z)) :
  multi_delta i cjs = fsum (map (fun cj => if (i =? snd cj)%Z then fst cj else 0) cjs).
Proof.
  rewrite multi_delta_spec. f_equal. apply map_ext. intros [c j]. unfold delta. cbn [fst snd].
  destruct (i =? j)%Z; ring.
Qed.
End TP2.

Section TPI.
Context {F : Type} {fo : FieldOps F} {fl : FieldLaws F} {po : PrimeFieldOps F} {pl : PrimeFieldLaws F}.
Add Field Ff2i : F_th.
Lemma to_int_to_field {E} (i : Z) : (0 <= i < 2 ^ 64)%Z ->
  (let! x := to_field (F:=F) (E:=E) i in to_int x) = if (i <? modulus)%Z then Ok i else Panic.
Proof.
  intros Hi. unfold to_field. destruct (Z.ltb_spec i modulus); cbn [obind]; auto.
  rewrite to_int_spec, to_from_Z, Z.mod_small by lia.
  destruct (Z.ltb_spec i (2 ^ 64)); [auto|lia].
Qed.
Lemma try_to_int_iff (x : F) (n : Z) :
  try_to_int x = Some n <-> (0 <= n < 2 ^ 64)%Z /\ (n < modulus)%Z /\ x = from_Z n.
Proof.
  rewrite try_to_int_spec. pose proof (to_Z_range x) as R. split.
  - destruct (Z.ltb_spec (to_Z x) (2 ^ 64)); intros X; [|discriminate]. injection X as <-.
    rewrite from_to_Z. repeat split; auto; lia.
  - intros [H1 [H2 ->]]. rewrite to_from_Z, Z.mod_small by lia.
    destruct (Z.ltb_spec n (2 ^ 64)); [auto|lia].
Qed.
Lemma to_int_try {E} (x : F) :
  to_int (E:=E) x = match try_to_int x with Some n => Ok n | None => Panic end.
Proof. rewrite to_int_spec, try_to_int_spec. now destruct (to_Z x <? 2 ^ 64)%Z. Qed.

(** custom_add_fi *)
Lemma custom_add_fi_spec {E} (a : F) (b : Z) : (- 2 ^ 63 <= b < 2 ^ 63)%Z -> (2 ^ 64 <= modulus (F:=F))%Z ->
  custom_add_fi (E:=E) a b = Ok (a + from_Z b + (if (b <? 0)%Z then from_Z (2 ^ 64) else 0)).
Proof.
  intros Hb Hm. unfold custom_add_fi, to_field.
  pose proof (Z.mod_pos_bound b (2 ^ 64)) as R.
  destruct (Z.ltb_spec (b mod 2 ^ 64) modulus); [|lia]. cbn [obind]. f_equal.
  destruct (Z.ltb_spec b 0).
  - replace (b mod 2 ^ 64)%Z with (b + 2 ^ 64)%Z.
    + rewrite from_Z_add. ring.
    + apply Z.mod_unique with (q := (-1)%Z); lia.
  - rewrite Z.mod_small by lia. ring.
Qed.

(** fmt_field: the printed form determines the value *)
Definition fmt_value (f : fmt_form (F:=F)) : F :=
  match f with FmtPos n => from_Z n | FmtNeg n => - from_Z n | FmtRaw x => x end.
Lemma fmt_field_value (v : F) : fmt_value (fmt_field v) = v.
Proof.
  unfold fmt_field. destruct (try_to_int v) as [n|] eqn:E.
  - apply try_to_int_iff in E. now destruct E as [_ [_ ->]].
  - destruct (try_to_int (- v)) as [n|] eqn:E'; auto.
    apply try_to_int_iff in E'. destruct E' as [_ [_ X]]. cbn. rewrite <- X. ring.
Qed.
End TPI.


Section TPI2.
Context {F : Type} {fo : FieldOps F} {fl : FieldLaws F} {po : PrimeFieldOps F} {pl : PrimeFieldLaws F}.
Lemma fmt_field_spec (v : F) :
  match fmt_field v with FmtPos n => v = from_Z n | FmtNeg n => v = - from_Z n | FmtRaw x => v = x end.
Proof. pose proof (fmt_field_value v) as H. destruct (fmt_field v); cbn in H; auto. Qed.
Lemma fmt_field_inj (v w : F) : fmt_field v = fmt_field w -> v = w.
Proof. intros H. rewrite <- (fmt_field_value v), H. apply fmt_field_value. Qed.
End TPI2.

(** concrete cases *)
Ltac f101_neq := let H := fresh in intros H; vm_compute in H; discriminate H.
Lemma distinct_powers_2_4 : distinct_powers (f101 2) 4.
Proof.
  intros i j Hi Hj. do 4 (destruct i as [|i]; [do 4 (destruct j as [|j]; [try reflexivity; f101_neq|]); lia|]). lia.
Qed.
Lemma connected_inv (P : nat -> nat -> Prop) l :
  (forall x, P x x) -> (forall x y, P x y -> P y x) -> (forall x y z, P x y -> P y z -> P x z) ->
  (forall x y, In (x, y) l -> P x y) -> forall x y, connected l x y -> P x y.
Proof. intros R S T H x y C. induction C; eauto. Qed.
Lemma perm_example :
  permutation_vector_from_wires (E:=unit) (f101 2) [(0%nat, 2%nat); (2%nat, 3%nat)] 4
  = Ok [f101 4; f101 2; f101 8; f101 1]
  /\ distinct_powers (f101 2) 4 /\ forest [(0%nat, 2%nat); (2%nat, 3%nat)] /\ pairs_below 4 [(0%nat, 2%nat); (2%nat, 3%nat)].
Proof.
  split; [vm_compute; reflexivity|]. split; [exact distinct_powers_2_4|]. split.
  - apply (forest_snoc [(0%nat, 2%nat)] 2 3).
    + apply (forest_snoc [] 0 2); [constructor|].
      intros C. assert (0%nat = 2%nat) as X; [|discriminate].
      apply (connected_inv (fun x y => x = y) []) in C; auto; intros; subst; auto. destruct H.
    + intros C. apply (connected_inv (fun x y => (x = y) \/ (x < 3 /\ y < 3)%nat) [(0%nat, 2%nat)]) in C; try lia.
      intros x y [H|[]]. injection H as <- <-. lia.
  - intros x y [H|[H|[]]]; injection H as <- <-; lia.
Qed.
Lemma perm_cycle_counterexample : exists (gamma : F101) l n (w sigma : list F101),
  gamma <> 0 /\ distinct_powers gamma n /\ pairs_below n l /\
  permutation_vector_from_wires (E:=unit) gamma l n = Ok sigma /\
  perm_invariant gamma n sigma w /\ ~ respects l w.
Proof.
  exists (f101 2), [(0%nat, 1%nat); (0%nat, 1%nat)], 4%nat, [f101 5; f101 6; f101 7; f101 8], (powers (f101 2) 4).
  split; [f101_neq|]. split; [exact distinct_powers_2_4|]. split; [|split; [vm_compute; reflexivity|split]].
  - intros x y [H|[H|[]]]; injection H as <- <-; lia.
  - intros i j Hi Hj H. rewrite coef_powers in H. destruct (Nat.ltb_spec i 4); [|lia].
    pose proof (distinct_powers_2_4 i j Hi Hj H) as ->. reflexivity.
  - intros H. specialize (H 0%nat 1%nat (or_introl eq_refl)). vm_compute in H. discriminate.
Qed.
Lemma sparse_duplicate_counterexample : exists (z : F101) idx vals n r,
  z <> 0 /\ sparse_vector (E:=unit) idx vals n = Ok r /\ eval_sparse_vector z idx vals <> poly_value r z.
Proof.
  exists (f101 3), [1%nat; 1%nat], [f101 5; f101 5], 2%nat, [f101 0; f101 5]. repeat split.
  - f101_neq.
  - f101_neq.
Qed.

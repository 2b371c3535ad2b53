(** PermProofs.v: the swap-based permutation vector of tools/mod.rs:1459-1473. *)
From Verif Require Import Base Spec Tools ToolsProofs.
From Coq Require Import Permutation.
Local Open Scope F_scope.

Section Swaps.
(** index-level version of the swaps *)
Definition do_swap {A} (v : list A) (i j : nat) : list A :=
  match nth_error v i, nth_error v j with
  | Some a, Some b => upd (upd v i (fun _ => b)) j (fun _ => a)
  | _, _ => v
  end.
Definition swaps {A} (pairs : list (nat * nat)) (v : list A) : list A :=
  fold_left (fun v ij => do_swap v (fst ij) (snd ij)) pairs v.

Lemma do_swap_length A (v : list A) i j : length (do_swap v i j) = length v.
Proof. unfold do_swap. destruct (nth_error v i), (nth_error v j); rewrite ?upd_length; auto. Qed.
Lemma swaps_length A l (v : list A) : length (swaps l v) = length v.
Proof.
  unfold swaps. revert v; induction l as [|[i j] l IH]; intros v; auto. simpl. now rewrite IH, do_swap_length.
Qed.
Lemma nth_do_swap A (v : list A) i j k d : (i < length v)%nat -> (j < length v)%nat ->
  nth k (do_swap v i j) d =
  if (k =? j)%nat then nth i v d else if (k =? i)%nat then nth j v d else nth k v d.
Proof.
  intros Hi Hj. unfold do_swap. rewrite !(nth_error_nth' _ _ _ d) by auto.
  rewrite !nth_upd, upd_length.
  destruct (Nat.ltb_spec i (length v)); [|lia]. destruct (Nat.ltb_spec j (length v)); [|lia].
  rewrite !andb_true_r. destruct (Nat.eqb_spec k j); destruct (Nat.eqb_spec k i); auto.
Qed.

Lemma swap_at_ok {E A} (v : list A) i j : (i < length v)%nat -> (j < length v)%nat ->
  swap_at (E:=E) v i j = Ok (do_swap v i j).
Proof.
  intros Hi Hj. unfold swap_at, do_swap.
  destruct (nth_error v i) eqn:E1; [|apply nth_error_None in E1; lia].
  destruct (nth_error v j) eqn:E2; [|apply nth_error_None in E2; lia]. reflexivity.
Qed.
Lemma fold_swap_ok {E A} l (v : list A) : pairs_below (length v) l ->
  fold_left (fun v ij => let! v := v in swap_at (E:=E) v (fst ij) (snd ij)) l (Ok v) = Ok (swaps l v).
Proof.
  revert v; induction l as [|[i j] l IH]; intros v H; auto. cbn [fold_left fst snd obind].
  destruct (H i j) as [Hi Hj]; [now left|]. rewrite swap_at_ok by auto. unfold swaps. cbn [fold_left fst snd].
  apply IH. rewrite do_swap_length. intros x y Hin. apply (H x y). now right.
Qed.
Lemma fold_swap_panic {E A} l :
  fold_left (fun v ij => let! v := v in swap_at (E:=E) (A:=A) v (fst ij) (snd ij)) l Panic = Panic.
Proof. induction l; auto. Qed.
Lemma fold_swap_bad {E A} l (v : list A) : ~ pairs_below (length v) l ->
  fold_left (fun v ij => let! v := v in swap_at (E:=E) v (fst ij) (snd ij)) l (Ok v) = Panic.
Proof.
  revert v; induction l as [|[i j] l IH]; intros v H.
  - exfalso. apply H. intros x y [].
  - cbn [fold_left fst snd obind].
    destruct (Nat.lt_ge_cases i (length v)) as [Hi|Hi];
    [destruct (Nat.lt_ge_cases j (length v)) as [Hj|Hj]|].
    + rewrite swap_at_ok by auto. apply IH. rewrite do_swap_length. intros Hb. apply H.
      intros x y [E1|Hin]; [injection E1; intros; subst; auto|apply (Hb x y Hin)].
    + unfold swap_at. destruct (nth_error v i); [|apply fold_swap_panic].
      rewrite (proj2 (nth_error_None v j)) by auto. apply fold_swap_panic.
    + unfold swap_at. rewrite (proj2 (nth_error_None v i)) by auto. apply fold_swap_panic.
Qed.

Lemma map_upd A B (g : A -> B) (v : list A) i a :
  map g (upd v i (fun _ => a)) = upd (map g v) i (fun _ => g a).
Proof. revert i; induction v as [|x v IH]; intros [|i]; simpl; auto. now rewrite IH. Qed.
Lemma map_do_swap A B (g : A -> B) (v : list A) i j : map g (do_swap v i j) = do_swap (map g v) i j.
Proof.
  unfold do_swap. rewrite !nth_error_map. destruct (nth_error v i), (nth_error v j); simpl; auto.
  now rewrite !map_upd.
Qed.
Lemma map_swaps A B (g : A -> B) l (v : list A) : map g (swaps l v) = swaps l (map g v).
Proof.
  unfold swaps. revert v; induction l as [|[i j] l IH]; intros v; auto. simpl. now rewrite IH, map_do_swap.
Qed.

(** *** index permutations *)
Definition idx (l : list (nat * nat)) (n : nat) : list nat := swaps l (seq 0 n).
Definition sg (l : list (nat * nat)) (n : nat) (x : nat) : nat := nth x (idx l n) 0%nat.

Lemma idx_length l n : length (idx l n) = n.
Proof. unfold idx. now rewrite swaps_length, seq_length. Qed.
Lemma pairs_below_app n l1 l2 : pairs_below n (l1 ++ l2) <-> pairs_below n l1 /\ pairs_below n l2.
Proof.
  unfold pairs_below. split.
  - intros H; split; intros x y Hin; apply H; apply in_or_app; auto.
  - intros [H1 H2] x y Hin. apply in_app_or in Hin. destruct Hin; auto.
Qed.
Lemma sg_snoc l i j n x : (i < n)%nat -> (j < n)%nat ->
  sg (l ++ [(i, j)]) n x = if (x =? j)%nat then sg l n i else if (x =? i)%nat then sg l n j else sg l n x.
Proof.
  intros Hi Hj. unfold sg, idx, swaps. rewrite fold_left_app. cbn [fold_left fst snd].
  rewrite nth_do_swap; [reflexivity| |].
  - fold (swaps l (seq 0 n)). now rewrite swaps_length, seq_length.
  - fold (swaps l (seq 0 n)). now rewrite swaps_length, seq_length.
Qed.
Lemma sg_nil n x : (x < n)%nat -> sg [] n x = x.
Proof. intros H. unfold sg, idx. simpl. now rewrite seq_nth. Qed.

Lemma do_swap_perm A (v : list A) i j : Permutation v (do_swap v i j).
Proof.
  unfold do_swap. destruct (nth_error v i) as [a|] eqn:Ei; auto. destruct (nth_error v j) as [b|] eqn:Ej; auto.
  assert (Hi : (i < length v)%nat) by (apply nth_error_Some; congruence).
  assert (Hj : (j < length v)%nat) by (apply nth_error_Some; congruence).
  apply (Permutation_nth v _ a). rewrite !upd_length. split; auto.
  exists (fun x => if (x =? j)%nat then i else if (x =? i)%nat then j else x).
  assert (nth i v a = a) as Na by (apply nth_error_nth; auto).
  assert (nth j v a = b) as Nb by (apply nth_error_nth; auto).
  split; [|split].
  - intros x Hx. destruct (x =? j)%nat; auto. destruct (x =? i)%nat; auto.
  - intros x y Hx Hy. destruct (Nat.eqb_spec x j), (Nat.eqb_spec y j); subst; auto;
      try destruct (Nat.eqb_spec x i); try destruct (Nat.eqb_spec y i); subst; intros; subst; auto; try congruence.
  - intros x Hx. rewrite !nth_upd, upd_length.
    destruct (Nat.ltb_spec i (length v)); [|lia]. destruct (Nat.ltb_spec j (length v)); [|lia].
    rewrite !andb_true_r. destruct (Nat.eqb_spec x j); [congruence|]. destruct (Nat.eqb_spec x i); congruence.
Qed.
Lemma swaps_perm A l (v : list A) : Permutation v (swaps l v).
Proof.
  unfold swaps. revert v; induction l as [|[i j] l IH]; intros v; auto. simpl.
  eapply Permutation_trans; [apply do_swap_perm|apply IH].
Qed.
Lemma sg_below l n x : (x < n)%nat -> (sg l n x < n)%nat.
Proof.
  intros H. assert (In (sg l n x) (seq 0 n)) as Hin.
  { apply (Permutation_in _ (Permutation_sym (swaps_perm _ l (seq 0 n)))).
    apply nth_In. now rewrite swaps_length, seq_length. }
  apply in_seq in Hin. lia.
Qed.
Lemma sg_inj l n x y : (x < n)%nat -> (y < n)%nat -> sg l n x = sg l n y -> x = y.
Proof.
  intros Hx Hy H. assert (NoDup (idx l n)) as ND.
  { apply (Permutation_NoDup (swaps_perm _ l (seq 0 n))). apply seq_NoDup. }
  apply (proj1 (NoDup_nth (idx l n) 0%nat) ND); rewrite ?idx_length; auto.
Qed.

Fixpoint iter (f : nat -> nat) (k x : nat) : nat := match k with O => x | S k' => f (iter f k' x) end.
Lemma iter_below l n k x : (x < n)%nat -> (iter (sg l n) k x < n)%nat.
Proof. intros H; induction k as [|k IH]; simpl; auto. now apply sg_below. Qed.
Lemma iter_inj l n k x y : (x < n)%nat -> (y < n)%nat -> iter (sg l n) k x = iter (sg l n) k y -> x = y.
Proof.
  intros Hx Hy. induction k as [|k IH]; simpl; auto. intros H. apply IH.
  apply (sg_inj l n); auto using iter_below.
Qed.
Lemma iter_add f a b x : iter f (a + b) x = iter f a (iter f b x).
Proof. induction a as [|a IH]; simpl; congruence. Qed.

(** every position returns to itself; take the first return time *)
Lemma return_exists l n x : (x < n)%nat -> exists m, (1 <= m)%nat /\ iter (sg l n) m x = x.
Proof.
  intros Hx.
  destruct (existsb (fun m => iter (sg l n) m x =? x)%nat (seq 1 n)) eqn:E.
  - apply existsb_exists in E. destruct E as [m [Hm E]]. apply in_seq in Hm. apply Nat.eqb_eq in E.
    exists m. split; auto; lia.
  - exfalso.
    assert (forall m, (1 <= m <= n)%nat -> iter (sg l n) m x <> x) as Hno.
    { intros m Hm Hr. assert (existsb (fun m => iter (sg l n) m x =? x)%nat (seq 1 n) = true); [|congruence].
      apply existsb_exists. exists m. split; [apply in_seq; lia|]. now apply Nat.eqb_eq. }
    assert (NoDup (map (fun k => iter (sg l n) k x) (seq 0 (S n)))) as ND.
    { apply (NoDup_nth _ 0%nat). rewrite map_length, seq_length. intros a b Ha Hb.
      rewrite !nth_map_seq by auto. rewrite !Nat.add_0_l. intros Heq.
      destruct (Nat.lt_trichotomy a b) as [Hlt|[->|Hlt]]; auto; exfalso.
      - apply (Hno (b - a)%nat); [lia|]. apply (iter_inj l n a); auto using iter_below.
        rewrite <- iter_add. replace (a + (b - a))%nat with b by lia. auto.
      - apply (Hno (a - b)%nat); [lia|]. apply (iter_inj l n b); auto using iter_below.
        rewrite <- iter_add. replace (b + (a - b))%nat with a by lia. auto. }
    apply NoDup_incl_length with (l' := seq 0 n) in ND.
    + rewrite map_length, !seq_length in ND. lia.
    + intros y Hy. apply in_map_iff in Hy. destruct Hy as [k [<- _]]. apply in_seq. split; [lia|].
      apply iter_below. auto.
Qed.
Lemma first_return l n x : (x < n)%nat ->
  exists m, (1 <= m)%nat /\ iter (sg l n) m x = x /\ forall k, (1 <= k < m)%nat -> iter (sg l n) k x <> x.
Proof.
  intros Hx. destruct (return_exists l n x Hx) as [m [Hm E]].
  revert Hm E. induction m as [m IH] using lt_wf_ind. intros Hm E.
  destruct (existsb (fun k => iter (sg l n) k x =? x)%nat (seq 1 (m - 1))) eqn:Eb.
  - apply existsb_exists in Eb. destruct Eb as [k [Hk Ek]]. apply in_seq in Hk. apply Nat.eqb_eq in Ek.
    apply (IH k); auto; lia.
  - exists m. repeat split; auto. intros k Hk Ek.
    assert (existsb (fun k => iter (sg l n) k x =? x)%nat (seq 1 (m - 1)) = true); [|congruence].
    apply existsb_exists. exists k. split; [apply in_seq; lia|]. now apply Nat.eqb_eq.
Qed.

Lemma connected_mono l l' x y : (forall p, In p l -> In p l') -> connected l x y -> connected l' x y.
Proof. intros H C. induction C; eauto using connected. Qed.
Lemma connected_app_l l l' x y : connected l x y -> connected (l ++ l') x y.
Proof. apply connected_mono. intros p Hp. apply in_or_app; auto. Qed.

(** images stay in the same component *)
Lemma sg_connected l n x : pairs_below n l -> (x < n)%nat -> connected l x (sg l n x).
Proof.
  revert x; induction l as [|[i j] l IH] using rev_ind; intros x Hb Hx.
  - rewrite sg_nil by auto. constructor.
  - apply pairs_below_app in Hb. destruct Hb as [Hb Hij]. destruct (Hij i j) as [Hi Hj]; [now left|].
    assert (connected (l ++ [(i, j)]) i j) as Cij by (apply conn_pair, in_or_app; right; now left).
    rewrite sg_snoc by auto. destruct (Nat.eqb_spec x j) as [->|Hxj]; [|destruct (Nat.eqb_spec x i) as [->|Hxi]].
    + apply conn_trans with i; [now apply conn_sym|]. apply connected_app_l. auto.
    + apply conn_trans with j; auto. apply connected_app_l. auto.
    + apply connected_app_l. auto.
Qed.
Lemma iter_connected l n k x : pairs_below n l -> (x < n)%nat -> connected l x (iter (sg l n) k x).
Proof.
  intros Hb Hx. induction k as [|k IH]; simpl; [constructor|].
  apply conn_trans with (iter (sg l n) k x); auto. apply sg_connected; auto using iter_below.
Qed.

Lemma respects_connected {F} {fo : FieldOps F} l (w : list F) x y :
  respects l w -> connected l x y -> coef w x = coef w y.
Proof. intros H C. induction C; auto; congruence. Qed.

Section WithW.
Context {F : Type} {fo : FieldOps F}.
Definition inv_idx (l : list (nat * nat)) (n : nat) (w : list F) : Prop :=
  forall x, (x < n)%nat -> coef w (sg l n x) = coef w x.

Lemma respects_inv l n w : pairs_below n l -> respects l w -> inv_idx l n w.
Proof.
  intros Hb Hr x Hx. symmetry. apply (respects_connected l); auto. now apply sg_connected.
Qed.

Lemma inv_forest_respects l n w : forest l -> pairs_below n l -> inv_idx l n w -> respects l w.
Proof.
  intros Hf. revert w. induction Hf as [|l i j Hf IH Hnc]; intros w Hb Hinv.
  - intros x y [].
  - apply pairs_below_app in Hb. destruct Hb as [Hb Hij]. destruct (Hij i j) as [Hi Hj]; [now left|].
    assert (i <> j) as Hne by (intros ->; apply Hnc; constructor).
    (* w (sg l i) = w j and w (sg l j) = w i *)
    assert (coef w (sg l n i) = coef w j) as Ei.
    { specialize (Hinv j Hj). rewrite sg_snoc, Nat.eqb_refl in Hinv by auto. auto. }
    assert (coef w (sg l n j) = coef w i) as Ej.
    { specialize (Hinv i Hi). rewrite sg_snoc, Nat.eqb_refl in Hinv by auto.
      destruct (Nat.eqb_spec i j); [congruence|]. auto. }
    assert (coef w i = coef w j) as Eij.
    { destruct (first_return l n i Hi) as [m [Hm [Hr Hfirst]]].
      assert (forall k, (1 <= k <= m)%nat -> coef w (iter (sg l n) k i) = coef w j) as Hk.
      { induction k as [|k IHk]; intros Hk; [lia|]. destruct k as [|k].
        - simpl. auto.
        - change (iter (sg l n) (S (S k)) i) with (sg l n (iter (sg l n) (S k) i)).
          set (y := iter (sg l n) (S k) i) in *.
          assert (y <> i) by (apply Hfirst; lia).
          assert (y <> j).
          { intros E. apply Hnc. rewrite <- E. apply iter_connected; auto. }
          assert (y < n)%nat by (apply iter_below; auto).
          rewrite <- IHk by lia. specialize (Hinv y ltac:(auto)). rewrite sg_snoc in Hinv by auto.
          destruct (Nat.eqb_spec y j); [congruence|]. destruct (Nat.eqb_spec y i); [congruence|]. auto. }
      rewrite <- (Hk m) by lia. now rewrite Hr. }
    assert (respects l w) as Hrl.
    { apply IH; auto. intros x Hx. specialize (Hinv x Hx). rewrite sg_snoc in Hinv by auto.
      destruct (Nat.eqb_spec x j) as [E1|]; [subst x; congruence|]. destruct (Nat.eqb_spec x i) as [E2|]; [subst x; congruence|]. auto. }
    intros x y Hin. apply in_app_or in Hin. destruct Hin as [Hin|[E|[]]]; auto.
    injection E as <- <-. auto.
Qed.
End WithW.
End Swaps.

Section PermVec.
Context {F : Type} {fo : FieldOps F} {fl : FieldLaws F}.
Add Field Ffield_pp : F_th.

Lemma accumulate_powers gamma n : gamma <> 0 ->
  accumulate_vector (finv gamma) (fun _ => gamma) (Z.of_nat n) fmul = powers gamma n.
Proof.
  intros Hg. apply list_eq_nth with (d := 0).
  - rewrite accumulate_length, powers_length. lia.
  - rewrite accumulate_length, Nat2Z.id. intros i Hi.
    fold (coef (accumulate_vector (finv gamma) (fun _ => gamma) (Z.of_nat n) fmul) i).
    rewrite accumulate_mul by lia. fold (coef (powers gamma n) i). rewrite coef_powers.
    destruct (Nat.ltb_spec i n); [|lia].
    assert (forall k, prodn k (fun _ => gamma) = fpow gamma k) as Hp.
    { induction k as [|k IH]; simpl; auto. rewrite IH. ring. }
    rewrite Hp. simpl. field. auto.
Qed.

Lemma pvw_ok {E} gamma l n : gamma <> 0 -> pairs_below n l ->
  permutation_vector_from_wires (E:=E) gamma l n = Ok (map (fpow gamma) (idx l n)).
Proof.
  intros Hg Hb. unfold permutation_vector_from_wires. rewrite inverse_Some by auto.
  rewrite accumulate_powers by auto. rewrite fold_swap_ok by (rewrite powers_length; auto).
  unfold idx. rewrite map_swaps. reflexivity.
Qed.
Lemma pvw_panic {E} gamma l n : gamma = 0 \/ ~ pairs_below n l ->
  permutation_vector_from_wires (E:=E) gamma l n = Panic.
Proof.
  intros H. unfold permutation_vector_from_wires. destruct (feq_dec gamma 0) as [->|Hg].
  - unfold inverse. destruct (is_zero_spec (0:F)); congruence.
  - destruct H as [H|H]; [contradiction|]. rewrite inverse_Some by auto.
    rewrite accumulate_powers by auto. apply fold_swap_bad. now rewrite powers_length.
Qed.

Lemma coef_map_idx gamma l n i : (i < n)%nat ->
  coef (map (fpow gamma) (idx l n)) i = fpow gamma (sg l n i).
Proof.
  intros Hi. unfold coef, sg. rewrite nth_indep with (d' := fpow gamma 0) by (rewrite map_length, idx_length; auto).
  now rewrite map_nth.
Qed.

Lemma perm_invariant_idx gamma l n w : distinct_powers gamma n ->
  perm_invariant gamma n (map (fpow gamma) (idx l n)) w <-> inv_idx l n w.
Proof.
  intros Hd. split.
  - intros H x Hx. symmetry. apply H; auto using sg_below. now apply coef_map_idx.
  - intros H i j Hi Hj E. rewrite coef_map_idx in E by auto. apply Hd in E; auto using sg_below.
    subst j. symmetry. auto.
Qed.

Lemma swap_twice A (v : list A) i j : (i < length v)%nat -> (j < length v)%nat ->
  do_swap (do_swap v i j) i j = v.
Proof.
  intros Hi Hj. destruct v as [|d v']; [simpl in *; lia|]. set (v := d :: v') in *.
  apply list_eq_nth with (d := d); [now rewrite !do_swap_length|].
  intros k _. rewrite !nth_do_swap by (rewrite ?do_swap_length; auto).
  destruct (Nat.eqb_spec k j), (Nat.eqb_spec k i), (Nat.eqb_spec i j); subst; auto; try congruence;
  rewrite ?Nat.eqb_refl; auto; try (destruct (Nat.eqb_spec j i); congruence).
Qed.

Lemma swaps_duplicate l i j n : (i < n)%nat -> (j < n)%nat ->
  idx (l ++ [(i, j); (i, j)]) n = idx l n.
Proof.
  intros Hi Hj. unfold idx, swaps. rewrite fold_left_app. cbn [fold_left fst snd]. apply swap_twice.
  - fold (swaps l (seq 0 n)). now rewrite swaps_length, seq_length.
  - fold (swaps l (seq 0 n)). now rewrite swaps_length, seq_length.
Qed.
End PermVec.

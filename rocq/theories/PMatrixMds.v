(** PMatrixMds.v: products, and the matrices of the Poseidon hash, in the model of matrix.rs and mds.rs. *)
From Verif Require Import Base Spec Tools ToolsProofs KZG SnarkProofs Sound PolyDom PMatrix PMatrixSpec PMatrixProofs.
Local Open Scope F_scope.

Section M.
Context {F : Type} {fo : FieldOps F} {fl : FieldLaws F}.
Add Field Fpmm : F_th.

Lemma collect_ok {A B} (f : A -> outcome error B) (g : A -> B) l : (forall a, In a l -> f a = Ok (g a)) -> collect f l = Ok (map g l).
Proof.
  induction l as [|a l IH]; intros H; cbn [collect map]; [reflexivity|]. rewrite (H a (or_introl eq_refl)). cbn [obind].
  rewrite IH by (intros; apply H; now right). reflexivity.
Qed.
Definition table (n k : nat) (f : nat -> nat -> F) : list (list F) := map (fun i => map (fun j => f i j) (seq 0 k)) (seq 0 n).
Lemma table_shape n k f : shape n k (table n k f).
Proof.
  split; [unfold table; now rewrite map_length, seq_length|]. intros row I. unfold table in I. apply in_map_iff in I.
  destruct I as (i & <- & _). now rewrite map_length, seq_length.
Qed.
Lemma table_row n k f i : (i < n)%nat -> nth i (table n k f) [] = map (f i) (seq 0 k).
Proof. intros H. unfold table. rewrite (nth_map_seq _ (fun i => map (fun j => f i j) (seq 0 k)) 0 n i []) by exact H. reflexivity. Qed.
Lemma table_at n k f i j : (i < n)%nat -> (j < k)%nat -> at_ (table n k f) i j = f i j.
Proof. intros Hi Hj. unfold at_. rewrite table_row by exact Hi. rewrite (nth_map_seq _ (f i) 0 k j 0) by exact Hj. reflexivity. Qed.
Lemma shape_row r c (m : list (list F)) i : shape r c m -> (i < r)%nat -> length (nth i m []) = c.
Proof. intros [L C] H. apply C, nth_In. lia. Qed.
Lemma entry_ok r c (m : list (list F)) i j : shape r c m -> (i < r)%nat -> (j < c)%nat -> entry_ m i j = Ok (at_ m i j).
Proof.
  intros H Hi Hj. unfold entry_. rewrite (get_ok m i []) by (destruct H; lia). cbn [obind]. apply get_ok.
  rewrite (shape_row r c) by assumption. exact Hj.
Qed.
Lemma transpose_ok n (m : list (list F)) : shape n n m -> transpose m = Ok (table n n (fun j i => at_ m i j)).
Proof.
  intros H. unfold transpose, num_rows. rewrite (proj1 H).
  rewrite (collect_ok _ (fun j => map (fun i => at_ m i j) (seq 0 n))); [reflexivity|]. intros j Ij. apply in_seq in Ij.
  apply collect_ok. intros i Ii. apply in_seq in Ii. apply (entry_ok n n); [exact H|lia|lia].
Qed.
Lemma shape_columns0 n (m : list (list F)) : shape n n m -> num_columns m = Ok n.
Proof.
  intros H. destruct n as [|n]; [|apply (shape_columns (S n)); [exact H|lia]]. destruct H as [L _]. destruct m; [reflexivity|discriminate].
Qed.
Lemma inner_at n (m : list (list F)) i (v : list F) : shape n n m -> (i < n)%nat -> length v = n ->
  inner_product (nth i m []) v = sumn n (fun j => at_ m i j * nth j v 0).
Proof. intros H Hi L. rewrite (inner_dot n) by (try exact L; now apply (shape_row n n)). reflexivity. Qed.
Lemma map_rows {B} (f : list F -> B) (m : list (list F)) : map f m = map (fun i => f (nth i m [])) (seq 0 (length m)).
Proof.
  rewrite <- map_map with (f := fun i => nth i m []). f_equal. symmetry.
  apply (list_eq_nth _ _ _ []); [now rewrite map_length, seq_length|]. intros i Hi. rewrite map_length, seq_length in Hi.
  rewrite (nth_map_seq _ (fun i => nth i m []) 0 (length m) i []) by exact Hi. reflexivity.
Qed.
Lemma left_ok n (m : list (list F)) v : shape n n m -> length v = n ->
  left_apply m v = Ok (map (fun i => sumn n (fun j => at_ m i j * nth j v 0)) (seq 0 n)).
Proof.
  intros H L. unfold left_apply. rewrite (shape_square _ _ H). cbn [assert_ obind]. unfold num_rows. rewrite (proj1 H), L, Nat.eqb_refl.
  cbn [assert_ obind]. rewrite map_rows, (proj1 H). f_equal. apply map_ext_in. intros i Hi. apply in_seq in Hi. apply inner_at; [exact H|lia|exact L].
Qed.
Lemma column_ok n (m : list (list F)) j : shape n n m -> (j < n)%nat -> collect (fun row => get_ row j) m = Ok (map (fun i => at_ m i j) (seq 0 n)).
Proof.
  intros H Hj. rewrite (collect_ok _ (fun row => nth j row 0)).
  - rewrite map_rows, (proj1 H). reflexivity.
  - intros row I. apply get_ok. destruct H as [_ C]. rewrite (C row I). exact Hj.
Qed.
Lemma right_ok n (m : list (list F)) v : shape n n m -> length v = n ->
  right_apply m v = Ok (map (fun j => sumn n (fun i => nth i v 0 * at_ m i j)) (seq 0 n)).
Proof.
  intros H L. unfold right_apply. rewrite (shape_square _ _ H). cbn [assert_ obind]. unfold num_rows. rewrite (proj1 H), L, Nat.eqb_refl.
  cbn [assert_ obind]. apply collect_ok. intros j Hj. apply in_seq in Hj. rewrite (column_ok n) by (try exact H; lia). cbn [obind]. f_equal.
  rewrite (inner_dot n) by (try exact L; now rewrite map_length, seq_length). apply sumn_ext. intros i Hi.
  rewrite (nth_map_seq _ (fun i => at_ m i j) 0 n i 0) by exact Hi. cbn [Nat.add]. ring.
Qed.
Lemma matmul_ok n (a b : list (list F)) : shape n n a -> shape n n b ->
  matmul a b = Ok (Some (table n n (fun i j => sumn n (fun k => at_ a i k * at_ b k j)))).
Proof.
  intros Ha Hb. unfold matmul. rewrite (shape_columns0 _ _ Hb). cbn [obind]. unfold num_rows. rewrite (proj1 Ha), Nat.eqb_refl.
  rewrite (transpose_ok _ _ Hb). cbn [obind]. do 2 f_equal. rewrite map_rows, (proj1 Ha). apply map_ext_in. intros i Hi. apply in_seq in Hi.
  unfold table. rewrite map_map. apply map_ext_in. intros j Hj. apply in_seq in Hj.
  rewrite (inner_dot n); [|apply (shape_row n n); [exact Ha|lia]|now rewrite map_length, seq_length].
  apply sumn_ext. intros k Hk. rewrite (nth_map_seq _ (fun i => at_ b i j) 0 n k 0) by exact Hk. reflexivity.
Qed.

(** ** Minors *)
Lemma remove0_ok c (row : list F) : length row = S c -> remove_ 0 row = Ok (skipn 1 row).
Proof. destruct row; intros L; [discriminate|reflexivity]. Qed.
Lemma minor_rows_after (rows : list (list F)) c : (forall row, In row rows -> length row = S c) -> forall k, (0 < k)%nat ->
  minor_rows 0 0 k rows = Ok (map (skipn 1) rows).
Proof.
  induction rows as [|row rows IH]; intros H k Hk; cbn [minor_rows map]; [reflexivity|].
  destruct (Nat.eqb_spec k 0); [lia|]. rewrite (remove0_ok c) by (apply H; now left). cbn [obind].
  rewrite IH by (try lia; intros; apply H; now right). reflexivity.
Qed.
Lemma minor_ok n (m : list (list F)) : shape (S n) (S n) m -> exists h, minor m 0 0 = Ok h /\ is_minor (S n) m h.
Proof.
  intros H. unfold minor. rewrite (shape_square _ _ H). cbn [assert_ obind]. unfold num_rows. rewrite (proj1 H). cbn [Nat.ltb Nat.leb assert_ obind].
  destruct m as [|row0 m]; [destruct H; discriminate|]. cbn [minor_rows Nat.eqb].
  rewrite (minor_rows_after m n) by (try lia; intros; apply H; now right). cbn [obind].
  assert (shape n n (map (skipn 1) m)) as SH.
  { destruct H as [L C]. split; [rewrite map_length; cbn in L; lia|]. intros r I. apply in_map_iff in I. destruct I as (q & <- & I).
    rewrite skipn_length, (C q) by now right. lia. }
  rewrite (shape_square _ _ SH). cbn [assert_ obind]. exists (map (skipn 1) m). split; [reflexivity|].
  unfold is_minor. cbn [Nat.sub]. rewrite Nat.sub_0_r. split; [exact SH|]. intros i j Hi Hj. unfold at_. cbn [nth].
  change (@nil F) with (skipn 1 (@nil F)) at 1. rewrite map_nth. destruct (nth i m []) as [|x q]; cbn; [destruct j; reflexivity|reflexivity].
Qed.
(** ** The inverse, by entries *)
Lemma invert_entries n (m : list (list F)) : shape n n m -> (0 < n)%nat ->
  (invert m = Ok None /\ singular n m)
  \/ (exists i, invert m = Ok (Some i) /\ shape n n i /\ product_is_identity n i m /\ product_is_identity n m i).
Proof.
  intros H Hn. destruct (invert_spec n m H Hn) as [K|(i & E & S & A & B)]; [left; exact K|right].
  exists i. split; [exact E|]. split; [exact S|].
  assert (forall (a : list (list F)) k j, (k < n)%nat -> (j < n)%nat -> dot n (nth k a []) (fun t : nat => delta t j) = at_ a k j) as D.
  { intros a k j _ Hj. unfold dot. rewrite (sumn_single n j); [|exact Hj|].
    - unfold delta, at_. destruct (Nat.eq_dec j j); [ring|congruence].
    - intros t _ N. unfold delta. destruct (Nat.eq_dec t j); [congruence|ring]. }
  split; intros k j Hk Hj.
  - rewrite <- (A (fun t => delta t j) k Hk). apply sumn_ext. intros r Hr. fold (at_ i k r). now rewrite D.
  - rewrite <- (B (fun t => delta t j) k Hk). apply sumn_ext. intros r Hr. fold (at_ m k r). now rewrite D.
Qed.
Lemma not_both n (m i : list (list F)) : product_is_identity n i m -> singular n m -> False.
Proof.
  intros P (x & (j & Hj & N) & K). apply N. rewrite <- (dot_delta n j x Hj).
  transitivity (sumn n (fun t => sumn n (fun r => at_ i j r * at_ m r t) * x t)); [apply sumn_ext; intros t Ht; now rewrite P|].
  transitivity (sumn n (fun t => sumn n (fun r => at_ i j r * at_ m r t * x t))); [apply sumn_ext; intros t Ht; now rewrite <- sumn_mul_r|].
  rewrite sumn_swap. apply sumn_0. intros r Hr.
  transitivity (at_ i j r * sumn n (fun t => at_ m r t * x t)); [rewrite <- sumn_mul_l; apply sumn_ext; intros; ring|].
  rewrite K by exact Hr. ring.
Qed.

(** ** M' and M'' *)
Context {po : PrimeFieldOps F}.
Lemma prime_ok n (m : list (list F)) : shape (S n) (S n) m -> exists p, make_prime m = Ok p /\ inner_part (S n) m p.
Proof.
  intros H. destruct m as [|row0 m]; [destruct H; discriminate|]. cbn [make_prime].
  pose proof (proj2 H row0 (or_introl eq_refl)) as L0. destruct row0 as [|x v]; [discriminate|]. cbn [obind].
  rewrite (collect_ok _ (fun row => 0 :: skipn 1 row)).
  2:{ intros row I. destruct row as [|y q]; [pose proof (proj2 H [] (or_intror I)); discriminate|reflexivity]. }
  cbn [obind]. eexists. split; [reflexivity|]. split; [|split].
  - split; [cbn [length]; rewrite map_length; apply (proj1 H)|]. intros row [<-|I].
    + cbn [length] in *. now rewrite map_length.
    + apply in_map_iff in I. destruct I as (q & <- & I). pose proof (proj2 H q (or_intror I)) as L. cbn [length]. rewrite skipn_length. lia.
  - intros j Hj. unfold at_, delta. cbn [nth]. split.
    + destruct j; cbn [nth]; [reflexivity|]. destruct (Nat.eq_dec 0 (S j)); [discriminate|].
      clear. revert j. induction v as [|a v IH]; intros [|j]; cbn; try reflexivity. apply IH.
    + destruct j as [|j]; cbn [nth]; [reflexivity|]. destruct (Nat.eq_dec (S j) 0); [discriminate|].
      destruct (Nat.lt_ge_cases j (length m)) as [L|L].
      * rewrite nth_indep with (d' := 0 :: skipn 1 []) by (rewrite map_length; lia). rewrite (map_nth (fun row => 0 :: skipn 1 row)). reflexivity.
      * rewrite (nth_overflow (map _ m)) by (rewrite map_length; lia). reflexivity.
  - intros i j Hi Hj. unfold at_. destruct i as [|i]; [lia|]. destruct j as [|j]; [lia|]. cbn [nth].
    destruct H as [L _]. cbn [length] in L.
    rewrite nth_indep with (d' := 0 :: skipn 1 []) by (rewrite map_length; lia). rewrite (map_nth (fun row => 0 :: skipn 1 row)). cbn [nth].
    destruct (nth i m []) as [|a q]; cbn; [destruct j; reflexivity|reflexivity].
Qed.
Lemma nth_upd_same {A} (l : list A) i f d : (i < length l)%nat -> nth i (upd l i f) d = f (nth i l d).
Proof. revert i. induction l as [|a l IH]; intros [|i] H; cbn in *; try lia; [reflexivity|]. apply IH. lia. Qed.
Lemma nth_upd_diff {A} (l : list A) i k f d : k <> i -> nth k (upd l i f) d = nth k l d.
Proof. revert i k. induction l as [|a l IH]; intros [|i] [|k] H; cbn; try reflexivity; [lia|]. apply IH. lia. Qed.
Lemma nth_zeros (row : list F) j : nth j (map (fun _ => 0) row) 0 = 0.
Proof. revert j. induction row as [|a row IH]; intros [|j]; cbn; try reflexivity. apply IH. Qed.
Lemma sparse_rows_ok n (wh : list F) rows : forall i, (0 < i)%nat -> (i + length rows <= n)%nat -> (i + length rows <= S (length wh))%nat ->
  (forall row, In row rows -> length row = n) ->
  exists out, sparse_rows wh i rows = Ok out /\ length out = length rows /\ (forall row, In row out -> length row = n) /\
    forall k j, (k < length rows)%nat -> (j < n)%nat ->
      nth j (nth k out []) 0 = match j with O => nth (i + k - 1) wh 0 | S _ => delta (i + k) j end.
Proof.
  induction rows as [|row rows IH]; intros i Hi Hn Hw L; cbn [sparse_rows length] in *.
  - exists []. split; [reflexivity|]. split; [reflexivity|]. split; [intros ? []|lia].
  - pose proof (L row (or_introl eq_refl)) as L0. unfold sparse_row.
    rewrite (get_ok wh (i - 1) 0) by lia. cbn [obind]. rewrite L0.
    destruct (Nat.ltb_spec 0 n); [|lia]. destruct (Nat.ltb_spec i n); [|lia]. cbn [assert_ obind].
    destruct (IH (S i)) as (out & -> & LO & CO & AO); [lia|lia|lia|intros; apply L; now right|]. cbn [obind].
    eexists. split; [reflexivity|]. split; [cbn [length]; lia|]. split.
    + intros q [<-|I]; [rewrite !upd_length, map_length; exact L0|now apply CO].
    + intros [|k] j Hk Hj; cbn [nth].
      * rewrite Nat.add_0_r. destruct j as [|j].
        -- rewrite nth_upd_diff by lia. rewrite nth_upd_same by (rewrite map_length; lia). reflexivity.
        -- unfold delta. destruct (Nat.eq_dec i (S j)) as [->|N].
           ++ rewrite nth_upd_same by (rewrite upd_length, map_length; lia). reflexivity.
           ++ rewrite nth_upd_diff by lia. rewrite nth_upd_diff by lia. apply nth_zeros.
      * rewrite AO by lia. replace (S i + k)%nat with (i + S k)%nat by lia. reflexivity.
Qed.
(** the first column of M'' below the first row *)
Definition hat_column (n : nat) (m hi : list (list F)) (i : nat) : F := sumn n (fun k => at_ m (S k) 0 * at_ hi k i).
Lemma double_prime_ok n (m hi : list (list F)) : shape (S n) (S n) m -> shape n n hi ->
  exists s, make_double_prime m hi = Ok s /\ outer_part (S n) m s /\ forall i, (i < n)%nat -> at_ s (S i) 0 = hat_column n m hi i.
Proof.
  intros H Hh. unfold make_double_prime, make_v_w. destruct m as [|row0 m]; [destruct H; discriminate|].
  pose proof (proj2 H row0 (or_introl eq_refl)) as L0. cbn [get_ nth_error unwrap_opt obind skipn].
  destruct row0 as [|x v]; [discriminate|]. cbn [obind].
  assert (length m = n) as LM by (destruct H as [L _]; cbn in L; lia).
  rewrite (collect_ok _ (fun row => nth 0 row 0)).
  2:{ intros row I. apply get_ok. rewrite (proj2 H row (or_intror I)). lia. }
  cbn [obind]. rewrite (right_ok n) by (try exact Hh; now rewrite map_length). cbn [obind].
  set (wh := map _ (seq 0 n)). assert (length wh = n) as LW by (unfold wh; now rewrite map_length, seq_length).
  destruct (sparse_rows_ok (S n) wh m 1) as (out & -> & LO & CO & AO); [lia|lia|lia|intros; apply H; now right|]. cbn [obind].
  eexists. split; [reflexivity|]. split; [split; [|split]|].
  - split; [cbn [length]; lia|]. intros row [<-|I]; [exact L0|now apply CO].
  - intros j Hj. unfold at_. reflexivity.
  - intros i j Hi Hj. unfold at_. destruct i as [|i]; [lia|]. destruct j as [|j]; [lia|]. cbn [nth]. rewrite AO by lia. reflexivity.
  - intros i Hi. unfold at_ at 1. cbn [nth]. rewrite AO by lia. replace (1 + i - 1)%nat with i by lia. unfold wh.
    rewrite (nth_map_seq _ _ 0 n i 0) by exact Hi. unfold hat_column. cbn [Nat.add]. apply sumn_ext. intros k Hk. f_equal.
    unfold at_. cbn [nth]. change 0 with (nth 0 (@nil F) 0) at 2. rewrite (map_nth (fun row => nth 0 row 0)). reflexivity.
Qed.
Lemma product_ok n (m p s h hi : list (list F)) : is_minor (S n) m h -> inner_part (S n) m p -> outer_part (S n) m s ->
  (forall i, (i < n)%nat -> at_ s (S i) 0 = hat_column n m hi i) -> product_is_identity n hi h -> symmetric n h -> product_is (S n) p s m.
Proof.
  intros [_ Hh] (_ & P0 & P1) (_ & S0 & S1) HC PI SY i j Hi Hj. rewrite Nat.sub_succ, Nat.sub_0_r in Hh. rewrite sumn_shift.
  destruct i as [|i].
  - rewrite (proj1 (P0 0%nat ltac:(lia))), S0 by exact Hj. unfold delta. cbn.
    rewrite sumn_0; [ring|]. intros k Hk. rewrite (proj1 (P0 (S k) ltac:(lia))). unfold delta. cbn. ring.
  - rewrite (proj2 (P0 (S i) Hi)). unfold delta at 1. cbn [Nat.eq_dec]. destruct (Nat.eq_dec (S i) 0); [discriminate|].
    destruct j as [|j].
    + transitivity (sumn n (fun k => at_ h i k * hat_column n m hi k)).
      { replace (0 * at_ s 0 0) with 0 by ring. replace (0 + sumn n (fun k => at_ p (S i) (S k) * at_ s (S k) 0)) with (sumn n (fun k => at_ p (S i) (S k) * at_ s (S k) 0)) by ring.
        apply sumn_ext. intros k Hk. rewrite P1, HC, Hh by lia. reflexivity. }
      transitivity (sumn n (fun t => at_ m (S t) 0 * sumn n (fun k => at_ hi t k * at_ h k i))).
      { transitivity (sumn n (fun k => sumn n (fun t => at_ h i k * (at_ m (S t) 0 * at_ hi t k)))).
        - apply sumn_ext. intros k Hk. unfold hat_column. now rewrite <- sumn_mul_l.
        - rewrite sumn_swap. apply sumn_ext. intros t Ht. rewrite <- sumn_mul_l. apply sumn_ext. intros k Hk.
          rewrite (SY k i) by lia. ring. }
      transitivity (sumn n (fun t => delta i t * at_ m (S t) 0)).
      { apply sumn_ext. intros t Ht. rewrite PI by lia. unfold delta. destruct (Nat.eq_dec t i), (Nat.eq_dec i t); try lia; ring. }
      apply (dot_delta n i (fun t => at_ m (S t) 0)). lia.
    + transitivity (sumn n (fun k => delta j k * at_ m (S i) (S k))).
      { replace (0 * at_ s 0 (S j)) with 0 by ring. rewrite <- (Radd_0_l (F_R F_th) (sumn n (fun k => delta j k * _))). f_equal.
        apply sumn_ext. intros k Hk. rewrite P1, S1 by lia. unfold delta. destruct (Nat.eq_dec (S k) (S j)), (Nat.eq_dec j k); try lia; ring. }
      apply (dot_delta n j (fun t => at_ m (S i) (S t))). lia.
Qed.
Lemma derive_ok n (m : list (list F)) : shape (S n) (S n) m -> (0 < n)%nat ->
  (derive_mds_matrices m = Panic /\ (singular (S n) m \/ exists h, is_minor (S n) m h /\ singular n h))
  \/ (exists d, derive_mds_matrices m = Ok d /\ m_ d = m /\
      shape (S n) (S n) (m_inv d) /\ product_is_identity (S n) (m_inv d) m /\ product_is_identity (S n) m (m_inv d) /\
      is_minor (S n) m (m_hat d) /\
      shape n n (m_hat_inv d) /\ product_is_identity n (m_hat_inv d) (m_hat d) /\ product_is_identity n (m_hat d) (m_hat_inv d) /\
      inner_part (S n) m (m_prime d) /\ outer_part (S n) m (m_double_prime d) /\
      (forall i, (i < n)%nat -> at_ (m_double_prime d) (S i) 0 = hat_column n m (m_hat_inv d) i)).
Proof.
  intros H Hn. unfold derive_mds_matrices.
  destruct (invert_entries (S n) m H ltac:(lia)) as [[-> K]|(i & -> & SI & A & B)]; cbn [obind unwrap_opt].
  { left. split; [reflexivity|]. now left. }
  destruct (minor_ok n m H) as (h & -> & MH). cbn [obind].
  assert (shape n n h) as SH by (destruct MH as [SH _]; now rewrite Nat.sub_succ, Nat.sub_0_r in SH).
  destruct (invert_entries n h SH Hn) as [[-> K]|(hi & -> & SHI & C & D)]; cbn [obind unwrap_opt].
  { left. split; [reflexivity|]. right. now exists h. }
  destruct (prime_ok n m H) as (p & -> & HP). cbn [obind].
  destruct (double_prime_ok n m hi H SHI) as (s & -> & HS & HC). cbn [obind].
  right. eexists. split; [reflexivity|]. cbn [m_ m_inv m_hat m_hat_inv m_prime m_double_prime].
  split; [reflexivity|]. split; [exact SI|]. split; [exact A|]. split; [exact B|]. split; [exact MH|]. split; [exact SHI|].
  split; [exact C|]. split; [exact D|]. split; [exact HP|]. split; [exact HS|exact HC].
Qed.
End M.

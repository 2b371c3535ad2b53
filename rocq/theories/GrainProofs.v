(** GrainProofs.v: the generator of round constants follows GrainSpec.v. *)
From Verif Require Import Base Tools Grain GrainSpec.

(** ** Linear algebra over the sequences of bits *)
Fixpoint val (t : nat -> bool) (L : list nat) : bool := match L with [] => false | i :: L' => xorb (t i) (val t L') end.
Lemma val_app t L1 L2 : val t (L1 ++ L2) = xorb (val t L1) (val t L2).
Proof. induction L1 as [|x L1 IH]; cbn [val app]; [symmetry; apply xorb_false_l|]. rewrite IH, <- xorb_assoc. reflexivity. Qed.
Fixpoint odd_count (j : nat) (L : list nat) : bool := match L with [] => false | x :: L' => xorb (j =? x)%nat (odd_count j L') end.
Fixpoint xsum (N : nat) (f : nat -> bool) : bool := match N with O => false | S n => xorb (xsum n f) (f n) end.
Lemma xsum_xor N f g : xsum N (fun j => xorb (f j) (g j)) = xorb (xsum N f) (xsum N g).
Proof. induction N as [|n IH]; cbn; [reflexivity|]. rewrite IH. destruct (xsum n f), (xsum n g), (f n), (g n); reflexivity. Qed.
Lemma xsum_ext N f g : (forall j, (j < N)%nat -> f j = g j) -> xsum N f = xsum N g.
Proof. intros H. induction N as [|n IH]; cbn; [reflexivity|]. rewrite IH, H by (intros; try apply H; lia). reflexivity. Qed.
Lemma xsum_zero N f : (forall j, (j < N)%nat -> f j = false) -> xsum N f = false.
Proof. intros H. rewrite (xsum_ext N f (fun _ => false) H). clear H. induction N as [|n IH]; cbn; [reflexivity|]. rewrite IH. reflexivity. Qed.
Lemma xsum_one N f x : (x < N)%nat -> (forall j, (j < N)%nat -> j <> x -> f j = false) -> xsum N f = f x.
Proof.
  intros Hx H. induction N as [|n IH]; [lia|]. cbn. destruct (Nat.eq_dec x n) as [->|D].
  - rewrite xsum_zero; [destruct (f n); reflexivity|]. intros j Hj. apply H; lia.
  - rewrite IH by (try intros; try apply H; lia). rewrite (H n) by lia. destruct (f x); reflexivity.
Qed.
Lemma val_count t N L : forallb (fun x => x <? N)%nat L = true -> val t L = xsum N (fun j => odd_count j L && t j).
Proof.
  induction L as [|x L IH]; cbn [forallb val odd_count]; intros H; [rewrite xsum_zero; [reflexivity|intros; reflexivity]|].
  apply andb_prop in H as [Hx H]. apply Nat.ltb_lt in Hx. rewrite (IH H).
  rewrite (xsum_ext N (fun j => xorb (j =? x)%nat (odd_count j L) && t j) (fun j => xorb ((j =? x)%nat && t j) (odd_count j L && t j)))
    by (intros j _; destruct (j =? x)%nat, (odd_count j L), (t j); reflexivity).
  rewrite xsum_xor, (xsum_one N (fun j => (j =? x)%nat && t j) x Hx); [rewrite Nat.eqb_refl; reflexivity|].
  intros j _ D. apply Nat.eqb_neq in D. rewrite D. reflexivity.
Qed.
Definition rel_p (i : nat) : list nat := [i + 25; i + 11; i + 6]%nat.
Definition rel_q (i : nat) : list nat := [i + 40; i + 31; i + 19; i]%nat.
Definition bezout : list nat :=
  concat (map rel_p [0; 1; 3; 4; 5; 11; 12; 13; 24; 27; 28; 31; 32; 33; 37; 38; 39]%nat)
  ++ concat (map rel_q [0; 6; 7; 9; 10; 12; 14; 15; 16; 17; 18; 22; 23; 24]%nat).
Lemma bezout_bound : forallb (fun x => x <? 80)%nat bezout = true. Proof. vm_compute. reflexivity. Qed.
Lemma bezout_one : forallb (fun j => Bool.eqb (odd_count j bezout) (j =? 0)%nat) (seq 0 80) = true. Proof. vm_compute. reflexivity. Qed.
Lemma val_concat t L : (forall l, In l L -> val t l = false) -> val t (concat L) = false.
Proof. induction L as [|l L IH]; cbn; intros H; [reflexivity|]. rewrite val_app, (H l) by (left; reflexivity). rewrite IH; [reflexivity|]. intros l' I. apply H. right. exact I. Qed.
Lemma bezout_val t : (forall i, (i < 40)%nat -> val t (rel_p i) = false) -> (forall i, (i < 40)%nat -> val t (rel_q i) = false) -> t 0%nat = false.
Proof.
  intros HP HQ. assert (val t bezout = false) as Z0.
  { unfold bezout. rewrite val_app, !val_concat; [reflexivity| |].
    - intros l I. apply in_map_iff in I as (i & <- & I). apply HQ. cbn in I. lia.
    - intros l I. apply in_map_iff in I as (i & <- & I). apply HP. cbn in I. lia. }
  rewrite (val_count t 80 bezout bezout_bound) in Z0.
  rewrite (xsum_one 80 _ 0%nat) in Z0 by
    (try lia; intros j Hj D; pose proof bezout_one as B; rewrite forallb_forall in B; specialize (B j); rewrite in_seq in B; specialize (B ltac:(lia));
     apply eqb_prop in B; rewrite B; apply Nat.eqb_neq in D; rewrite D; reflexivity).
  exact Z0.
Qed.

Section Register.
Variable b : nat -> bool.
Hypothesis SR : shift_register b.
(** if enough bits at even places are zero, so is the first one at an odd place *)
Lemma odd_zero m : (forall k, (k < 80)%nat -> b (m + 2 * k)%nat = false) -> b (m + 1)%nat = false.
Proof.
  intros E. change (b (m + 1)%nat) with ((fun j => b (m + 1 + 2 * j)%nat) 0%nat) at 1 || idtac.
  pose (t := fun j => b (m + 1 + 2 * j)%nat). assert (t 0%nat = false) as T; [|unfold t in T; rewrite <- T; f_equal; lia].
  assert (forall k, (k < 80)%nat -> forall x, (x = m + 2 * k)%nat -> b x = false) as EE by (intros k Hk x ->; apply E; exact Hk).
  apply bezout_val; intros i Hi; cbn [rel_p rel_q val]; unfold t.
  - pose proof (SR (m + 2 * i)) as R.
    rewrite (EE (i + 40)%nat ltac:(lia) (m + 2 * i + 80)%nat), (EE (i + 31)%nat ltac:(lia) (m + 2 * i + 62)%nat), (EE (i + 19)%nat ltac:(lia) (m + 2 * i + 38)%nat), (EE i ltac:(lia) (m + 2 * i)%nat) in R by lia.
    replace (m + 1 + 2 * (i + 25))%nat with (m + 2 * i + 51)%nat by lia. replace (m + 1 + 2 * (i + 11))%nat with (m + 2 * i + 23)%nat by lia.
    replace (m + 1 + 2 * (i + 6))%nat with (m + 2 * i + 13)%nat by lia.
    destruct (b (m + 2 * i + 51)%nat), (b (m + 2 * i + 23)%nat), (b (m + 2 * i + 13)%nat); cbn in *; congruence.
  - pose proof (SR (m + 1 + 2 * i)) as R.
    rewrite (EE (i + 26)%nat ltac:(lia) (m + 1 + 2 * i + 51)%nat), (EE (i + 12)%nat ltac:(lia) (m + 1 + 2 * i + 23)%nat), (EE (i + 7)%nat ltac:(lia) (m + 1 + 2 * i + 13)%nat) in R by lia.
    replace (m + 1 + 2 * (i + 40))%nat with (m + 1 + 2 * i + 80)%nat by lia. replace (m + 1 + 2 * (i + 31))%nat with (m + 1 + 2 * i + 62)%nat by lia.
    replace (m + 1 + 2 * (i + 19))%nat with (m + 1 + 2 * i + 38)%nat by lia.
    destruct (b (m + 1 + 2 * i + 80)%nat), (b (m + 1 + 2 * i + 62)%nat), (b (m + 1 + 2 * i + 38)%nat), (b (m + 1 + 2 * i)%nat); cbn in *; congruence.
Qed.
Lemma back m : (forall i, (i < 80)%nat -> b (m + i)%nat = false) -> forall i, (i < 80)%nat -> b i = false.
Proof.
  induction m as [|m IH]; intros H; [exact H|]. apply IH. intros [|i] Hi.
  - pose proof (SR m) as R. rewrite Nat.add_0_r.
    replace (m + 80)%nat with (S m + 79)%nat in R by lia. replace (m + 62)%nat with (S m + 61)%nat in R by lia. replace (m + 51)%nat with (S m + 50)%nat in R by lia.
    replace (m + 38)%nat with (S m + 37)%nat in R by lia. replace (m + 23)%nat with (S m + 22)%nat in R by lia. replace (m + 13)%nat with (S m + 12)%nat in R by lia.
    rewrite !H in R by lia. destruct (b m); cbn in R; congruence.
  - replace (m + S i)%nat with (S m + i)%nat by lia. apply H. lia.
Qed.
Hypothesis NZ : b 50%nat = true.
Lemma some_one m : exists k, (k < 120)%nat /\ b (m + 2 * k)%nat = true.
Proof.
  destruct (existsb (fun k => b (m + 2 * k)%nat) (seq 0 120)) eqn:X.
  - apply existsb_exists in X as (k & I & H). exists k. apply in_seq in I. split; [lia|exact H].
  - exfalso. assert (forall k, (k < 120)%nat -> b (m + 2 * k)%nat = false) as E.
    { intros k Hk. destruct (b (m + 2 * k)%nat) eqn:Y; [|reflexivity]. rewrite <- X. symmetry. apply existsb_exists. exists k. split; [apply in_seq; lia|exact Y]. }
    assert (b 50%nat = false) as C; [|congruence]. apply (back m); [|lia].
    intros i Hi. destruct (Nat.Even_or_Odd i) as [[j ->]|[j ->]]; [apply E; lia|].
    replace (m + (2 * j + 1))%nat with (m + 2 * j + 1)%nat by lia. apply odd_zero.
    intros k Hk. replace (m + 2 * j + 2 * k)%nat with (m + 2 * (j + k))%nat by lia. apply E. lia.
Qed.

(** ** The generator *)
Definition window (m : nat) : list bool := map b (seq m 80).
Lemma window_get m i : (i < 80)%nat -> bit_at (window m) i = Ok (b (m + i)%nat).
Proof.
  intros H. unfold bit_at, window. erewrite nth_error_nth' with (d := b 0%nat) by (rewrite map_length, seq_length; exact H).
  rewrite map_nth, seq_nth by exact H. reflexivity.
Qed.
Lemma last_seq m : seq (S m) 80 = seq (S m) 79 ++ [(m + 80)%nat].
Proof. pose proof (seq_app 79 1 (S m)) as E. change (79 + 1)%nat with 80%nat in E. rewrite E. cbn [seq Nat.add]. replace (m + 80)%nat with (S (m + 79)) by lia. reflexivity. Qed.
Lemma gen_window m : generate_new_bit (window m) = Ok (b (m + 80)%nat, window (S m)).
Proof.
  unfold generate_new_bit. rewrite !window_get by lia. cbn [obind]. rewrite Nat.add_0_r. f_equal.
  assert (xorb (xorb (xorb (xorb (xorb (b (m + 62)%nat) (b (m + 51)%nat)) (b (m + 38)%nat)) (b (m + 23)%nat)) (b (m + 13)%nat)) (b m) = b (m + 80)%nat) as ->
    by (rewrite (SR m), !xorb_assoc; reflexivity).
  f_equal. unfold window. rewrite (last_seq m).
  rewrite map_app. change (seq m 80) with (m :: seq (S m) 79). cbn [map skipn]. reflexivity.
Qed.
Lemma clock_window n m : clock n (window m) = Ok (window (m + n)).
Proof.
  revert m. induction n as [|n IH]; intros m; cbn [clock]; [rewrite Nat.add_0_r; reflexivity|].
  rewrite gen_window. cbn [obind]. rewrite IH. f_equal. f_equal. lia.
Qed.

Variable e : nat -> nat.
Hypothesis SE : selected b e.
Definition pos (i : nat) : nat := match i with O => O | S i' => S (e i') end.
Definition after (i : nat) : list bool := window (160 + 2 * pos i).
Lemma e_lt i j : (i < j)%nat -> (e i < e j)%nat.
Proof. destruct SE as (_ & M & _). intros H. induction H as [|j H IH]; [apply M|]. specialize (M j). lia. Qed.
Lemma pos_le i : (pos i <= e i)%nat.
Proof. destruct i as [|i]; [cbn; lia|]. cbn. apply e_lt. lia. Qed.
Lemma between i k : (pos i <= k < e i)%nat -> first_of b k = false.
Proof.
  intros H. destruct (first_of b k) eqn:X; [|reflexivity]. destruct SE as (_ & _ & C). destruct (C k X) as (j & <-).
  exfalso. destruct (Nat.lt_trichotomy j i) as [L|[->|L]]; [|lia|pose proof (e_lt i j L); lia].
  destruct i as [|i]; [lia|]. cbn [pos] in H. destruct (Nat.eq_dec j i) as [->|]; [lia|]. pose proof (e_lt j i ltac:(lia)). lia.
Qed.
Lemma e_near i : (e i < pos i + 120)%nat.
Proof.
  destruct (some_one (240 + 2 * pos i)) as (k & Hk & H). destruct (Nat.lt_ge_cases (e i) (pos i + 120)) as [|G]; [assumption|exfalso].
  assert (first_of b (pos i + k) = true) as X by (unfold first_of; rewrite <- H; f_equal; lia). rewrite (between i) in X by lia. discriminate X.
Qed.
Lemma skip_ok turns i k : (pos i <= k <= e i)%nat -> (e i - k <= turns)%nat ->
  skip_pairs turns (first_of b k) (window (161 + 2 * k)) = Ok (window (161 + 2 * e i)).
Proof.
  revert k. induction turns as [|n IH]; intros k Hk Ht.
  - assert (k = e i) as -> by lia. destruct SE as (T & _). rewrite T. reflexivity.
  - destruct (Nat.eq_dec k (e i)) as [->|D]; [destruct SE as (T & _); rewrite T; reflexivity|].
    rewrite (between i k) by lia. cbn [skip_pairs]. rewrite gen_window. cbn [obind]. rewrite gen_window. cbn [obind].
    rewrite <- (IH (S k)) by lia. unfold first_of. f_equal; f_equal; lia.
Qed.
Lemma next_ok i : next (after i) = Ok (output b e i, after (S i)).
Proof.
  unfold next, after. rewrite gen_window. cbn [obind]. pose proof (pos_le i). pose proof (e_near i).
  pose proof (skip_ok 200 i (pos i) ltac:(lia) ltac:(lia)) as K. unfold first_of in K.
  replace (160 + 2 * pos i + 80)%nat with (240 + 2 * pos i)%nat by lia. replace (S (160 + 2 * pos i)) with (161 + 2 * pos i)%nat by lia.
  rewrite K. cbn [obind]. rewrite gen_window. cbn [pos]. unfold output, second_of. f_equal. f_equal; f_equal; lia.
Qed.

(** ** Bytes and numbers *)
Let out := output b e.
Lemma number_range i n : (0 <= number out i n < 2 ^ Z.of_nat n)%Z.
Proof.
  induction n as [|n IH]; [cbn; lia|]. cbn [number]. rewrite Nat2Z.inj_succ, Z.pow_succ_r by lia. destruct (out (i + n)%nat); lia.
Qed.
Lemma number_app i n m : number out i (n + m) = (number out i n * 2 ^ Z.of_nat m + number out (i + n) m)%Z.
Proof.
  induction m as [|m IH]; [rewrite Nat.add_0_r; cbn; lia|]. rewrite Nat.add_succ_r. cbn [number]. rewrite IH, Nat2Z.inj_succ, Z.pow_succ_r by lia.
  rewrite <- Nat.add_assoc. lia.
Qed.
Lemma next_byte_ok n i k : (n + k <= 8)%nat -> next_byte n (number out (i - k) k) (after i) = Ok (number out (i - k) (k + n), after (i + n)) \/ (i < k)%nat.
Proof.
  revert i k. induction n as [|n IH]; intros i k H; (destruct (Nat.lt_ge_cases i k) as [|G]; [right; assumption|left]); cbn [next_byte].
  - rewrite !Nat.add_0_r. reflexivity.
  - rewrite next_ok. cbn [obind]. fold out.
    assert ((number out (i - k) k * 2) mod 256 + (if out i then 1 else 0) = number out (S i - S k) (S k))%Z as ->.
    { cbn [number Nat.sub]. replace (i - k + k)%nat with i by lia. rewrite Z.mod_small; [lia|]. pose proof (number_range (i - k) k) as R.
      assert (2 ^ Z.of_nat k <= 2 ^ 7)%Z by (apply Z.pow_le_mono_r; lia). change (2 ^ 7)%Z with 128%Z in *. lia. }
    destruct (IH (S i) (S k) ltac:(lia)) as [->|]; [|lia]. cbn [Nat.sub]. do 3 f_equal; lia.
Qed.
Lemma next_byte_0 n i : (n <= 8)%nat -> next_byte n 0 (after i) = Ok (number out i n, after (i + n)).
Proof. intros H. destruct (next_byte_ok n i 0 ltac:(lia)) as [E|]; [|lia]. rewrite Nat.sub_0_r in E. exact E. Qed.
Definition be (l : list Z) : Z := fold_left (fun v x => 256 * v + x)%Z l 0%Z.
Lemma le_rev l : of_le_bytes (rev l) = be l.
Proof. unfold of_le_bytes, be. rewrite fold_left_rev_right. clear. generalize 0%Z. induction l as [|x l IH]; intros v; cbn [fold_left]; [reflexivity|]. rewrite IH. f_equal. lia. Qed.
Lemma fold_be l v : fold_left (fun v x => 256 * v + x)%Z l v = (v * 256 ^ Z.of_nat (length l) + be l)%Z.
Proof.
  unfold be. revert v. induction l as [|x l IH]; intros v; cbn [fold_left length]; [cbn; lia|].
  rewrite IH, (IH (256 * 0 + x)%Z), Nat2Z.inj_succ, Z.pow_succ_r by lia. lia.
Qed.
Lemma next_bytes_ok n i : exists l, next_bytes n (after i) = Ok (l, after (i + 8 * n)) /\ length l = n /\ be l = number out i (8 * n).
Proof.
  revert i. induction n as [|n IH]; intros i; cbn [next_bytes].
  - exists []. rewrite Nat.add_0_r. repeat split.
  - rewrite next_byte_0 by lia. cbn [obind]. destruct (IH (i + 8)%nat) as (l & -> & L & B). cbn [obind].
    exists (number out i 8 :: l). split; [do 3 f_equal; lia|]. split; [cbn; lia|].
    unfold be. cbn [fold_left]. rewrite fold_be, L. fold (be l). rewrite B. replace (8 * S n)%nat with (8 + 8 * n)%nat by lia.
    rewrite number_app. replace (2 ^ Z.of_nat (8 * n))%Z with (256 ^ Z.of_nat n)%Z by (rewrite Nat2Z.inj_mul, Z.pow_mul_r by lia; reflexivity). lia.
Qed.
Lemma get_bytes_ok fs i : (249 <= fs <= 256)%nat -> exists l, get_next_bytes fs 32 (after i) = Ok (l, after (i + fs)) /\ of_le_bytes (rev l) = number out i fs.
Proof.
  intros H. unfold get_next_bytes.
  set (r := if (0 <? fs mod 8)%nat then (fs mod 8)%nat else 8%nat).
  assert (r <= 8 /\ r + 248 = fs)%nat as [R8 RF].
  { unfold r. pose proof (Nat.div_mod fs 8 ltac:(lia)) as D. pose proof (Nat.mod_upper_bound fs 8 ltac:(lia)).
    destruct (Nat.ltb_spec 0 (fs mod 8)); lia. }
  assert ((if (0 <? fs mod 8)%nat then next_byte (fs mod 8) 0 (after i) else next_byte 8 0 (after i)) = next_byte r 0 (after i)) as ->
    by (unfold r; destruct (0 <? fs mod 8)%nat; reflexivity).
  rewrite next_byte_0 by exact R8. cbn [obind]. destruct (next_bytes_ok (32 - 1) (i + r)%nat) as (l & -> & L & B). cbn [obind].
  exists (number out i r :: l). split; [do 3 f_equal; lia|]. rewrite le_rev. unfold be. cbn [fold_left]. rewrite fold_be, L. fold (be l). rewrite B.
  rewrite <- RF, number_app. change (2 ^ Z.of_nat 248)%Z with (256 ^ Z.of_nat (32 - 1))%Z. change (8 * (32 - 1))%nat with 248%nat. lia.
Qed.

(** ** The constants *)
Context {F : Type} {po : PrimeFieldOps F}.
Variable fs : nat.
Hypothesis FS : (249 <= fs <= 256)%nat.
Let bits := size_in_bits (F := F).
Let cand := candidate out fs bits.
Let acc_from (j k : nat) := filter (fun v => (v <? modulus (F := F))%Z) (map cand (seq j k)).
Lemma draw_turn turns num j : draw (F := F) (S turns) (S num) fs (after (j * fs)) =
  if (cand j <? modulus (F := F))%Z then let! l := draw turns num fs (after (S j * fs)) in Ok (from_Z (cand j) :: l) else draw turns (S num) fs (after (S j * fs)).
Proof.
  cbn [draw]. destruct (get_bytes_ok fs (j * fs) FS) as (l & -> & V). cbn [obind]. unfold from_random_bytes. rewrite V.
  replace (j * fs + fs)%nat with (S j * fs)%nat by (cbn; lia). fold bits. unfold cand at 1 2, candidate.
  destruct (number out (j * fs) fs mod 2 ^ bits <? modulus (F := F))%Z; reflexivity.
Qed.
Lemma draw_ok turns : forall num j, (num <= length (acc_from j turns))%nat -> draw (F := F) turns num fs (after (j * fs)) = Ok (map from_Z (firstn num (acc_from j turns))).
Proof.
  induction turns as [|n IH]; intros num j H.
  - cbn in H. assert (num = 0)%nat as -> by lia. reflexivity.
  - destruct num as [|num]; [reflexivity|]. rewrite draw_turn. unfold acc_from in *. cbn [seq map filter] in *.
    destruct (cand j <? modulus (F := F))%Z; [|apply IH; exact H]. cbn [length] in H. rewrite IH by lia. reflexivity.
Qed.
Lemma draw_hang turns : forall num j, (length (acc_from j turns) < num)%nat -> draw (F := F) turns num fs (after (j * fs)) = Err Hang.
Proof.
  induction turns as [|n IH]; intros num j H; (destruct num as [|num]; [lia|]); [reflexivity|].
  rewrite draw_turn. unfold acc_from in *. cbn [seq map filter] in *.
  destruct (cand j <? modulus (F := F))%Z; [|apply IH; exact H]. cbn [length] in H. rewrite IH by lia. reflexivity.
Qed.
End Register.

(** ** The bits that the generator starts from *)
Definition seed (field sbox : Z) (field_size t r_f r_p : nat) : list bool :=
  append_bits (append_bits (append_bits (append_bits (append_bits (append_bits (append_bits [] 2 field) 4 sbox) 12 (Z.of_nat field_size))
    12 (Z.of_nat t)) 10 (Z.of_nat r_f)) 10 (Z.of_nat r_p)) 30 (2 ^ 30 - 1).
Lemma digits_list b start len v : digits_at b start len v -> map b (seq start len) = map (fun i => Z.testbit v (Z.of_nat i)) (rev (seq 0 len)).
Proof.
  intros H. apply (list_eq_nth bool _ _ false); [rewrite !map_length, rev_length, !seq_length; reflexivity|].
  intros i Hi. rewrite map_length, seq_length in Hi. rewrite (nth_indep _ false (b 0%nat)) by (rewrite map_length, seq_length; exact Hi).
  rewrite map_nth, seq_nth, H by exact Hi.
  rewrite (nth_indep _ false ((fun i => Z.testbit v (Z.of_nat i)) 0%nat)) by (rewrite map_length, rev_length, seq_length; exact Hi).
  rewrite (map_nth (fun i => Z.testbit v (Z.of_nat i))), rev_nth, seq_length, seq_nth by (rewrite ?seq_length; lia). do 2 f_equal. lia.
Qed.
Lemma list_digits b start len v : map b (seq start len) = map (fun i => Z.testbit v (Z.of_nat i)) (rev (seq 0 len)) -> digits_at b start len v.
Proof.
  intros H i Hi. apply (f_equal (fun l => nth i l false)) in H.
  rewrite (nth_indep _ false (b 0%nat)) in H by (rewrite map_length, seq_length; exact Hi). rewrite map_nth, seq_nth in H by exact Hi. rewrite H.
  rewrite (nth_indep _ false ((fun i => Z.testbit v (Z.of_nat i)) 0%nat)) by (rewrite map_length, rev_length, seq_length; exact Hi).
  rewrite (map_nth (fun i => Z.testbit v (Z.of_nat i))), rev_nth, seq_length, seq_nth by (rewrite ?seq_length; lia). do 2 f_equal. lia.
Qed.
Lemma ones_digits b : (forall i, (50 <= i < 80)%nat -> b i = true) <-> digits_at b 50 30 (2 ^ 30 - 1).
Proof.
  assert (forall i, (i < 30)%nat -> Z.testbit (2 ^ 30 - 1) (Z.of_nat i) = true) as T.
  { intros i Hi. change (2 ^ 30 - 1)%Z with (Z.ones 30). apply Z.ones_spec_low. lia. }
  split.
  - intros H i Hi. rewrite T by lia. apply H. lia.
  - intros H i Hi. replace i with (50 + (i - 50))%nat by lia. rewrite H, T by lia. reflexivity.
Qed.
Lemma seq_80 : seq 0 80 = seq 0 2 ++ seq 2 4 ++ seq 6 12 ++ seq 18 12 ++ seq 30 10 ++ seq 40 10 ++ seq 50 30. Proof. reflexivity. Qed.
Lemma app_split (l1 l2 l1' l2' : list bool) : l1 ++ l2 = l1' ++ l2' -> length l1 = length l1' -> l1 = l1' /\ l2 = l2'.
Proof.
  revert l1'. induction l1 as [|x l1 IH]; intros [|y l1'] X L; cbn in *; try lia; [split; [reflexivity|exact X]|].
  injection X as -> X. destruct (IH l1' X ltac:(lia)) as [-> ->]. split; reflexivity.
Qed.
Lemma seeded_window b field sbox fs t rf rp : seeded b field sbox fs t rf rp <-> window b 0 = seed field sbox fs t rf rp.
Proof.
  unfold window, seed, append_bits. rewrite seq_80, !map_app, !app_nil_l, <- !app_assoc. split.
  - intros (A & B & C & D & E & G & O). apply ones_digits in O.
    repeat (f_equal; [apply digits_list; assumption|]). apply digits_list. assumption.
  - intros H. unfold seeded. rewrite ones_digits.
    repeat (apply app_split in H; [|rewrite !map_length, ?rev_length, !seq_length; reflexivity]; let K := fresh "K" in destruct H as [K H]; apply list_digits in K).
    apply list_digits in H. repeat split; assumption.
Qed.

(** ** Every choice of parameters has a sequence, and a list of the selected pairs *)
Definition clocked (st : list bool) : list bool := match generate_new_bit st with Ok (_, s) => s | _ => st end.
Definition bits_of (st : list bool) (n : nat) : bool := nth 0 (Nat.iter n clocked st) false.
Lemma bit_ok st i : (i < length st)%nat -> bit_at st i = Ok (nth i st false).
Proof. intros H. unfold bit_at. rewrite (@nth_error_nth' bool st i false H). reflexivity. Qed.
Lemma clocked_eq st : length st = 80%nat -> clocked st =
  skipn 1 st ++ [xorb (xorb (xorb (xorb (xorb (nth 62 st false) (nth 51 st false)) (nth 38 st false)) (nth 23 st false)) (nth 13 st false)) (nth 0 st false)].
Proof. intros L. unfold clocked, generate_new_bit. rewrite !bit_ok by lia. cbn [obind]. reflexivity. Qed.
Lemma clocked_length st : length st = 80%nat -> length (clocked st) = 80%nat.
Proof. intros L. rewrite clocked_eq, app_length, skipn_length, L by exact L. reflexivity. Qed.
Lemma iter_length n st : length st = 80%nat -> length (Nat.iter n clocked st) = 80%nat.
Proof. intros L. induction n as [|n IH]; [exact L|]. cbn [Nat.iter nat_rect]. apply clocked_length, IH. Qed.
Lemma iter_nth i : forall n st, length st = 80%nat -> (i < 80)%nat -> nth i (Nat.iter n clocked st) false = bits_of st (n + i).
Proof.
  induction i as [|i IH]; intros n st L H; [rewrite Nat.add_0_r; reflexivity|].
  replace (n + S i)%nat with (S n + i)%nat by lia. rewrite <- IH by (assumption || lia).
  change (Nat.iter (S n) clocked st) with (clocked (Nat.iter n clocked st)).
  rewrite clocked_eq by (apply iter_length, L). pose proof (iter_length n st L) as LN.
  destruct (Nat.iter n clocked st) as [|x r]; [discriminate LN|]. cbn [skipn]. cbn [length] in LN. rewrite app_nth1 by lia. reflexivity.
Qed.
Lemma bits_register st : length st = 80%nat -> shift_register (bits_of st).
Proof.
  intros L n. replace (n + 80)%nat with (S n + 79)%nat by lia. rewrite <- iter_nth by (assumption || lia).
  change (Nat.iter (S n) clocked st) with (clocked (Nat.iter n clocked st)). pose proof (iter_length n st L) as LN. rewrite clocked_eq by exact LN.
  rewrite app_nth2 by (rewrite skipn_length, LN; lia). rewrite skipn_length, LN. cbn [Nat.sub nth].
  rewrite !iter_nth by (assumption || lia). rewrite Nat.add_0_r, !xorb_assoc. reflexivity.
Qed.
Lemma bits_window st : length st = 80%nat -> window (bits_of st) 0 = st.
Proof.
  intros L. unfold window. apply (list_eq_nth bool _ _ false); [rewrite map_length, seq_length; lia|].
  intros i Hi. rewrite map_length, seq_length in Hi. rewrite (nth_indep _ false (bits_of st 0%nat)) by (rewrite map_length, seq_length; exact Hi).
  rewrite map_nth, seq_nth by exact Hi. rewrite <- iter_nth by assumption. reflexivity.
Qed.
Lemma seed_length field sbox fs t rf rp : length (seed field sbox fs t rf rp) = 80%nat.
Proof. unfold seed, append_bits. rewrite !app_length, !map_length, !rev_length, !seq_length. reflexivity. Qed.

Section Select.
Variable b : nat -> bool.
Hypothesis SR : shift_register b.
Hypothesis NZ : b 50%nat = true.
Definition first_from (k : nat) : nat := match find (first_of b) (seq k 120) with Some j => j | None => k end.
Lemma find_seq n : forall k, match find (first_of b) (seq k n) with
  | Some j => (k <= j)%nat /\ first_of b j = true /\ forall i, (k <= i < j)%nat -> first_of b i = false
  | None => forall i, (k <= i < k + n)%nat -> first_of b i = false end.
Proof.
  induction n as [|n IH]; intros k; cbn [seq find]; [intros; lia|]. destruct (first_of b k) eqn:X.
  - split; [lia|]. split; [exact X|]. intros; lia.
  - specialize (IH (S k)). destruct (find (first_of b) (seq (S k) n)) as [j|].
    + destruct IH as (L & T & Z0). split; [lia|]. split; [exact T|]. intros i Hi. destruct (Nat.eq_dec i k) as [->|]; [exact X|]. apply Z0. lia.
    + intros i Hi. destruct (Nat.eq_dec i k) as [->|]; [exact X|]. apply IH. lia.
Qed.
Lemma first_from_ok k : (k <= first_from k)%nat /\ first_of b (first_from k) = true /\ forall i, (k <= i < first_from k)%nat -> first_of b i = false.
Proof.
  unfold first_from. pose proof (find_seq 120 k) as H. destruct (find (first_of b) (seq k 120)) as [j|]; [exact H|exfalso].
  destruct (some_one b SR NZ (240 + 2 * k)) as (i & Hi & T). specialize (H (k + i)%nat ltac:(lia)). unfold first_of in H.
  replace (240 + 2 * (k + i))%nat with (240 + 2 * k + 2 * i)%nat in H by lia. congruence.
Qed.
Fixpoint selects (i : nat) : nat := match i with O => first_from 0 | S i' => first_from (S (selects i')) end.
Lemma selects_ok : selected b selects.
Proof.
  split; [|split].
  - intros [|i]; apply first_from_ok.
  - intros i. cbn [selects]. pose proof (first_from_ok (S (selects i))). lia.
  - intros k H. assert (forall i, (i <= selects i)%nat) as G by (induction i as [|i IH]; [lia|]; cbn [selects]; pose proof (first_from_ok (S (selects i))); lia).
    assert (forall n, (exists i, selects i = k) \/ (selects n < k)%nat \/ (k < selects 0)%nat) as S0.
    { induction n as [|n [IH|[IH|IH]]]; [|left; exact IH| |right; right; exact IH].
      - destruct (Nat.lt_trichotomy (selects 0) k) as [|[|]]; [right; left; assumption|left; exists 0%nat; assumption|right; right; assumption].
      - destruct (Nat.lt_trichotomy (selects (S n)) k) as [|[|L]]; [right; left; assumption|left; exists (S n); assumption|].
        exfalso. cbn [selects] in L. destruct (first_from_ok (S (selects n))) as (_ & _ & Z0). rewrite (Z0 k) in H by lia. discriminate H. }
    destruct (S0 k) as [X|[X|X]]; [exact X|specialize (G k); lia|].
    exfalso. cbn [selects] in X. destruct (first_from_ok 0) as (_ & _ & Z0). rewrite (Z0 k) in H by lia. discriminate H.
Qed.
End Select.

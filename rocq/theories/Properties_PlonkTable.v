(** Properties_PlonkTable.v: C84, the lookup tables of plonk-core. *)
From Verif Require Import Base Tools IntProofs PlonkTable PlonkTableSpec.
Local Open Scope F_scope.

Section C84.
Context {F : Type} {fo : FieldOps F} {fl : FieldLaws F} {po : PrimeFieldOps F} {pl : PrimeFieldLaws F}.
Add Field F84 : F_th.
Implicit Types t : table F.

Lemma loop_rows {A} (f : A -> table F -> outcome table_error (table F)) (rows : A -> table F) l :
  (forall x t, In x l -> f x t = Ok (t ++ rows x)) -> forall t, loop f l t = Ok (t ++ flat_map rows l).
Proof.
  intros H. induction l as [|x l IH]; intros t; cbn [loop flat_map]; [rewrite app_nil_r; reflexivity|].
  rewrite H by (left; reflexivity). cbn [obind]. rewrite IH by (intros y u I; apply H; right; exact I). rewrite app_assoc. reflexivity.
Qed.
Lemma loop_panic {A} (f : A -> table F -> outcome table_error (table F)) x l :
  (forall y t, f y t = Panic \/ exists u, f y t = Ok u) -> In x l -> (forall t, f x t = Panic) -> forall t, loop f l t = Panic.
Proof.
  intros T I P. induction l as [|y l IH]; intros t; [destruct I|]. cbn [loop]. destruct I as [->|I]; [rewrite P; reflexivity|].
  destruct (T y t) as [->|[u ->]]; [reflexivity|]. cbn [obind]. apply IH. exact I.
Qed.
Lemma loop_total {A} (f : A -> table F -> outcome table_error (table F)) l :
  (forall y t, f y t = Panic \/ exists u, f y t = Ok u) -> forall t, loop f l t = Panic \/ exists u, loop f l t = Ok u.
Proof.
  intros T. induction l as [|y l IH]; intros t; cbn [loop]; [right; exists t; reflexivity|]. destruct (T y t) as [->|[u ->]]; [left; reflexivity|apply IH].
Qed.
Lemma in_range_ x lo hi : In x (range_ lo hi) <-> (lo <= x < hi)%Z.
Proof.
  unfold range_. rewrite in_map_iff. split.
  - intros (k & <- & I). apply in_seq in I. lia.
  - intros H. exists (Z.to_nat (x - lo)). split; [lia|]. apply in_seq. lia.
Qed.
Lemma range_length lo hi : length (range_ lo hi) = Z.to_nat (hi - lo).
Proof. unfold range_. rewrite map_length, seq_length. reflexivity. Qed.
Definition the_row (o : op) (n : nat) (a b : Z) : F * F * F * F := (from_Z a, from_Z b, from_Z (result o n a b), tag o).
Definition row_fn (o : op) : Z -> Z -> Z -> table F -> outcome table_error (table F) :=
  match o with Add => insert_add_row | Mul => insert_mul_row | Xor => insert_xor_row | And => insert_and_row end.
Lemma insert_eq o lower n t : insert o lower n t = insert_multi (row_fn o) lower n t.
Proof. destruct o; reflexivity. Qed.
Lemma pow_pos n : (0 < 2 ^ Z.of_nat n)%Z. Proof. apply Z.pow_pos_nonneg; lia. Qed.
Lemma bits_small (x y n : Z) (f : Z -> Z -> Z) (g : bool -> bool -> bool) : g false false = false -> (0 <= n)%Z ->
  (forall i, (0 <= i)%Z -> Z.testbit (f x y) i = g (Z.testbit x i) (Z.testbit y i)) -> (0 <= f x y)%Z ->
  (0 <= x < 2 ^ n)%Z -> (0 <= y < 2 ^ n)%Z -> (f x y mod 2 ^ n = f x y)%Z.
Proof.
  intros G Hn T P X Y. apply Z.bits_inj'. intros i Hi. destruct (Z.lt_ge_cases i n) as [L|L]; [apply Z.mod_pow2_bits_low; exact L|].
  rewrite Z.mod_pow2_bits_high by lia. rewrite T by exact Hi.
  rewrite <- (Z.mod_small x (2 ^ n) X), <- (Z.mod_small y (2 ^ n) Y), !Z.mod_pow2_bits_high by lia. symmetry. exact G.
Qed.
Lemma pow_64 n : (2 ^ Z.of_nat n <? 2 ^ 64)%Z = (n <? 64)%nat.
Proof.
  destruct (Nat.ltb_spec n 64) as [L|L]; [apply Z.ltb_lt, Z.pow_lt_mono_r; lia|apply Z.ltb_ge, Z.pow_le_mono_r; lia].
Qed.
Lemma two_eq : from_Z (F := F) 2 = 1 + 1.
Proof. replace 2%Z with (1 + 1)%Z by lia. rewrite from_Z_add, from_Z_1. reflexivity. Qed.
Lemma row_ok o n a b t : (n < 64)%nat -> (0 <= a < 2 ^ Z.of_nat n)%Z -> (0 <= b < 2 ^ Z.of_nat n)%Z -> (o = Mul -> (n <= 32)%nat) ->
  row_fn o a b (2 ^ Z.of_nat n) t = Ok (t ++ [the_row o n a b]).
Proof.
  intros Hn A B M. pose proof (pow_pos n) as PP.
  assert (forall x, rem_ x (2 ^ Z.of_nat n) = Ok (x mod 2 ^ Z.of_nat n)%Z) as RE
    by (intros x; unfold rem_; destruct (Z.eqb_spec (2 ^ Z.of_nat n) 0); [lia|reflexivity]).
  assert (2 ^ Z.of_nat n <= 2 ^ 63)%Z as P63 by (apply Z.pow_le_mono_r; lia).
  unfold the_row, tag, result. destruct o; cbn [row_fn].
  - unfold insert_add_row, u64. assert (a + b <? 2 ^ 64 = true)%Z as -> by (apply Z.ltb_lt; change (2 ^ 64)%Z with (2 * 2 ^ 63)%Z; lia).
    cbn [assert_ obind]. rewrite RE. reflexivity.
  - specialize (M eq_refl). assert (2 ^ Z.of_nat n <= 2 ^ 32)%Z as P32 by (apply Z.pow_le_mono_r; lia).
    unfold insert_mul_row, u64. assert (a * b <? 2 ^ 64 = true)%Z as -> by (apply Z.ltb_lt; change (2 ^ 64)%Z with (2 ^ 32 * 2 ^ 32)%Z; nia).
    cbn [assert_ obind]. rewrite RE. reflexivity.
  - unfold insert_xor_row. rewrite RE. cbn [obind].
    rewrite (bits_small a b (Z.of_nat n) Z.lxor xorb) by first [assumption|reflexivity|lia|intros; apply Z.lxor_spec|apply Z.lxor_nonneg; lia]. reflexivity.
  - unfold insert_and_row. rewrite RE. cbn [obind].
    rewrite (bits_small a b (Z.of_nat n) Z.land andb) by first [assumption|reflexivity|lia|intros; apply Z.land_spec|apply Z.land_nonneg; lia].
    rewrite two_eq. reflexivity.
Qed.
Lemma range_empty lo hi : (hi <= lo)%Z -> range_ lo hi = [].
Proof. intros H. unfold range_. replace (Z.to_nat (hi - lo)) with 0%nat by lia. reflexivity. Qed.
(** ** C84: inserting an operation appends exactly its rows *)
Theorem c84_insert o lower n t : fits64 o lower n ->
  exists rows, insert o lower n t = Ok (t ++ rows) /\ (forall r, In r rows <-> row_of o lower n r) /\ length rows = (Z.to_nat (2 ^ Z.of_nat n - lower) * Z.to_nat (2 ^ Z.of_nat n - lower))%nat.
Proof.
  intros (L0 & Hn & M). set (R := range_ lower (2 ^ Z.of_nat n)).
  exists (flat_map (fun a => flat_map (fun b => [the_row o n a b]) R) R). split; [|split].
  - rewrite insert_eq. unfold insert_multi, u64. rewrite pow_64. assert (n <? 64 = true)%nat as -> by (apply Nat.ltb_lt; lia). cbn [assert_ obind].
    fold R. apply (loop_rows _ (fun a => flat_map (fun b => [the_row o n a b]) R)). intros a u Ia. apply (loop_rows _ (fun b => [the_row o n a b])). intros b v Ib.
    apply in_range_ in Ia, Ib. apply row_ok; try lia. intros E. destruct (M E); [assumption|lia].
  - intros r. rewrite in_flat_map. split.
    + intros (a & Ia & I). apply in_flat_map in I as (b & Ib & [<-|[]]). apply in_range_ in Ia, Ib. exists a, b. auto.
    + intros (a & b & Ia & Ib & ->). exists a. split; [apply in_range_; exact Ia|]. apply in_flat_map. exists b. split; [apply in_range_; exact Ib|left; reflexivity].
  - assert (forall (A : Type) (f : Z -> list A) k l, (forall x, length (f x) = k) -> length (flat_map f l) = (length l * k)%nat) as FL.
    { intros A f k l H. induction l as [|x l IH]; [reflexivity|]. cbn [flat_map length]. rewrite app_length, H, IH. lia. }
    rewrite (FL _ _ (length R)) by (intros a; rewrite (FL _ _ 1%nat) by reflexivity; lia). unfold R. rewrite range_length. lia.
Qed.
Lemma row_total o a b m t : row_fn o a b m t = Panic \/ exists u, row_fn o a b m t = Ok u.
Proof.
  assert (forall x, rem_ x m = Panic \/ exists y, rem_ x m = Ok y) as RT by (intros x; unfold rem_; destruct (negb (m =? 0)%Z); [right; eexists; reflexivity|left; reflexivity]).
  assert (forall x, u64 x = Panic \/ u64 x = Ok x) as UT by (intros x; unfold u64; destruct (x <? 2 ^ 64)%Z; [right|left]; reflexivity).
  destruct o; cbn [row_fn]; unfold insert_add_row, insert_mul_row, insert_xor_row, insert_and_row.
  - destruct (UT (a + b)%Z) as [-> | ->]; [left; reflexivity|]. cbn [obind]. destruct (RT (a + b)%Z) as [-> | [y ->]]; [left; reflexivity|right; eexists; reflexivity].
  - destruct (UT (a * b)%Z) as [-> | ->]; [left; reflexivity|]. cbn [obind]. destruct (RT (a * b)%Z) as [-> | [y ->]]; [left; reflexivity|right; eexists; reflexivity].
  - destruct (RT (Z.lxor a b)) as [-> | [y ->]]; [left; reflexivity|right; eexists; reflexivity].
  - destruct (RT (Z.land a b)) as [-> | [y ->]]; [left; reflexivity|right; eexists; reflexivity].
Qed.
Theorem c84_insert_only o lower n t : (0 <= lower)%Z -> ~ fits64 o lower n -> insert o lower n t = Panic.
Proof.
  intros L0 H. rewrite insert_eq. unfold insert_multi, u64. rewrite pow_64. destruct (Nat.ltb_spec n 64) as [Hn|]; [|reflexivity]. cbn [assert_ obind].
  destruct o; try (exfalso; apply H; split; [exact L0|split; [exact Hn|discriminate]]).
  destruct (Nat.le_gt_cases n 32) as [A|A]; [exfalso; apply H; split; [exact L0|split; [exact Hn|left; exact A]]|].
  destruct (Z.le_gt_cases (2 ^ Z.of_nat n) lower) as [B|B]; [exfalso; apply H; split; [exact L0|split; [exact Hn|right; exact B]]|].
  assert (2 ^ 33 <= 2 ^ Z.of_nat n)%Z as P by (apply Z.pow_le_mono_r; lia). change (2 ^ 33)%Z with (2 * 2 ^ 32)%Z in P.
  set (x := (2 ^ Z.of_nat n - 1)%Z). assert (In x (range_ lower (2 ^ Z.of_nat n))) as I by (apply in_range_; unfold x; lia).
  apply (loop_panic _ x); [|exact I|].
  - intros a u. apply loop_total. intros b v. apply row_total.
  - intros u. apply (loop_panic _ x); [intros b v; apply row_total|exact I|].
    intros v. cbn [row_fn]. unfold insert_mul_row, u64. assert (x * x <? 2 ^ 64 = false)%Z as ->; [|reflexivity].
    apply Z.ltb_ge. change (2 ^ 64)%Z with (2 ^ 32 * 2 ^ 32)%Z. unfold x. nia.
Qed.
(** A lookup gives the result of a row, if there is one, and an error if there is none. *)
Theorem c84_lookup t a b d :
  (exists c, lookup t a b d = Ok c /\ In (a, b, c, d) t) \/ (lookup t a b d = Err ElementNotIndexed /\ forall c, ~ In (a, b, c, d) t).
Proof.
  unfold lookup. destruct (find _ t) as [[[[x y] z] w]|] eqn:E.
  - apply find_some in E as [I H]. apply andb_prop in H as [H Hw]. apply andb_prop in H as [Hx Hy].
    destruct (feqb_spec x a) as [->|]; [|discriminate Hx]. destruct (feqb_spec y b) as [->|]; [|discriminate Hy]. destruct (feqb_spec w d) as [->|]; [|discriminate Hw]. left. exists z. auto.
  - right. split; [reflexivity|]. intros c I. apply find_none with (x := (a, b, c, d)) in E; [|exact I]. rewrite !feqb_refl in E. discriminate E.
Qed.
Lemma insert_all_in l : forall t, (forall o lower n, In (o, lower, n) l -> fits64 o lower n) ->
  exists rows, insert_all l t = Ok (t ++ rows) /\ forall r, In r rows <-> exists o lower n, In (o, lower, n) l /\ row_of o lower n r.
Proof.
  induction l as [|[[o lower] n] l IH]; intros t H; cbn [insert_all].
  - exists []. split; [rewrite app_nil_r; reflexivity|]. intros r. split; [intros []|intros (? & ? & ? & [] & _)].
  - destruct (c84_insert o lower n t (H _ _ _ (or_introl eq_refl))) as (rows & -> & R & _). cbn [obind].
    destruct (IH (t ++ rows)) as (rest & -> & S0); [intros; apply H; right; assumption|].
    exists (rows ++ rest). split; [rewrite app_assoc; reflexivity|]. intros r. rewrite in_app_iff, R, S0. split.
    + intros [X|(o' & lo' & n' & I & X)]; [exists o, lower, n; split; [left; reflexivity|exact X]|exists o', lo', n'; split; [right; exact I|exact X]].
    + intros (o' & lo' & n' & [E|I] & X); [injection E as <- <- <-; left; exact X|right; exists o', lo', n'; auto].
Qed.
Lemma from_Z_inj x y : (0 <= x < modulus (F := F))%Z -> (0 <= y < modulus (F := F))%Z -> from_Z (F := F) x = from_Z y -> x = y.
Proof. intros X Y E. apply (f_equal to_Z) in E. rewrite !to_from_Z, !Z.mod_small in E by assumption. exact E. Qed.
Lemma tags_differ o o' : (3 < modulus (F := F))%Z -> tag (F := F) o = tag o' -> o = o'.
Proof.
  intros M. assert (forall z, (0 < z < modulus (F := F))%Z -> from_Z (F := F) z <> 0) as NZ.
  { intros z Hz E. rewrite <- from_Z_0 in E. apply from_Z_inj in E; lia. }
  pose proof (NZ 1%Z ltac:(lia)) as N1. pose proof (NZ 2%Z ltac:(lia)) as N2. pose proof (NZ 3%Z ltac:(lia)) as N3.
  rewrite from_Z_1 in N1. rewrite two_eq in N2. replace 3%Z with (1 + 2)%Z in N3 by lia. rewrite from_Z_add, from_Z_1, two_eq in N3.
  destruct o, o'; cbn [tag]; intros E; try reflexivity; exfalso.
  - apply N1. rewrite <- E. reflexivity.
  - apply N1. transitivity (- - (1) : F); [ring|]. rewrite <- E. ring.
  - apply N2. symmetry. exact E.
  - apply N1. exact E.
  - apply N2. transitivity (1 - - (1) : F); [ring|]. rewrite <- E. ring.
  - apply N1. transitivity (1 + 1 - 1 : F); [ring|]. rewrite <- E. ring.
  - apply N1. transitivity (- - (1) : F); [ring|]. rewrite E. ring.
  - apply N2. transitivity (1 - - (1) : F); [ring|]. rewrite E. ring.
  - apply N3. transitivity (1 + 1 - - (1) : F); [ring|]. rewrite <- E. ring.
  - apply N2. exact E.
  - apply N1. transitivity (1 + 1 - 1 : F); [ring|]. rewrite E. ring.
  - apply N3. transitivity (1 + 1 - - (1) : F); [ring|]. rewrite E. ring.
Qed.
Lemma result_range o n a b : (0 <= a < 2 ^ Z.of_nat n)%Z -> (0 <= b < 2 ^ Z.of_nat n)%Z -> (0 <= result o n a b < 2 ^ Z.of_nat n)%Z.
Proof.
  intros A B. pose proof (pow_pos n). destruct o; cbn [result]; try (apply Z.mod_pos_bound; lia).
  - rewrite <- (bits_small a b (Z.of_nat n) Z.lxor xorb) by first [assumption|reflexivity|lia|intros; apply Z.lxor_spec|apply Z.lxor_nonneg; lia]. apply Z.mod_pos_bound. lia.
  - rewrite <- (bits_small a b (Z.of_nat n) Z.land andb) by first [assumption|reflexivity|lia|intros; apply Z.land_spec|apply Z.land_nonneg; lia]. apply Z.mod_pos_bound. lia.
Qed.
(** A table of several different operations, on numbers that the field can tell apart, computes each of them: with the
    tag of an operation, it gives the result for operands in its range, and an error for all other elements; and a row with
    that tag and such operands has no other result. *)
Theorem c84_tables l t o lower n : insert_all l [] = Ok t -> (forall o' lower' n', In (o', lower', n') l -> fits64 o' lower' n') ->
  NoDup (map (fun x => fst (fst x)) l) -> In (o, lower, n) l -> (3 < modulus (F := F))%Z -> (2 ^ Z.of_nat n <= modulus (F := F))%Z ->
  (forall a b, (lower <= a < 2 ^ Z.of_nat n)%Z -> (lower <= b < 2 ^ Z.of_nat n)%Z ->
    lookup t (from_Z a) (from_Z b) (tag o) = Ok (from_Z (result o n a b)) /\ forall c, In (from_Z a, from_Z b, c, tag o) t -> c = from_Z (result o n a b)) /\
  (forall x y, ~ (lower <= to_Z x < 2 ^ Z.of_nat n /\ lower <= to_Z y < 2 ^ Z.of_nat n)%Z ->
    lookup t x y (tag o) = Err ElementNotIndexed /\ forall c, ~ In (x, y, c, tag o) t).
Proof.
  intros E FT ND I M3 MN. destruct (insert_all_in l [] FT) as (rows & E' & R). rewrite E in E'. injection E' as ->. cbn [app] in E.
  pose proof (FT _ _ _ I) as (L0 & _).
  assert (forall x y c, In (x, y, c, tag o) rows -> exists a b, (lower <= a < 2 ^ Z.of_nat n)%Z /\ (lower <= b < 2 ^ Z.of_nat n)%Z /\ x = from_Z a /\ y = from_Z b /\ c = from_Z (result o n a b)) as INV.
  { intros x y c X. apply R in X as (o' & lower' & n' & I' & a & b & A & B & X). injection X as -> -> -> T. apply tags_differ in T; [subst o'|exact M3].
    assert ((o, lower', n') = (o, lower, n)) as EQ.
    { clear -ND I I'. induction l as [|[[p q] r] l IH]; [destruct I|]. cbn [map fst] in ND. inversion ND as [|? ? NI ND']; subst.
      destruct I as [I|I], I' as [I'|I'].
      - congruence.
      - exfalso. injection I as -> -> ->. apply NI. change o with (fst (fst (o, lower', n'))). apply (in_map (fun x => fst (fst x))). exact I'.
      - exfalso. injection I' as -> -> ->. apply NI. change o with (fst (fst (o, lower, n))). apply (in_map (fun x => fst (fst x))). exact I.
      - apply IH; assumption. }
    injection EQ as -> ->. exists a, b. repeat split; assumption || lia. }
  split.
  - intros a b A B.
    assert (forall c, In (from_Z a, from_Z b, c, tag o) rows -> c = from_Z (result o n a b)) as UN.
    { intros c X. apply INV in X as (a' & b' & A' & B' & Ea & Eb & ->). apply from_Z_inj in Ea, Eb; [subst; reflexivity|lia..]. }
    split; [|exact UN]. destruct (c84_lookup rows (from_Z a) (from_Z b) (tag o)) as [(c & -> & X)|(_ & N)].
    + rewrite (UN c X). reflexivity.
    + exfalso. apply (N (from_Z (result o n a b))). apply R. exists o, lower, n. split; [exact I|]. exists a, b. auto.
  - intros x y H. assert (forall c, ~ In (x, y, c, tag o) rows) as NI.
    { intros c X. apply INV in X as (a & b & A & B & -> & -> & _). apply H. rewrite !to_from_Z, !Z.mod_small by lia. split; assumption. }
    split; [|exact NI]. destruct (c84_lookup rows x y (tag o)) as [(c & _ & X)|(E1 & _)]; [destruct (NI c X)|exact E1].
Qed.
End C84.

(** Example: sums from 0 on and exclusive disjunctions from 1 on, of 3 bits. *)
Example c84_example : (forall o lower n, In (o, lower, n) [(Add, 0%Z, 3%nat); (Xor, 1%Z, 3%nat)] -> fits64 o lower n) /\
  NoDup (map (fun x => fst (fst x)) [(Add, 0%Z, 3%nat); (Xor, 1%Z, 3%nat)]) /\
  (let! t := insert_all (F := F101) [(Add, 0%Z, 3%nat); (Xor, 1%Z, 3%nat)] [] in let! x := lookup t (from_Z 5) (from_Z 6) (tag Add) in let! y := lookup t (from_Z 5) (from_Z 6) (tag Xor) in
   Ok (to_Z x, to_Z y, length t)) = Ok (3%Z, 3%Z, 113%nat) /\
  ~ fits64 Mul 0 33.
Proof.
  split; [intros o lower n [E|[E|[]]]; injection E as <- <- <-; (split; [lia|split; [lia|intros X; discriminate X]])|].
  split; [repeat constructor; cbn; intuition discriminate|]. split; [vm_compute; reflexivity|].
  intros (_ & _ & H). destruct (H eq_refl) as [X|X]; [lia|]. vm_compute in X. apply X. reflexivity.
Qed.
Lemma ok_inj {E A} (u v : A) : @Ok E A u = Ok v -> u = v.
Proof. intros H. injection H as H. exact H. Qed.
(** Finding: for numbers that the field cannot tell apart, a lookup gives the result of other operands. *)
Theorem c84_collision_refuted : exists (t : table F101) a b, add_table 0 7 = Ok t /\ (0 <= a < 2 ^ Z.of_nat 7)%Z /\ (0 <= b < 2 ^ Z.of_nat 7)%Z /\
  lookup t (from_Z a) (from_Z b) (tag Add) <> Ok (from_Z (result Add 7 a b)).
Proof.
  destruct (c84_insert (F := F101) Add 0 7 []) as (rows & E & _); [split; [lia|split; [lia|intros X; discriminate X]]|].
  cbn [insert app] in E. exists rows. assert (add_table (F := F101) 0 7 = Ok rows) as EA by (unfold add_table; exact E).
  clear E. assert (from_Z (F := F101) 101 = from_Z 0) as C by (vm_compute; reflexivity).
  assert (from_Z (F := F101) (result Add 7 0 27) <> from_Z (result Add 7 101 27)) as D by (intros X; vm_compute in X; discriminate X).
  destruct (lookup rows (from_Z 101) (from_Z 27) (tag Add)) as [c| |] eqn:L.
  - destruct (feq_dec c (from_Z (result Add 7 0 27))) as [->|N].
    + exists 101%Z, 27%Z. split; [exact EA|]. split; [lia|]. split; [lia|]. rewrite L. intros X. exact (D (ok_inj _ _ X)).
    + exists 0%Z, 27%Z. split; [exact EA|]. split; [lia|]. split; [lia|]. rewrite <- C, L. intros X. exact (N (ok_inj _ _ X)).
  - exists 101%Z, 27%Z. split; [exact EA|]. split; [lia|]. split; [lia|]. rewrite L. discriminate.
  - exists 101%Z, 27%Z. split; [exact EA|]. split; [lia|]. split; [lia|]. rewrite L. discriminate.
Qed.

Print Assumptions c84_insert.
Print Assumptions c84_insert_only.
Print Assumptions c84_lookup.
Print Assumptions c84_tables.
Print Assumptions c84_example.
Print Assumptions c84_collision_refuted.

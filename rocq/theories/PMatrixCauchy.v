(** PMatrixCauchy.v: the matrix of [generate_mds] is a Cauchy matrix, and every square submatrix of it is
    invertible. *)
From Verif Require Import Base Spec Tools ToolsProofs KZG SnarkProofs Sound PolyDom PMatrix PMatrixSpec PMatrixProofs PMatrixMds.
Local Open Scope F_scope.

Section C.
Context {F : Type} {fo : FieldOps F} {fl : FieldLaws F}.
Add Field Fpmc : F_th.

Lemma NoDup_map_in {A B} (f : A -> B) l : (forall a b, In a l -> In b l -> f a = f b -> a = b) -> NoDup l -> NoDup (map f l).
Proof.
  induction l as [|a l IH]; intros H N; cbn [map]; [constructor|]. apply NoDup_cons_iff in N. destruct N as [Na N]. constructor.
  - intros I. apply in_map_iff in I. destruct I as (b & E & I). apply Na.
    assert (a = b) as -> by (symmetry; apply H; [now right|now left|exact E]). exact I.
  - apply IH; [|exact N]. intros b c Ib Ic. apply H; now right.
Qed.
(** the sum of the x c / (X + y c), as a fraction of two polynomials *)
Section Fraction.
Variables (x y : nat -> F).
Fixpoint denominator (cs : list nat) : list F :=
  match cs with [] => [1] | c :: cs' => let d := denominator cs' in padd (0 :: d) (pscale (y c) d) end.
Fixpoint numerator (cs : list nat) : list F :=
  match cs with
  | [] => []
  | c :: cs' => let n := numerator cs' in padd (pscale (x c) (denominator cs')) (padd (0 :: n) (pscale (y c) n))
  end.
Lemma denominator_length cs : length (denominator cs) = S (length cs).
Proof. induction cs as [|c cs IH]; [reflexivity|]. cbn [denominator]. rewrite padd_length, pscale_length. cbn [length]. rewrite IH. lia. Qed.
Lemma numerator_length cs : (length (numerator cs) <= length cs)%nat.
Proof.
  induction cs as [|c cs IH]; [cbn; lia|]. cbn [numerator]. rewrite !padd_length, !pscale_length, denominator_length. cbn [length]. lia.
Qed.
Lemma denominator_cons c cs e : peval (denominator (c :: cs)) e = (e + y c) * peval (denominator cs) e.
Proof. cbn [denominator]. rewrite peval_padd, peval_pscale. cbn [peval]. ring. Qed.
Lemma numerator_cons c cs e : peval (numerator (c :: cs)) e = x c * peval (denominator cs) e + (e + y c) * peval (numerator cs) e.
Proof. cbn [numerator]. rewrite !peval_padd, !peval_pscale. cbn [peval]. ring. Qed.
Lemma denominator_neq cs e : (forall c, In c cs -> e + y c <> 0) -> peval (denominator cs) e <> 0.
Proof.
  induction cs as [|c cs IH]; intros H.
  - cbn. replace (1 + e * 0) with 1 by ring. exact f1_neq_0.
  - rewrite denominator_cons. apply fmul_neq_0; [apply H; now left|]. apply IH. intros. apply H. now right.
Qed.
Lemma denominator_zero cs c : In c cs -> peval (denominator cs) (- y c) = 0.
Proof.
  induction cs as [|a cs IH]; intros []; rewrite denominator_cons.
  - subst a. ring.
  - rewrite IH by assumption. ring.
Qed.
Lemma fraction_value cs e : (forall c, In c cs -> e + y c <> 0) ->
  peval (numerator cs) e = peval (denominator cs) e * fsum (map (fun c => x c / (e + y c)) cs).
Proof.
  induction cs as [|c cs IH]; intros H; [cbn; ring|]. rewrite numerator_cons, denominator_cons. rewrite IH by (intros; apply H; now right).
  cbn [map]. replace (fsum (x c / (e + y c) :: map (fun c => x c / (e + y c)) cs)) with (x c / (e + y c) + fsum (map (fun c => x c / (e + y c)) cs)) by (cbn; ring).
  field. apply H. now left.
Qed.
Lemma residue cs : NoDup (map y cs) -> (forall e, peval (numerator cs) e = 0) -> forall c, In c cs -> x c = 0.
Proof.
  intros N H c I. specialize (H (- y c)). revert I H. induction cs as [|a cs IH]; [intros []|]. cbn [map] in N. apply NoDup_cons_iff in N. destruct N as [Na N].
  rewrite numerator_cons. intros I H. destruct (feq_dec (y a) (y c)) as [E|NE].
  - assert (a = c) as ->.
    { destruct I as [<-|I]; [reflexivity|]. exfalso. apply Na. rewrite E. now apply in_map. }
    assert (peval (denominator cs) (- y c) <> 0) as D.
    { apply denominator_neq. intros b Ib Z. apply Na. replace (y c) with (y b); [now apply in_map|]. apply fsub_0_eq. rewrite <- Z. ring. }
    assert (x c * peval (denominator cs) (- y c) = 0) as Z by (rewrite <- H; ring).
    apply fmul_integral in Z. destruct Z; [assumption|contradiction].
  - destruct I as [->|I]; [congruence|]. apply (IH N I). rewrite (denominator_zero cs c I) in H.
    assert ((y a - y c) * peval (numerator cs) (- y c) = 0) as Z by (rewrite <- H; ring).
    apply fmul_integral in Z. destruct Z as [Z|Z]; [|exact Z]. exfalso. apply NE. now apply fsub_0_eq.
Qed.
End Fraction.

Lemma cauchy_trivial (x y : nat -> F) (es : list F) (cs : list nat) : NoDup es -> NoDup (map y cs) -> length es = length cs ->
  (forall e c, In e es -> In c cs -> e + y c <> 0) ->
  (forall e, In e es -> fsum (map (fun c => x c / (e + y c)) cs) = 0) -> forall c, In c cs -> x c = 0.
Proof.
  intros Ne Nc L D Z. apply (residue x y cs Nc). intros e.
  assert (length (@nil F) <= length cs)%nat as L0 by (cbn; lia).
  assert (length cs <= length es)%nat as L1 by lia.
  apply (poly_agree (length cs) (numerator x y cs) [] es (numerator_length x y cs) L0 Ne L1).
  intros p I. rewrite fraction_value by (intros c Ic; now apply D). rewrite Z by exact I. cbn. ring.
Qed.

Context {po : PrimeFieldOps F} {pl : PrimeFieldLaws F}.
Notation of_nat k := (from_Z (Z.of_nat k)).
Definition cauchy_entry (n i j : nat) : F := finv (of_nat i + of_nat (n + j)).
Definition cauchy (n : nat) : list (list F) := table n n (cauchy_entry n).
Lemma of_nat_inj a b : (Z.of_nat a < modulus)%Z -> (Z.of_nat b < modulus)%Z -> of_nat a = of_nat b -> a = b.
Proof.
  intros Ha Hb E. apply (f_equal to_Z) in E. rewrite !to_from_Z, !Z.mod_small in E by lia. lia.
Qed.
Lemma of_nat_neq0 a : (0 < Z.of_nat a < modulus)%Z -> of_nat a <> 0.
Proof. intros H E. rewrite <- from_Z_0 in E. change 0%Z with (Z.of_nat 0) in E. apply of_nat_inj in E; lia. Qed.
Lemma of_nat_add a b : of_nat a + of_nat b = of_nat (a + b).
Proof. now rewrite <- from_Z_add, Nat2Z.inj_add. Qed.

Lemma map_seq_from {B} (f : nat -> B) k : forall a, map f (seq a k) = map (fun j => f (a + j)%nat) (seq 0 k).
Proof.
  induction k as [|k IH]; intros a; [reflexivity|]. cbn [seq map]. f_equal; [f_equal; lia|].
  rewrite (IH (S a)), <- seq_shift, map_map. apply map_ext. intros j. f_equal. lia.
Qed.
Section Gen.
Variable n : nat.
Hypothesis Hn : (1 <= n)%nat.
Hypothesis Big : (3 * Z.of_nat n - 2 < modulus)%Z.
Lemma cauchy_neq i j : (i < n)%nat -> (j < n)%nat -> of_nat i + of_nat (n + j) <> 0.
Proof. intros Hi Hj. rewrite of_nat_add. apply of_nat_neq0. lia. Qed.
Lemma cauchy_mds : mds_matrix n (cauchy n).
Proof.
  intros rs cs x Nr Nc L Br Bc Z. apply (cauchy_trivial x (fun c => of_nat (n + c)) (map (fun r => of_nat r) rs)).
  - apply NoDup_map_in; [|exact Nr]. intros a b Ia Ib E. apply Br in Ia, Ib. apply of_nat_inj in E; lia.
  - apply NoDup_map_in; [|exact Nc]. intros a b Ia Ib E. apply Bc in Ia, Ib. apply of_nat_inj in E; lia.
  - rewrite map_length. exact L.
  - intros e c I Ic. apply in_map_iff in I. destruct I as (r & <- & I). apply cauchy_neq; auto.
  - intros e I. apply in_map_iff in I. destruct I as (r & <- & I). rewrite <- (Z r I). f_equal. apply map_ext_in. intros c Ic.
    unfold cauchy. rewrite table_at by auto. unfold cauchy_entry. field. apply cauchy_neq; auto.
Qed.
Lemma cauchy_shape : shape n n (cauchy n). Proof. apply table_shape. Qed.
Lemma cauchy_at i j : (i < n)%nat -> (j < n)%nat -> at_ (cauchy n) i j * of_nat (i + n + j) = 1.
Proof.
  intros Hi Hj. unfold cauchy. rewrite table_at by assumption. unfold cauchy_entry.
  rewrite of_nat_add. replace (i + n + j)%nat with (i + (n + j))%nat by lia. rewrite <- of_nat_add. field. now apply cauchy_neq.
Qed.
Lemma cauchy_symmetric : symmetric n (cauchy n).
Proof.
  intros i j Hi Hj. unfold cauchy. rewrite !table_at by assumption. unfold cauchy_entry. f_equal. rewrite !of_nat_add. do 2 f_equal. lia.
Qed.
(** a submatrix is a special case: all rows and columns, and all but the first *)
Lemma all_nonsingular (m : list (list F)) : mds_matrix n m -> ~ singular n m.
Proof.
  intros M (x & (j & Hj & N) & K). apply N.
  apply (M (seq 0 n) (seq 0 n) x); try apply seq_NoDup; try reflexivity; try (intros r I; apply in_seq in I; lia).
  - intros r I. rewrite fsum_map_seq. apply K. apply in_seq in I. lia.
  - apply in_seq. lia.
Qed.
Lemma minor_nonsingular (m h : list (list F)) : mds_matrix n m -> is_minor n m h -> ~ singular (n - 1) h.
Proof.
  intros M [_ A] (x & (j & Hj & N) & K). apply N.
  assert (NoDup (seq 1 (n - 1))) as ND by apply seq_NoDup.
  replace (x j) with ((fun c => x (c - 1)%nat) (S j)) by (cbn; f_equal; lia).
  apply (M (seq 1 (n - 1)) (seq 1 (n - 1)) (fun c => x (c - 1)%nat)); try exact ND; try reflexivity; try (intros r I; apply in_seq in I; lia).
  - intros r I. apply in_seq in I. rewrite <- (K (r - 1)%nat) by lia. rewrite <- fsum_map_seq, <- seq_shift, map_map. f_equal.
    apply map_ext_in. intros c Ic. apply in_seq in Ic. rewrite A by lia. replace (S (r - 1)) with r by lia.
    replace (S c - 1)%nat with c by lia. reflexivity.
  - apply in_seq. lia.
Qed.
Lemma generate_ok : generate_mds n = Ok (cauchy n).
Proof.
  unfold generate_mds. rewrite (collect_ok _ (fun i => map (fun y => finv (of_nat i + of_nat y)) (seq n n))).
  2:{ intros i Ii. apply in_seq in Ii. apply collect_ok. intros y Iy. apply in_seq in Iy. rewrite inverse_Some; [reflexivity|].
      replace y with (n + (y - n))%nat by lia. apply cauchy_neq; lia. }
  cbn [obind].
  replace (map _ (seq 0 n)) with (cauchy n).
  2:{ unfold cauchy, table, cauchy_entry. apply map_ext. intros i. symmetry. apply (map_seq_from (fun y => finv (of_nat i + of_nat y))). }
  unfold is_invertible. rewrite (shape_square _ _ cauchy_shape). cbn [obind].
  destruct (invert_entries n (cauchy n) cauchy_shape Hn) as [[_ K]|(i & -> & _)].
  { exfalso. exact (all_nonsingular _ cauchy_mds K). }
  cbn [obind assert_]. rewrite (transpose_ok n) by exact cauchy_shape. cbn [obind].
  replace (table n n (fun j i => at_ (cauchy n) i j)) with (cauchy n).
  2:{ unfold cauchy at 1, table at 1 2. apply map_ext_in. intros i1 Hi. apply map_ext_in. intros j Hj. apply in_seq in Hi, Hj.
      rewrite cauchy_symmetric by lia. unfold cauchy. rewrite table_at by lia. reflexivity. }
  replace (forallb _ (combine _ _)) with true; [reflexivity|]. symmetry. apply forallb_forall. intros [r r'] I.
  assert (r = r') as <-.
  { clear - I. induction (cauchy n) as [|a l IH]; [destruct I|]. destruct I as [E|I]; [congruence|auto]. }
  rewrite Nat.eqb_refl. cbn [andb]. apply forallb_forall. intros [u v] J.
  assert (u = v) as <-.
  { clear - J. induction r as [|a l IH]; [destruct J|]. destruct J as [E|J]; [congruence|auto]. }
  destruct (feqb_spec u u); congruence.
Qed.
End Gen.
End C.

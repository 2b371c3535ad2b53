(** Properties_PMatrix.v: the matrices of the Poseidon hash (C80). *)
From Verif Require Import Base Spec Tools ToolsProofs KZG SnarkProofs IntProofs PMatrix PMatrixSpec PMatrixProofs PMatrixMds PMatrixCauchy.
Local Open Scope F_scope.

Section S.
Context {F : Type} {fo : FieldOps F} {fl : FieldLaws F}.
Add Field Fpropmatrix : F_th.
Implicit Types m : matrix F.

(** [invert] of a square matrix does not panic; a result is the inverse, on both sides, and there is none
    exactly if the matrix takes some vector other than zero to zero. *)
Theorem c80_invert n m : shape n n m -> (0 < n)%nat ->
  exists o, invert m = Ok o /\ (o = None <-> singular n m) /\
    forall i, o = Some i -> shape n n i /\ product_is_identity n i m /\ product_is_identity n m i.
Proof.
  intros H Hn. destruct (invert_entries n m H Hn) as [[-> K]|(i & -> & SI & A & B)].
  - exists None. split; [reflexivity|]. split; [tauto|]. intros i E. discriminate.
  - exists (Some i). split; [reflexivity|]. split.
    + split; [discriminate|]. intros K. exfalso. exact (not_both n m i A K).
    + intros j E. injection E as <-. tauto.
Qed.
Theorem c80_is_invertible n m : shape n n m -> (0 < n)%nat ->
  exists b : bool, is_invertible m = Ok b /\ (b = true <-> exists i, shape n n i /\ product_is_identity n i m).
Proof.
  intros H Hn. unfold is_invertible. rewrite (shape_square _ _ H). cbn [obind].
  destruct (invert_entries n m H Hn) as [[-> K]|(i & -> & SI & A & B)]; cbn [obind].
  - exists false. split; [reflexivity|]. split; [discriminate|]. intros (i & _ & P). exfalso. exact (not_both n m i P K).
  - exists true. split; [reflexivity|]. split; [|reflexivity]. intros _. exists i. tauto.
Qed.
(** The product with a column vector, with a row vector, and of two square matrices; the transposed matrix. *)
Theorem c80_apply n m v : shape n n m -> length v = n ->
  exists l r, left_apply m v = Ok l /\ right_apply m v = Ok r /\ length l = n /\ length r = n /\
    forall k, (k < n)%nat -> nth k l 0 = sumn n (fun j => at_ m k j * nth j v 0) /\ nth k r 0 = sumn n (fun i => nth i v 0 * at_ m i k).
Proof.
  intros H L. eexists _, _. split; [apply (left_ok n); assumption|]. split; [apply (right_ok n); assumption|].
  rewrite !map_length, !seq_length. split; [reflexivity|]. split; [reflexivity|]. intros k Hk.
  rewrite !(nth_map_seq F) by exact Hk. now split.
Qed.
Theorem c80_product n (a b : matrix F) : shape n n a -> shape n n b ->
  exists c t, matmul a b = Ok (Some c) /\ shape n n c /\ product_is n a b c /\
    transpose a = Ok t /\ shape n n t /\ forall i j, (i < n)%nat -> (j < n)%nat -> at_ t i j = at_ a j i.
Proof.
  intros Ha Hb. eexists _, _. split; [apply (matmul_ok n); assumption|]. split; [apply table_shape|]. split.
  { intros i j Hi Hj. now rewrite table_at. }
  split; [apply (transpose_ok n); assumption|]. split; [apply table_shape|]. intros i j Hi Hj. now rewrite table_at.
Qed.
(** Finding: of matrices that are not square, the transposed matrix and products are wrong: they are refused
    or panic or lack columns. A row times a column panics; a column times a row has one column. *)
Theorem c80_not_square_refuted (p q r s : F) :
  matmul [[p; q]] [[r]; [s]] = Panic /\ matmul [[p]; [q]] [[r; s]] = Ok (Some [[p * r]; [q * r]]) /\
  matmul [[p; q]] [[r; s]; [r; s]] = Ok None /\ transpose [[p; q]] = Ok [[p]] /\ transpose [[p]; [q]] = Panic.
Proof.
  split; [reflexivity|]. split; [|split; [reflexivity|split; reflexivity]].
  change (matmul [[p]; [q]] [[r; s]]) with (@Ok error (option (matrix F)) (Some [[0 + p * r]; [0 + q * r]])).
  replace (0 + p * r) with (p * r) by ring. replace (0 + q * r) with (q * r) by ring. reflexivity.
Qed.

Context {po : PrimeFieldOps F} {pl : PrimeFieldLaws F}.
(** The matrices derived from a matrix: its inverse, its minor and its inverse, and the factors of the form
    needed. The product of the factors is the matrix if the minor is symmetric. There is a panic exactly if
    the matrix or its minor has no inverse. *)
Theorem c80_derive n m : shape n n m -> (2 <= n)%nat ->
  (derive_mds_matrices m = Panic <-> (singular n m \/ exists h, is_minor n m h /\ singular (n - 1) h)) /\
  (derive_mds_matrices m = Panic \/ exists d, derive_mds_matrices m = Ok d) /\
  forall d, derive_mds_matrices m = Ok d ->
    m_ d = m /\ shape n n (m_inv d) /\ product_is_identity n (m_inv d) m /\ product_is_identity n m (m_inv d) /\
    is_minor n m (m_hat d) /\ shape (n - 1) (n - 1) (m_hat_inv d) /\
    product_is_identity (n - 1) (m_hat_inv d) (m_hat d) /\ product_is_identity (n - 1) (m_hat d) (m_hat_inv d) /\
    inner_part n m (m_prime d) /\ outer_part n m (m_double_prime d) /\
    (symmetric (n - 1) (m_hat d) -> product_is n (m_prime d) (m_double_prime d) m).
Proof.
  intros H Hn. destruct n as [|n]; [lia|]. cbn [Nat.sub]. rewrite Nat.sub_0_r.
  assert (forall h h', is_minor (S n) m h -> is_minor (S n) m h' -> singular n h' -> singular n h) as SAME.
  { intros h h' [_ A] [_ A'] (x & N & K). exists x. split; [exact N|]. intros i Hi. rewrite <- (K i Hi). apply sumn_ext. intros j Hj.
    rewrite A, A' by lia. reflexivity. }
  destruct (derive_ok n m H ltac:(lia)) as [[E K]|(d & E & M0 & SI & A & B & MH & SHI & C & D & HP & HS & HC)]; rewrite E.
  - split; [tauto|]. split; [tauto|]. discriminate.
  - split; [|split].
    + split; [discriminate|]. intros [K|(h & MH' & K)]; exfalso.
      * exact (not_both _ _ _ A K).
      * exact (not_both _ _ _ C (SAME _ _ MH MH' K)).
    + right. now exists d.
    + intros d' E'. injection E' as <-. split; [exact M0|]. split; [exact SI|]. split; [exact A|]. split; [exact B|]. split; [exact MH|].
      split; [exact SHI|]. split; [exact C|]. split; [exact D|]. split; [exact HP|]. split; [exact HS|].
      intros SY. now apply (product_ok n m _ _ (m_hat d) (m_hat_inv d)).
Qed.
(** The matrix of a width: it exists exactly if 3 t - 2 is less than the modulus (and t is not 0). Its entry
    in row i and column j is the inverse of i + t + j; it is symmetric, and all its square submatrices are
    invertible. *)
Theorem c80_generate n : (1 <= n)%nat -> (3 * Z.of_nat n - 2 < modulus (F := F))%Z ->
  exists m, generate_mds n = Ok m /\ shape n n m /\ symmetric n m /\ mds_matrix n m /\
    forall i j, (i < n)%nat -> (j < n)%nat -> at_ m i j * from_Z (Z.of_nat (i + n + j)) = 1.
Proof.
  intros Hn Big. exists (cauchy n). split; [now apply generate_ok|]. split; [apply cauchy_shape|]. split; [now apply cauchy_symmetric|].
  split; [now apply cauchy_mds|]. intros i j Hi Hj. now apply cauchy_at.
Qed.
Lemma collect_panic {A B} (f : A -> outcome error B) l : (forall a, In a l -> f a = Panic \/ exists b, f a = Ok b) ->
  (exists a, In a l /\ f a = Panic) -> collect f l = Panic.
Proof.
  induction l as [|a l IH]; intros H (c & I & E); [destruct I|]. cbn [collect].
  destruct (H a (or_introl eq_refl)) as [->|[b Eb]]; [reflexivity|]. rewrite Eb. cbn [obind].
  rewrite IH; [reflexivity|intros; apply H; now right|]. exists c. split; [|exact E]. destruct I as [->|I]; [congruence|exact I].
Qed.
Lemma collect_total {A B} (f : A -> outcome error B) l : (forall a, In a l -> f a = Panic \/ exists b, f a = Ok b) ->
  collect f l = Panic \/ exists b, collect f l = Ok b.
Proof.
  induction l as [|a l IH]; intros H; cbn [collect]; [right; now exists []|].
  destruct (H a (or_introl eq_refl)) as [->|[b ->]]; [now left|]. cbn [obind].
  destruct IH as [->|[bs ->]]; [intros; apply H; now right|now left|]. right. now exists (b :: bs).
Qed.
Theorem c80_small_field_refuted n : n = 0%nat \/ (modulus (F := F) <= 3 * Z.of_nat n - 2)%Z -> generate_mds n = Panic.
Proof.
  intros [->|Small]; [reflexivity|]. unfold generate_mds.
  pose proof (modulus_gt1 (F := F)) as G1.
  assert (exists i y, (i < n)%nat /\ (n <= y < 2 * n)%nat /\ from_Z (Z.of_nat i) + from_Z (Z.of_nat y) = 0) as (i & y & Hi & Hy & E).
  { assert (exists s, (Z.of_nat n <= s <= 3 * Z.of_nat n - 2)%Z /\ (s mod modulus (F := F) = 0)%Z) as (s & Hs & Ms).
    { destruct (Z.le_gt_cases (Z.of_nat n) (modulus (F := F))) as [L|L].
      - exists (modulus (F := F)). split; [lia|]. apply Z_mod_same_full.
      - set (k := ((2 * Z.of_nat n - 1) / modulus (F := F))%Z). exists (k * modulus (F := F))%Z. split; [|apply Z_mod_mult].
        pose proof (Z_div_mod_eq_full (2 * Z.of_nat n - 1) (modulus (F := F))) as D. fold k in D.
        assert (Z.lt 0 (modulus (F := F))) as G0 by lia; pose proof (Z.mod_pos_bound (2 * Z.of_nat n - 1) (modulus (F := F)) G0) as R. rewrite (Z.mul_comm (modulus (F := F)) k) in D. generalize dependent (k * modulus (F := F))%Z. generalize dependent ((2 * Z.of_nat n - 1) mod modulus (F := F))%Z. clear k. intros; lia. }
    set (i := Z.to_nat (Z.max 0 (s - (2 * Z.of_nat n - 1)))). exists i, (Z.to_nat s - i)%nat.
    split; [unfold i; lia|]. split; [unfold i; lia|]. rewrite <- from_Z_add. replace (Z.of_nat i + Z.of_nat (Z.to_nat s - i))%Z with s by (unfold i; lia).
    rewrite <- (from_to_Z (from_Z s)), to_from_Z, Ms. apply from_Z_0. }
  assert (forall A (o : option A), @unwrap_opt error A o = Panic \/ exists b, @unwrap_opt error A o = Ok b) as UW
    by (intros A [a|]; [right; now exists a|now left]).
  rewrite collect_panic; [reflexivity| |].
  - intros a _. apply collect_total. intros b _. apply UW.
  - exists i. split; [apply in_seq; lia|]. apply collect_panic; [intros b _; apply UW|]. exists y. split; [apply in_seq; lia|].
    rewrite E, inverse_None by reflexivity. reflexivity.
Qed.
(** All the matrices of a width of at least 2 exist, and the product of the factors is the matrix. *)
Theorem c80_new n : (2 <= n)%nat -> (3 * Z.of_nat n - 2 < modulus (F := F))%Z ->
  exists d, new_mds n = Ok d /\ generate_mds n = Ok (m_ d) /\ derive_mds_matrices (m_ d) = Ok d /\
    product_is n (m_prime d) (m_double_prime d) (m_ d) /\ product_is_identity n (m_inv d) (m_ d).
Proof.
  intros Hn Big. assert (1 <= n)%nat as H1 by lia. unfold new_mds. rewrite (generate_ok n H1 Big). cbn [obind].
  destruct (c80_derive n (cauchy n) (cauchy_shape n) Hn) as [P [T D]].
  destruct T as [T|[d E]].
  - exfalso. apply P in T. destruct T as [K|(h & MH & K)].
    + exact (all_nonsingular n H1 _ (cauchy_mds n H1 Big) K).
    + exact (minor_nonsingular n H1 _ _ (cauchy_mds n H1 Big) MH K).
  - destruct (D d E) as (M0 & SI & A & B & MH & SHI & C & D0 & HP & HS & PR). exists d. rewrite M0.
    split; [exact E|]. split; [reflexivity|]. split; [exact E|]. split; [|exact A]. apply PR.
    destruct MH as [_ MH]. intros i j Hi Hj. rewrite !MH by lia. apply cauchy_symmetric; lia.
Qed.
(** Finding: width 1 panics: the minor of a matrix of one entry is empty. *)
Theorem c80_width_one_refuted : new_mds 1 = Panic.
Proof.
  unfold new_mds. destruct (Z.lt_ge_cases (3 * Z.of_nat 1 - 2) (modulus (F := F))) as [B|B].
  - rewrite (generate_ok 1 (le_n 1) B). cbn [obind]. unfold derive_mds_matrices.
    destruct (invert_entries 1 (cauchy 1) (cauchy_shape 1) Nat.lt_0_1) as [[-> _]|(i & -> & _)]; [reflexivity|]. reflexivity.
  - rewrite c80_small_field_refuted; [reflexivity|]. now right.
Qed.
End S.

(** A matrix over the field of 101 elements: its inverse; one without. *)
Definition m80 (x : Z) : matrix F101 := [[f101 0; f101 2; f101 3]; [f101 4; f101 5; f101 x]; [f101 1; f101 7; f101 2]].
Definition eqm (a b : matrix F101) : bool := forallb (fun '(r, r') => forallb (fun '(x, y) => feqb x y) (combine r r')) (combine a b).
Example c80_example :
  (match invert (m80 6) with Ok (Some i) => negb (eqm i (m80 6)) && match matmul i (m80 6) with Ok (Some u) => eqm u (identity 3) | _ => false end | _ => false end = true) /\
  (match invert [[f101 1; f101 2]; [f101 3; f101 6]] with Ok None => true | _ => false end = true) /\
  (match new_mds (F := F101) 3 with Ok d => match matmul (m_prime d) (m_double_prime d) with Ok (Some u) => eqm u (m_ d) | _ => false end | _ => false end = true) /\
  (3 * Z.of_nat 3 - 2 < modulus (F := F101))%Z.
Proof. repeat split; vm_compute; reflexivity. Qed.
(** Finding: for a matrix whose minor is not symmetric the product of the factors is another matrix: the
    minor is applied to the wrong side. *)
Theorem c80_factors_refuted : exists (m : matrix F101) d, shape 3 3 m /\ derive_mds_matrices m = Ok d /\
  ~ product_is 3 (m_prime d) (m_double_prime d) m.
Proof.
  assert (match derive_mds_matrices (m80 6) with Ok d => negb (feqb (sumn 3 (fun k => at_ (m_prime d) 1 k * at_ (m_double_prime d) k 0)) (at_ (m80 6) 1 0)) | _ => false end = true) as R by (vm_compute; reflexivity).
  exists (m80 6). destruct (derive_mds_matrices (m80 6)) as [d| |] eqn:E; [|discriminate R|discriminate R]. exists d.
  split; [split; [reflexivity|]; intros row [<-|[<-|[<-|[]]]]; reflexivity|]. split; [reflexivity|].
  intros P. rewrite (P 1%nat 0%nat) in R by lia. destruct (feqb_spec (at_ (m80 6) 1 0) (at_ (m80 6) 1 0)); [discriminate R|congruence].
Qed.

Print Assumptions c80_invert.
Print Assumptions c80_is_invertible.
Print Assumptions c80_apply.
Print Assumptions c80_product.
Print Assumptions c80_not_square_refuted.
Print Assumptions c80_derive.
Print Assumptions c80_generate.
Print Assumptions c80_small_field_refuted.
Print Assumptions c80_new.
Print Assumptions c80_width_one_refuted.
Print Assumptions c80_factors_refuted.
Print Assumptions c80_example.

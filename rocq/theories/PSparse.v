(** PSparse.v: the sparse matrices of the partial rounds, in the model of mds.rs. *)
From Verif Require Import Base Spec Tools ToolsProofs KZG SnarkProofs PoseidonSpec PMatrix PMatrixSpec PMatrixProofs PMatrixMds.
Local Open Scope F_scope.

Section Sp.
Context {F : Type} {fo : FieldOps F} {fl : FieldLaws F} {po : PrimeFieldOps F}.
Add Field Fpsp : F_th.
Implicit Types s : nat -> F.
Variable n : nat.       (* one less than the size *)
Notation N := (S n).

Definition same (m : nat) s s' : Prop := forall i, (i < m)%nat -> s i = s' i.
Lemma mix_same m M s s' : same m s s' -> forall j, mix m M s j = mix m M s' j.
Proof. intros H j. unfold mix. apply sumn_ext. intros i Hi. now rewrite H. Qed.
Lemma mix_product m (a b p : list (list F)) s j : product_is m a b p -> (j < m)%nat -> mix m (at_ b) (mix m (at_ a) s) j = mix m (at_ p) s j.
Proof.
  intros P Hj. unfold mix.
  transitivity (sumn m (fun i => sumn m (fun k => s k * at_ a k i * at_ b i j))); [apply sumn_ext; intros i _; now rewrite <- sumn_mul_r|].
  rewrite sumn_swap. apply sumn_ext. intros k Hk. rewrite <- (P k j Hk Hj), <- sumn_mul_l. apply sumn_ext. intros i _. ring.
Qed.
(** a function of the element 0 *)
Definition on_first (f : F -> F) s (i : nat) : F := if (i =? 0)%nat then f (s 0%nat) else s i.
Lemma on_first_same f s s' : same N s s' -> same N (on_first f s) (on_first f s').
Proof. intros H i Hi. unfold on_first. destruct (i =? 0)%nat; [f_equal; apply H; lia|now apply H]. Qed.
Lemma commute (m p : list (list F)) f s j : inner_part N m p -> (j < N)%nat -> mix N (at_ p) (on_first f s) j = on_first f (mix N (at_ p) s) j.
Proof.
  intros (_ & P0 & _) Hj. unfold mix, on_first. destruct (Nat.eqb_spec j 0) as [->|NE].
  - assert (forall t : nat -> F, sumn N (fun i => t i * at_ p i 0) = t 0%nat) as D.
    { intros t. rewrite <- (dot_delta N 0 t) by lia. apply sumn_ext. intros i Hi. rewrite (proj2 (P0 i Hi)).
      unfold delta. destruct (Nat.eq_dec i 0), (Nat.eq_dec 0 i); try lia; ring. }
    rewrite (D (fun i => if (i =? 0)%nat then f (s 0%nat) else s i)), (D s). reflexivity.
  - rewrite !sumn_shift. cbn [Nat.eqb]. rewrite (proj1 (P0 j Hj)). unfold delta. destruct (Nat.eq_dec 0 j); [lia|]. ring_simplify.
    reflexivity.
Qed.

(** ** All factorizations succeed *)
Definition nonsingular (m : nat) (M : nat -> nat -> F) : Prop :=
  forall x, (forall i, (i < m)%nat -> sumn m (fun j => M i j * x j) = 0) -> forall j, (j < m)%nat -> x j = 0.
Lemma nonsingular_iff m (M : list (list F)) : ~ singular m M -> nonsingular m (at_ M).
Proof.
  intros NS x K j Hj. destruct (feq_dec (x j) 0) as [E|NE]; [exact E|]. exfalso. apply NS. exists x. split; [exists j; tauto|exact K].
Qed.
Lemma singular_not m (M : list (list F)) : nonsingular m (at_ M) -> ~ singular m M.
Proof. intros NS (x & (j & Hj & NE) & K). apply NE. now apply NS. Qed.
Definition inner (M : nat -> nat -> F) (i j : nat) : F := M (S i) (S j).
(** what is needed of the matrices met on the way, for the matrix [base] *)
Definition fine (base curr : list (list F)) : Prop :=
  shape N N curr /\ nonsingular N (at_ curr) /\ nonsingular n (inner (at_ curr)) /\
  (forall i j, (i < n)%nat -> (j < n)%nat -> at_ curr (S i) (S j) = at_ curr (S j) (S i)) /\
  (forall i j, (i < n)%nat -> (j < n)%nat ->
     sumn n (fun k => at_ base (S i) (S k) * at_ curr (S k) (S j)) = sumn n (fun k => at_ curr (S i) (S k) * at_ base (S k) (S j))).
Lemma fine_derive base curr : fine base curr -> (0 < n)%nat ->
  exists d, derive_mds_matrices curr = Ok d /\ inner_part N curr (m_prime d) /\ outer_part N curr (m_double_prime d) /\
    product_is N (m_prime d) (m_double_prime d) curr.
Proof.
  intros (SC & NC & NI & SY & _) Hn.
  destruct (derive_ok n curr SC Hn) as [[_ [K|(h & [_ MH] & K)]]|(d & E & _ & _ & _ & _ & MH & _ & C & _ & HP & HS & HC)].
  - exfalso. exact (singular_not _ _ NC K).
  - exfalso. destruct K as (x & (j & Hj & NE) & K). apply NE. apply NI; [|exact Hj]. intros i Hi. rewrite <- (K i Hi).
    apply sumn_ext. intros k Hk. unfold inner. now rewrite MH by lia.
  - exists d. split; [exact E|]. split; [exact HP|]. split; [exact HS|]. apply (product_ok n curr _ _ (m_hat d) (m_hat_inv d)); try assumption.
    destruct MH as [_ MH]. intros i j Hi Hj. rewrite !MH by lia. now apply SY.
Qed.
Lemma fine_next base curr p : fine base base -> fine base curr -> inner_part N curr p ->
  exists next, matmul base p = Ok (Some next) /\ product_is N base p next /\ fine base next.
Proof.
  intros (SB & NB & NIB & SYB & _) (SC & NC & NI & SY & CO) (SP & P0 & P1).
  rewrite (matmul_ok N base p SB SP). eexists. split; [reflexivity|].
  set (next := table N N _). assert (product_is N base p next) as PR.
  { intros i j Hi Hj. unfold next. now rewrite table_at. }
  split; [exact PR|].
  assert (forall i j, (i < n)%nat -> (j < n)%nat -> at_ next (S i) (S j) = sumn n (fun k => at_ base (S i) (S k) * at_ curr (S k) (S j))) as IN.
  { intros i j Hi Hj. rewrite <- PR by lia. rewrite sumn_shift, (proj1 (P0 (S j) ltac:(lia))). unfold delta. cbn [Nat.eq_dec].
    destruct (Nat.eq_dec 0 (S j)); [discriminate|].
    transitivity (sumn n (fun k => at_ base (S i) (S k) * at_ p (S k) (S j))); [ring|]. apply sumn_ext. intros k Hk. now rewrite P1 by lia. }
  split; [apply table_shape|]. split; [|split; [|split]].
  - intros x K.
    assert (forall i, (i < N)%nat -> sumn N (fun k => at_ p i k * x k) = 0) as KP.
    { intros i0 Hi0. pose (y := fun i => sumn N (fun k => at_ p i k * x k)). apply (NB y); [|exact Hi0]. intros i Hi. rewrite <- (K i Hi). unfold y.
      transitivity (sumn N (fun j => sumn N (fun k => at_ base i j * (at_ p j k * x k)))); [apply sumn_ext; intros j _; now rewrite <- sumn_mul_l|].
      rewrite sumn_swap. apply sumn_ext. intros k Hk. rewrite <- (PR i k Hi Hk), <- sumn_mul_r. apply sumn_ext. intros j _. ring. }
    assert (x 0%nat = 0) as X0.
    { rewrite <- (KP 0%nat ltac:(lia)). rewrite <- (dot_delta N 0 x) at 1 by lia. apply sumn_ext. intros k Hk. now rewrite (proj1 (P0 k Hk)). }
    intros [|j] Hj; [exact X0|]. apply (NI (fun j => x (S j))); [|lia]. intros i Hi.
    rewrite <- (KP (S i) ltac:(lia)). rewrite sumn_shift, X0. transitivity (sumn n (fun k => at_ p (S i) (S k) * x (S k))); [|ring].
    apply sumn_ext. intros k Hk. unfold inner. now rewrite P1 by lia.
  - intros x K. apply NI. intros i0 Hi0. pose (y := fun i => sumn n (fun k => inner (at_ curr) i k * x k)). apply (NIB y); [|exact Hi0].
    intros i Hi. rewrite <- (K i Hi). unfold y, inner.
    transitivity (sumn n (fun j => sumn n (fun k => at_ base (S i) (S j) * (at_ curr (S j) (S k) * x k)))); [apply sumn_ext; intros j _; now rewrite <- sumn_mul_l|].
    rewrite sumn_swap. apply sumn_ext. intros k Hk. rewrite (IN i k Hi Hk), <- sumn_mul_r. apply sumn_ext. intros j _. ring.
  - intros i j Hi Hj. rewrite !IN by assumption. rewrite CO by assumption. apply sumn_ext. intros k Hk.
    rewrite (SY i k), (SYB k j) by assumption. ring.
  - intros i j Hi Hj.
    transitivity (sumn n (fun k => sumn n (fun l => at_ base (S i) (S k) * (at_ curr (S k) (S l) * at_ base (S l) (S j))))).
    { apply sumn_ext. intros k Hk. rewrite IN by assumption. rewrite CO by assumption. now rewrite <- sumn_mul_l. }
    rewrite sumn_swap. apply sumn_ext. intros l Hl. rewrite IN by assumption. rewrite <- sumn_mul_r. apply sumn_ext. intros k _. ring.
Qed.

(** ** The rounds *)
Variable f : nat -> F -> F.      (* of the rounds, from 1 on *)
Fixpoint plain (base : nat -> nat -> F) (k : nat) s : nat -> F :=
  match k with O => mix N base s | S k' => mix N base (on_first (f k) (plain base k' s)) end.
Definition plain_to (base curr : nat -> nat -> F) (k : nat) s : nat -> F :=
  match k with O => mix N curr s | S k' => mix N curr (on_first (f k) (plain base k' s)) end.
(** [ms]: the matrices, the last one first *)
Fixpoint factored (pre : nat -> nat -> F) (ms : list (list (list F))) s : nat -> F :=
  match ms with [] => mix N pre s | q :: ms' => mix N (at_ q) (on_first (f (length ms)) (factored pre ms' s)) end.
Lemma factor_spec base : fine base base -> (0 < n)%nat -> forall k curr, fine base curr ->
  exists pre ms, factor base curr k = Ok (pre, ms) /\ shape N N pre /\ length ms = k /\
    (forall q, In q ms -> exists m, outer_part N m q) /\
    forall s, same N (factored (at_ pre) ms s) (plain_to (at_ base) (at_ curr) k s).
Proof.
  intros FB Hn. induction k as [|k IH]; intros curr FC; cbn [factor].
  - exists curr, []. split; [reflexivity|]. split; [exact (proj1 FC)|]. split; [reflexivity|]. split; [intros q []|]. intros s i _. reflexivity.
  - destruct (fine_derive base curr FC Hn) as (d & -> & HP & HS & PR). cbn [obind].
    destruct (fine_next base curr (m_prime d) FB FC HP) as (next & -> & PN & FN). cbn [unwrap_opt obind].
    destruct (IH next FN) as (pre & ms & -> & SP & L & O & R). cbn [obind]. exists pre, (m_double_prime d :: ms).
    split; [reflexivity|]. split; [exact SP|]. split; [cbn [length]; lia|]. split.
    { intros q [<-|I]; [now exists curr|now apply O]. }
    intros s j Hj. cbn [factored plain_to length]. change (@length (matrix F) ms) with (@length (list (list F)) ms) in L. rewrite L.
    assert (same N (factored (at_ pre) ms s) (mix N (at_ (m_prime d)) (plain (at_ base) k s))) as E.
    { intros i Hi. rewrite (R s i Hi). destruct k as [|k]; cbn [plain plain_to]; symmetry; now apply mix_product. }
    rewrite (mix_same N (at_ (m_double_prime d)) _ (on_first (f (S k)) (mix N (at_ (m_prime d)) (plain (at_ base) k s)))).
    2:{ now apply on_first_same. }
    rewrite (mix_same N (at_ (m_double_prime d)) _ (mix N (at_ (m_prime d)) (on_first (f (S k)) (plain (at_ base) k s)))).
    2:{ intros i Hi. symmetry. now apply (commute curr). }
    now apply mix_product.
Qed.

(** ** The compact form *)
Definition compact (q : list (list F)) (sp : @sparse F) : Prop :=
  length (w_hat sp) = N /\ length (v_rest sp) = n /\
  forall s j, (j < N)%nat -> mix N (at_ q) s j =
    match j with O => sumn N (fun l => s l * nth l (w_hat sp) 0) | S j' => s 0%nat * nth j' (v_rest sp) 0 + s j end.
Lemma all_true {A} (g : A -> outcome error bool) l : (forall a, In a l -> g a = Ok true) -> all_ g l = Ok true.
Proof. induction l as [|a l IH]; intros H; cbn [all_]; [reflexivity|]. rewrite H by now left. cbn [obind]. apply IH. intros; apply H; now right. Qed.
Lemma new_sparse_ok m q : outer_part N m q -> exists sp, new_sparse q = Ok sp /\ compact q sp.
Proof.
  intros (SQ & Q0 & Q1). unfold new_sparse, is_sparse. rewrite (shape_square _ _ SQ). cbn [obind].
  destruct (minor_ok n q SQ) as (h & -> & [SH MH]). cbn [obind]. rewrite Nat.sub_succ, Nat.sub_0_r in SH, MH.
  assert (is_identity h = Ok true) as ->.
  { unfold is_identity. rewrite (shape_square _ _ SH). cbn [obind]. rewrite (shape_columns0 _ _ SH). cbn [obind]. unfold num_rows. rewrite (proj1 SH).
    apply all_true. intros i Hi. apply in_seq in Hi. apply all_true. intros j Hj. apply in_seq in Hj.
    rewrite (entry_ok n n) by (try exact SH; lia). cbn [obind]. rewrite MH, Q1 by lia. f_equal.
    unfold delta, kronecker_delta. destruct (Nat.eq_dec (S i) (S j)), (Nat.eqb_spec i j); try lia; apply (feqb_refl). }
  cbn [obind assert_]. rewrite (column_ok N) by (try exact SQ; lia). cbn [obind].
  assert (length (nth 0 q []) = N) as L0 by (apply (shape_row N N); [exact SQ|lia]).
  rewrite (get_ok q 0 []) by (destruct SQ; lia). cbn [obind]. destruct (nth 0 q []) as [|x v] eqn:EN; [discriminate|]. cbn [obind].
  eexists. split; [reflexivity|]. unfold compact. cbn [w_hat v_rest]. split; [now rewrite map_length, seq_length|]. split; [cbn in L0; lia|].
  intros s [|j] Hj; unfold mix.
  - apply sumn_ext. intros l Hl. rewrite (nth_map_seq _ (fun i => at_ q i 0) 0 N l 0) by exact Hl. reflexivity.
  - rewrite sumn_shift. f_equal.
    + f_equal. unfold at_. rewrite EN. reflexivity.
    + rewrite <- (dot_delta n j (fun i => s (S i))) by lia. apply sumn_ext. intros i Hi. rewrite Q1 by lia.
      unfold delta. destruct (Nat.eq_dec (S i) (S j)), (Nat.eq_dec j i); try lia; ring.
Qed.
Lemma sparse_list (ms : list (list (list F))) : (forall q, In q ms -> exists m, outer_part N m q) ->
  exists l, collect new_sparse ms = Ok l /\ Forall2 compact ms l.
Proof.
  induction ms as [|q ms IH]; intros H; cbn [collect]; [exists []; split; [reflexivity|constructor]|].
  destruct (H q (or_introl eq_refl)) as (m & HQ). destruct (new_sparse_ok m q HQ) as (sp & -> & C). cbn [obind].
  destruct IH as (l & -> & CL); [intros; apply H; now right|]. cbn [obind]. exists (sp :: l). split; [reflexivity|now constructor].
Qed.
End Sp.

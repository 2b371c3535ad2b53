(** Base.v: outcomes, fields, finite sums and powers.  No code of /repo is
    modelled here except the contracts of external crates (ark-ff). *)
From Coq Require Export List Arith ZArith Lia Bool Field.
From Coq Require Import Eqdep_dec Znumtheory.
Export ListNotations.

(** ** Outcomes of Rust functions: a value, an [Err] value, or a panic. *)
Inductive outcome (E A : Type) : Type :=
| Ok (a : A)
| Err (e : E)
| Panic.
Arguments Ok {E A} a.
Arguments Err {E A} e.
Arguments Panic {E A}.

Definition obind {E A B} (x : outcome E A) (f : A -> outcome E B) : outcome E B :=
  match x with Ok a => f a | Err e => Err e | Panic => Panic end.

Notation "'let!' x ':=' e1 'in' e2" := (obind e1 (fun x => e2))
  (at level 200, x pattern, e1 at level 100, e2 at level 200, right associativity).

(** [Result::unwrap] / [Option::unwrap]: anything but a value is a panic. *)
Definition unwrap {E E' A} (x : outcome E A) : outcome E' A :=
  match x with Ok a => Ok a | _ => Panic end.
Definition unwrap_opt {E A} (x : option A) : outcome E A :=
  match x with Some a => Ok a | None => Panic end.
(** [assert!] *)
Definition assert_ {E} (b : bool) : outcome E unit := if b then Ok tt else Panic.

Definition is_ok {E A} (x : outcome E A) : bool :=
  match x with Ok _ => true | _ => false end.

(** ** Fields: contract of [ark_ff::Field]/[PrimeField] arithmetic. *)
Class FieldOps (F : Type) := mkFieldOps {
  f0 : F; f1 : F;
  fadd : F -> F -> F; fmul : F -> F -> F; fsub : F -> F -> F; fopp : F -> F;
  fdiv : F -> F -> F; finv : F -> F;
  feqb : F -> F -> bool }.

Class FieldLaws (F : Type) {fo : FieldOps F} := mkFieldLaws {
  F_th : field_theory f0 f1 fadd fmul fsub fopp fdiv finv (@eq F);
  feqb_eq : forall x y : F, feqb x y = true <-> x = y }.

Declare Scope F_scope.
Delimit Scope F_scope with F.
Infix "+" := fadd : F_scope.
Infix "*" := fmul : F_scope.
Infix "-" := fsub : F_scope.
Infix "/" := fdiv : F_scope.
Notation "- x" := (fopp x) : F_scope.
Notation "0" := f0 : F_scope.
Notation "1" := f1 : F_scope.

(** [x.is_zero()], [x.is_one()] *)
Definition is_zero {F} {fo : FieldOps F} (x : F) : bool := feqb x f0.
Definition is_one {F} {fo : FieldOps F} (x : F) : bool := feqb x f1.
(** [x.inverse() : Option<F>] *)
Definition inverse {F} {fo : FieldOps F} (x : F) : option F :=
  if is_zero x then None else Some (finv x).
(** [ark_ff::batch_inversion]: zero entries are left untouched (zero). *)
Definition batch_inversion {F} {fo : FieldOps F} (l : list F) : list F :=
  map (fun x => if is_zero x then x else finv x) l.

(** ** List helpers *)
Fixpoint upd {A} (l : list A) (i : nat) (f : A -> A) : list A :=
  match l, i with
  | [], _ => []
  | x :: l', O => f x :: l'
  | x :: l', S i' => x :: upd l' i' f
  end.

Lemma upd_length A (l : list A) i f : length (upd l i f) = length l.
Proof. revert i; induction l as [|x l IH]; intros [|i]; simpl; auto. Qed.

Lemma nth_upd A (l : list A) i j f d :
  nth j (upd l i f) d = if (j =? i)%nat && (i <? length l)%nat then f (nth j l d) else nth j l d.
Proof.
  revert i j; induction l as [|x l IH]; intros i j; simpl.
  - destruct j; rewrite andb_false_r; reflexivity.
  - destruct i as [|i]; destruct j as [|j]; simpl; auto.
    rewrite IH. reflexivity.
Qed.

Lemma nth_error_nth' A (l : list A) n d : (n < length l)%nat -> nth_error l n = Some (nth n l d).
Proof. revert n; induction l as [|x l IH]; intros [|n] H; simpl in *; auto; try lia. apply IH; lia. Qed.

Lemma list_eq_nth A (l1 l2 : list A) d :
  length l1 = length l2 -> (forall i, (i < length l1)%nat -> nth i l1 d = nth i l2 d) -> l1 = l2.
Proof.
  revert l2; induction l1 as [|x l1 IH]; intros [|y l2] HL H; simpl in *; try discriminate; auto.
  f_equal.
  - apply (H 0%nat); lia.
  - apply IH; [lia|]. intros i Hi. apply (H (S i)); lia.
Qed.

Lemma nth_map_seq A (f : nat -> A) s n i d :
  (i < n)%nat -> nth i (map f (seq s n)) d = f (s + i)%nat.
Proof.
  intros H. rewrite nth_indep with (d' := f (s + n)%nat) by (rewrite map_length, seq_length; lia).
  rewrite map_nth, seq_nth by lia. reflexivity.
Qed.

Lemma nth_repeat_any A (x : A) n i : nth i (repeat x n) x = x.
Proof. revert i; induction n; intros [|i]; simpl; auto. Qed.

(** ** Field theory *)
Section FieldSec.
Context {F : Type} {fo : FieldOps F} {fl : FieldLaws F}.
Add Field Ffield : F_th.
Local Open Scope F_scope.

Lemma feqb_refl (x : F) : feqb x x = true.
Proof. now apply feqb_eq. Qed.

Lemma feqb_spec (x y : F) : reflect (x = y) (feqb x y).
Proof.
  destruct (feqb x y) eqn:E; constructor.
  - now apply feqb_eq.
  - intros ->. rewrite feqb_refl in E. discriminate.
Qed.

Lemma feqb_neq (x y : F) : feqb x y = false <-> x <> y.
Proof. destruct (feqb_spec x y); split; intros; congruence. Qed.

Lemma feq_dec (x y : F) : {x = y} + {x <> y}.
Proof. destruct (feqb_spec x y); auto. Qed.

Lemma is_zero_spec (x : F) : reflect (x = 0) (is_zero x).
Proof. apply feqb_spec. Qed.
Lemma is_one_spec (x : F) : reflect (x = 1) (is_one x).
Proof. apply feqb_spec. Qed.

Lemma f1_neq_0 : (1 : F) <> 0.
Proof. exact (F_1_neq_0 F_th). Qed.

Lemma finv_l (x : F) : x <> 0 -> finv x * x = 1.
Proof. exact (Finv_l F_th x). Qed.

Lemma fmul_integral (x y : F) : x * y = 0 -> x = 0 \/ y = 0.
Proof.
  intros H. destruct (feq_dec x 0) as [->|Hx]; auto. right.
  assert (finv x * (x * y) = y) as E by (field; auto).
  rewrite <- E, H. ring.
Qed.

Lemma fmul_neq_0 (x y : F) : x <> 0 -> y <> 0 -> x * y <> 0.
Proof. intros Hx Hy H. destruct (fmul_integral _ _ H); auto. Qed.

Lemma fmul_cancel_l (a x y : F) : a <> 0 -> a * x = a * y -> x = y.
Proof.
  intros Ha H. replace x with (finv a * (a * x)) by (field; auto). rewrite H. field; auto.
Qed.

Lemma finv_neq_0 (x : F) : x <> 0 -> finv x <> 0.
Proof.
  intros Hx H. pose proof (finv_l _ Hx) as E. rewrite H in E. apply f1_neq_0. rewrite <- E. ring.
Qed.

Lemma fsub_0_eq (x y : F) : x - y = 0 -> x = y.
Proof. intros H. replace x with (x - y + y) by ring. rewrite H. ring. Qed.

(** Powers with natural exponents: the specification of exponentiation. *)
Fixpoint fpow (x : F) (n : nat) : F :=
  match n with O => 1 | S n' => x * fpow x n' end.

(** Powers with integer exponents. *)
Definition fpowZ (x : F) (e : Z) : F :=
  match e with
  | Z0 => 1
  | Zpos p => fpow x (Pos.to_nat p)
  | Zneg p => fpow (finv x) (Pos.to_nat p)
  end.

Lemma fpow_add x m n : fpow x (m + n) = fpow x m * fpow x n.
Proof. induction m as [|m IH]; simpl; [ring|rewrite IH; ring]. Qed.
Lemma fpow_S_r x n : fpow x (S n) = fpow x n * x.
Proof. simpl; ring. Qed.
Lemma fpow_mul_base x y n : fpow (x * y) n = fpow x n * fpow y n.
Proof. induction n as [|n IH]; simpl; [ring|rewrite IH; ring]. Qed.
Lemma fpow_mul x m n : fpow x (m * n) = fpow (fpow x m) n.
Proof.
  induction n as [|n IH]; [now rewrite Nat.mul_0_r|].
  replace (m * S n)%nat with (m + m * n)%nat by lia. rewrite fpow_add, IH. reflexivity.
Qed.
Lemma fpow_1_l n : fpow 1 n = 1.
Proof. induction n as [|n IH]; simpl; [auto|rewrite IH; ring]. Qed.
Lemma fpow_0_l n : (0 < n)%nat -> fpow 0 n = 0.
Proof. destruct n; [lia|]. intros _. simpl. ring. Qed.
Lemma fpow_neq_0 x n : x <> 0 -> fpow x n <> 0.
Proof. intros H; induction n as [|n IH]; simpl; [apply f1_neq_0|now apply fmul_neq_0]. Qed.
Lemma fpow_finv x n : x <> 0 -> fpow (finv x) n * fpow x n = 1.
Proof. intros H; rewrite <- fpow_mul_base, finv_l by auto; apply fpow_1_l. Qed.

Lemma fpowZ_nat x (n : nat) : fpowZ x (Z.of_nat n) = fpow x n.
Proof. destruct n as [|n]; [reflexivity|]. unfold fpowZ. cbn [Z.of_nat]. now rewrite SuccNat2Pos.id_succ. Qed.
Lemma fpowZ_nonneg x e : (0 <= e)%Z -> fpowZ x e = fpow x (Z.to_nat e).
Proof. intros H. rewrite <- (Z2Nat.id e) at 1 by lia. apply fpowZ_nat. Qed.
Lemma fpowZ_neg x (n : nat) : fpowZ x (- Z.of_nat n) = fpow (finv x) n.
Proof. destruct n as [|n]; [reflexivity|]. cbn [Z.of_nat Z.opp fpowZ]. now rewrite SuccNat2Pos.id_succ. Qed.
Lemma fpowZ_0 x : fpowZ x 0 = 1.
Proof. reflexivity. Qed.
Lemma fpowZ_1 x : fpowZ x 1 = x.
Proof. change (x * 1 = x). ring. Qed.

Lemma fpowZ_succ x e : x <> 0 -> fpowZ x (e + 1) = fpowZ x e * x.
Proof.
  intros Hx. destruct (Z_le_gt_dec 0 e) as [He|He].
  - rewrite !fpowZ_nonneg by lia. replace (Z.to_nat (e + 1)) with (S (Z.to_nat e)) by lia. apply fpow_S_r.
  - pose (n := Z.to_nat (- e - 1)). replace e with (- Z.of_nat (S n))%Z by lia.
    replace (- Z.of_nat (S n) + 1)%Z with (- Z.of_nat n)%Z by lia.
    rewrite !fpowZ_neg. cbn [fpow]. field. auto.
Qed.
Lemma fpowZ_add_nat x e (n : nat) : x <> 0 -> fpowZ x (e + Z.of_nat n) = fpowZ x e * fpow x n.
Proof.
  intros Hx. induction n as [|n IH].
  - rewrite Z.add_0_r. simpl. ring.
  - replace (e + Z.of_nat (S n))%Z with (e + Z.of_nat n + 1)%Z by lia.
    rewrite fpowZ_succ, IH by auto. simpl. ring.
Qed.
Lemma fpowZ_neq_0 x e : x <> 0 -> fpowZ x e <> 0.
Proof.
  intros Hx. destruct (Z_le_gt_dec 0 e) as [He|He].
  - rewrite fpowZ_nonneg by lia. now apply fpow_neq_0.
  - replace e with (- Z.of_nat (Z.to_nat (-e)))%Z by lia. rewrite fpowZ_neg.
    apply fpow_neq_0. now apply finv_neq_0.
Qed.
Lemma fpowZ_add x a b : x <> 0 -> fpowZ x (a + b) = fpowZ x a * fpowZ x b.
Proof.
  intros Hx. destruct (Z_le_gt_dec 0 b) as [Hb|Hb].
  - rewrite <- (Z2Nat.id b) by lia. rewrite fpowZ_add_nat, fpowZ_nat by auto. reflexivity.
  - pose (n := Z.to_nat (- b)). replace b with (- Z.of_nat n)%Z by lia.
    assert (fpowZ x a = fpowZ x (a + - Z.of_nat n) * fpow x n) as E.
    { rewrite <- fpowZ_add_nat by auto. f_equal. lia. }
    rewrite E, fpowZ_neg.
    transitivity (fpowZ x (a + - Z.of_nat n) * (fpow (finv x) n * fpow x n)); [|ring].
    rewrite fpow_finv by auto. ring.
Qed.
Lemma fpowZ_opp x a : x <> 0 -> fpowZ x (- a) = finv (fpowZ x a).
Proof.
  intros Hx. apply fmul_cancel_l with (a := fpowZ x a); [now apply fpowZ_neq_0|].
  rewrite <- fpowZ_add, Z.add_opp_diag_r by auto. rewrite fpowZ_0. field. now apply fpowZ_neq_0.
Qed.
Lemma fpowZ_sub x a b : x <> 0 -> fpowZ x (a - b) = fpowZ x a / fpowZ x b.
Proof.
  intros Hx. unfold Z.sub. rewrite fpowZ_add, fpowZ_opp by auto. field. now apply fpowZ_neq_0.
Qed.
Lemma fpowZ_mul_base x y e : x <> 0 -> y <> 0 -> fpowZ (x * y) e = fpowZ x e * fpowZ y e.
Proof.
  intros Hx Hy. assert (x * y <> 0) as Hxy by now apply fmul_neq_0.
  destruct (Z_le_gt_dec 0 e) as [He|He].
  - rewrite !fpowZ_nonneg by lia. apply fpow_mul_base.
  - pose (n := Z.to_nat (- e)). replace e with (- Z.of_nat n)%Z by lia.
    rewrite !fpowZ_opp, !fpowZ_nat by auto. rewrite fpow_mul_base. field.
    split; apply fpow_neq_0; auto.
Qed.
Lemma fpowZ_1_l e : fpowZ 1 e = 1.
Proof.
  destruct (Z_le_gt_dec 0 e) as [He|He].
  - rewrite fpowZ_nonneg by lia. apply fpow_1_l.
  - pose (n := Z.to_nat (- e)). replace e with (- Z.of_nat n)%Z by lia.
    rewrite fpowZ_opp, fpowZ_nat, fpow_1_l by apply f1_neq_0. field. apply f1_neq_0.
Qed.

(** Sums *)
Fixpoint fsum (l : list F) : F := match l with [] => 0 | x :: l' => x + fsum l' end.
(** [sumn n f] = f 0 + ... + f (n-1) *)
Fixpoint sumn (n : nat) (f : nat -> F) : F :=
  match n with O => 0 | S n' => sumn n' f + f n' end.
(** [sumZ lo n f] = f lo + ... + f (lo+n-1) *)
Definition sumZ (lo : Z) (n : nat) (f : Z -> F) : F := sumn n (fun i => f (lo + Z.of_nat i)%Z).

Lemma sumn_ext n f g : (forall i, (i < n)%nat -> f i = g i) -> sumn n f = sumn n g.
Proof. induction n as [|n IH]; simpl; intros H; auto. rewrite IH, (H n) by (auto; lia). reflexivity. Qed.
Lemma sumn_0 n f : (forall i, (i < n)%nat -> f i = 0) -> sumn n f = 0.
Proof. induction n as [|n IH]; simpl; intros H; auto. rewrite IH, (H n) by (auto; lia). ring. Qed.
Lemma sumn_add n f g : sumn n (fun i => f i + g i) = sumn n f + sumn n g.
Proof. induction n as [|n IH]; simpl; [ring|rewrite IH; ring]. Qed.
Lemma sumn_sub n f g : sumn n (fun i => f i - g i) = sumn n f - sumn n g.
Proof. induction n as [|n IH]; simpl; [ring|rewrite IH; ring]. Qed.
Lemma sumn_opp n f : sumn n (fun i => - f i) = - sumn n f.
Proof. induction n as [|n IH]; simpl; [ring|rewrite IH; ring]. Qed.
Lemma sumn_mul_l n c f : sumn n (fun i => c * f i) = c * sumn n f.
Proof. induction n as [|n IH]; simpl; [ring|rewrite IH; ring]. Qed.
Lemma sumn_mul_r n c f : sumn n (fun i => f i * c) = sumn n f * c.
Proof. induction n as [|n IH]; simpl; [ring|rewrite IH; ring]. Qed.
Lemma sumn_shift n f : sumn (S n) f = f 0%nat + sumn n (fun i => f (S i)).
Proof. induction n as [|n IH]; [simpl; ring|]. cbn [sumn] in *. rewrite IH. ring. Qed.
Lemma sumn_split m n f : sumn (m + n) f = sumn m f + sumn n (fun i => f (m + i)%nat).
Proof.
  induction n as [|n IH]; [rewrite Nat.add_0_r; simpl; ring|].
  rewrite Nat.add_succ_r. cbn [sumn]. rewrite IH. ring.
Qed.
Lemma sumn_swap m n (f : nat -> nat -> F) :
  sumn m (fun i => sumn n (fun j => f i j)) = sumn n (fun j => sumn m (fun i => f i j)).
Proof.
  induction m as [|m IH]; simpl.
  - symmetry. apply sumn_0. auto.
  - rewrite IH, <- sumn_add. apply sumn_ext. auto.
Qed.
Lemma sumn_single n k f : (k < n)%nat -> (forall i, (i < n)%nat -> i <> k -> f i = 0) -> sumn n f = f k.
Proof.
  induction n as [|n IH]; intros Hk H; [lia|]. simpl.
  destruct (Nat.eq_dec k n) as [->|Hn].
  - rewrite sumn_0; [ring|]. intros i Hi. apply H; lia.
  - rewrite IH, (H n) by (auto; lia). ring.
Qed.
Lemma sumn_rev n f : sumn n f = sumn n (fun i => f (n - 1 - i)%nat).
Proof.
  revert f; induction n as [|n IH]; intros f; auto.
  rewrite sumn_shift, IH. cbn [sumn].
  replace (S n - 1 - n)%nat with 0%nat by lia.
  rewrite sumn_ext with (g := fun i => f (S n - 1 - i)%nat) (f := fun i => f (S (n - 1 - i))).
  - ring.
  - intros i Hi. f_equal. lia.
Qed.

Lemma fsum_app l1 l2 : fsum (l1 ++ l2) = fsum l1 + fsum l2.
Proof. induction l1 as [|x l1 IH]; simpl; [ring|rewrite IH; ring]. Qed.
Lemma fsum_sumn l : fsum l = sumn (length l) (fun i => nth i l 0).
Proof. induction l as [|x l IH]; auto. cbn [length]. rewrite sumn_shift. simpl. now rewrite <- IH. Qed.
Lemma fsum_map_seq n f : fsum (map f (seq 0 n)) = sumn n f.
Proof.
  rewrite fsum_sumn, map_length, seq_length. apply sumn_ext. intros i Hi. now rewrite nth_map_seq.
Qed.
Lemma fold_add_fsum l a : fold_left (fun acc x => acc + x) l a = a + fsum l.
Proof. revert a; induction l as [|x l IH]; intros a; simpl; [ring|rewrite IH; ring]. Qed.

Lemma sumZ_ext lo n f g :
  (forall i, (lo <= i < lo + Z.of_nat n)%Z -> f i = g i) -> sumZ lo n f = sumZ lo n g.
Proof. intros H. apply sumn_ext. intros i Hi. apply H. lia. Qed.
Lemma sumZ_0 lo n f : (forall i, (lo <= i < lo + Z.of_nat n)%Z -> f i = 0) -> sumZ lo n f = 0.
Proof. intros H. apply sumn_0. intros i Hi. apply H. lia. Qed.
Lemma sumZ_add lo n f g : sumZ lo n (fun i => f i + g i) = sumZ lo n f + sumZ lo n g.
Proof. unfold sumZ. apply sumn_add. Qed.
Lemma sumZ_sub lo n f g : sumZ lo n (fun i => f i - g i) = sumZ lo n f - sumZ lo n g.
Proof. unfold sumZ. apply sumn_sub. Qed.
Lemma sumZ_opp lo n f : sumZ lo n (fun i => - f i) = - sumZ lo n f.
Proof. unfold sumZ. apply sumn_opp. Qed.
Lemma sumZ_mul_l lo n c f : sumZ lo n (fun i => c * f i) = c * sumZ lo n f.
Proof. unfold sumZ. apply sumn_mul_l. Qed.
Lemma sumZ_mul_r lo n c f : sumZ lo n (fun i => f i * c) = sumZ lo n f * c.
Proof. unfold sumZ. apply sumn_mul_r. Qed.
Lemma sumZ_split lo m n f : sumZ lo (m + n) f = sumZ lo m f + sumZ (lo + Z.of_nat m) n f.
Proof.
  unfold sumZ. rewrite sumn_split. f_equal. apply sumn_ext. intros i _. f_equal. lia.
Qed.
Lemma sumZ_S lo n f : sumZ lo (S n) f = sumZ lo n f + f (lo + Z.of_nat n)%Z.
Proof. reflexivity. Qed.
Lemma sumZ_shift lo n k f : sumZ lo n (fun i => f (i + k)%Z) = sumZ (lo + k) n f.
Proof. unfold sumZ. apply sumn_ext. intros i _. f_equal. lia. Qed.
Lemma sumZ_swap lo m lo' n (f : Z -> Z -> F) :
  sumZ lo m (fun i => sumZ lo' n (fun j => f i j)) = sumZ lo' n (fun j => sumZ lo m (fun i => f i j)).
Proof. unfold sumZ. apply (sumn_swap m n (fun i j => f (lo + Z.of_nat i)%Z (lo' + Z.of_nat j)%Z)). Qed.
Lemma sumZ_single lo n k f :
  (lo <= k < lo + Z.of_nat n)%Z ->
  (forall i, (lo <= i < lo + Z.of_nat n)%Z -> i <> k -> f i = 0) -> sumZ lo n f = f k.
Proof.
  intros Hk H. unfold sumZ. rewrite (sumn_single n (Z.to_nat (k - lo))).
  - f_equal. lia.
  - lia.
  - intros i Hi Hne. apply H; lia.
Qed.
(** Changing the window of a sum whose summand vanishes outside [a,a+k) *)
Lemma sumZ_support a k lo n f :
  (forall i, ~ (a <= i < a + Z.of_nat k)%Z -> f i = 0) ->
  (lo <= a)%Z -> (a + Z.of_nat k <= lo + Z.of_nat n)%Z ->
  sumZ lo n f = sumZ a k f.
Proof.
  intros H H1 H2. pose (p := Z.to_nat (a - lo)).
  replace n with (p + (k + (n - p - k)))%nat by lia.
  rewrite !sumZ_split. replace (lo + Z.of_nat p)%Z with a by lia.
  rewrite (sumZ_0 lo), (sumZ_0 (a + Z.of_nat k)); [ring| |]; intros i Hi; apply H; lia.
Qed.
Lemma sumZ_rev lo n f : sumZ lo n f = sumZ lo n (fun i => f (2 * lo + Z.of_nat n - 1 - i)%Z).
Proof. unfold sumZ. rewrite sumn_rev. apply sumn_ext. intros i Hi. f_equal. lia. Qed.

(** Geometric sums *)
Lemma geo_sum x n : (x - 1) * sumn n (fun i => fpow x i) = fpow x n - 1.
Proof. induction n as [|n IH]; simpl; [ring|].
  transitivity ((x - 1) * sumn n (fun i => fpow x i) + (x - 1) * fpow x n); [ring|]. rewrite IH. ring.
Qed.
Lemma geo_sum_div x n : x <> 1 -> sumn n (fun i => fpow x i) = (fpow x n - 1) / (x - 1).
Proof.
  intros Hx. assert (x - 1 <> 0) as H by (intros E; apply Hx; now apply fsub_0_eq).
  apply fmul_cancel_l with (a := x - 1); auto. rewrite geo_sum. field. auto.
Qed.

Lemma inverse_Some (x : F) : x <> 0 -> inverse x = Some (finv x).
Proof. intros H. unfold inverse. destruct (is_zero_spec x); congruence. Qed.

End FieldSec.

(** ** Concrete prime fields: integers modulo a prime. *)
Section Zp.
Variable p : Z.

Record zp := mkzp { zval : Z; zok : (zval mod p =? zval)%Z = true }.

Lemma zp_eq (a b : zp) : zval a = zval b -> a = b.
Proof.
  destruct a as [a Ha], b as [b Hb]; simpl; intros ->. f_equal. apply UIP_dec. apply bool_dec.
Qed.

Lemma zmod_ok z : ((z mod p) mod p =? z mod p)%Z = true.
Proof. apply Z.eqb_eq. destruct (Z.eq_dec p 0) as [->|H]; [now rewrite !Zmod_0_r|now apply Z.mod_mod]. Qed.

(** computes to [eq_refl] on closed terms, so that equalities of constants hold by computation *)
Definition canon (b : bool) : b = true -> b = true :=
  match b with true => fun _ => eq_refl | false => fun h => h end.
Definition zof (z : Z) : zp := mkzp (z mod p) (canon _ (zmod_ok z)).

(** inverse by search: the least y with a*y = 1 mod p (0 when none) *)
Fixpoint zsearch (n : nat) (y a : Z) : Z :=
  match n with
  | O => 0
  | S n' => if ((a * y) mod p =? 1)%Z then y else zsearch n' (y + 1)%Z a
  end.
Definition zinv (a : zp) : zp := zof (zsearch (Z.to_nat p) 0 (zval a)).

#[global] Instance zp_ops : FieldOps zp := {|
  f0 := zof 0; f1 := zof 1;
  fadd a b := zof (zval a + zval b);
  fmul a b := zof (zval a * zval b);
  fsub a b := zof (zval a - zval b);
  fopp a := zof (- zval a);
  fdiv a b := zof (zval a * zval (zinv b));
  finv := zinv;
  feqb a b := (zval a =? zval b)%Z |}.

Hypothesis Hp : prime p.

Lemma zval_mod (a : zp) : (zval a mod p = zval a)%Z.
Proof. destruct a as [a Ha]. now apply Z.eqb_eq. Qed.
Lemma zval_range (a : zp) : (0 <= zval a < p)%Z.
Proof. rewrite <- (zval_mod a). apply Z.mod_pos_bound. destruct Hp; lia. Qed.

Lemma zsearch_spec n y a :
  (exists k, (y <= k < y + Z.of_nat n)%Z /\ ((a * k) mod p = 1)%Z) ->
  ((a * zsearch n y a) mod p = 1)%Z.
Proof.
  revert y; induction n as [|n IH]; intros y [k [Hk E]]; [lia|]. cbn [zsearch].
  destruct (Z.eqb_spec ((a * y) mod p) 1) as [H|H]; auto.
  apply IH. exists k. split; auto. destruct (Z.eq_dec k y) as [->|]; [congruence|lia].
Qed.

Lemma zinv_spec (a : zp) : zval a <> 0%Z -> ((zval (zinv a) * zval a) mod p = 1)%Z.
Proof.
  intros Ha. assert (1 < p)%Z as H1 by (destruct Hp; lia). pose proof (zval_range a) as Hr.
  unfold zinv. cbn [zof zval]. rewrite Zmult_mod_idemp_l, Z.mul_comm. apply zsearch_spec.
  assert (rel_prime (zval a) p) as R.
  { apply rel_prime_sym. apply prime_rel_prime; auto. intros D. apply Z.divide_pos_le in D; lia. }
  destruct (rel_prime_bezout _ _ R) as [u v E].
  exists (u mod p)%Z. split.
  - pose proof (Z.mod_pos_bound u p). lia.
  - rewrite Z.mul_mod_idemp_r by lia. replace (zval a * u)%Z with (1 + (- v) * p)%Z by lia.
    rewrite Z_mod_plus_full. apply Z.mod_small. lia.
Qed.

Local Ltac zpt := intros; apply zp_eq; cbn [fadd fmul fsub fopp f0 f1 zp_ops zof zval];
  repeat rewrite ?Zplus_mod_idemp_l, ?Zplus_mod_idemp_r, ?Zmult_mod_idemp_l, ?Zmult_mod_idemp_r,
    ?Zminus_mod_idemp_l, ?Zminus_mod_idemp_r.

Lemma zp_field : field_theory f0 f1 fadd fmul fsub fopp fdiv finv (@eq zp).
Proof.
  assert (1 < p)%Z as H1 by (destruct Hp; lia).
  constructor.
  - constructor.
    + zpt. apply zval_mod.
    + zpt; try reflexivity; f_equal; lia.
    + zpt; try reflexivity; f_equal; lia.
    + zpt. rewrite Z.mul_1_l. apply zval_mod.
    + zpt; try reflexivity; f_equal; lia.
    + zpt; try reflexivity; f_equal; lia.
    + zpt; try reflexivity; f_equal; lia.
    + zpt; try reflexivity; f_equal; lia.
    + zpt; try reflexivity; f_equal; lia.
  - intros E. apply (f_equal zval) in E. cbn [zval zof f0 f1 zp_ops] in E. rewrite Z.mod_0_l, Z.mod_small in E by lia. lia.
  - reflexivity.
  - intros x Hx. apply zp_eq. cbn [fmul finv f1 zp_ops zof zval].
    rewrite zinv_spec.
    + now rewrite Z.mod_small by lia.
    + intros E. apply Hx. apply zp_eq. rewrite E. cbn [zval zof f0 zp_ops]. now rewrite Z.mod_0_l by lia.
Qed.

Lemma zp_laws : FieldLaws zp.
Proof.
  constructor; [exact zp_field|]. intros x y. cbn [feqb zp_ops]. rewrite Z.eqb_eq. split.
  - apply zp_eq.
  - now intros ->.
Qed.
End Zp.

Lemma prime_by_trial (p : Z) :
  (1 < p)%Z ->
  forallb (fun k => Z.eqb (Z.gcd (Z.of_nat k) p) 1) (seq 1 (Z.to_nat p - 1)) = true -> prime p.
Proof.
  intros H1 H. constructor; auto. intros n Hn.
  rewrite forallb_forall in H. specialize (H (Z.to_nat n)).
  rewrite in_seq in H. assert (Z.gcd n p = 1)%Z as G.
  { specialize (H ltac:(lia)). rewrite Z.eqb_eq in H. now rewrite Z2Nat.id in H by lia. }
  now apply Zgcd_1_rel_prime.
Qed.

Lemma prime_101 : prime 101.
Proof. apply prime_by_trial; [lia|vm_compute; reflexivity]. Qed.

(** The example field used for non-vacuity checks: integers modulo 101. *)
Definition F101 := zp 101.
#[global] Instance F101_ops : FieldOps F101 := zp_ops 101.
#[global] Instance F101_laws : FieldLaws F101 := zp_laws 101 prime_101.
Definition f101 (z : Z) : F101 := zof 101 z.

(** ProdPoly.v: products of factors x + a, as functions of x. *)
From Verif Require Import Base Spec KZGSpec KZGProofs SoundSpec Sound.
From Coq Require Import Permutation.
Local Open Scope F_scope.

Section ProdPoly.
Context {F : Type} {fo : FieldOps F} {fl : FieldLaws F}.
Add Field Fprodpoly : F_th.

Fixpoint lprod (l : list F) : F := match l with [] => 1 | a :: l' => a * lprod l' end.
Lemma lprod_app l l' : lprod (l ++ l') = lprod l * lprod l'.
Proof. induction l as [|a l IH]; cbn; [ring|]. rewrite IH. ring. Qed.
Lemma lprod_perm l l' : Permutation l l' -> lprod l = lprod l'.
Proof. induction 1; cbn; try congruence. ring. Qed.
Lemma lprod_zero l : lprod l = 0 -> In 0 l.
Proof.
  induction l as [|a l IH]; cbn; intros H; [now apply f1_neq_0 in H|]. apply fmul_integral in H. destruct H as [H|H]; auto.
Qed.
Lemma lprod_in l : In 0 l -> lprod l = 0.
Proof. induction l as [|a l IH]; cbn; intros H; [destruct H|]. destruct H as [->|H]; [ring|]. rewrite IH by auto. ring. Qed.
Lemma lprod_mul {A} (f g : A -> F) l : lprod (map (fun x => f x * g x) l) = lprod (map f l) * lprod (map g l).
Proof. induction l as [|a l IH]; cbn; [ring|]. rewrite IH. ring. Qed.

Definition shifts (l : list F) (x : F) : F := lprod (map (fun a => x + a) l).
Lemma shifts_root l a : In a l -> shifts l (- a) = 0.
Proof. intros H. apply lprod_in. apply in_map_iff. exists a. split; auto. ring. Qed.
Lemma shifts_zero l x : shifts l x = 0 -> In (- x) l.
Proof.
  intros H. apply lprod_zero, in_map_iff in H. destruct H as [a [H Ha]]. replace (- x) with a; auto.
  transitivity (x + a - x); [ring|]. rewrite H. ring.
Qed.

(** coefficients *)
Fixpoint cf (l : list F) (i : nat) : F :=
  match l with
  | [] => if (i =? 0)%nat then 1 else 0
  | a :: l' => (match i with O => 0 | S j => cf l' j end) + a * cf l' i
  end.
Lemma cf_over l : forall i, (length l < i)%nat -> cf l i = 0.
Proof.
  induction l as [|a l IH]; cbn [cf length]; intros i Hi.
  - destruct (Nat.eqb_spec i 0); [lia|reflexivity].
  - destruct i as [|i]; [lia|]. rewrite !IH by lia. ring.
Qed.
Lemma cf_top l : cf l (length l) = 1.
Proof. induction l as [|a l IH]; cbn [cf length]; [reflexivity|]. rewrite IH, cf_over by lia. ring. Qed.
Lemma cf_eval l : forall n x, (length l < n)%nat -> sumn n (fun i => fpow x i * cf l i) = shifts l x.
Proof.
  induction l as [|a l IH]; intros n x Hn; unfold shifts in *; cbn [map lprod length] in *.
  - destruct n as [|n]; [lia|]. clear - fl. induction n as [|n IH]; [cbn; ring|]. cbn [sumn] in *. rewrite IH. cbn. ring.
  - destruct n as [|n]; [lia|].
    transitivity (x * sumn n (fun i => fpow x i * cf l i) + a * sumn (S n) (fun i => fpow x i * cf l i)).
    + clear - fl. induction n as [|n IH]; [cbn; ring|].
      transitivity (sumn (S n) (fun i => fpow x i * cf (a :: l) i) + fpow x (S n) * cf (a :: l) (S n)); [reflexivity|].
      rewrite IH. cbn [sumn cf fpow]. ring.
    + rewrite !IH by lia. ring.
Qed.
Lemma cf_perm l l' : Permutation l l' -> forall i, cf l i = cf l' i.
Proof.
  induction 1 as [|a l l' P IH|a b l|l l1 l2 P1 IH1 P2 IH2]; intros i; auto.
  - cbn [cf]. destruct i; now rewrite !IH.
  - cbn [cf]. destruct i as [|[|i]]; ring.
  - now rewrite IH1.
Qed.
Lemma cf_cancel a l l' : length l = length l' -> (forall i, cf (a :: l) i = cf (a :: l') i) -> forall i, cf l i = cf l' i.
Proof.
  intros L H. assert (forall k i, (length l < i + k)%nat -> cf l i = cf l' i) as A.
  { induction k as [|k IH]; intros i Hi; [now rewrite !cf_over by lia|].
    pose proof (H (S i)) as E. cbn [cf] in E. rewrite <- (IH (S i)) in E by lia.
    transitivity (cf l i + a * cf l (S i) - a * cf l (S i)); [ring|]. rewrite E. ring. }
  intros i. apply (A (S (length l))). lia.
Qed.
Lemma cf_unique : forall l l', length l = length l' -> (forall i, cf l i = cf l' i) -> Permutation l l'.
Proof.
  induction l as [|a l IH]; intros l' L H; [destruct l'; [constructor|discriminate L]|].
  assert (In a l') as Ha.
  { replace a with (- - a) by ring. apply shifts_zero. rewrite <- (shifts_root (a :: l) a) by now left.
    rewrite <- !(cf_eval _ (S (length l'))) by (rewrite <- ?L; lia). apply sumn_ext. intros i _. now rewrite H. }
  apply in_split in Ha. destruct Ha as [l1 [l2 ->]].
  assert (Permutation (l1 ++ a :: l2) (a :: l1 ++ l2)) as P by (symmetry; apply Permutation_middle).
  rewrite P. constructor. apply IH.
  - rewrite app_length in *. cbn in L. lia.
  - apply (cf_cancel a); [rewrite app_length in *; cbn in L; lia|]. intros i. now rewrite H, (cf_perm _ _ P).
Qed.
(** products of shifts of lists that are not permutations of each other are different at most arguments *)
Theorem shifts_most l l' : length l = length l' -> most (length l - 1) (fun x => shifts l x = shifts l' x -> Permutation l l').
Proof.
  intros L. set (d := fun i => cf l i - cf l' i).
  apply (most_intro _ (fun x => (exists i, (i < length l)%nat /\ d i <> 0) /\ sumn (length l) (fun i => fpow x i * d i) = 0)).
  - apply cnt_sumn.
  - intros x. apply dec_sumn. destruct (feq_dec (sumn (length l) (fun i => fpow x i * d i)) 0); auto.
  - intros x N E. apply cf_unique; auto. intros i. destruct (feq_dec (d i) 0) as [Z|Z].
    { transitivity (cf l i - d i); [rewrite Z|unfold d]; ring. }
    exfalso. apply N. split.
    + exists i. split; auto. destruct (Nat.lt_ge_cases i (length l)) as [H|H]; auto. exfalso. apply Z. unfold d.
      destruct (Nat.eq_dec i (length l)) as [->|]; [rewrite cf_top, L, cf_top; ring|]. rewrite !cf_over by lia. ring.
    + assert (sumn (S (length l)) (fun i => fpow x i * d i) = 0) as S0.
      { unfold d. transitivity (sumn (S (length l)) (fun i => fpow x i * cf l i) - sumn (S (length l)) (fun i => fpow x i * cf l' i)).
        - rewrite <- sumn_sub. apply sumn_ext. intros j _. ring.
        - rewrite !cf_eval by lia. rewrite E. ring. }
      assert (d (length l) = 0) as T by (unfold d; rewrite cf_top, L, cf_top; ring).
      cbn [sumn] in S0. rewrite T in S0. refine (eq_trans _ S0). ring.
Qed.
End ProdPoly.

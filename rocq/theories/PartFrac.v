(** PartFrac.v: sums of simple fractions have few zeroes. *)
From Verif Require Import Base Spec Tools ToolsProofs ToolsProofs2 KZGSpec KZGProofs Snark Laurent SnarkProofs SoundSpec Sound KZGSound.
Local Open Scope F_scope.

Section PartFrac.
Context {F : Type} {fo : FieldOps F} {fl : FieldLaws F}.
Add Field Fpf : F_th.
Variables (p a : nat -> F).
(** multiplication by X - c *)
Definition pmulx (c : F) (l : list F) : list F := padd (0 :: l) (pscale (- c) l).
Lemma pmulx_value c l x : peval (pmulx c l) x = (x - c) * peval l x.
Proof. unfold pmulx. rewrite peval_padd, peval_pscale. cbn [peval]. ring. Qed.
Lemma pmulx_length c l : length (pmulx c l) = S (length l).
Proof. unfold pmulx. rewrite padd_length, pscale_length. cbn [length]. lia. Qed.
(** common denominator and numerator of a_0 / (X - p_0) + ... + a_(n-1) / (X - p_(n-1)) *)
Fixpoint pf_den (n : nat) : list F := match n with O => [1] | S m => pmulx (p m) (pf_den m) end.
Fixpoint pf_num (n : nat) : list F :=
  match n with O => [] | S m => padd (pmulx (p m) (pf_num m)) (pscale (a m) (pf_den m)) end.
Lemma pf_den_length n : length (pf_den n) = S n.
Proof. induction n; cbn [pf_den]; [reflexivity|]. now rewrite pmulx_length, IHn. Qed.
Lemma pf_num_length n : (length (pf_num n) <= S n)%nat.
Proof.
  induction n; cbn [pf_num]; [cbn; lia|]. rewrite padd_length, pscale_length, pmulx_length, pf_den_length. lia.
Qed.
Lemma pf_den_0 n j : (j < n)%nat -> peval (pf_den n) (p j) = 0.
Proof.
  induction n; intros Hj; [lia|]. cbn [pf_den]. rewrite pmulx_value.
  destruct (Nat.eq_dec j n) as [->|]; [ring|]. rewrite IHn by lia. ring.
Qed.
Lemma pf_den_neq n x : (forall i, (i < n)%nat -> x <> p i) -> peval (pf_den n) x <> 0.
Proof.
  induction n; intros Hx; cbn [pf_den]; [cbn; intros E; apply (f1_neq_0 (F:=F)); rewrite <- E; ring|].
  rewrite pmulx_value. apply fmul_neq_0; [|apply IHn; auto].
  intros E. apply (Hx n); [lia|]. now apply fsub_0_eq.
Qed.
Lemma pf_value n x : (forall i, (i < n)%nat -> x <> p i) ->
  peval (pf_num n) x = peval (pf_den n) x * sumn n (fun j => finv (x - p j) * a j).
Proof.
  induction n; intros Hx; cbn [pf_num pf_den sumn]; [cbn; ring|].
  rewrite peval_padd, peval_pscale, !pmulx_value, IHn by auto.
  assert (x - p n <> 0) as N by (intros E; apply (Hx n); [lia|now apply fsub_0_eq]).
  set (b := x - p n) in *. field. auto.
Qed.
Lemma pf_num_neq n j : (forall i k, (i < n)%nat -> (k < n)%nat -> p i = p k -> i = k) ->
  (j < n)%nat -> a j <> 0 -> peval (pf_num n) (p j) <> 0.
Proof.
  induction n; intros Hp Hj Ha; [lia|]. cbn [pf_num]. rewrite peval_padd, peval_pscale, pmulx_value.
  destruct (Nat.eq_dec j n) as [->|Hn].
  - intros E. assert (a n * peval (pf_den n) (p n) = 0) as E' by (rewrite <- E; ring). revert E'.
    apply fmul_neq_0; auto. apply pf_den_neq. intros i Hi E'. apply Hp in E'; lia.
  - rewrite pf_den_0 by lia. intros E. assert ((p j - p n) * peval (pf_num n) (p j) = 0) as E' by (rewrite <- E; ring).
    revert E'. apply fmul_neq_0; [|apply IHn; auto; lia].
    intros E'. apply fsub_0_eq in E'. apply Hp in E'; lia.
Qed.

(** x is a zero of a sum of simple fractions with different poles, not all numerators zero *)
Definition bad_frac (n : nat) (x : F) : Prop :=
  (exists i, (i < n)%nat /\ a i <> 0) /\ (forall i, (i < n)%nat -> x <> p i) /\ sumn n (fun j => finv (x - p j) * a j) = 0.
Lemma dec_bad_frac n x : bad_frac n x \/ ~ bad_frac n x.
Proof.
  unfold bad_frac. apply dec_sumn. destruct (dec_ex n (fun i => x = p i)) as [[i [Hi E]]|N].
  - intros i _. destruct (feq_dec x (p i)); auto.
  - right. intros [Q _]. now apply (Q i Hi).
  - destruct (feq_dec (sumn n (fun j => finv (x - p j) * a j)) 0); [left|right; tauto].
    split; auto. intros i Hi E. apply N. eauto.
Qed.
Lemma cnt_bad_frac n : (forall i k, (i < n)%nat -> (k < n)%nat -> p i = p k -> i = k) -> cnt n (bad_frac n).
Proof.
  intros Hp. apply (cnt_weaken n n (fun x => (exists i, coef (pf_num n) i <> 0) /\ peval (pf_num n) x = 0)); auto.
  2:{ apply cnt_roots. pose proof (pf_num_length n). lia. }
  intros x [[j [Hj Ha]] [Hx E]]. split.
  - destruct (nonzero_dec (pf_num n)) as [|N]; auto. exfalso.
    apply (pf_num_neq n j Hp Hj Ha). now apply peval_over.
  - rewrite pf_value, E by auto. ring.
Qed.
End PartFrac.

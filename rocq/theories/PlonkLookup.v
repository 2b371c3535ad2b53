(** PlonkLookup.v: soundness of the lookup argument of plonk-core. *)
From Verif Require Import Base Spec Tools KZG IntProofs SnarkProofs SoundSpec Sound ProdPoly Plonk PlonkSpec PlonkPI PlonkSigmaSpec PlonkSigma PlonkProver PlonkGPSpec PlonkGP PlonkLookupSpec.
From Coq Require Import Permutation.
Local Open Scope F_scope.

Section PlonkLookup.
Context {F : Type} {fo : FieldOps F} {fl : FieldLaws F}.
Add Field Fplonklookup : F_th.
Implicit Types (f t h z : nat -> F).

(** *** A cyclic recurrence gives equal products *)
Lemma tele n (p q z : nat -> F) : (forall i, (i < n)%nat -> z (S i) * p i = z i * q i) -> z n * nprod n p = z 0%nat * nprod n q.
Proof.
  induction n as [|n IH]; intros H; cbn [nprod]; [ring|].
  transitivity (z (S n) * p n * nprod n p); [ring|]. rewrite (H n) by lia. transitivity (z n * nprod n p * q n); [ring|]. rewrite IH by (intros i Hi; apply H; lia). ring.
Qed.
Lemma cyc_closed n (p q z : nat -> F) : (0 < n)%nat -> z 0%nat = 1 -> (forall i, (i < n)%nat -> z ((i + 1) mod n)%nat * p i = z i * q i) -> nprod n p = nprod n q.
Proof.
  intros Hn Z0 H. set (z' := fun i => z (i mod n)%nat).
  pose proof (tele n p q z') as T. unfold z' in T. rewrite Nat.mod_same, Nat.mod_0_l, Z0 in T by lia.
  assert (1 * nprod n p = 1 * nprod n q) as E; [|transitivity (1 * nprod n p); [ring|rewrite E; ring]]. apply T. intros i Hi.
  rewrite (Nat.mod_small i) by auto. replace (S i) with (i + 1)%nat by lia. auto.
Qed.
(** *** Pairs of neighbours *)
Definition val (dl : F) (p : F * F) : F := (fst p + dl * snd p) / (1 + dl).
Definition pairs_ft n f t : list (F * F) := map (fun i => (f i, f i)) (seq 0 n) ++ map (fun i => (t i, t ((i + 1) mod n)%nat)) (seq 0 n).
Definition pairs_h n h1 h2 : list (F * F) := map (fun i => (h1 i, h2 i)) (seq 0 n) ++ map (fun i => (h2 i, h1 ((i + 1) mod n)%nat)) (seq 0 n).
Lemma pairs_ft_length n f t : length (pairs_ft n f t) = (2 * n)%nat.
Proof. unfold pairs_ft. rewrite app_length, !map_length, seq_length. lia. Qed.
Lemma pairs_h_length n h1 h2 : length (pairs_h n h1 h2) = (2 * n)%nat.
Proof. unfold pairs_h. rewrite app_length, !map_length, seq_length. lia. Qed.
Lemma pair_product n dl eps (f g : nat -> F * F) : 1 + dl <> 0 ->
  nprod n (fun i => (eps * (1 + dl) + fst (f i) + dl * snd (f i)) * (eps * (1 + dl) + fst (g i) + dl * snd (g i)))
  = fpow (1 + dl) (2 * n) * shifts (map (val dl) (map f (seq 0 n) ++ map g (seq 0 n))) eps.
Proof.
  intros N. unfold shifts. rewrite !map_app, lprod_app, !map_map, <- lprod_mul, nprod_list.
  induction n as [|n IH]; [cbn; ring|]. cbn [nprod]. rewrite IH. replace (2 * S n)%nat with (S (S (2 * n))) by lia. cbn [fpow]. unfold val. field. auto.
Qed.
Lemma product_shifts n dl eps f t h1 h2 z : (0 < n)%nat -> 1 + dl <> 0 -> lookup_product n dl eps f t h1 h2 z ->
  shifts (map (val dl) (pairs_ft n f t)) eps = shifts (map (val dl) (pairs_h n h1 h2)) eps.
Proof.
  intros Hn N [Z0 H]. cbv zeta in H. pose proof (cyc_closed n _ _ z Hn Z0 H) as E.
  unfold pairs_ft, pairs_h. apply (fmul_cancel_l (fpow (1 + dl) (2 * n))); [now apply fpow_neq_0|]. rewrite <- !pair_product by auto. cbn [fst snd].
  rewrite E. apply nprod_ext. intros i Hi. ring.
Qed.
Lemma shifts_product n dl eps f t h1 h2 : 1 + dl <> 0 -> shifts (map (val dl) (pairs_ft n f t)) eps = shifts (map (val dl) (pairs_h n h1 h2)) eps ->
  nprod n (fun i => (eps * (1 + dl) + h1 i + dl * h2 i) * (eps * (1 + dl) + h2 i + dl * h1 ((i + 1) mod n)%nat))
  = nprod n (fun i => (1 + dl) * (eps + f i) * (eps * (1 + dl) + t i + dl * t ((i + 1) mod n)%nat)).
Proof.
  intros N E. unfold pairs_ft, pairs_h in E. pose proof (pair_product n dl eps (fun i => (h1 i, h2 i)) (fun i => (h2 i, h1 ((i + 1) mod n)%nat)) N) as E1.
  pose proof (pair_product n dl eps (fun i => (f i, f i)) (fun i => (t i, t ((i + 1) mod n)%nat)) N) as E2. cbn [fst snd] in E1, E2.
  rewrite E1, <- E, <- E2. apply nprod_ext. intros i Hi. ring.
Qed.
(** *** Different pairs have different values *)
Lemma pair_dec (p q : F * F) : p = q \/ p <> q.
Proof.
  destruct p as [a b], q as [a' b']. destruct (feq_dec a a') as [->|N]; [|right; congruence]. destruct (feq_dec b b') as [->|N]; [left; reflexivity|right; congruence].
Qed.
Lemma pair_in_dec (p : F * F) l : In p l \/ ~ In p l.
Proof. induction l as [|q l [IH|IH]]; [now right|left; now right|]. destruct (pair_dec q p) as [E|N]; [left; now left|right; intros [E|H]; auto]. Qed.
Definition meets (p : F * F) (l : list (F * F)) (dl : F) : Prop := exists q, In q l /\ 1 + dl <> 0 /\ val dl q = val dl p.
Lemma meets_dec p l dl : meets p l dl \/ ~ meets p l dl.
Proof.
  unfold meets. destruct (feq_dec (1 + dl) 0) as [Z|N]; [right; intros [q [_ [A _]]]; auto|].
  induction l as [|q l [IH|IH]]; [right; intros [q [[] _]]|left; destruct IH as [r [A B]]; exists r; split; [now right|auto]|].
  destruct (feq_dec (val dl q) (val dl p)) as [E|E]; [left; exists q; split; [now left|auto]|].
  right. intros [r [[<-|A] [B C]]]; [auto|]. apply IH. exists r. auto.
Qed.
Lemma meets_cnt p l : ~ In p l -> cnt (length l) (meets p l).
Proof.
  induction l as [|q l IH]; intros H; [apply cnt_false; intros x [r [[] _]]|].
  apply (cnt_weaken (1 + length l) _ (fun dl => (1 + dl <> 0 /\ val dl q = val dl p) \/ meets p l dl)); [auto| |].
  - intros x [r [[<-|A] [B C]]]; [left; auto|right; exists r; auto].
  - apply cnt_or.
    + intros x. destruct (feq_dec (1 + x) 0); [right; intros []; auto|]. destruct (feq_dec (val x q) (val x p)); [left; auto|right; intros []; auto].
    + destruct q as [a b], p as [a' b']. cbn [val fst snd]. apply (cnt_weaken 1 _ (fun x => (a - a' <> 0 \/ b - b' <> 0) /\ (a - a') + x * (b - b') = 0)); [auto| |apply cnt_linear].
      intros x [N E]. split.
      * destruct (feq_dec a a') as [->|NA]; [|left; intros Z; apply NA; now apply fsub_0_eq]. right. intros Z. apply fsub_0_eq in Z. subst. apply H. now left.
      * unfold val in E. cbn [fst snd] in E. assert (a + x * b = a' + x * b') as E'.
        { transitivity ((a + x * b) / (1 + x) * (1 + x)); [field; auto|]. rewrite E. field. auto. }
        transitivity ((a + x * b) - (a' + x * b')); [ring|]. rewrite E'. ring.
    + apply IH. intros A. apply H. now right.
Qed.
(** *** Neighbours in the table *)
Lemma cyclic_all n (g : nat -> F) x : (0 < n)%nat -> (exists i, (i < n)%nat /\ g i = x) -> (forall i, (i < n)%nat -> g i = x -> g ((i + 1) mod n)%nat = x) -> forall i, (i < n)%nat -> g i = x.
Proof.
  intros Hn [i0 [Hi0 E0]] H. assert (forall k, g ((i0 + k) mod n)%nat = x) as A.
  { induction k as [|k IH]; [rewrite Nat.add_0_r, Nat.mod_small; auto|].
    replace (i0 + S k)%nat with (i0 + k + 1)%nat by lia. rewrite <- Nat.add_mod_idemp_l by lia. apply H; auto. apply Nat.mod_upper_bound. lia. }
  intros i Hi. specialize (A (i + n - i0)%nat). replace (i0 + (i + n - i0))%nat with (i + 1 * n)%nat in A by lia.
  rewrite Nat.mod_add, Nat.mod_small in A by lia. exact A.
Qed.
Lemma lookup_pairs n f t h1 h2 : (0 < n)%nat -> (forall p, In p (pairs_ft n f t) <-> In p (pairs_h n h1 h2)) -> forall i, (i < n)%nat -> exists j, (j < n)%nat /\ f i = t j.
Proof.
  intros Hn H i Hi. assert ((exists j, (j < n)%nat /\ f i = t j) \/ ~ (exists j, (j < n)%nat /\ f i = t j)) as [D|D]; [apply dec_ex; intros j _; destruct (feq_dec (f i) (t j)); auto|auto|].
  exfalso. set (x := f i) in *.
  assert (forall y, In (x, y) (pairs_ft n f t) -> y = x) as A.
  { intros y Hy. unfold pairs_ft in Hy. apply in_app_iff in Hy. destruct Hy as [Hy|Hy]; apply in_map_iff in Hy; destruct Hy as [j [E Hj]]; apply in_seq in Hj; injection E; intros.
    - congruence.
    - exfalso. apply D. exists j. split; [lia|auto]. }
  assert (forall j, (j < n)%nat -> h1 j = x -> h2 j = x) as A1.
  { intros j Hj E. apply A, H. unfold pairs_h. apply in_app_iff. left. apply in_map_iff. exists j. rewrite E. split; [auto|apply in_seq; lia]. }
  assert (forall j, (j < n)%nat -> h2 j = x -> h1 ((j + 1) mod n)%nat = x) as A2.
  { intros j Hj E. apply A, H. unfold pairs_h. apply in_app_iff. right. apply in_map_iff. exists j. rewrite E. split; [auto|apply in_seq; lia]. }
  assert (exists j, (j < n)%nat /\ h1 j = x) as S0.
  { assert (In (x, x) (pairs_h n h1 h2)) as S0.
    { apply H. unfold pairs_ft. apply in_app_iff. left. apply in_map_iff. exists i. split; [reflexivity|apply in_seq; lia]. }
    unfold pairs_h in S0. apply in_app_iff in S0. destruct S0 as [S0|S0]; apply in_map_iff in S0; destruct S0 as [j [E Hj]]; apply in_seq in Hj; injection E; intros.
    - exists j. split; [lia|auto].
    - exists ((j + 1) mod n)%nat. split; [apply Nat.mod_upper_bound; lia|auto]. }
  assert (forall j, (j < n)%nat -> h1 j = x) as A3 by (apply cyclic_all; auto).
  assert (In (t 0%nat, t ((0 + 1) mod n)%nat) (pairs_h n h1 h2)) as T.
  { apply H. unfold pairs_ft. apply in_app_iff. right. apply in_map_iff. exists 0%nat. split; [reflexivity|apply in_seq; lia]. }
  assert (t 0%nat = x) as T0.
  { unfold pairs_h in T. apply in_app_iff in T. destruct T as [T|T]; apply in_map_iff in T; destruct T as [j [E Hj]]; apply in_seq in Hj; injection E; intros E1 E2; rewrite <- E2.
    - apply A3. lia.
    - apply A1; [lia|]. apply A3. lia. }
  apply D. exists 0%nat. auto.
Qed.
(** *** Soundness *)
Lemma perm_in_val dl A B p : Permutation (map (val dl) A) (map (val dl) B) -> 1 + dl <> 0 -> In p A -> meets p B dl.
Proof.
  intros P N H. assert (In (val dl p) (map (val dl) B)) as I by (apply (Permutation_in _ P), in_map; auto).
  apply in_map_iff in I. destruct I as [q [E Hq]]. exists q. auto.
Qed.
Lemma differ_most (A B : list (F * F)) p k : length A = length B -> (length B <= k)%nat -> In p A -> ~ In p B ->
  most (k + 1) (fun dl => 1 + dl <> 0 /\ most (length A - 1) (fun eps => shifts (map (val dl) A) eps <> shifts (map (val dl) B) eps)).
Proof.
  intros L K HA HB. apply (most_intro _ (fun dl => meets p B dl \/ dl = - (1))).
  - apply cnt_or; [apply meets_dec| |apply cnt_eq]. apply (cnt_weaken (length B) _ (meets p B)); auto. now apply meets_cnt.
  - intros x. destruct (meets_dec p B x); auto. destruct (feq_dec x (- (1))); auto. right. intros []; auto.
  - intros dl N. assert (1 + dl <> 0) as N1. { intros Z. apply N. right. transitivity (1 + dl - 1); [ring|]. rewrite Z. ring. }
    split; auto. pose proof (shifts_most (map (val dl) A) (map (val dl) B) ltac:(now rewrite !map_length)) as M. rewrite map_length in M.
    eapply most_weaken; [apply Nat.le_refl| |exact M]. cbv beta. intros eps H E. apply N. left. exact (perm_in_val dl A B p (H E) N1 HA).
Qed.
Lemma lookup_sound n f t h1 h2 i : (i < n)%nat -> (forall j, (j < n)%nat -> f i <> t j) ->
  most (2 * n + 1) (fun dl => most (2 * n - 1) (fun eps => forall z, ~ lookup_product n dl eps f t h1 h2 z)).
Proof.
  intros Hi D. assert (0 < n)%nat as Hn by lia. pose proof (pairs_ft_length n f t) as LA. pose proof (pairs_h_length n h1 h2) as LB.
  assert (exists p, (In p (pairs_ft n f t) /\ ~ In p (pairs_h n h1 h2)) \/ (In p (pairs_h n h1 h2) /\ ~ In p (pairs_ft n f t))) as [p Hp].
  { assert (forall A B : list (F * F), (exists p, In p A /\ ~ In p B) \/ (forall p, In p A -> In p B)) as X.
    { intros A B. induction A as [|q A [[p [H1 H2]]|IH]]; [right; intros ? []|left; exists p; split; [now right|auto]|].
      destruct (pair_in_dec q B) as [H|H]; [right; intros r [<-|Hr]; auto|left; exists q; split; [now left|auto]]. }
    destruct (X (pairs_ft n f t) (pairs_h n h1 h2)) as [[p [H1 H2]]|X1]; [exists p; auto|].
    destruct (X (pairs_h n h1 h2) (pairs_ft n f t)) as [[p [H1 H2]]|X2]; [exists p; auto|].
    exfalso. destruct (lookup_pairs n f t h1 h2 Hn ltac:(intros p; split; auto) i Hi) as [j [Hj E]]. now apply (D j Hj). }
  destruct Hp as [[H1 H2]|[H1 H2]].
  - pose proof (differ_most (pairs_ft n f t) (pairs_h n h1 h2) p (2 * n) ltac:(congruence) ltac:(lia) H1 H2) as M. eapply most_weaken; [apply Nat.le_refl| |exact M]. cbv beta. intros dl [N M1].
    rewrite LA in M1. eapply most_weaken; [apply Nat.le_refl| |exact M1]. cbv beta. intros eps E z L. apply E. eapply product_shifts; eauto.
  - pose proof (differ_most (pairs_h n h1 h2) (pairs_ft n f t) p (2 * n) ltac:(congruence) ltac:(lia) H1 H2) as M. eapply most_weaken; [apply Nat.le_refl| |exact M]. cbv beta. intros dl [N M1].
    rewrite LB in M1. eapply most_weaken; [apply Nat.le_refl| |exact M1]. cbv beta. intros eps E z L. apply E. symmetry. eapply product_shifts; eauto.
Qed.
End PlonkLookup.

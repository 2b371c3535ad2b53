(** TranscriptProofs.v: the bytes determine the items. *)
From Verif Require Import Base Tools KZG Snark Transcript.
Local Open Scope F_scope.

(** the kind of an item, as fixed by the program text *)
Inductive kind := KF | KG | KNs | KFs.
Definition kind_of {F G1} (i : item F G1) : kind := match i with IF _ => KF | IG _ => KG | INs _ => KNs | IFs _ => KFs end.
(** a vector that exists in memory: fewer than 2^64 elements, and u64 elements *)
Definition u64_ok (n : nat) : Prop := (Z.of_nat n < 2 ^ 64)%Z.
Definition item_ok {F G1} (i : item F G1) : Prop :=
  match i with INs l => u64_ok (length l) /\ Forall u64_ok l | IFs l => u64_ok (length l) | _ => True end.

Section P.
Context {F G1 : Type}.
Variable ser_F : F -> list nat.
Variable ser_G : G1 -> list nat.
Variables kF kG : nat.
Hypothesis LF : forall a, length (ser_F a) = kF.
Hypothesis LG : forall c, length (ser_G c) = kG.
Hypothesis JF : forall a a', ser_F a = ser_F a' -> a = a'.
Hypothesis JG : forall c c', ser_G c = ser_G c' -> c = c'.

Lemma le_bytes_length k : forall n, length (le_bytes k n) = k.
Proof. induction k as [|k IH]; intros n; cbn [le_bytes length]; auto. Qed.
Lemma cons_eq {A} (a b : A) l m : a :: l = b :: m -> a = b /\ l = m.
Proof. intros E. injection E. auto. Qed.
Lemma le_bytes_inj k : forall n m, (Z.of_nat n < 256 ^ Z.of_nat k)%Z -> (Z.of_nat m < 256 ^ Z.of_nat k)%Z ->
  le_bytes k n = le_bytes k m -> n = m.
Proof.
  induction k as [|k IH]; intros n m Hn Hm E.
  - cbn in Hn, Hm. lia.
  - cbn [le_bytes] in E. apply cons_eq in E. destruct E as [E1 E2].
    rewrite Nat2Z.inj_succ, Z.pow_succ_r in Hn, Hm by lia.
    apply IH in E2.
    + pose proof (Nat.div_mod n 256 ltac:(lia)) as D1. pose proof (Nat.div_mod m 256 ltac:(lia)) as D2. rewrite E1, E2 in D1. congruence.
    + rewrite Nat2Z.inj_div. change (Z.of_nat 256) with 256%Z. apply Z.div_lt_upper_bound; lia.
    + rewrite Nat2Z.inj_div. change (Z.of_nat 256) with 256%Z. apply Z.div_lt_upper_bound; lia.
Qed.
Lemma le8_inj n m : u64_ok n -> u64_ok m -> le_bytes 8 n = le_bytes 8 m -> n = m.
Proof. intros Hn Hm. apply le_bytes_inj; unfold u64_ok in *; change (256 ^ Z.of_nat 8)%Z with (2 ^ 64)%Z; auto. Qed.
Lemma app_split {A} (a a' b b' : list A) : length a = length a' -> a ++ b = a' ++ b' -> a = a' /\ b = b'.
Proof.
  revert a'; induction a as [|x a IH]; intros [|x' a'] L E; cbn in *; try discriminate; auto.
  injection E as -> E. apply IH in E; [|lia]. destruct E as [-> ->]. auto.
Qed.
Lemma flat_fixed {A} (f : A -> list nat) k (P : A -> Prop) (Lf : forall a, length (f a) = k)
  (Jf : forall a a', P a -> P a' -> f a = f a' -> a = a') :
  forall l l' r r', length l = length l' -> Forall P l -> Forall P l' -> flat_map f l ++ r = flat_map f l' ++ r' -> l = l' /\ r = r'.
Proof.
  induction l as [|x l IH]; intros [|x' l'] r r' L P1 P2 E; try discriminate; auto.
  cbn [flat_map] in E. rewrite <- !app_assoc in E. inversion P1; subst; inversion P2; subst.
  apply app_split in E; [|now rewrite !Lf]. destruct E as [E1 E2]. apply Jf in E1; auto. subst.
  apply IH in E2; auto. destruct E2 as [-> ->]. auto.
Qed.
Lemma ser_item_split (i i' : item F G1) r r' : kind_of i = kind_of i' -> item_ok i -> item_ok i' ->
  ser_item ser_F ser_G i ++ r = ser_item ser_F ser_G i' ++ r' -> i = i' /\ r = r'.
Proof.
  destruct i as [a|c|l|l], i' as [a'|c'|l'|l']; intros K O O' E; try discriminate; cbn [ser_item item_ok] in *.
  - apply app_split in E; [|now rewrite !LF]. destruct E as [E ->]. apply JF in E. subst; auto.
  - apply app_split in E; [|now rewrite !LG]. destruct E as [E ->]. apply JG in E. subst; auto.
  - rewrite <- !app_assoc in E. apply app_split in E; [|now rewrite !le_bytes_length]. destruct E as [E1 E2].
    apply le8_inj in E1; try tauto.
    destruct (flat_fixed _ 8 u64_ok (le_bytes_length 8) le8_inj l l' r r') as [-> ->]; tauto || auto.
  - rewrite <- !app_assoc in E. apply app_split in E; [|now rewrite !le_bytes_length]. destruct E as [E1 E2].
    apply le8_inj in E1; auto.
    destruct (flat_fixed ser_F kF (fun _ => True) LF (fun a a' _ _ => JF a a') l l' r r') as [-> ->]; auto; apply Forall_forall; auto.
Qed.
Lemma to_bytes_split : forall l l' r r' : list (item F G1), map kind_of l = map kind_of l' -> Forall item_ok l -> Forall item_ok l' ->
  to_bytes ser_F ser_G (l ++ r) = to_bytes ser_F ser_G (l' ++ r') -> l = l' /\ to_bytes ser_F ser_G r = to_bytes ser_F ser_G r'.
Proof.
  induction l as [|i l IH]; intros [|i' l'] r r' K P1 P2 E; try discriminate; auto.
  cbn [map] in K. injection K as K0 K. inversion P1; subst; inversion P2; subst.
  cbn [app to_bytes] in E. apply ser_item_split in E; auto. destruct E as [-> E].
  apply IH in E; auto. destruct E as [-> E]. auto.
Qed.
(** If the kinds of one transcript are a prefix of the kinds of the other, equal bytes mean equal
    items (fields and points occupy at least one byte). *)
Lemma to_bytes_inj (l l' : list (item F G1)) ks : (0 < kF)%nat -> (0 < kG)%nat ->
  map kind_of l' = map kind_of l ++ ks -> Forall item_ok l -> Forall item_ok l' ->
  to_bytes ser_F ser_G l = to_bytes ser_F ser_G l' -> l = l'.
Proof.
  intros H1 H2 K P P' E.
  assert (l' = firstn (length l) l' ++ skipn (length l) l') as EL by (symmetry; apply firstn_skipn).
  assert (map kind_of (firstn (length l) l') = map kind_of l) as K1.
  { rewrite <- firstn_map, K, firstn_app, map_length, Nat.sub_diag, firstn_O, app_nil_r.
    rewrite <- (map_length kind_of l). apply firstn_all. }
  rewrite EL in E. rewrite <- (app_nil_r l) in E at 1.
  apply to_bytes_split in E; auto.
  - destruct E as [E1 E2]. destruct (skipn (length l) l') as [|i r] eqn:S.
    + rewrite ?S, app_nil_r in EL. rewrite EL. exact E1.
    + exfalso. cbn [to_bytes] in E2. apply (f_equal (@length nat)) in E2. rewrite app_length in E2. cbn [length] in E2.
      destruct i; cbn [ser_item] in E2; rewrite ?app_length, ?LF, ?LG, ?le_bytes_length in E2; lia.
  - apply Forall_forall. intros x Hx. rewrite Forall_forall in P'. apply P'. rewrite EL. apply in_or_app. now left.
Qed.
End P.

(** PlonkLookup2.v: the sorted vector of the lookup argument of plonk-core, and completeness. *)
From Verif Require Import Base Spec Tools KZG IntProofs SnarkProofs SoundSpec Sound ProdPoly Plonk PlonkSpec PlonkPI PlonkSigmaSpec PlonkSigma PlonkProver PlonkGPSpec PlonkGP PlonkLookupSpec PlonkLookup.
From Coq Require Import Permutation.
Local Open Scope F_scope.

Section PlonkLookup2.
Context {F : Type} {fo : FieldOps F} {fl : FieldLaws F}.
Add Field Fplonklookup2 : F_th.
Implicit Types (l t f : list F) (m : list (F * nat)).

(** *** Counting *)
Lemma count_up_spec x m : match count_up x m with
  | Some m' => exists a k b, m = a ++ (x, k) :: b /\ m' = a ++ (x, (k + 1)%nat) :: b
  | None => ~ In x (map fst m) end.
Proof.
  induction m as [|[y k] m IH]; cbn [count_up]; [intros []|]. destruct (feqb x y) eqn:E.
  - apply feqb_eq in E. subst y. exists [], k, m. auto.
  - assert (x <> y) as N by (intros ->; rewrite (proj2 (feqb_eq y y) eq_refl) in E; discriminate).
    destruct (count_up x m) as [m'|]; cbn [option_map].
    + destruct IH as [a [j [b [-> ->]]]]. exists ((y, k) :: a), j, b. auto.
    + intros [H|H]; cbn in *; auto.
Qed.
Lemma runs_app m m' : runs (m ++ m') = runs m ++ runs m'.
Proof. induction m as [|[x k] m IH]; cbn; auto. now rewrite IH, app_assoc. Qed.
Lemma repeat_snoc {A} (x : A) k : repeat x (k + 1) = repeat x k ++ [x].
Proof. induction k; cbn; auto. now rewrite IHk. Qed.
Lemma count_up_runs x m m' : count_up x m = Some m' -> Permutation (runs m') (x :: runs m) /\ map fst m' = map fst m /\ (Forall (fun p => 1 <= snd p)%nat m -> Forall (fun p => 1 <= snd p)%nat m').
Proof.
  intros H. pose proof (count_up_spec x m) as S0. rewrite H in S0. destruct S0 as [a [k [b [-> ->]]]]. rewrite !runs_app. cbn [runs]. split; [|split].
  - rewrite repeat_snoc, <- !app_assoc. cbn [app]. symmetry. etransitivity; [apply Permutation_middle|]. apply Permutation_app_head. apply Permutation_middle.
  - rewrite !map_app. reflexivity.
  - intros A. apply Forall_app in A. destruct A as [A B]. inversion B; subst. apply Forall_app. split; auto. constructor; auto. cbn in *. lia.
Qed.
Lemma queries_spec f : forall m, (forall x, In x f -> In x (map fst m)) -> exists m', count_queries f m = Ok m' /\ map fst m' = map fst m /\
  Permutation (runs m') (f ++ runs m) /\ (Forall (fun p => 1 <= snd p)%nat m -> Forall (fun p => 1 <= snd p)%nat m').
Proof.
  induction f as [|x f IH]; intros m H; cbn [count_queries]; [exists m; auto|].
  destruct (count_up x m) as [m1|] eqn:E.
  - destruct (count_up_runs x m m1 E) as [P [K C]]. destruct (IH m1) as [m' [E' [K' [P' C']]]]; [intros y Hy; rewrite K; apply H; now right|].
    exists m'. split; [auto|split; [congruence|split; [|auto]]]. rewrite P', P. cbn [app]. symmetry. apply Permutation_middle.
  - pose proof (count_up_spec x m) as S0. rewrite E in S0. exfalso. apply S0, H. now left.
Qed.
Lemma queries_err f : forall m x, In x f -> ~ In x (map fst m) -> count_queries f m = Err ElementNotIndexed.
Proof.
  induction f as [|y f IH]; intros m x []; cbn [count_queries]; intros N.
  - subst y. destruct (count_up x m) as [m1|] eqn:E; auto. pose proof (count_up_spec x m) as S0. rewrite E in S0. destruct S0 as [a [k [b [-> _]]]].
    exfalso. apply N. rewrite map_app. apply in_app_iff. right. now left.
  - destruct (count_up y m) as [m1|] eqn:E; auto. apply (IH m1 x); auto. destruct (count_up_runs y m m1 E) as [_ [-> _]]. auto.
Qed.
Lemma table_spec t : forall m, NoDup (map fst m) -> Forall (fun p => 1 <= snd p)%nat m ->
  Permutation (runs (count_table t m)) (t ++ runs m) /\ NoDup (map fst (count_table t m)) /\ Forall (fun p => 1 <= snd p)%nat (count_table t m) /\
  (forall x, In x (map fst (count_table t m)) <-> In x t \/ In x (map fst m)).
Proof.
  induction t as [|x t IH]; intros m N C; cbn [count_table fold_left].
  - split; [|split; [|split]]; auto. intros y. cbn. tauto.
  - fold (count_table t (match count_up x m with Some m' => m' | None => m ++ [(x, 1%nat)] end)).
    pose proof (count_up_spec x m) as S0. destruct (count_up x m) as [m1|] eqn:E.
    + destruct (count_up_runs x m m1 E) as [P [K C1]]. assert (In x (map fst m)) as Hx. { destruct S0 as [a [k [b [-> _]]]]. rewrite map_app. apply in_app_iff. right. now left. }
      destruct (IH m1) as [P' [N' [C' K']]]; [now rewrite K|auto|].
      split; [rewrite P', P; cbn [app]; symmetry; apply Permutation_middle|]. split; auto. split; auto. intros y. rewrite K', K. cbn [In]. split; [tauto|]. intros [[<-|H]|H]; auto.
    + destruct (IH (m ++ [(x, 1%nat)])) as [P' [N' [C' K']]].
      { rewrite map_app. cbn [map fst]. apply (Permutation_NoDup (Permutation_cons_append (map fst m) x)). now constructor. }
      { apply Forall_app. split; auto. }
      split; [rewrite P', runs_app; cbn [runs repeat app]; rewrite app_assoc; rewrite <- Permutation_cons_append; reflexivity|].
      split; auto. split; auto. intros y. rewrite K', map_app, in_app_iff. cbn [map fst In]. tauto.
Qed.
(** the keys are the elements of the table in the order of their first occurrence *)
Lemma table_nodup t : forall m, NoDup t -> (forall x, In x t -> ~ In x (map fst m)) -> count_table t m = m ++ map (fun x => (x, 1%nat)) t.
Proof.
  induction t as [|x t IH]; intros m N D; cbn [count_table fold_left map]; [now rewrite app_nil_r|].
  fold (count_table t (match count_up x m with Some m' => m' | None => m ++ [(x, 1%nat)] end)).
  pose proof (count_up_spec x m) as S0. destruct (count_up x m) as [m1|].
  - destruct S0 as [a [k [b [-> _]]]]. exfalso. apply (D x); [now left|]. rewrite map_app. apply in_app_iff. right. now left.
  - inversion N; subst. rewrite IH; [now rewrite <- app_assoc|auto|]. intros y Hy. rewrite map_app, in_app_iff. cbn [map fst In].
    intros [H|[<-|[]]]; [apply (D y); auto; now right|contradiction].
Qed.
Lemma table_known t : forall m, (forall x, In x t -> In x (map fst m)) -> map fst (count_table t m) = map fst m.
Proof.
  induction t as [|x t IH]; intros m H; cbn [count_table fold_left]; auto.
  fold (count_table t (match count_up x m with Some m' => m' | None => m ++ [(x, 1%nat)] end)).
  destruct (count_up x m) as [m1|] eqn:E.
  - destruct (count_up_runs x m m1 E) as [_ [K _]]. rewrite IH, K; auto. intros y Hy. rewrite K. apply H. now right.
  - pose proof (count_up_spec x m) as S0. rewrite E in S0. exfalso. apply S0, H. now left.
Qed.
Lemma table_app t t' m : count_table (t ++ t') m = count_table t' (count_table t m).
Proof. unfold count_table. apply fold_left_app. Qed.

(** *** The two halves *)
Lemma interleave_app (a : list F) b a' b' : length a = length b -> interleave (a ++ a') (b ++ b') = interleave a b ++ interleave a' b'.
Proof. revert b. induction a as [|x a IH]; intros [|y b] H; cbn in *; try lia; auto. now rewrite IH by lia. Qed.
Lemma interleave_app1 (a : list F) b x a' b' : length a = length b -> interleave (a ++ x :: a') (b ++ b') = interleave a b ++ interleave (x :: a') b'.
Proof. apply interleave_app. Qed.
Lemma interleave_repeat (x : F) k : interleave (repeat x k) (repeat x k) = repeat x (2 * k).
Proof. induction k as [|k IH]; auto. replace (2 * S k)%nat with (S (S (2 * k))) by lia. cbn [repeat interleave]. now rewrite IH. Qed.
Lemma interleave_length (a b : list F) : length a = length b -> length (interleave a b) = (length a + length b)%nat.
Proof. revert b. induction a as [|x a IH]; intros [|y b] H; cbn in *; try lia. rewrite IH by lia. lia. Qed.
Lemma interleave_odd (a : list F) x b y : length a = length b -> interleave (a ++ [x]) (b ++ [y]) = interleave a b ++ [x; y].
Proof. intros H. now rewrite interleave_app. Qed.
Lemma interleave_last (a : list F) x b : length a = length b -> interleave (a ++ [x]) b = interleave a b ++ [x].
Proof. intros H. rewrite <- (app_nil_r b) at 1. now rewrite interleave_app. Qed.
Lemma odd_half k : (k mod 2 =? 1)%nat = true -> k = (2 * (k / 2) + 1)%nat.
Proof. intros H. apply Nat.eqb_eq in H. pose proof (Nat.div_mod k 2). lia. Qed.
Lemma even_half k : (k mod 2 =? 1)%nat = false -> k = (2 * (k / 2))%nat.
Proof. intros H. apply Nat.eqb_neq in H. pose proof (Nat.div_mod k 2). pose proof (Nat.mod_upper_bound k 2). lia. Qed.
Lemma repeat_app' {A} (x : A) a b : repeat x a ++ repeat x b = repeat x (a + b).
Proof. symmetry. apply repeat_app. Qed.
(* evens have one element more exactly if parity is set *)
Lemma split_spec m : forall (parity : bool) (e o e' o' : list F), length e = (length o + (if parity then 1 else 0))%nat -> split_counts m parity e o = (e', o') ->
  (length e' = length o' \/ length e' = length o' + 1)%nat /\ interleave e' o' = interleave e o ++ runs m.
Proof.
  induction m as [|[x k] m IH]; intros parity e o e' o' L H; cbn [split_counts runs] in *.
  - injection H as <- <-. rewrite app_nil_r. split; auto. destruct parity; lia.
  - assert (forall (a b : list F) j, length a = length b -> interleave (a ++ repeat x j) (b ++ repeat x j) = interleave a b ++ repeat x (2 * j)) as X1.
    { intros a b j E. now rewrite interleave_app, interleave_repeat by auto. }
    assert (forall (a b : list F) y j, length a = length b -> interleave (a ++ [y] ++ repeat x j) (b ++ repeat x j) = interleave a b ++ [y] ++ repeat x (2 * j)) as X2.
    { intros a b y j E. rewrite interleave_app by auto. f_equal. cbn [app]. clear. revert y. induction j as [|j IH]; intros y; auto.
      replace (2 * S j)%nat with (S (S (2 * j))) by lia. cbn [repeat interleave]. f_equal. f_equal. apply IH. }
    destruct (k mod 2 =? 1)%nat eqn:K; [destruct parity|].
    + apply IH in H; [|rewrite !app_length, !repeat_length; cbn; lia]. destruct H as [HL H]. split; auto. rewrite H. rewrite app_assoc. f_equal.
      destruct (exists_last (l := e)) as [e0 [y ->]]; [destruct e; [cbn in L; lia|discriminate]|]. rewrite app_length in L. cbn in L.
      rewrite <- app_assoc. rewrite (interleave_last e0 y o) by lia. rewrite <- !app_assoc. rewrite (odd_half k K) at 3. rewrite interleave_app by lia. f_equal.
      cbn [app]. clear. rewrite Nat.add_1_r. cbn [repeat]. revert y. induction (k / 2)%nat as [|j IH]; intros y; auto.
      replace (2 * S j)%nat with (S (S (2 * j))) by lia. cbn [repeat app interleave]. f_equal. f_equal. apply IH.
    + apply IH in H; [|rewrite !app_length, !repeat_length; cbn; lia]. destruct H as [HL H]. split; auto. rewrite H. rewrite app_assoc. f_equal.
      rewrite interleave_last by (rewrite !app_length, !repeat_length; lia). rewrite X1 by lia. rewrite <- app_assoc. f_equal. rewrite <- repeat_snoc. f_equal. symmetry. now apply odd_half.
    + apply IH in H; [|rewrite !app_length, !repeat_length; lia]. destruct H as [HL H]. split; auto. rewrite H. rewrite app_assoc. f_equal.
      rewrite (even_half k K) at 3. destruct parity.
      * destruct (exists_last (l := e)) as [e0 [y ->]]; [destruct e; [cbn in L; lia|discriminate]|]. rewrite app_length in L. cbn in L.
        rewrite <- app_assoc. rewrite X2 by lia. rewrite (interleave_last e0 y o) by lia. now rewrite <- app_assoc.
      * now rewrite X1 by lia.
Qed.
Lemma interleave_total (a b : list F) : (length a = length b \/ length a = length b + 1)%nat -> length (interleave a b) = (length a + length b)%nat.
Proof. revert b. induction a as [|x a IH]; intros [|y b] H; cbn in *; try lia. rewrite IH by lia. lia. Qed.
End PlonkLookup2.

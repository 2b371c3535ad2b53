(** PlonkLookup3.v: neighbours in the sorted vector; completeness of the lookup argument of plonk-core. *)
From Verif Require Import Base Spec Tools KZG IntProofs SnarkProofs SoundSpec Sound ProdPoly Plonk PlonkSpec PlonkPI PlonkSigmaSpec PlonkSigma PlonkProver PlonkGPSpec PlonkGP PlonkLookupSpec PlonkLookup PlonkLookup2.
From Coq Require Import Permutation.
Local Open Scope F_scope.

Section PlonkLookup3.
Context {F : Type} {fo : FieldOps F} {fl : FieldLaws F}.
Add Field Fplonklookup3 : F_th.
Implicit Types (l t f a b : list F) (m : list (F * nat)) (x y : F).

Fixpoint adj (l : list F) : list (F * F) := match l with [] => [] | x :: l' => match l' with [] => [] | y :: _ => (x, y) :: adj l' end end.
Lemma adj_cons2 x y l : adj (x :: y :: l) = (x, y) :: adj (y :: l).
Proof. reflexivity. Qed.
Lemma adj_combine l : forall y, adj (l ++ [y]) = combine l (tl l ++ [y]).
Proof.
  induction l as [|x l IH]; intros y; auto. destruct l as [|z l]; auto. cbn [app]. rewrite adj_cons2. change (z :: l ++ [y]) with ((z :: l) ++ [y]). rewrite IH. reflexivity.
Qed.
Lemma adj_interleave a : forall b y, length a = length b -> Permutation (adj (interleave a b ++ [y])) (combine a b ++ combine b (tl a ++ [y])).
Proof.
  induction a as [|x a IH]; intros [|z b] y L; cbn [length] in L; try lia; [reflexivity|].
  cbn [interleave app]. rewrite adj_cons2. cbn [combine app tl]. constructor. destruct a as [|x' a].
  - destruct b; [|cbn in L; lia]. reflexivity.
  - destruct b as [|z' b]; [cbn in L; lia|]. cbn [interleave app]. rewrite adj_cons2. specialize (IH (z' :: b) y ltac:(lia)).
    cbn [interleave app tl] in IH. rewrite IH. cbn [app]. rewrite (Permutation_middle (combine (x' :: a) (z' :: b))). reflexivity.
Qed.
Lemma adj_repeat x k l : adj (repeat x (S k) ++ l) = repeat (x, x) k ++ adj (x :: l).
Proof. induction k as [|k IH]; auto. change (repeat x (S (S k)) ++ l) with (x :: x :: (repeat x k ++ l)). rewrite adj_cons2. change (x :: repeat x k ++ l) with (repeat x (S k) ++ l). now rewrite IH. Qed.
Definition rest m : list F := flat_map (fun p => repeat (fst p) (snd p - 1)) m.
Definition diag (x : F) : F * F := (x, x).
Lemma map_diag_repeat z k : map diag (repeat z k) = repeat (z, z) k.
Proof. induction k; cbn; [reflexivity|]. now f_equal. Qed.
Lemma adj_runs m : forall x y, Forall (fun p => 1 <= snd p)%nat m -> Permutation (adj (x :: runs m ++ [y])) (map diag (rest m) ++ adj (x :: map fst m ++ [y])).
Proof.
  induction m as [|[z k] m IH]; intros x y C; [reflexivity|]. inversion C; subst. cbn [snd] in *. destruct k as [|k]; [lia|].
  cbn [runs map rest flat_map fst snd]. rewrite <- app_assoc. cbn [Nat.sub]. rewrite Nat.sub_0_r.
  change (adj (x :: repeat z (S k) ++ runs m ++ [y])) with ((x, z) :: adj (repeat z (S k) ++ runs m ++ [y])). rewrite adj_repeat, IH by auto.
  cbn [app]. rewrite adj_cons2, map_app. fold (rest m). rewrite map_diag_repeat.
  rewrite app_assoc. apply Permutation_middle.
Qed.
Lemma runs_rest m : Forall (fun p => 1 <= snd p)%nat m -> Permutation (runs m) (rest m ++ map fst m).
Proof.
  induction m as [|[z k] m IH]; intros C; [reflexivity|]. inversion C; subst. cbn [snd] in *. destruct k as [|k]; [lia|].
  cbn [runs rest flat_map map fst snd Nat.sub repeat]. rewrite Nat.sub_0_r. fold (rest m). rewrite IH by auto. cbn [app]. rewrite <- Permutation_middle, app_assoc. reflexivity.
Qed.
(** the neighbours of a vector, cyclically *)
Definition cyc l : list (F * F) := match l with [] => [] | x :: _ => adj (l ++ [x]) end.
Lemma cyc_runs m : Forall (fun p => 1 <= snd p)%nat m -> Permutation (cyc (runs m)) (map diag (rest m) ++ cyc (map fst m)).
Proof.
  destruct m as [|[z k] m]; intros C; [reflexivity|]. inversion C; subst. cbn [snd] in *. destruct k as [|k]; [lia|].
  cbn [runs rest flat_map map fst snd Nat.sub]. rewrite Nat.sub_0_r. fold (rest m). cbn [repeat app cyc]. 
  change (z :: (repeat z k ++ runs m) ++ [z]) with ((repeat z (S k) ++ runs m) ++ [z]). rewrite <- app_assoc, adj_repeat, adj_runs by auto.
  rewrite map_app. rewrite map_diag_repeat. now rewrite app_assoc.
Qed.
Lemma cyc_padded x t p : Permutation (cyc ((x :: t) ++ repeat x p)) (repeat (x, x) p ++ cyc (x :: t)).
Proof.
  cbn [cyc app]. assert (forall q, adj (x :: (t ++ repeat x q) ++ [x]) = adj (x :: t ++ [x]) ++ repeat (x, x) q) as E.
  { induction q as [|q IH]; [now rewrite !app_nil_r|].
    assert (forall u z, adj (u ++ [z]) ++ [(z, z)] = adj ((u ++ [z]) ++ [z])) as X.
    { clear. induction u as [|w u IH]; intros z; auto. destruct u as [|w' u]; auto. cbn [app] in *. rewrite !adj_cons2. cbn [app]. f_equal. apply IH. }
    replace (S q) with (q + 1)%nat by lia. rewrite !repeat_snoc, !app_assoc, <- IH.
    change (x :: (t ++ repeat x q) ++ [x]) with ((x :: t ++ repeat x q) ++ [x]). rewrite X. cbn [app]. now rewrite <- !app_assoc. }
  rewrite E. apply Permutation_app_comm.
Qed.
Lemma nth_rot l i : (i < length l)%nat -> nth i (tl l ++ [hd 0 l]) 0 = nth ((i + 1) mod length l) l 0.
Proof.
  destruct l as [|x l]; cbn [length]; [lia|]. intros H. cbn [tl hd]. destruct (Nat.eq_dec i (length l)) as [->|N].
  - rewrite app_nth2 by lia. rewrite Nat.sub_diag. replace (length l + 1)%nat with (S (length l)) by lia. now rewrite Nat.mod_same by lia.
  - rewrite app_nth1 by lia. rewrite Nat.mod_small by lia. now replace (i + 1)%nat with (S i) by lia.
Qed.
Lemma map_combine a b n : length a = n -> length b = n -> map (fun i => (nth i a 0, nth i b 0)) (seq 0 n) = combine a b.
Proof.
  revert b n. induction a as [|x a IH]; intros [|y b] n <- L; cbn [length] in *; try lia; auto. cbn [seq map combine]. f_equal.
  rewrite <- seq_shift, map_map. apply (IH b (length a)); auto.
Qed.
Definition at_ (l : list F) (i : nat) : F := nth i l 0.
Lemma rot_length l : l <> [] -> length (tl l ++ [hd 0 l]) = length l.
Proof. destruct l; [congruence|]. intros _. cbn. rewrite app_length. cbn. lia. Qed.
Lemma pairs_ft_lists f t n : (0 < n)%nat -> length f = n -> length t = n -> pairs_ft n (at_ f) (at_ t) = map diag f ++ cyc t.
Proof.
  intros Hn L1 L2. unfold pairs_ft. f_equal.
  - transitivity (combine f f); [apply (map_combine f f n); auto|]. clear. induction f; cbn; [reflexivity|]. now f_equal.
  - transitivity (combine t (tl t ++ [hd 0 t])).
    + rewrite <- (map_combine t (tl t ++ [hd 0 t]) n); [|auto|rewrite rot_length; [auto|destruct t; cbn in L2; [lia|discriminate]]].
      apply map_ext_in. intros i Hi. apply in_seq in Hi. unfold at_. rewrite nth_rot by lia. now rewrite L2.
    + rewrite <- adj_combine. destruct t; [cbn in L2; lia|reflexivity].
Qed.
Lemma pairs_h_lists a b n : (0 < n)%nat -> length a = n -> length b = n -> Permutation (pairs_h n (at_ a) (at_ b)) (cyc (interleave a b)).
Proof.
  intros Hn L1 L2. transitivity (combine a b ++ combine b (tl a ++ [hd 0 a])).
  - unfold pairs_h. apply Permutation_app; [unfold at_; now rewrite (map_combine a b n) by auto|].
    rewrite <- (map_combine b (tl a ++ [hd 0 a]) n); [|auto|rewrite rot_length; [auto|destruct a; cbn in L1; [lia|discriminate]]].
    erewrite map_ext_in; [reflexivity|]. intros i Hi. apply in_seq in Hi. unfold at_. rewrite nth_rot by lia. now rewrite L1.
  - rewrite <- adj_interleave by congruence. destruct a as [|x a]; [cbn in L1; lia|]. destruct b as [|y b]; [cbn in L2; lia|]. reflexivity.
Qed.
(** *** The sorted vector of queries in a table with different elements, padded with the first one *)
Lemma combine_split_spec t f h1 h2 : combine_split t f = Ok (h1, h2) ->
  (forall x, In x f -> In x t) /\ (length h1 = length h2 \/ length h1 = length h2 + 1)%nat /\
  exists m, interleave h1 h2 = runs m /\ NoDup (map fst m) /\ Forall (fun p => 1 <= snd p)%nat m /\ Permutation (runs m) (f ++ t) /\ map fst m = map fst (count_table t []).
Proof.
  intros H. unfold combine_split in H. apply obind_ok in H. destruct H as [m [E H]]. injection H as H.
  destruct (table_spec t [] ltac:(constructor) ltac:(constructor)) as [P [N [C K]]]. cbn [runs map] in P, K. rewrite app_nil_r in P.
  assert (forall x, In x f -> In x t) as I.
  { intros x Hx. destruct (in_dec feq_dec x t) as [|NI]; auto. exfalso. rewrite (queries_err f _ x Hx) in E; [discriminate E|]. rewrite K. intros [A|[]]; auto. }
  split; auto. destruct (queries_spec f (count_table t [])) as [m' [E' [K' [P' C']]]]; [intros x Hx; apply K; auto|]. rewrite E in E'. injection E' as <-.
  destruct (split_spec m false [] [] h1 h2 ltac:(reflexivity) H) as [L S0]. split; auto. exists m. split; [exact S0|]. split; [now rewrite K'|]. split; [auto|]. split; [rewrite P'; now apply Permutation_app_head|auto].
Qed.
Lemma combine_split_total t f : (forall x, In x f -> In x t) -> exists h1 h2, combine_split t f = Ok (h1, h2).
Proof.
  intros H. destruct (table_spec t [] ltac:(constructor) ltac:(constructor)) as [_ [_ [_ K]]].
  destruct (queries_spec f (count_table t [])) as [m' [E' _]]; [intros x Hx; apply K; auto|]. unfold combine_split. rewrite E'. cbn [obind].
  destruct (split_counts m' false [] []) as [h1 h2]. eauto.
Qed.
Lemma combine_split_err t f : (exists x, In x f /\ ~ In x t) -> combine_split t f = Err ElementNotIndexed.
Proof.
  intros [x [H N]]. destruct (table_spec t [] ltac:(constructor) ltac:(constructor)) as [_ [_ [_ K]]]. unfold combine_split. rewrite (queries_err f _ x H); [reflexivity|].
  rewrite K. intros [A|[]]; auto.
Qed.
Lemma complete_pairs t0 p f h1 h2 n : (0 < n)%nat -> NoDup t0 -> length (t0 ++ repeat (hd 0 t0) p) = n -> length f = n ->
  combine_split (t0 ++ repeat (hd 0 t0) p) f = Ok (h1, h2) -> t0 <> [] ->
  length h1 = n /\ length h2 = n /\ Permutation (pairs_ft n (at_ f) (at_ (t0 ++ repeat (hd 0 t0) p))) (pairs_h n (at_ h1) (at_ h2)).
Proof.
  intros Hn N0 Lt Lf H NE. apply combine_split_spec in H. destruct H as [I [L [m [E [N [C [P K]]]]]]].
  assert (length (interleave h1 h2) = (2 * n)%nat) as LI by (rewrite E, P, app_length; lia). rewrite interleave_total in LI by auto.
  assert (length h1 = n /\ length h2 = n) as [L1 L2] by lia. split; auto. split; auto.
  assert (map fst m = t0) as KM.
  { rewrite K, table_app, (table_nodup t0 []); [|auto|intros ? _ Q; exact Q]. cbn [app]. rewrite table_known, ?map_map.
    - cbn [fst]. apply map_id.
    - intros x Hx. apply repeat_spec in Hx. subst x. rewrite map_map. cbn [fst]. rewrite map_id. destruct t0; [congruence|]. now left. }
  rewrite pairs_h_lists, pairs_ft_lists by auto. rewrite E, cyc_runs, KM by auto.
  destruct t0 as [|x t0]; [congruence|]. cbn [hd]. rewrite cyc_padded. rewrite app_assoc. apply Permutation_app_tail.
  rewrite <- map_diag_repeat, <- map_app. apply Permutation_map. pose proof (runs_rest m C) as R. rewrite KM in R. rewrite R in P. cbn [hd] in P.
  rewrite (Permutation_app_comm (x :: t0)), app_assoc in P. apply Permutation_app_inv_r in P. now symmetry.
Qed.
(** *** The prover's polynomial *)
Lemma cyc_recurrence n (num den z : nat -> F) : (0 < n)%nat -> (forall i, (i < n)%nat -> den i <> 0) ->
  (forall i, (i < n)%nat -> z i * nprod i den = nprod i num) -> nprod n den = nprod n num ->
  z 0%nat = 1 /\ forall i, (i < n)%nat -> z ((i + 1) mod n)%nat * den i = z i * num i.
Proof.
  intros Hn NZ R C. assert (forall i, (i <= n)%nat -> nprod i den <> 0) as NP.
  { intros i Hi Z. apply nprod_zero in Z. destruct Z as [j [Hj Z]]. apply (NZ j); auto. lia. }
  assert (z 0%nat = 1) as Z0 by (pose proof (R 0%nat Hn) as R0; cbn [nprod] in R0; refine (eq_trans _ R0); ring).
  split; auto. intros i Hi. apply (fmul_cancel_l (nprod i den)); [apply NP; lia|].
  transitivity (z ((i + 1) mod n)%nat * nprod (S i) den); [cbn [nprod]; ring|].
  transitivity (z i * nprod i den * num i); [|ring]. rewrite R by auto.
  destruct (Nat.eq_dec (i + 1) n) as [En|Nn].
  - rewrite En, Nat.mod_same by lia. replace (S i) with n by lia. rewrite C, Z0. rewrite <- En. replace (i + 1)%nat with (S i) by lia. cbn [nprod]. ring.
  - rewrite Nat.mod_small by lia. replace (i + 1)%nat with (S i) by lia. rewrite R by lia. cbn [nprod]. ring.
Qed.
Definition lnum dl eps (f t : nat -> F) n i : F := (1 + dl) * (eps + f i) * (eps * (1 + dl) + t i + dl * t ((i + 1) mod n)%nat).
Definition lden dl eps (h1 h2 : nat -> F) n i : F := (eps * (1 + dl) + h1 i + dl * h2 i) * (eps * (1 + dl) + h2 i + dl * h1 ((i + 1) mod n)%nat).
Lemma removelast_nth l i : (S i < length l)%nat -> nth i (removelast l) 0 = nth i l 0.
Proof.
  intros H. destruct (exists_last (l := l)) as [l' [x ->]]; [destruct l; [cbn in H; lia|discriminate]|]. rewrite removelast_last, app_length in *. cbn in H. now rewrite app_nth1 by lia.
Qed.
Lemma lookup_prover n f t h1 h2 dl eps : (0 < n)%nat -> length f = n -> length t = n -> length h1 = n -> length h2 = n ->
  ((forall i, (i < n)%nat -> lden dl eps (at_ h1) (at_ h2) n i <> 0) ->
     exists z, compute_lookup_permutation_poly n f t h1 h2 dl eps = Ok z /\ length z = n /\
       forall i, (i < n)%nat -> at_ z i * nprod i (lden dl eps (at_ h1) (at_ h2) n) = nprod i (lnum dl eps (at_ f) (at_ t) n)) /\
  (forall i, (i < n)%nat -> lden dl eps (at_ h1) (at_ h2) n i = 0 -> compute_lookup_permutation_poly n f t h1 h2 dl eps = Panic).
Proof.
  intros Hn L1 L2 L3 L4. unfold compute_lookup_permutation_poly. rewrite L1, L2, L3, L4, !Nat.eqb_refl. cbn [andb assert_ obind].
  destruct t as [|t0 t]; [cbn in L2; lia|]. destruct h1 as [|a0 h1]; [cbn in L3; lia|]. cbn [rotate obind].
  change (t ++ [t0]) with (tl (t0 :: t) ++ [hd 0 (t0 :: t)]). change (h1 ++ [a0]) with (tl (a0 :: h1) ++ [hd 0 (a0 :: h1)]).
  set (T := t0 :: t) in *. set (H1 := a0 :: h1) in *.
  assert (forall i, (i < n)%nat -> lookup_ratio dl eps (nth i f 0) (nth i T 0) (nth i (tl T ++ [hd 0 T]) 0) (nth i H1 0) (nth i (tl H1 ++ [hd 0 H1]) 0) (nth i h2 0) =
    if feqb (lden dl eps (at_ H1) (at_ h2) n i) 0 then Panic else Ok (lnum dl eps (at_ f) (at_ T) n i * finv (lden dl eps (at_ H1) (at_ h2) n i))) as RE.
  { intros i Hi. rewrite !nth_rot by lia. rewrite L2, L3. unfold lookup_ratio. unfold inverse, is_zero.
    replace ((eps * (1 + dl) + nth i H1 0 + nth i h2 0 * dl) * (eps * (1 + dl) + nth i h2 0 + nth ((i + 1) mod n) H1 0 * dl)) with (lden dl eps (at_ H1) (at_ h2) n i) by (unfold lden, at_; ring).
    destruct (feqb (lden dl eps (at_ H1) (at_ h2) n i) 0); reflexivity. }
  split.
  - intros NZ. set (rs := map (fun i => lnum dl eps (at_ f) (at_ T) n i * finv (lden dl eps (at_ H1) (at_ h2) n i)) (seq 0 n)).
    assert (length rs = n) as LR by (unfold rs; now rewrite map_length, seq_length).
    match goal with |- context [map_out ?g (seq 0 n)] => assert (map_out g (seq 0 n) = Ok rs) as E end.
    { apply (map_out_seq _ _ _ 0). split; auto. intros i Hi. rewrite RE by auto. destruct (feqb (lden dl eps (at_ H1) (at_ h2) n i) 0) eqn:Z; [apply feqb_eq in Z; now apply NZ in Z|].
      unfold rs. now rewrite nth_map_seq by auto. }
    rewrite E. cbn [obind]. eexists. split; [reflexivity|].
    assert (length (accumulate 1 rs) = S n) as LA by (now rewrite accumulate_length, LR).
    split. { destruct (exists_last (l := accumulate 1 rs)) as [l' [x EL]]; [intros Z; rewrite Z in LA; cbn in LA; lia|]. rewrite EL, removelast_last in *. rewrite app_length in LA. cbn in LA. lia. }
    intros i Hi. unfold at_ at 1. rewrite removelast_nth, accumulate_nth by lia.
    transitivity (nprod i (fun j => nth j rs 0 * lden dl eps (at_ H1) (at_ h2) n j)); [rewrite nprod_mul; ring|]. apply nprod_ext. intros j Hj.
    unfold rs. rewrite nth_map_seq by lia. cbn [Nat.add]. field. apply NZ. lia.
  - intros i Hi Z. rewrite (map_out_panic _ _ i); [reflexivity|apply in_seq; lia| |].
    + rewrite RE, Z by auto. now rewrite (proj2 (feqb_eq 0 0) eq_refl).
    + intros j Hj. apply in_seq in Hj. rewrite RE by lia. exists (lnum dl eps (at_ f) (at_ T) n j * finv (lden dl eps (at_ H1) (at_ h2) n j)).
      destruct (feqb (lden dl eps (at_ H1) (at_ h2) n j) 0); auto.
Qed.
Lemma lookup_complete n t0 p f h1 h2 dl eps z : (0 < n)%nat -> t0 <> [] -> NoDup t0 -> length (t0 ++ repeat (hd 0 t0) p) = n -> length f = n ->
  combine_split (t0 ++ repeat (hd 0 t0) p) f = Ok (h1, h2) -> 1 + dl <> 0 ->
  compute_lookup_permutation_poly n f (t0 ++ repeat (hd 0 t0) p) h1 h2 dl eps = Ok z ->
  length z = n /\ lookup_product n dl eps (at_ f) (at_ (t0 ++ repeat (hd 0 t0) p)) (at_ h1) (at_ h2) (at_ z).
Proof.
  intros Hn NE N0 Lt Lf E ND Z. destruct (complete_pairs t0 p f h1 h2 n Hn N0 Lt Lf E NE) as [L1 [L2 P]]. set (t := t0 ++ repeat (hd 0 t0) p) in *.
  destruct (lookup_prover n f t h1 h2 dl eps Hn Lf Lt L1 L2) as [A B].
  assert (forall i, (i < n)%nat -> lden dl eps (at_ h1) (at_ h2) n i <> 0) as NZ by (intros i Hi Z0; rewrite (B i Hi Z0) in Z; discriminate Z).
  destruct (A NZ) as [z' [E' [L R]]]. rewrite Z in E'. injection E' as <-. split; auto.
  destruct (cyc_recurrence n (lnum dl eps (at_ f) (at_ t) n) (lden dl eps (at_ h1) (at_ h2) n) (at_ z) Hn NZ R) as [Z0 Rec].
  - apply shifts_product; auto. unfold shifts. apply lprod_perm. now apply Permutation_map, Permutation_map.
  - split; auto.
Qed.
End PlonkLookup3.

(** Properties_PlonkLookup.v: the lookup argument of plonk-core (C75). *)
From Verif Require Import Base Spec Tools KZG IntProofs SnarkProofs SoundSpec Sound Plonk PlonkSpec PlonkProofs Properties_Plonk PlonkPI PlonkPIProofs PlonkSigmaSpec PlonkProver PlonkGatesSpec PlonkGates PlonkLookupSpec PlonkLookup PlonkLookup2 PlonkLookup3 PlonkLookup4 PlonkGP Properties_PlonkGates ProdPoly.
From Coq Require Import Permutation.
Local Open Scope F_scope.

(** the row of values on the wires of a gate *)
Definition wire_row {F} {fo : FieldOps F} (ws : column -> list F) (i : nat) : F * F * F * F :=
  (nth i (ws Left) 0, nth i (ws Right) 0, nth i (ws Output) 0, nth i (ws Fourth) 0).
(** the value of a vector at a gate *)
Definition at_gate {F} {fo : FieldOps F} (l : list F) (i : nat) : F := nth i l 0.

Section S.
Context {F : Type} {fo : FieldOps F} {fl : FieldLaws F} {po : PrimeFieldOps F} {pl : PrimeFieldLaws F}.
Add Field Fc75 : F_th.
Implicit Types (table : list (F * F * F * F)) (ws : column -> list F) (qs : list F).

(** Splitting: the queries have to be in the table; the sorted vector, which alternates between the two
    results, consists of the queries and the table, equal elements being next to each other. *)
Theorem c75_combine_split (t f : list F) :
  ((exists x, In x f /\ ~ In x t) -> combine_split t f = Err ElementNotIndexed) /\
  ((forall x, In x f -> In x t) -> exists h1 h2 d, combine_split t f = Ok (h1, h2) /\ (length h1 = length h2 \/ length h1 = length h2 + 1)%nat /\
     interleave h1 h2 = runs d /\ NoDup (map fst d) /\ Permutation (interleave h1 h2) (f ++ t)).
Proof.
  split; [apply combine_split_err|]. intros H. destruct (combine_split_total t f H) as [h1 [h2 E]].
  destruct (combine_split_spec t f h1 h2 E) as [_ [L [m [I [N [C [P _]]]]]]]. exists h1, h2, m. rewrite I. auto.
Qed.
(** The vectors of the prover: the combinations of the rows of the padded table, and of the rows of the wires
    of the gates with lookup; the other gates query the first row. It fails exactly if a query is not in the
    table, or for the challenges 0 and 1. *)
Theorem c75_round n table qs ws zeta : is_power_of_two n = true -> (length table <= n)%nat -> length qs = n -> (forall col, length (ws col) = n) ->
  let t := map (combined zeta) (padded_table n table) in
  (zeta = 0 \/ zeta = 1 -> lookup_round n table qs ws zeta = Panic) /\
  (zeta <> 0 -> zeta <> 1 ->
    ((exists i, (i < n)%nat /\ nth i qs 0 <> 0 /\ ~ In (combined zeta (wire_row ws i)) t) -> lookup_round n table qs ws zeta = Panic) /\
    ((forall i, (i < n)%nat -> nth i qs 0 <> 0 -> In (combined zeta (wire_row ws i)) t) ->
       exists f h1 h2, lookup_round n table qs ws zeta = Ok (t, f, h1, h2) /\ length t = n /\ length f = n /\ length h1 = n /\ length h2 = n /\
         combine_split t f = Ok (h1, h2) /\
         forall i, (i < n)%nat -> nth i f 0 = if feqb (nth i qs 0) 0 then nth 0 t 0 else combined zeta (wire_row ws i))).
Proof.
  intros P LT LQ LW t. split; [|intros N0 N1].
  - intros H. unfold lookup_round, compressed_table. rewrite map_out_cols by auto. cbn [obind]. rewrite compress_panic by auto. reflexivity.
  - assert (1 <= n)%nat as Hn by (apply is_pow2 in P; destruct P as [k ->]; pose proof (Nat.pow_nonzero 2 k); lia).
    assert (length t = n) as LTn by (unfold t; now rewrite map_length, padded_length by auto).
    assert (exists a l, t = a :: l) as [a [l ET]] by (destruct t as [|a l]; [cbn in LTn; lia|eauto]).
    set (f := map (query zeta a qs ws) (seq 0 n)). assert (length f = n) as LF by (unfold f; now rewrite map_length, seq_length).
    assert (lookup_round n table qs ws zeta = match combine_split t f with Ok (h1, h2) => Ok (t, f, h1, h2) | _ => Panic end) as ER.
    { unfold lookup_round. rewrite table_ok by auto. cbn [obind]. fold t. rewrite ET at 1. cbn [nth_error unwrap_opt obind]. rewrite (queries_ok a n) by auto. reflexivity. }
    assert (forall i, (i < n)%nat -> nth i f 0 = if feqb (nth i qs 0) 0 then nth 0 t 0 else combined zeta (wire_row ws i)) as EF.
    { intros i Hi. unfold f. rewrite nth_map_seq by auto. rewrite ET. reflexivity. }
    assert (forall i, (i < n)%nat -> In (nth i f 0) f) as IF by (intros i Hi; apply nth_In; lia).
    split.
    + intros [i [Hi [Q N]]]. rewrite ER, combine_split_err; [reflexivity|]. exists (nth i f 0). split; [auto|]. rewrite EF by auto.
      destruct (feqb (nth i qs 0) 0) eqn:E; [apply feqb_eq in E; contradiction|exact N].
    + intros H. assert (forall x, In x f -> In x t) as I.
      { intros x Hx. apply (In_nth _ _ 0) in Hx. destruct Hx as [i [Hi <-]]. rewrite LF in Hi. rewrite EF by auto.
        destruct (feqb (nth i qs 0) 0) eqn:E; [apply nth_In; lia|]. apply H; auto. intros Z. rewrite (proj2 (feqb_eq _ _) Z) in E. discriminate E. }
      destruct (combine_split_total t f I) as [h1 [h2 E]]. exists f, h1, h2. rewrite ER, E.
      destruct (combine_split_spec t f h1 h2 E) as [_ [L [m [EI [_ [_ [PM _]]]]]]].
      assert (length (interleave h1 h2) = (2 * n)%nat) as LI by (rewrite EI, PM, app_length; lia). rewrite interleave_total in LI by auto.
      repeat (split; [lia || auto|]). exact EF.
Qed.
(** If every gate with lookup has a row of the table on its wires, the vectors can be computed. *)
Theorem c75_honest n table qs ws zeta : is_power_of_two n = true -> (length table <= n)%nat -> length qs = n -> (forall col, length (ws col) = n) ->
  zeta <> 0 -> zeta <> 1 -> (forall i, (i < n)%nat -> nth i qs 0 <> 0 -> In (wire_row ws i) table \/ table = [] /\ wire_row ws i = (0, 0, 0, 0)) ->
  exists t f h1 h2, lookup_round n table qs ws zeta = Ok (t, f, h1, h2).
Proof.
  intros P LT LQ LW N0 N1 H. destruct (c75_round n table qs ws zeta P LT LQ LW) as [_ X]. destruct (X N0 N1) as [_ Y].
  destruct Y as [f [h1 [h2 [E _]]]]; [|eauto]. intros i Hi Q. apply in_map. apply padded_in. auto.
Qed.
(** The accumulator of the lookup argument can be computed exactly when no denominator is zero, for all but
    2 n values of epsilon; otherwise the prover panics. *)
Theorem c75_prover_panics n (f t h1 h2 : list F) dl : (0 < n)%nat -> length f = n -> length t = n -> length h1 = n -> length h2 = n ->
  (forall eps, (exists z, compute_lookup_permutation_poly n f t h1 h2 dl eps = Ok z) \/ compute_lookup_permutation_poly n f t h1 h2 dl eps = Panic) /\
  (forall eps, (exists z, compute_lookup_permutation_poly n f t h1 h2 dl eps = Ok z) <->
     forall i, (i < n)%nat -> eps * (1 + dl) + nth i h1 0 + dl * nth i h2 0 <> 0 /\ eps * (1 + dl) + nth i h2 0 + dl * nth ((i + 1) mod n) h1 0 <> 0) /\
  (1 + dl <> 0 -> most (2 * n) (fun eps => exists z, compute_lookup_permutation_poly n f t h1 h2 dl eps = Ok z)).
Proof.
  intros Hn L1 L2 L3 L4.
  assert (forall eps, (exists z, compute_lookup_permutation_poly n f t h1 h2 dl eps = Ok z) <->
     forall i, (i < n)%nat -> eps * (1 + dl) + nth i h1 0 + dl * nth i h2 0 <> 0 /\ eps * (1 + dl) + nth i h2 0 + dl * nth ((i + 1) mod n) h1 0 <> 0) as X.
  { intros eps. destruct (lookup_prover n f t h1 h2 dl eps Hn L1 L2 L3 L4) as [A B]. split.
    - intros [z E] i Hi. split; intros Z; rewrite (B i Hi) in E; try discriminate E; unfold lden, at_; rewrite Z; ring.
    - intros H. destruct A as [z [E _]]; [|eauto]. intros i Hi Z. unfold lden, at_ in Z. destruct (H i Hi). apply fmul_integral in Z. destruct Z; contradiction. }
  split; [|split; [exact X|]].
  - intros eps. destruct (lookup_prover n f t h1 h2 dl eps Hn L1 L2 L3 L4) as [A B].
    assert ((exists i, (i < n)%nat /\ lden dl eps (at_ h1) (at_ h2) n i = 0) \/ ~ (exists i, (i < n)%nat /\ lden dl eps (at_ h1) (at_ h2) n i = 0)) as [[i [Hi Z]]|N].
    { apply dec_ex. intros i _. destruct (feq_dec (lden dl eps (at_ h1) (at_ h2) n i) 0); auto. }
    + right. now apply (B i).
    + left. destruct A as [z [E _]]; [|eauto]. intros i Hi Z. apply N. eauto.
  - intros ND. set (l := map (fun p => - val dl p) (pairs_h n (at_ h1) (at_ h2))).
    assert (length l = (2 * n)%nat) as LL by (unfold l; now rewrite map_length, pairs_h_length). rewrite <- LL. apply (most_intro _ (fun x => In x l)).
    + intros r NDr I. apply NoDup_incl_length; auto.
    + intros x. destruct (in_dec feq_dec x l); auto.
    + intros eps NI. apply X. intros i Hi. assert (forall p, In p (pairs_h n (at_ h1) (at_ h2)) -> eps * (1 + dl) + fst p + dl * snd p <> 0) as Y.
      { intros p Hp Z. apply NI. unfold l. apply in_map_iff. exists p. split; auto. unfold val.
        transitivity (eps - (eps * (1 + dl) + fst p + dl * snd p) / (1 + dl)); [field; auto|]. rewrite Z. field. auto. }
      split.
      * apply (Y (nth i h1 0, nth i h2 0)). unfold pairs_h. apply in_app_iff. left. apply in_map_iff. exists i. split; [reflexivity|apply in_seq; lia].
      * apply (Y (nth i h2 0, nth ((i + 1) mod n) h1 0)). unfold pairs_h. apply in_app_iff. right. apply in_map_iff. exists i. split; [reflexivity|apply in_seq; lia].
Qed.
Lemma complete_at n table qs ws zeta : is_power_of_two n = true -> (length table <= n)%nat -> length qs = n -> (forall col, length (ws col) = n) ->
  (forall i, (i < n)%nat -> nth i qs 0 <> 0 -> In (wire_row ws i) table \/ table = [] /\ wire_row ws i = (0, 0, 0, 0)) ->
  zeta <> 0 -> zeta <> 1 -> NoDup (map (combined zeta) table) ->
  exists t f h1 h2, lookup_round n table qs ws zeta = Ok (t, f, h1, h2) /\
    forall dl eps z, 1 + dl <> 0 -> compute_lookup_permutation_poly n f t h1 h2 dl eps = Ok z ->
      length z = n /\ lookup_product n dl eps (at_gate f) (at_gate t) (at_gate h1) (at_gate h2) (at_gate z).
Proof.
  intros P LT LQ LW H N0 N1 NDz. assert (1 <= n)%nat as Hn by (apply is_pow2 in P; destruct P as [k ->]; pose proof (Nat.pow_nonzero 2 k); lia).
  destruct (c75_round n table qs ws zeta P LT LQ LW) as [_ X]. destruct (X N0 N1) as [_ Y].
  destruct Y as [f [h1 [h2 [E [L1 [L2 [L3 [L4 [CS _]]]]]]]]]; [intros i Hi Q; apply in_map, padded_in; auto|].
  set (t := map (combined zeta) (padded_table n table)) in *. exists t, f, h1, h2. split; [exact E|]. intros dl eps z ND1 EZ.
  set (tb := match table with [] => [(0, 0, 0, 0)] | _ => table end). set (t0 := map (combined zeta) tb).
  assert (exists p, t = t0 ++ repeat (hd 0 t0) p) as [p ET].
  { exists (n - length tb)%nat. unfold t, padded_table, t0. fold tb. rewrite map_app. f_equal.
    assert (forall r k, map (combined zeta) (repeat r k) = repeat (combined zeta r) k) as MR by (intros r k; induction k; cbn; [reflexivity|now f_equal]).
    rewrite MR. f_equal. unfold tb. now destruct table. }
  rewrite ET in *. apply lookup_complete; auto.
  + unfold t0, tb. now destruct table.
  + unfold t0, tb. destruct table as [|r rs]; [repeat constructor; intros []|exact NDz].
Qed.
(** Completeness, if the rows of the table are different: for most zeta and for all delta other than -1 and all
    epsilon the accumulator of the prover satisfies the recurrence, whenever it can be computed. *)
Theorem c75_complete n table qs ws : is_power_of_two n = true -> (length table <= n)%nat -> length qs = n -> (forall col, length (ws col) = n) ->
  NoDup table -> (forall i, (i < n)%nat -> nth i qs 0 <> 0 -> In (wire_row ws i) table \/ table = [] /\ wire_row ws i = (0, 0, 0, 0)) ->
  most (3 * (length table * length table) + 2) (fun zeta => exists t f h1 h2, lookup_round n table qs ws zeta = Ok (t, f, h1, h2) /\
    forall dl eps z, 1 + dl <> 0 -> compute_lookup_permutation_poly n f t h1 h2 dl eps = Ok z ->
      length z = n /\ lookup_product n dl eps (at_gate f) (at_gate t) (at_gate h1) (at_gate h2) (at_gate z)).
Proof.
  intros P LT LQ LW ND H. apply (most_intro _ (fun zeta => ~ NoDup (map (combined zeta) table) \/ (zeta = 0 \/ zeta = 1))).
  - apply cnt_or; [intros x; destruct (nodup_dec (map (combined x) table)); tauto|now apply combined_nodup|].
    apply (cnt_or 1 1); [intros x; destruct (feq_dec x 0); auto|apply cnt_eq|apply cnt_eq].
  - intros x. destruct (nodup_dec (map (combined x) table)); [|tauto]. destruct (feq_dec x 0); [tauto|]. destruct (feq_dec x 1); tauto.
  - intros zeta N. apply complete_at; auto. destruct (nodup_dec (map (combined zeta) table)); tauto.
Qed.
(** Soundness: a gate with lookup whose wires do not carry a row of the table. For most zeta, and whatever the
    queries and the sorted vector are, if the query of that gate is the combination of its wires, then for most
    delta and epsilon no polynomial satisfies the recurrence. *)
Theorem c75_sound n table (q : F) (r : F * F * F * F) i : (i < n)%nat -> (length table <= n)%nat -> q <> 0 -> ~ (In r table \/ table = [] /\ r = (0, 0, 0, 0)) ->
  most (3 * n) (fun zeta => forall f h1 h2 : nat -> F, q * (combined zeta r - f i) = 0 ->
    most (2 * n + 1) (fun dl => most (2 * n - 1) (fun eps => forall z, ~ lookup_product n dl eps f (at_gate (map (combined zeta) (padded_table n table))) h1 h2 z))).
Proof.
  intros Hi LT Q N. assert (~ In r (padded_table n table)) as NI by (intros I; apply N, (padded_in n); auto).
  pose proof (padded_length n table ltac:(lia) LT) as PL. pose proof (combined_in_most r (padded_table n table) NI) as M. rewrite PL in M.
  eapply most_weaken; [apply Nat.le_refl| |exact M]. cbv beta. intros zeta NZ f h1 h2 EF. apply (lookup_sound n f _ h1 h2 i Hi).
  intros j Hj E. apply NZ. apply fmul_integral in EF. destruct EF as [EF|EF]; [contradiction|]. apply fsub_0_eq in EF. rewrite EF, E. unfold at_gate. apply nth_In.
  now rewrite map_length, PL.
Qed.
End S.

(** Counterexample to completeness for tables with a repeated row: the table 0, 1, 2, 1 (in the first column) and four
    gates without lookup. The prover computes the vectors, but for most delta and epsilon no polynomial satisfies the
    recurrence, so there is no proof. *)
Definition rows75 : list (F101 * F101 * F101 * F101) := [(f101 0, 0, 0, 0); (f101 1, 0, 0, 0); (f101 2, 0, 0, 0); (f101 1, 0, 0, 0)].
Definition zeros75 : list F101 := [0; 0; 0; 0].
Theorem c75_duplicates_refuted :
  exists t f h1 h2, lookup_round 4 rows75 zeros75 (fun _ => zeros75) (f101 7) = Ok (t, f, h1, h2) /\
    most 9 (fun dl => most 7 (fun eps => forall z, ~ lookup_product 4 dl eps (at_gate f) (at_gate t) (at_gate h1) (at_gate h2) z)).
Proof.
  set (t := [f101 0; f101 1; f101 2; f101 1]). set (h1 := [f101 0; f101 0; f101 0; f101 1]). set (h2 := [f101 0; f101 0; f101 1; f101 2]).
  exists t, zeros75, h1, h2. split; [vm_compute; reflexivity|].
  pose proof (differ_most (pairs_h 4 (at_gate h1) (at_gate h2)) (pairs_ft 4 (at_gate zeros75) (at_gate t)) (f101 1, f101 1) 8) as M.
  rewrite pairs_ft_length, pairs_h_length in M. specialize (M eq_refl (Nat.le_refl 8)).
  assert (forall x y : F101, feqb x y = false -> x <> y) as X by (intros x y H E; apply feqb_eq in E; congruence).
  eapply most_weaken; [apply Nat.le_refl| |apply M].
  - cbv beta. intros dl [N H]. eapply most_weaken; [apply Nat.le_refl| |exact H]. cbv beta. intros eps E z G. apply E. symmetry. eapply product_shifts; eauto; lia.
  - right. right. right. right. right. right. left. cbv. reflexivity.
  - intros H. cbn [pairs_ft seq map app In] in H.
    assert (forall a b c d : F101, (a, b) = (c, d) -> feqb a c = true /\ feqb b d = true) as Y by (intros a b c d E; injection E as -> ->; split; apply feqb_eq; reflexivity).
    repeat (destruct H as [H|H]; [apply Y in H; destruct H as [H1 H2]; vm_compute in H1, H2; (discriminate H1 || discriminate H2)|]). exact H.
Qed.
(** and an example with different rows: the third gate looks up the second row *)
Definition rows75' : list (F101 * F101 * F101 * F101) := [(f101 5, f101 1, 0, 0); (f101 6, f101 2, 0, f101 9)].
Definition wires75 (col : column) : list F101 := match col with Left => [0; 0; f101 6; 0] | Right => [0; 0; f101 2; 0] | Output => [0; 0; 0; 0] | Fourth => [0; 0; f101 9; 0] end.
Example c75_example : NoDup rows75' /\ In (wire_row wires75 2) rows75' /\
  exists t f h1 h2 z, lookup_round 4 rows75' [0; 0; 1; 0] wires75 (f101 7) = Ok (t, f, h1, h2) /\ compute_lookup_permutation_poly 4 f t h1 h2 (f101 3) (f101 11) = Ok z /\
    lookup_product 4 (f101 3) (f101 11) (at_gate f) (at_gate t) (at_gate h1) (at_gate h2) (at_gate z).
Proof.
  assert (forall x y : F101, feqb x y = true -> x = y) as X by (intros x y; apply feqb_eq).
  split; [|split].
  - constructor; [|constructor; [intros []|constructor]]. intros [E|[]]. apply (f_equal (fun r => fst (fst (fst r)))) in E. assert (feqb (f101 6) (f101 5) = true) as K by (apply feqb_eq; exact E). vm_compute in K. discriminate K.
  - right. left. reflexivity.
  - do 5 eexists. split; [vm_compute; reflexivity|]. split; [vm_compute; reflexivity|]. split; [reflexivity|].
    intros i Hi. do 4 (destruct i as [|i]; [apply X; vm_compute; reflexivity|]). lia.
Qed.

Print Assumptions c75_combine_split.
Print Assumptions c75_round.
Print Assumptions c75_honest.
Print Assumptions c75_prover_panics.
Print Assumptions c75_complete.
Print Assumptions c75_sound.
Print Assumptions c75_duplicates_refuted.
Print Assumptions c75_example.

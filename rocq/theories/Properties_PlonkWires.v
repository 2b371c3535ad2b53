(** Properties_PlonkWires.v: C71 (public inputs of plonk-core) and C72 (copy constraints of plonk-core). *)
From Verif Require Import Base Tools KZG IntProofs SnarkProofs Plonk PlonkSpec PlonkProofs PlonkRows PlonkBuilt PlonkPI PlonkSigmaSpec PlonkPIProofs PlonkWires PlonkWires2 PlonkSigma PlonkCopy
  Properties_Plonk.
From Coq Require Import Sorted Permutation.
Local Open Scope F_scope.

Section S.
Context {F : Type} {fo : FieldOps F} {fl : FieldLaws F} {po : PrimeFieldOps F} {pl : PrimeFieldLaws F}.
Variables (ca cd : F) (size : nat) (chk : F * F -> bool).
Notation built := (built ca cd size chk).
Implicit Types (c : composer F) (m : list (nat * F)).
Lemma feqb_00 : feqb (F:=F) 0 0 = true.
Proof. now apply feqb_eq. Qed.

(** *** C71 *)
(** A value can be inserted exactly at the positions that read zero, and then only that position changes. *)
Theorem c71_insert pos v m : pi_wf m ->
  (pi_get m pos = 0 -> exists m', pi_insert1 pos v m = Ok m' /\ pi_wf m' /\ forall i, pi_get m' i = if (i =? pos)%nat then v else pi_get m i) /\
  (pi_get m pos <> 0 -> pi_insert1 pos v m = Panic).
Proof. apply insert_spec. Qed.
(** The order of the insertions and inserted zeros leave no trace. *)
Theorem c71_unique m m' : pi_wf m -> pi_wf m' -> (forall i, pi_get m i = pi_get m' i) -> m = m'.
Proof. apply wf_unique. Qed.
(** Exactly when public inputs are made from positions and values, and what they read. *)
Theorem c71_from_val_pos pos vals m : from_val_pos pos vals = Ok m <->
  exists vs, vals = map Some vs /\ length pos = length vs /\ no_clash (flat pos vs) /\ pi_wf m /\
    forall i v, v <> 0 -> pi_get m i = v <-> In (i, v) (flat pos vs).
Proof.
  unfold from_val_pos. rewrite zip_ok. split; intros [vs [H1 [H2 H3]]]; exists vs; split; auto; split; auto.
  - apply many_ok in H3; [|apply wf_nil]. destruct H3 as [A1 [A2 [A3 A4]]]. split; auto. split; auto. intros i v NZ. rewrite A4 by auto.
    cbn. split; [intros [E|H]; [congruence|exact H]|auto].
  - apply many_ok; [apply wf_nil|]. destruct H3 as [A1 [A3 A4]]. split; auto. split; [intros; reflexivity|]. split; auto. intros i v NZ. rewrite A4 by auto.
    cbn. split; [auto|intros [E|H]; [congruence|exact H]].
Qed.
(** The documentation promises a panic when several values are inserted in the same position.  A zero that
    comes first is not noticed. *)
Theorem c71_duplicates_refuted pos v : v <> 0 ->
  from_val_pos [pos; pos] (singles [0; v]) = Ok [(pos, v)] /\ from_val_pos [pos; pos] (singles [v; 0]) = Panic.
Proof.
  intros NZ. unfold from_val_pos, singles. cbn [map pi_zip pi_add_input pi_inserts]. unfold pi_insert1, pi_insert. cbn [existsb]. rewrite feqb_00. cbn [obind existsb length].
  assert (feqb v 0 = false) as E by (destruct (feqb v 0) eqn:X; auto; apply feqb_eq in X; congruence). rewrite E. cbn [pi_put obind existsb fst pi_zip length pi_add_input pi_inserts].
  rewrite Nat.eqb_refl. split; reflexivity.
Qed.
Lemma flat_singles pos : forall xs : list F, flat pos (map (fun v => [v]) xs) = combine pos xs.
Proof.
  induction pos as [|p pos IH]; intros [|x xs]; try reflexivity. unfold flat in *. cbn [map combine concat item_at fst snd seq length app].
  now rewrite IH.
Qed.
Lemma singles_map xs : singles xs = map Some (map (fun v : F => [v]) xs).
Proof. unfold singles. now rewrite map_map. Qed.
Lemma no_clash_distinct pos : NoDup pos -> forall xs : list F, no_clash (combine pos xs).
Proof.
  intros ND. induction ND as [|p pos N ND IH]; intros [|x xs]; try constructor.
  - apply Forall_forall. intros [q y] H. cbn. intros <-. apply in_combine_l in H. contradiction.
  - apply IH.
Qed.
(** The positions and values of public inputs give them back. *)
Theorem c71_round_trip m : pi_wf m -> from_val_pos (get_pos m) (singles (get_vals m)) = Ok m.
Proof.
  intros W. apply c71_from_val_pos. exists (map (fun v => [v]) (get_vals m)). split; [apply singles_map|]. split; [unfold get_pos, get_vals; now rewrite !map_length|].
  rewrite flat_singles. assert (combine (get_pos m) (get_vals m) = m) as E.
  { clear. unfold get_pos, get_vals. induction m as [|[k v] m IH]; cbn; congruence. }
  split; [|split; auto].
  - apply no_clash_distinct. destruct W as [W _]. unfold get_pos. induction W as [|k l W IH HF]; constructor; auto.
    intros H. apply (proj1 (Forall_forall _ _) HF) in H. lia.
  - intros i v NZ. rewrite E, get_in by auto. tauto.
Qed.
(** The vector of evaluations: a power of two, larger than every position. *)
Theorem c71_evals m n l : pi_wf m -> pi_evals m n = Ok l <->
  (exists k, n = (2 ^ k)%nat) /\ Forall (fun p => fst p < n)%nat m /\ l = map (pi_get m) (seq 0 n).
Proof. apply pi_evals_ok. Qed.

Lemma bound_pow2 c : exists k, circuit_bound c = (2 ^ k)%nat.
Proof. unfold circuit_bound, next_power_of_two. destruct (_ <=? 1)%nat; [exists 0%nat; reflexivity|eauto]. Qed.
(** The positions recorded by a circuit can be filled with any values, which become the public inputs at
    those positions; the values of the circuit give its own public inputs.  The evaluations exist. *)
Theorem c71_circuit c : built c -> pi_wf (c_pi c) /\
  forall xs, length xs = length (c_pos c) -> exists m, from_val_pos (c_pos c) (singles xs) = Ok m /\ pi_wf m /\
    (forall j, (j < length xs)%nat -> pi_get m (nth j (c_pos c) 0%nat) = nth j xs 0) /\
    (forall i, ~ In i (c_pos c) -> pi_get m i = 0) /\
    (xs = map (pi_get (c_pi c)) (c_pos c) -> m = c_pi c) /\
    exists l, pi_evals m (circuit_bound c) = Ok l.
Proof.
  intros B. apply built_good in B. destruct B as [K [_ _ [P1 P2 P3 P4 P5] _ _]].
  assert (pi_wf (c_pi c)) as W by (split; auto). split; [exact W|]. intros xs L.
  assert (NoDup (c_pos c)) as ND.
  { clear - P1. induction P1 as [|k l W IH HF]; constructor; auto. intros H. apply (proj1 (Forall_forall _ _) HF) in H. lia. }
  assert (exists m, pi_wf m /\ forall i v, v <> 0 -> pi_get m i = v <-> In (i, v) (combine (c_pos c) xs)) as [m [Wm G]].
  { clear W. revert xs L. clear - P1 fl. induction P1 as [|k l W IH HF]; intros [|x xs] L; try discriminate L.
    - exists []. split; [apply wf_nil|]. intros i v NZ. cbn. split; [congruence|intros []].
    - injection L as L. destruct (IH xs L) as [m [Wm G]].
      assert (pi_get m k = 0) as E0.
      { destruct (feq_dec (pi_get m k) 0) as [E|E]; auto. exfalso. pose proof (proj1 (G k _ E) eq_refl) as H. apply in_combine_l in H.
        apply (proj1 (Forall_forall _ _) HF) in H. lia. }
      destruct (proj1 (insert_spec k x m Wm) E0) as [m' [_ [W' G']]]. exists m'. split; auto. intros i v NZ. rewrite G'. cbn [combine In].
      destruct (Nat.eqb_spec i k) as [->|N].
      + split; [intros ->; auto|]. intros [[= ->]|H]; auto. apply in_combine_l in H. apply (proj1 (Forall_forall _ _) HF) in H. lia.
      + rewrite G by auto. split; [auto|]. intros [[= -> ->]|H]; [congruence|auto]. }
  exists m.
  assert (forall j, (j < length xs)%nat -> pi_get m (nth j (c_pos c) 0%nat) = nth j xs 0) as R1.
  { intros j Hj. assert (In (nth j (c_pos c) 0%nat, nth j xs 0) (combine (c_pos c) xs)) as HI.
    { rewrite <- combine_nth by auto. apply nth_In. rewrite combine_length. lia. }
    destruct (feq_dec (nth j xs 0) 0) as [E|E]; [|now apply G].
    destruct (feq_dec (pi_get m (nth j (c_pos c) 0%nat)) 0) as [E'|E']; [congruence|]. exfalso.
    pose proof (proj1 (G _ _ E') eq_refl) as H. apply (In_nth _ _ (0%nat, 0)) in H. destruct H as [j' [Hj' H]]. rewrite combine_length in Hj'.
    rewrite combine_nth in H by auto. injection H as H1 H2. apply (proj1 (NoDup_nth (c_pos c) 0%nat) ND) in H1; [|lia|lia]. subst j'. congruence. }
  assert (forall i, ~ In i (c_pos c) -> pi_get m i = 0) as R2.
  { intros i NI. destruct (feq_dec (pi_get m i) 0) as [E|E]; auto. exfalso. apply NI. pose proof (proj1 (G _ _ E) eq_refl) as H. now apply in_combine_l in H. }
  split; [|split; [exact Wm|split; [exact R1|split; [exact R2|split]]]].
  - apply c71_from_val_pos. exists (map (fun v => [v]) xs). split; [apply singles_map|]. split; [now rewrite map_length|]. rewrite flat_singles.
    split; [now apply no_clash_distinct|]. auto.
  - intros ->. apply wf_unique; auto. intros i. destruct (in_dec Nat.eq_dec i (c_pos c)) as [HI|HI].
    + apply (In_nth _ _ 0%nat) in HI. destruct HI as [j [Hj <-]]. rewrite map_length in R1. rewrite R1 by auto.
      rewrite (nth_indep _ 0 (pi_get (c_pi c) 0)) by (now rewrite map_length). apply map_nth.
    + rewrite R2 by auto. symmetry. apply pi_get_notin. intros v Hv. apply HI, P4. apply in_map_iff. exists (i, v). auto.
  - exists (map (pi_get m) (seq 0 (circuit_bound c))). apply pi_evals_ok; auto. split; [apply bound_pow2|]. split; auto.
    apply Forall_forall. intros [k v] Hk. cbn. apply get_in in Hk; auto. destruct Hk as [NZ Hk].
    assert (In k (c_pos c)) as HI by (destruct (in_dec Nat.eq_dec k (c_pos c)) as [HI|HI]; [auto|rewrite R2 in Hk by auto; congruence]).
    apply (proj1 (Forall_forall _ _) P2) in HI. cbn in HI. pose proof (bound_ge c). lia.
Qed.

(** *** C72 *)
Hypothesis odd_field : (2 < modulus (F:=F))%Z.
(** The circuit as it is preprocessed, and its permutation; [maps]: the lists of wires of the variables, in
    the order in which the hash map returns them. *)
Definition padded c : composer F := pad_composer (circuit_bound c - c_n c) c.
Lemma padded_n c : c_n (padded c) = circuit_bound c.
Proof. pose proof (bound_ge c). unfold padded, pad_composer, add_n. cbn [set_n c_n set_sel set_wires]. lia. Qed.
Lemma sigma_of c maps s : built c -> Permutation maps (c_map (padded c)) -> compute_sigma_permutations maps (c_n (padded c)) = Ok s -> is_sigma maps s.
Proof.
  intros B P H. rewrite padded_n in H. apply built_good in B. destruct (good_maps c maps (circuit_bound c) B P (bound_ge c)) as [ND RG].
  destruct (sigma_ok maps _ ND RG) as [s' [E [_ IS]]]. rewrite E in H. injection H as <-. exact IS.
Qed.
(** The four vectors are a permutation of the wires. *)
Theorem c72_permutation c maps : built c -> Permutation maps (c_map (padded c)) ->
  exists s, compute_sigma_permutations maps (c_n (padded c)) = Ok s /\ (forall col, length (s col) = circuit_bound c) /\
    Permutation (map (sigma_at s) (positions (circuit_bound c))) (positions (circuit_bound c)).
Proof.
  intros B P. rewrite padded_n. apply built_good in B. destruct (good_maps c maps (circuit_bound c) B P (bound_ge c)) as [ND RG].
  destruct (sigma_ok maps _ ND RG) as [s [E [L IS]]]. exists s. split; [exact E|]. split; [exact L|]. eapply sigma_permutes; eauto.
Qed.
(** It does not depend on the order in which the hash map returns the variables. *)
Theorem c72_order c maps maps' s s' : built c -> Permutation maps (c_map (padded c)) -> Permutation maps' (c_map (padded c)) ->
  compute_sigma_permutations maps (c_n (padded c)) = Ok s -> compute_sigma_permutations maps' (c_n (padded c)) = Ok s' ->
  forall p, sigma_at s p = sigma_at s' p.
Proof.
  intros B P P' H H' p. apply (sigma_of c) in H, H'; auto. destruct H as [A1 A2], H' as [B1 B2].
  destruct (in_dec wire_eq_dec p (concat maps)) as [HI|HI].
  - apply in_concat_iff in HI. destruct HI as [ws [H1 H2]]. apply (In_nth _ _ dw) in H2. destruct H2 as [j [Hj <-]]. rewrite A1 by auto.
    assert (In ws maps') as H1' by (apply (Permutation_in _ (Permutation_sym P')), (Permutation_in _ P); exact H1). rewrite B1 by auto. reflexivity.
  - rewrite A2, B2; auto. intros HI'. apply HI. apply (Permutation_in _ (perm_concat _ _ (Permutation_trans P' (Permutation_sym P)))). exact HI'.
Qed.
(** Values of variables that satisfy the circuit give values of wires that satisfy the gates and are
    invariant under the permutation. *)
Theorem c72_complete c maps s a : built c -> Permutation maps (c_map (padded c)) -> compute_sigma_permutations maps (c_n (padded c)) = Ok s ->
  satisfies ca cd c a ->
  let w col i := a (wire_var c col i) in rows_hold ca cd c (circuit_bound c) w /\ copies s (circuit_bound c) w.
Proof.
  intros B P H Ha w. pose proof (sigma_of c maps s B P H) as IS. split; [exact (proj1 (vars_rows ca cd c a) Ha)|]. apply built_good in B.
  exact (vars_copies c maps (circuit_bound c) s a B P (bound_ge c) IS).
Qed.
(** Conversely, values of wires that satisfy the gates and are invariant under the permutation are the
    values of variables that satisfy the circuit (on the gates that have selectors). *)
Theorem c72_sound c maps s w : built c -> Permutation maps (c_map (padded c)) -> compute_sigma_permutations maps (c_n (padded c)) = Ok s ->
  rows_hold ca cd c (circuit_bound c) w -> copies s (circuit_bound c) w ->
  exists a, satisfies ca cd c a /\ forall col i, (i < c_n c)%nat -> sel_at c i <> no_sel -> w col i = a (wire_var c col i).
Proof.
  intros B P H R C. pose proof (sigma_of c maps s B P H) as IS. pose proof (built_wf ca cd size chk odd_field c B) as W. apply built_good in B.
  exists (var_of c w). exact (wires_vars ca cd c maps s w W B P IS C R).
Qed.
End S.

(** *** Examples *)
Lemma run71 : match from_val_pos [3; 1]%nat (singles [f101 5; f101 7]) with
  | Ok m => match pi_evals m 4 with Ok l => forallb (fun p => feqb (fst p) (snd p)) (combine l [f101 0; f101 7; f101 0; f101 5]) && (length l =? 4)%nat | _ => false end
  | _ => false end = true.
Proof. run. Qed.
Example c71_example : exists m, from_val_pos [3; 1]%nat (singles [f101 5; f101 7]) = Ok m /\ pi_wf m /\ pi_get m 3 = f101 5 /\ pi_get m 1 = f101 7 /\
  pi_insert1 1 (f101 1) m = Panic /\ exists l, pi_evals m 4 = Ok l.
Proof.
  pose proof run71 as R. destruct (from_val_pos [3; 1]%nat (singles [f101 5; f101 7])) as [m| |] eqn:E; [|discriminate R|discriminate R].
  exists m. split; auto. apply c71_from_val_pos in E. destruct E as [vs [H1 [_ [_ [W G]]]]].
  assert (vs = [[f101 5]; [f101 7]]) as -> by (destruct vs as [|v1 [|v2 [|]]]; cbn in H1; congruence).
  assert (f101 5 <> 0 /\ f101 7 <> 0) as [N5 N7] by (split; intros X; apply (f_equal (fun x => feqb x 0)) in X; vm_compute in X; discriminate X).
  assert (pi_get m 1 = f101 7) as G1 by (apply G; [exact N7|cbn; auto]).
  split; auto. split; [apply G; [exact N5|cbn; auto]|]. split; auto. split; [apply c71_insert; [auto|congruence]|].
  destruct (pi_evals m 4) as [l| |] eqn:E2; [eauto|discriminate R|discriminate R].
Qed.

Definition mul72 := with_mul 1 (gate_of 9 10 None).
(* the first wire of the new gate is the second wire of no gate, and the zero variable has several wires *)
Lemma run72 : match arithmetic_gate mul72 (start101 [5; 7]%Z) with
  | Ok (out, c) => match compute_sigma_permutations (c_map (padded c)) (c_n (padded c)) with
                   | Ok s => negb (snd (sigma_at s (Fourth, 0%nat)) =? 0)%nat | _ => false end
  | _ => false end = true.
Proof. run. Qed.
Lemma honest72 (c : composer F101) maps s : built one101 two101 7 any_point c -> Permutation maps (c_map (padded c)) ->
  compute_sigma_permutations maps (c_n (padded c)) = Ok s -> honest one101 two101 c ->
  exists w, rows_hold one101 two101 c (circuit_bound c) w /\ copies s (circuit_bound c) w.
Proof. intros B P E H. eexists. exact (c72_complete _ _ _ _ c maps s _ B P E H). Qed.
Lemma gate72 c0 out c : built one101 two101 7 any_point c0 -> honest one101 two101 c0 ->
  arithmetic_gate mul72 c0 = Ok (out, c) -> built one101 two101 7 any_point c /\ honest one101 two101 c.
Proof.
  intros B H E. split; [exact (built_arithmetic _ _ _ _ _ _ _ _ B E)|].
  destruct (c64_arithmetic_gate_new _ _ _ _ mul72 9 10 _ _ _ odd101 B eq_refl E) as [_ [_ A]]. apply A; auto.
Qed.
Lemma moved s : negb (snd (sigma_at s (Fourth, 0%nat)) =? 0)%nat = true -> sigma_at s (Fourth, 0%nat) <> (Fourth, 0%nat).
Proof. intros R X. rewrite X in R. discriminate R. Qed.
Example c72_example : exists out c s, arithmetic_gate mul72 (start101 [5; 7]%Z) = Ok (out, c) /\ built one101 two101 7 any_point c /\
  compute_sigma_permutations (c_map (padded c)) (c_n (padded c)) = Ok s /\ sigma_at s (Fourth, 0%nat) <> (Fourth, 0%nat) /\
  exists w, rows_hold one101 two101 c (circuit_bound c) w /\ copies s (circuit_bound c) w.
Proof.
  pose proof run72 as R. destruct (arithmetic_gate mul72 (start101 [5; 7]%Z)) as [[out c]| |] eqn:E; [|discriminate R|discriminate R]. exists out, c.
  destruct (compute_sigma_permutations (c_map (padded c)) (c_n (padded c))) as [s| |] eqn:E2; [|discriminate R|discriminate R]. exists s.
  apply moved in R. destruct (start101_ok 7 [5; 7]%Z) as [B H].
  destruct (gate72 _ _ _ B H E) as [B' H'].
  split; [reflexivity|]. split; [exact B'|]. split; [reflexivity|]. split; [exact R|]. exact (honest72 c _ s B' (Permutation_refl _) E2 H').
Qed.

Print Assumptions c71_insert.
Print Assumptions c71_unique.
Print Assumptions c71_from_val_pos.
Print Assumptions c71_duplicates_refuted.
Print Assumptions c71_round_trip.
Print Assumptions c71_evals.
Print Assumptions c71_circuit.
Print Assumptions c72_permutation.
Print Assumptions c72_order.
Print Assumptions c72_complete.
Print Assumptions c72_sound.

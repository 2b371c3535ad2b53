(** Properties_PlonkPerm.v: C73 (the permutation argument of plonk-core). *)
From Verif Require Import Base Tools KZG IntProofs SnarkProofs SoundSpec Sound Plonk PlonkSpec PlonkPI PlonkSigmaSpec PlonkSigma PlonkProver PlonkGPSpec PlonkGP
  Properties_Plonk Properties_PlonkWires.
From Coq Require Import Permutation.
Local Open Scope F_scope.

Section S.
Context {F : Type} {fo : FieldOps F} {fl : FieldLaws F} {po : PrimeFieldOps F} {pl : PrimeFieldLaws F}.
Add Field Fperm73 : F_th.
Variables (ca cd : F) (size : nat) (chk : F * F -> bool).
Notation built := (built ca cd size chk).
Implicit Types (c : composer F) (w : column -> nat -> F) (ws : column -> list F).
Hypothesis odd_field : (2 < modulus (F:=F))%Z.
(** [sigma_for c s]: the permutation that is preprocessed for the circuit, for some order of the hash map. *)
Definition sigma_for c (s : sigmas) : Prop :=
  exists maps, Permutation maps (c_map (padded c)) /\ compute_sigma_permutations maps (c_n (padded c)) = Ok s.
Lemma sigma_for_perm c s : built c -> sigma_for c s -> (forall col, length (s col) = circuit_bound c) /\
  Permutation (map (sigma_at s) (positions (circuit_bound c))) (positions (circuit_bound c)).
Proof. intros B [maps [P E]]. destruct (c72_permutation _ _ _ _ c maps B P) as [s' [E' H]]. rewrite E in E'. injection E' as <-. exact H. Qed.

(** The permutation polynomials take the value of the wire to which the permutation sends each wire. *)
Theorem c73_sigma_values c s omega : built c -> sigma_for c s ->
  exists sg, compute_sigma_polynomials omega (circuit_bound c) s = Ok sg /\ (forall col, length (sg col) = circuit_bound c) /\
    forall col i, (i < circuit_bound c)%nat -> at_wire sg col i = wire_id omega (sigma_at s (col, i)).
Proof.
  intros B H. destruct (sigma_for_perm c s B H) as [L P]. apply sigma_poly_ok; auto.
  intros col x Hx. apply (In_nth _ _ (col, 0%nat)) in Hx. destruct Hx as [i [Hi <-]]. rewrite L in Hi.
  apply in_positions. apply (Permutation_in _ P). apply in_map_iff. exists (col, i). split; [|now apply in_positions].
  unfold sigma_at. cbn [fst snd]. apply nth_indep. now rewrite L.
Qed.
Lemma sigma_values_at c s omega sg : built c -> sigma_for c s -> compute_sigma_polynomials omega (circuit_bound c) s = Ok sg ->
  (forall col, length (sg col) = circuit_bound c) /\ forall col i, (i < circuit_bound c)%nat -> at_wire sg col i = sigma_values omega s col i.
Proof. intros B H E. destruct (c73_sigma_values c s omega B H) as [sg' [E' [L V]]]. rewrite E in E'. injection E' as <-. split; auto. Qed.
Lemma gp_ext omega n beta gamma w sg sg' z : (forall col i, (i < n)%nat -> sg col i = sg' col i) ->
  grand_product omega n beta gamma w sg z -> grand_product omega n beta gamma w sg' z.
Proof. intros E [Z0 H]. split; auto. intros i Hi. specialize (H i Hi). unfold over_columns in *. now rewrite !E in H by auto. Qed.

(** The prover fails exactly when one of the denominators is zero, which happens for at most 4 n values of gamma. *)
Theorem c73_prover_panics omega n ws beta sg : (forall col, length (ws col) = n) -> (forall col, length (sg col) = n) ->
  (forall gamma, (exists z, compute_permutation_poly omega n ws beta gamma sg = Ok z) <->
     (forall col i, (i < n)%nat -> nth i (ws col) 0 + beta * nth i (sg col) 0 + gamma <> 0)) /\
  (forall gamma, (exists z, compute_permutation_poly omega n ws beta gamma sg = Ok z) \/ compute_permutation_poly omega n ws beta gamma sg = Panic) /\
  most (4 * n) (fun gamma => exists z, compute_permutation_poly omega n ws beta gamma sg = Ok z).
Proof.
  intros L1 L2. split; [|split; [|now apply panic_most]].
  - intros gamma. destruct (prover_ok omega n ws beta gamma sg L1 L2) as [A B]. split.
    + intros [z E] col i Hi Z. rewrite (B i Hi) in E; [discriminate E|]. unfold den, over_columns, at_wire. destruct col; rewrite Z; ring.
    + intros NZ. destruct A as [z [E _]]; [|eauto]. intros i Hi Z. unfold den, over_columns, at_wire in Z.
      apply fmul_integral in Z. destruct Z as [Z|Z]; [|now apply NZ in Z].
      apply fmul_integral in Z. destruct Z as [Z|Z]; [|now apply NZ in Z]. apply fmul_integral in Z. destruct Z as [Z|Z]; now apply NZ in Z.
  - intros gamma. destruct (prover_ok omega n ws beta gamma sg L1 L2) as [A B].
    assert (forall k, (exists i, (i < k)%nat /\ den beta gamma (at_wire ws) (at_wire sg) i = 0) \/ (forall i, (i < k)%nat -> den beta gamma (at_wire ws) (at_wire sg) i <> 0)) as D.
    { induction k as [|k [[i [Hi Z]]|IH]]; [right; lia|left; eauto|].
      destruct (feq_dec (den beta gamma (at_wire ws) (at_wire sg) k) 0) as [Z|Z]; [left; eauto|].
      right. intros i Hi. destruct (Nat.eq_dec i k) as [->|]; [exact Z|]. apply IH. lia. }
    destruct (D n) as [[i [Hi Z]]|NZ]; [right; eauto|]. left. destruct (A NZ) as [z [E _]]. eauto.
Qed.
(** Values on the wires that respect the copy constraints: the prover's polynomial satisfies the recurrence
    at every gate, also from the last gate to the first. *)
Theorem c73_complete c s omega sg ws beta gamma z : built c -> sigma_for c s -> compute_sigma_polynomials omega (circuit_bound c) s = Ok sg ->
  (forall col, length (ws col) = circuit_bound c) -> copies s (circuit_bound c) (at_wire ws) ->
  compute_permutation_poly omega (circuit_bound c) ws beta gamma sg = Ok z ->
  length z = circuit_bound c /\ grand_product omega (circuit_bound c) beta gamma (at_wire ws) (at_wire sg) (fun i => nth i z 0).
Proof.
  intros B H E L C Z. destruct (sigma_for_perm c s B H) as [_ P]. destruct (sigma_values_at c s omega sg B H E) as [L2 V].
  assert (0 < circuit_bound c)%nat as Hn by (apply PlonkProofs.bound_pos).
  destruct (prover_recurrence omega _ ws beta gamma sg z Hn L L2 Z) as [LZ R]. split; auto. apply R.
  rewrite <- (copies_product omega (circuit_bound c) beta gamma (at_wire ws) s P C). apply nprod_ext. intros i Hi.
  unfold den, over_columns. now rewrite !V by auto.
Qed.
(** Values that do not respect them: for all but 4 n - 1 values of beta and then all but 4 n - 1 values of
    gamma no polynomial satisfies the recurrence. *)
Theorem c73_sound c s omega sg w : built c -> sigma_for c s -> compute_sigma_polynomials omega (circuit_bound c) s = Ok sg ->
  ids_distinct omega (circuit_bound c) -> ~ copies s (circuit_bound c) w ->
  most (4 * circuit_bound c - 1) (fun beta => most (4 * circuit_bound c - 1) (fun gamma => forall z, ~ grand_product omega (circuit_bound c) beta gamma w (at_wire sg) z)).
Proof.
  intros B H E D NC. destruct (sigma_for_perm c s B H) as [_ P]. destruct (sigma_values_at c s omega sg B H E) as [L2 V].
  eapply most_weaken; [apply Nat.le_refl| |exact (gp_sound omega _ s w P D NC)]. intros beta Hb.
  eapply most_weaken; [apply Nat.le_refl| |exact Hb]. intros gamma Hg z G. apply (Hg z). revert G. apply gp_ext. exact V.
Qed.
(** So a prover whose wires satisfy the gates and whose polynomial satisfies the recurrence has values of the
    variables that satisfy the circuit, except for few challenges. *)
Lemma copies_dec s n w : copies s n w \/ ~ copies s n w.
Proof.
  unfold copies. induction (positions n) as [|p l [IH|IH]]; [left; intros ? []| |right; intros H; apply IH; intros q Hq; apply H; now right].
  destruct (feq_dec (w (fst (sigma_at s p)) (snd (sigma_at s p))) (w (fst p) (snd p))) as [E|E].
  - left. intros q [<-|Hq]; auto.
  - right. intros H. apply E, H. now left.
Qed.
Theorem c73_circuit_sound c s omega sg w : built c -> sigma_for c s -> compute_sigma_polynomials omega (circuit_bound c) s = Ok sg ->
  ids_distinct omega (circuit_bound c) -> rows_hold ca cd c (circuit_bound c) w ->
  most (4 * circuit_bound c - 1) (fun beta => most (4 * circuit_bound c - 1) (fun gamma =>
    forall z, grand_product omega (circuit_bound c) beta gamma w (at_wire sg) z -> exists a, satisfies ca cd c a)).
Proof.
  intros B H E D R. destruct (copies_dec s (circuit_bound c) w) as [C|C].
  - assert (exists a, satisfies ca cd c a) as A.
    { destruct H as [maps [P H]]. destruct (c72_sound _ _ _ _ odd_field c maps s w B P H R C) as [a [A _]]. now exists a. }
    intros [|b l] _ Hl; [apply Nat.le_0_l|]. exfalso. apply (Hl b (or_introl eq_refl)). intros [|g l'] _ Hl'; [apply Nat.le_0_l|].
    exfalso. apply (Hl' g (or_introl eq_refl)). auto.
  - eapply most_weaken; [apply Nat.le_refl| |exact (c73_sound c s omega sg w B H E D C)]. intros beta Hb.
    eapply most_weaken; [apply Nat.le_refl| |exact Hb]. intros gamma Hg z G. destruct (Hg z G).
Qed.
(** The condition on the cosets: omega has order n and 1, 7, 13, 17 are not zero and have different n-th powers. *)
Theorem c73_cosets omega n : fpow omega n = 1 -> (forall i, (0 < i < n)%nat -> fpow omega i <> 1) ->
  (forall k, In k [7; 13; 17]%Z -> from_Z k <> 0) -> NoDup (map (fun k => fpow (from_Z k) n) [1; 7; 13; 17]%Z) -> ids_distinct omega n.
Proof using fl pl.
  clear - fl pl.
  intros H1 H2 H3 H4. assert (factor (F:=F) Left = from_Z 1) as E1 by (cbn; now rewrite from_Z_1). apply cosets_distinct; auto.
  - intros []; cbn [factor]; [apply f1_neq_0|apply H3; cbn; auto ..].
  - cbn [map] in H4. inversion H4 as [|? ? N1 H5]; subst. inversion H5 as [|? ? N2 H6]; subst. inversion H6 as [|? ? N3 H7]; subst. cbn [In] in *.
    intros a b NE E. destruct a, b; try congruence; cbn [factor] in E; rewrite <- ?from_Z_1 in E; intuition congruence.
Qed.
End S.

(** *** Example: the new circuit over F101, whose four gates are the domain generated by 10 *)
Definition w73 (col : column) (i : nat) : F101 := match col, i with Fourth, 0%nat => f101 1 | _, _ => f101 0 end.
Definition c73 : composer F101 := start101 [5; 7]%Z.
Lemma bound73 : (circuit_bound c73 =? 4)%nat = true.
Proof. run. Qed.
Lemma run73 : match compute_sigma_permutations (c_map (padded c73)) (c_n (padded c73)) with
  | Ok s => negb (feqb (w73 (fst (sigma_at s (Fourth, 0%nat))) (snd (sigma_at s (Fourth, 0%nat)))) (f101 1)) | _ => false end = true.
Proof. run. Qed.
Lemma ids73 : ids_distinct (f101 10) 4.
Proof.
  assert (forall x y : F101, feqb x y = false -> x <> y) as X by (intros x y H E; apply feqb_eq in E; congruence).
  apply c73_cosets.
  - refine (proj1 (feqb_eq (F:=F101) _ _) _). run.
  - intros i Hi. assert (i = 1 \/ i = 2 \/ i = 3)%nat as [-> | [-> | ->]] by lia; apply X; vm_compute; reflexivity.
  - intros k H. cbn [In] in H. destruct H as [<-|[<-|[<-|[]]]]; apply X; vm_compute; reflexivity.
  - cbn [map]. repeat constructor; cbn [In]; intros H; repeat destruct H as [H|H]; try exact H; revert H; apply X; vm_compute; reflexivity.
Qed.
Lemma bad73 s : negb (feqb (w73 (fst (sigma_at s (Fourth, 0%nat))) (snd (sigma_at s (Fourth, 0%nat)))) (f101 1)) = true -> ~ copies s 4 w73.
Proof.
  intros R C. specialize (C (Fourth, 0%nat)). rewrite C in R by (apply in_positions; cbn; lia). cbn [fst snd w73] in R.
  rewrite (proj2 (feqb_eq (f101 1) (f101 1)) eq_refl) in R. discriminate R.
Qed.
Lemma good73 (c : composer F101) s : built one101 two101 7 any_point c -> honest one101 two101 c -> sigma_for c s ->
  exists w, rows_hold one101 two101 c (circuit_bound c) w /\ copies s (circuit_bound c) w.
Proof. intros B H [maps [P E]]. exact (honest72 c maps s B P E H). Qed.
Example c73_example : exists s sg, built one101 two101 7 any_point c73 /\ sigma_for c73 s /\ compute_sigma_polynomials (f101 10) (circuit_bound c73) s = Ok sg /\
  ids_distinct (f101 10) (circuit_bound c73) /\ ~ copies s (circuit_bound c73) w73 /\
  exists w, rows_hold one101 two101 c73 (circuit_bound c73) w /\ copies s (circuit_bound c73) w.
Proof.
  destruct (start101_ok 7 [5; 7]%Z) as [B H]. fold c73 in B, H. pose proof run73 as R.
  destruct (compute_sigma_permutations (c_map (padded c73)) (c_n (padded c73))) as [s| |] eqn:E; [|discriminate R|discriminate R].
  assert (sigma_for c73 s) as SF by (exists (c_map (padded c73)); split; [apply Permutation_refl|exact E]).
  destruct (c73_sigma_values _ _ _ _ c73 s (f101 10) B SF) as [sg [ES _]].
  pose proof (good73 c73 s B H SF) as G. exists s, sg. split; [exact B|]. split; [exact SF|]. split; [exact ES|].
  assert (circuit_bound c73 = 4%nat) as E4 by (apply Nat.eqb_eq; exact bound73). revert G. rewrite E4. intros G.
  split; [exact ids73|]. split; [exact (bad73 s R)|exact G].
Qed.

Print Assumptions c73_sigma_values.
Print Assumptions c73_prover_panics.
Print Assumptions c73_complete.
Print Assumptions c73_sound.
Print Assumptions c73_circuit_sound.
Print Assumptions c73_cosets.

(** PlonkCopy.v: values on wires that satisfy the gates and the permutation are values of variables. *)
From Verif Require Import Base Tools KZG SnarkProofs Plonk PlonkSpec PlonkProofs PlonkRange PlonkBuilt PlonkPI PlonkSigmaSpec PlonkWires PlonkWires2 PlonkSigma.
From Coq Require Import Permutation.
Local Open Scope F_scope.

Section PlonkCopy.
Context {F : Type} {fo : FieldOps F} {fl : FieldLaws F} {po : PrimeFieldOps F} {pl : PrimeFieldLaws F}.
Variables ca cd : F.
Implicit Types (c : composer F) (a : nat -> F) (w : column -> nat -> F).

(** the lists of wires of the variables, in any order *)
Lemma good_maps c maps n : good c -> Permutation maps (c_map c) -> (c_n c <= n)%nat -> NoDup (concat maps) /\ in_range n (concat maps).
Proof.
  intros [K [A1 A2 A3 A4 A5]] P L. pose proof (perm_concat _ _ P) as PC. split.
  - apply (Permutation_NoDup (Permutation_sym PC)). eapply reg_nodup; eauto.
  - apply Forall_forall. intros p Hp. apply (Permutation_in _ PC) in Hp. revert p Hp. apply Forall_forall. apply (reg_range K); auto.
    intros col. now rewrite A5.
Qed.
Lemma in_maps c maps ws : Permutation maps (c_map c) -> In ws maps <-> In ws (c_map c).
Proof. intros P. split; apply Permutation_in; [exact P|now symmetry]. Qed.
Lemma maps_var c ws : In ws (c_map c) -> exists v, (v < nvars c)%nat /\ ws = mapat c v.
Proof. intros H. apply (In_nth _ _ []) in H. destruct H as [v [Hv E]]. exists v. split; [exact Hv|]. symmetry. exact E. Qed.
Lemma wire_var_in c K col i v : inv K c -> In (col, i) (mapat c v) -> (i < c_n c)%nat /\ wire_var c col i = v.
Proof.
  intros I H. apply (r_map _ _ (i_reg _ _ I)) in H. destruct H as [H _]. assert (nth_error (wires c col) i <> None) as HN by congruence.
  apply nth_error_Some in HN. rewrite (i_wires _ _ I) in HN. split; [exact HN|]. unfold wire_var. now apply nth_error_nth.
Qed.
Lemma in_wire_var c K col i : inv K c -> (i < c_n c)%nat -> ~ In (col, i) K -> In (col, i) (mapat c (wire_var c col i)).
Proof.
  intros I Hi HK. apply (r_map _ _ (i_reg _ _ I)). split; [|exact HK]. unfold wire_var. apply nth_error_nth'. now rewrite (i_wires _ _ I).
Qed.

(** *** from variables to wires *)
Lemma vars_rows c a : satisfies ca cd c a <-> rows_hold ca cd c (circuit_bound c) (fun col i => a (wire_var c col i)).
Proof.
  unfold satisfies, rows_hold. split; intros H i Hi; specialize (H i Hi); cbv zeta in *; now rewrite (Nat.mod_small i) in *.
Qed.
Lemma vars_copies c maps n s a : good c -> Permutation maps (c_map c) -> (c_n c <= n)%nat -> is_sigma maps s -> copies s n (fun col i => a (wire_var c col i)).
Proof.
  intros G P L IS. destruct (good_maps c maps n G P L) as [ND RG]. apply (copies_iff maps n s _ RG IS). intros ws [col i] [col' i'] Hw Hp Hq.
  apply (in_maps c maps ws P) in Hw. apply maps_var in Hw. destruct Hw as [v [_ ->]]. destruct G as [K I].
  apply (wire_var_in c K _ _ _ I) in Hp, Hq. destruct Hp as [_ Hp], Hq as [_ Hq]. cbn. now rewrite Hp, Hq.
Qed.

(** *** from wires to variables *)
Definition var_of c w (v : nat) : F := match mapat c v with p :: _ => w (fst p) (snd p) | [] => 0 end.
Lemma var_of_wire c maps n s w K col i : inv K c -> Permutation maps (c_map c) -> (c_n c <= n)%nat -> is_sigma maps s -> copies s n w ->
  (i < c_n c)%nat -> ~ In (col, i) K -> w col i = var_of c w (wire_var c col i).
Proof.
  intros I P L IS CP Hi HK. assert (good c) as G by (exists K; exact I). destruct (good_maps c maps n G P L) as [ND RG].
  pose proof (proj1 (copies_iff maps n s w RG IS) CP) as CC. pose proof (in_wire_var c K col i I Hi HK) as HI. unfold var_of.
  destruct (mapat c (wire_var c col i)) as [|p ps] eqn:E; [destruct HI|].
  assert (In (p :: ps) maps) as HM.
  { apply (in_maps c maps _ P). rewrite <- E. unfold mapat. apply nth_In. destruct (Nat.ltb_spec (wire_var c col i) (length (c_map c))) as [HL|HL]; [exact HL|].
    unfold mapat in E. rewrite nth_overflow in E by exact HL. discriminate. }
  apply (CC (p :: ps) (col, i) p HM HI). now left.
Qed.
Lemma no_wire c K i : inv K c -> (exists col, In (col, i) K) -> sel_at c i = no_sel.
Proof. intros I [col H]. now apply (i_idle _ _ I) in H. Qed.
Lemma wires_vars c maps s w : wf c -> good c -> Permutation maps (c_map c) -> is_sigma maps s -> copies s (circuit_bound c) w ->
  rows_hold ca cd c (circuit_bound c) w -> 
  satisfies ca cd c (var_of c w) /\ forall col i, (i < c_n c)%nat -> sel_at c i <> no_sel -> w col i = var_of c w (wire_var c col i).
Proof.
  intros W [K I] P IS CP H. pose proof (bound_ge c) as BG. set (n := circuit_bound c) in *.
  assert (forall col i, (i < c_n c)%nat -> ~ In (col, i) K -> w col i = var_of c w (wire_var c col i)) as V.
  { intros col i. apply (var_of_wire c maps n s w K col i I P BG IS CP). }
  assert (forall col i, sel_at c i <> no_sel -> ~ In (col, i) K) as NK by (intros col i NS HK; apply NS; apply (no_wire c K); eauto).
  split; [|intros col i Hi NS; apply V; auto].
  apply vars_rows. fold n. intros i Hi. specialize (H i Hi). cbv zeta in *. set (i' := ((i + 1) mod n)%nat) in *.
  destruct (Nat.ltb_spec i (c_n c)) as [L|L].
  2:{ unfold sel_at in *. rewrite nth_overflow in * by (rewrite (wf_sel _ W); exact L). eapply row_no_sel; eauto. }
  destruct (in_dec wire_eq_dec (Left, i) K) as [KL|KL]; [rewrite (no_wire c K i) in * by eauto; eapply row_no_sel; eauto|].
  destruct (in_dec wire_eq_dec (Right, i) K) as [KR|KR]; [rewrite (no_wire c K i) in * by eauto; eapply row_no_sel; eauto|].
  destruct (in_dec wire_eq_dec (Output, i) K) as [KO|KO]; [rewrite (no_wire c K i) in * by eauto; eapply row_no_sel; eauto|].
  assert (forall j, ~ In (Fourth, j) K) as K4 by (intros j HK; apply (i_idle _ _ I) in HK; destruct HK as [HK _]; congruence).
  rewrite <- (V Left i), <- (V Right i), <- (V Output i), <- (V Fourth i) by auto.
  destruct (Nat.eq_dec i (c_n c - 1)) as [E|E].
  { assert (no_next (sel_at c i)) as NN by (rewrite E; apply (wf_last _ W)). rewrite row_ok_no_next in * by exact NN. exact H. }
  assert (i' = i + 1)%nat as Ei by (unfold i'; apply Nat.mod_small; lia). rewrite Ei in *.
  rewrite <- (V Fourth (i + 1)%nat) by (auto; lia).
  destruct (in_dec wire_eq_dec (Left, i + 1)%nat K) as [ML|ML].
  { apply (i_idle _ _ I) in ML. destruct ML as [_ [_ [_ ML]]]. rewrite Nat.add_sub in ML. rewrite ML in *. eapply row_range_next; eauto. }
  destruct (in_dec wire_eq_dec (Right, i + 1)%nat K) as [MR|MR].
  { apply (i_idle _ _ I) in MR. destruct MR as [_ [_ [_ MR]]]. rewrite Nat.add_sub in MR. rewrite MR in *. eapply row_range_next; eauto. }
  rewrite <- (V Left (i + 1)%nat), <- (V Right (i + 1)%nat) by (auto; lia). exact H.
Qed.
End PlonkCopy.

(** PlonkQuot3.v: the polynomials of a circuit, and the second accumulator. *)
From Verif Require Import Base Spec Tools ToolsProofs KZG KZGSpec KZGProofs SoundSpec Sound ProdPoly Plonk PlonkSpec PlonkPI PlonkSigmaSpec PlonkProofs PlonkProver PlonkGPSpec PlonkGP
  PlonkGatesSpec PlonkGates PlonkLookupSpec PlonkLookup PlonkLookup3 PlonkLookup4 PlonkQuot PolyDom PlonkQuotSpec PlonkQuotProofs PlonkQuot2.
Local Open Scope F_scope.

Section PlonkQuot3.
Context {F : Type} {fo : FieldOps F} {fl : FieldLaws F} {po : PrimeFieldOps F} {pl : PrimeFieldLaws F}.
Add Field Fplonkquot3 : F_th.
Variables (ca cd omega : F) (n : nat).
Hypothesis D : domain_of omega n.
Notation at_gates := (at_gates omega).

Lemma at_ifft v i : (i < n)%nat -> at_gates (ifft omega n v) i = nth i v 0.
Proof using fl pl D. intros H. unfold PlonkQuot2.at_gates. now apply ifft_value. Qed.
(** *** the key *)
Lemma key_at c s k : preprocess omega n c s = Ok k -> exists sg, compute_sigma_polynomials omega n s = Ok sg /\ key_sized n k /\
  (forall i, (i < n)%nat -> sel_map (fun l => at_gates l i) (k_sel k) = sel_at c i) /\ forall col i, (i < n)%nat -> at_gates (k_sigma k col) i = at_wire sg col i.
Proof using fl pl D.
  unfold preprocess. intros H. destruct (compute_sigma_polynomials omega n s) as [sg|e|] eqn:E; try discriminate H. cbn [obind] in H. injection H as <-. exists sg.
  split; [reflexivity|]. split; [|split].
  - split; [|intros col; cbn [k_sigma]; now rewrite ifft_length]. unfold sel_all. cbn [k_sel q_m q_l q_r q_o q_4 q_c q_hl q_hr q_h4 q_arith q_range q_logic q_fixed q_var q_lookup].
    rewrite !ifft_length. repeat split; apply Nat.le_refl.
  - intros i Hi. unfold sel_map. cbn [k_sel q_m q_l q_r q_o q_4 q_c q_hl q_hr q_h4 q_arith q_range q_logic q_fixed q_var q_lookup]. rewrite !at_ifft by auto. unfold sel_at.
    assert (forall f : sel F -> F, f no_sel = 0 -> nth i (map f (c_sel c)) 0 = f (nth i (c_sel c) no_sel)) as X by (intros f E0; rewrite <- E0 at 1; apply map_nth).
    rewrite !X by reflexivity. now destruct (nth i (c_sel c) no_sel).
  - intros col i Hi. cbn [k_sigma]. now apply at_ifft.
Qed.
(** *** the wires of the prover *)
Lemma wire_values_ok vals vars : (length vars <= n)%nat -> (forall v, In v vars -> (v < length vals)%nat) ->
  exists l, wire_values n vals vars = Ok l /\ length l = n /\ forall i, nth i l 0 = if (i <? length vars)%nat then nth (nth i vars 0%nat) vals 0 else 0.
Proof using fl.
  intros L H. unfold wire_values. destruct (Nat.leb_spec (length vars) n) as [_|]; [|lia]. cbn [assert_ obind].
  assert (map_out (fun x => unwrap_opt (nth_error vals x)) vars = Ok (map (fun x => nth x vals 0) vars) :> outcome error _) as E.
  { apply (proj2 (map_out_ok (fun x => unwrap_opt (nth_error vals x)) 0 vars _)). rewrite map_length. split; auto. intros i x Hx.
    assert (x < length vals)%nat as Lx by (apply H; eapply nth_error_In; eauto).
    rewrite (nth_error_nth' _ vals x 0 Lx). cbn [unwrap_opt]. f_equal. symmetry. apply nth_error_nth. now apply (map_nth_error (fun x => nth x vals 0)). }
  rewrite E. cbn [obind]. eexists. split; [reflexivity|]. split; [rewrite app_length, map_length, repeat_length; lia|]. intros i.
  destruct (Nat.ltb_spec i (length vars)) as [Hi|Hi].
  - rewrite app_nth1 by (rewrite map_length; auto). rewrite (nth_indep _ 0 (nth 0%nat vals 0)) by (rewrite map_length; auto). now rewrite (map_nth (fun x => nth x vals 0)).
  - rewrite app_nth2 by (rewrite map_length; auto). apply nth_repeat.
Qed.
Lemma prover_wires_ok c : wf c -> (c_n c <= n)%nat -> values c (c_zero c) = 0 ->
  exists ws, prover_wires n c = Ok ws /\ (forall col, length (ws col) = n) /\ forall col i, nth i (ws col) 0 = values c (wire_var c col i).
Proof using fl.
  intros W L Z. assert (forall col, exists l, wire_values n (c_vals c) (wires c col) = Ok l /\ length l = n /\ forall i, nth i l 0 = values c (wire_var c col i)) as X.
  { intros col. destruct (wire_values_ok (c_vals c) (wires c col)) as [l [E [Ll V]]].
    - rewrite (wf_wires _ W). lia.
    - intros v Hv. rewrite (wf_vals _ W). now apply (wf_vars _ W) in Hv.
    - exists l. split; [exact E|]. split; [exact Ll|]. intros i. rewrite V. unfold wire_var. destruct (Nat.ltb_spec i (length (wires c col))) as [Hi|Hi].
      + unfold values. f_equal. now apply nth_indep.
      + rewrite nth_overflow by auto. now symmetry. }
  destruct (X Left) as [a [E1 [L1 V1]]], (X Right) as [b [E2 [L2 V2]]], (X Output) as [o [E3 [L3 V3]]], (X Fourth) as [d [E4 [L4 V4]]].
  unfold prover_wires. cbn [wires] in E1, E2, E3, E4. rewrite E1. cbn [obind]. rewrite E2. cbn [obind]. rewrite E3. cbn [obind]. rewrite E4. cbn [obind].
  eexists. split; [reflexivity|]. split; intros col; destruct col; auto.
Qed.

(** *** linear recurrences *)
Lemma solve_cyclic (A b c : nat -> F) : (0 < n)%nat -> (forall i, (i < n)%nat -> c i <> 0) -> nprod n b <> nprod n c ->
  exists y : nat -> F, forall i, (i < n)%nat -> A i + b i * y i - c i * y ((i + 1) mod n)%nat = 0.
Proof using fl.
  intros Hn NC ND.
  set (al := fix al i := match i with O => 0 | S j => (A j + b j * al j) / c j end).
  set (be := fix be i := match i with O => 1 | S j => b j * be j / c j end).
  assert (forall m, (m <= n)%nat -> be m * nprod m c = nprod m b) as B.
  { induction m as [|m IH]; intros Hm; [cbn; ring|]. cbn [be nprod]. rewrite <- IH by lia. pose proof (NC m ltac:(lia)). fold be. field. auto. }
  assert (nprod n c <> 0) as NZ.
  { clear - NC fl Hn. assert (forall m, (m <= n)%nat -> nprod m c <> 0) as X; [|apply X; lia]. induction m as [|m IH]; intros Hm; [cbn; apply f1_neq_0|]. cbn [nprod].
    apply fmul_neq_0; [apply IH; lia|apply NC; lia]. }
  assert (1 - be n <> 0) as N1.
  { intros E. apply ND. rewrite <- (B n) by lia. apply fsub_0_eq in E. rewrite <- E. ring. }
  set (u := al n / (1 - be n)). assert (al n + be n * u = u) as EU by (unfold u; field; auto).
  set (y := fun i => al i + be i * u). exists y. intros i Hi.
  assert (y ((i + 1) mod n)%nat = al (S i) + be (S i) * u) as ->.
  { destruct (Nat.eq_dec (i + 1) n) as [E|NE].
    - rewrite E, Nat.mod_same by lia. unfold y. replace (S i) with n by lia. rewrite EU. cbn [al be]. ring.
    - rewrite Nat.mod_small by lia. unfold y. now replace (i + 1)%nat with (S i) by lia. }
  unfold y. cbn [al be]. fold al. fold be. pose proof (NC i Hi). field. auto.
Qed.
(** the factors of the second recurrence *)
Definition b2 (dl eps : F) (P : polys F) (i : nat) : F :=
  (1 + dl) * (eps + at_gates (P_f P) i) * (eps * (1 + dl) + at_gates (P_t P) i + dl * at_gates (P_t P) ((i + 1) mod n)).
Definition c2 (dl eps : F) (P : polys F) (i : nat) : F :=
  (eps * (1 + dl) + at_gates (P_h1 P) i + dl * at_gates (P_h2 P) i) * (eps * (1 + dl) + at_gates (P_h2 P) i + dl * at_gates (P_h1 P) ((i + 1) mod n)).
Definition set_z2 (P : polys F) (z2 : list F) : polys F := mk_polys (P_w P) (P_pi P) (P_z P) z2 (P_f P) (P_t P) (P_h1 P) (P_h2 P).
Lemma nprod_neq_0 m (f : nat -> F) : (forall i, (i < m)%nat -> f i <> 0) -> nprod m f <> 0.
Proof using fl. induction m as [|m IH]; intros H; cbn [nprod]; [apply f1_neq_0|]. apply fmul_neq_0; auto. Qed.
Lemma nprod_shift m (f : nat -> F) : nprod (S m) f = f 0%nat * nprod m (fun i => f (S i)).
Proof using fl. induction m as [|m IH]; [cbn; ring|]. cbn [nprod] in *. rewrite IH. ring. Qed.
Lemma nprod_scale m (f : nat -> F) s : nprod m (fun i => s * f i) = fpow s m * nprod m f.
Proof using fl. induction m as [|m IH]; cbn [nprod fpow]; [ring|]. rewrite IH. ring. Qed.
Lemma solve_z2 zeta beta gamma dl eps alpha e k P : zeta <> 0 -> zeta <> 1 ->
  (forall i, (i < n)%nat -> b2 dl eps P i <> 0) -> (forall i, (i < n)%nat -> c2 dl eps P i <> 0) ->
  most 2 (fun lk => exists z2, length z2 = n /\ vanishes ca cd omega n (mk_chal zeta beta gamma dl eps alpha e lk) k (set_z2 P z2)).
Proof using fl pl D.
  intros N0 N1 NB NC. assert (0 < n)%nat as Hn by apply D.
  set (B := nprod (n - 1) (fun i => b2 dl eps P (S i))). assert (B <> 0) as HB by (apply nprod_neq_0; intros i Hi; apply NB; lia).
  apply (most_intro _ (fun lk => lk = 0 \/ lk = nprod n (c2 dl eps P) / B - b2 dl eps P 0)).
  - apply (cnt_or 1 1); [intros x; destruct (feq_dec x 0); auto|apply cnt_eq|apply cnt_eq].
  - intros x. destruct (feq_dec x 0); [auto|]. destruct (feq_dec x (nprod n (c2 dl eps P) / B - b2 dl eps P 0)); [auto|tauto].
  - intros lk NL. assert (lk <> 0) as L0 by tauto. set (ch := mk_chal zeta beta gamma dl eps alpha e lk).
    set (A := fun i => gate_term ca cd e (sel_map (fun l => at_gates l i) (k_sel k))
      (at_gates (P_pi P) i + (alpha * Z1 omega n beta gamma k P i + alpha * alpha * first omega (P_z P) i)) (gate_vals omega n P i) + lk * Dq omega n zeta k P i).
    set (A' := fun i => A i - (if (i =? 0)%nat then lk * lk * lk else 0)).
    set (b' := fun i => lk * lk * b2 dl eps P i + (if (i =? 0)%nat then lk * lk * lk else 0)).
    set (c' := fun i => lk * lk * c2 dl eps P i).
    destruct (solve_cyclic A' b' c' Hn) as [y Hy].
    + intros i Hi. unfold c'. apply fmul_neq_0; [now apply fmul_neq_0|auto].
    + intros E. apply NL. right. assert (nprod n c' = fpow (lk * lk) n * nprod n (c2 dl eps P)) as EC by apply nprod_scale.
      assert (nprod n b' = fpow (lk * lk) n * ((b2 dl eps P 0 + lk) * B)) as EB.
      { replace n with (S (n - 1)) at 1 2 by lia. rewrite nprod_shift. cbn [fpow]. unfold B.
        rewrite (nprod_ext (n - 1) (fun i => b' (S i)) (fun i => lk * lk * b2 dl eps P (S i))) by (intros; unfold b'; cbn; ring).
        rewrite nprod_scale. unfold b'. cbn [Nat.eqb]. ring. }
      rewrite EB, EC in E. apply fmul_cancel_l in E; [|apply fpow_neq_0, fmul_neq_0; auto].
      rewrite <- E. field. auto.
    + exists (ifft omega n (map y (seq 0 n))). split; [apply ifft_length|]. intros i Hi. rewrite numerator_ok by auto. f_equal. rewrite num_at_gate by auto.
      set (P' := set_z2 P (ifft omega n (map y (seq 0 n)))).
      assert (forall j, (j < n)%nat -> at_gates (P_z2 P') j = y j) as VY by (intros j Hj; unfold P', set_z2; cbn [P_z2]; rewrite at_ifft by auto; now rewrite nth_map_seq by auto).
      change (Z1 omega n (ch_beta ch) (ch_gamma ch) k P' i) with (Z1 omega n beta gamma k P i). change (gate_vals omega n P' i) with (gate_vals omega n P i).
      change (Dq omega n (ch_zeta ch) k P' i) with (Dq omega n zeta k P i). change (P_pi P') with (P_pi P). change (P_z P') with (P_z P).
      assert ((i + 1) mod n < n)%nat as Hi' by (apply Nat.mod_upper_bound; lia).
      assert (Z2 omega n (ch_delta ch) (ch_eps ch) P' i = y i * b2 dl eps P i - y ((i + 1) mod n)%nat * c2 dl eps P i) as ->.
      { unfold Z2. rewrite !VY by auto. reflexivity. }
      assert (first omega (P_z2 P') i = if (i =? 0)%nat then y i - 1 else 0) as -> by (unfold first; destruct (Nat.eqb_spec i 0) as [->|]; [now rewrite VY by auto|reflexivity]).
      specialize (Hy i Hi). unfold A', b', c', A in Hy. cbn [ch ch_seps ch_alpha ch_lookup].
      etransitivity; [|exact Hy]. destruct (i =? 0)%nat; ring.
Qed.
End PlonkQuot3.

(** PlonkQuot2.v: the numerator at the gates. *)
From Verif Require Import Base Spec Tools ToolsProofs KZG KZGSpec KZGProofs SoundSpec Sound ProdPoly Plonk PlonkSpec PlonkPI PlonkSigmaSpec PlonkProver PlonkGPSpec PlonkGP
  PlonkGatesSpec PlonkGates PlonkLookupSpec PlonkLookup PlonkLookup4 PlonkQuot PolyDom PlonkQuotSpec PlonkQuotProofs.
Local Open Scope F_scope.

Section PlonkQuot2.
Context {F : Type} {fo : FieldOps F} {fl : FieldLaws F} {po : PrimeFieldOps F} {pl : PrimeFieldLaws F}.
Add Field Fplonkquot2 : F_th.
Variables (ca cd omega : F) (n : nat).
Hypothesis D : domain_of omega n.

Lemma next_gate i : (i < n)%nat -> fpow omega i * omega = fpow omega ((i + 1) mod n).
Proof using fl D.
  intros Hi. destruct D as [Hn [E _]]. transitivity (fpow omega (i + 1)); [rewrite Nat.add_1_r, fpow_S_r; reflexivity|].
  destruct (Nat.eq_dec (i + 1) n) as [->|N]; [now rewrite Nat.mod_same, E by lia|now rewrite Nat.mod_small by lia].
Qed.
Lemma l1_value i : (i < n)%nat -> peval (l1_poly omega n) (fpow omega i) = if (i =? 0)%nat then 1 else 0.
Proof using fl pl D.
  intros Hi. unfold l1_poly. rewrite ifft_value by auto. destruct i as [|i]; [reflexivity|]. cbn [nth Nat.eqb]. apply nth_repeat.
Qed.
(** the values of a polynomial at the gates *)
Definition at_gates (l : list F) (i : nat) : F := peval l (fpow omega i).

(** the parts of the numerator at a gate *)
Definition Z1 (beta gamma : F) (k : key F) (P : polys F) (i : nat) : F :=
  at_gates (P_z P) i * over_columns (fun col => at_gates (P_w P col) i + beta * (factor col * fpow omega i) + gamma)
  - at_gates (P_z P) ((i + 1) mod n) * over_columns (fun col => at_gates (P_w P col) i + beta * at_gates (k_sigma k col) i + gamma).
Definition Z2 (dl eps : F) (P : polys F) (i : nat) : F :=
  at_gates (P_z2 P) i * ((1 + dl) * (eps + at_gates (P_f P) i) * (eps * (1 + dl) + at_gates (P_t P) i + dl * at_gates (P_t P) ((i + 1) mod n)))
  - at_gates (P_z2 P) ((i + 1) mod n) * ((eps * (1 + dl) + at_gates (P_h1 P) i + dl * at_gates (P_h2 P) i) * (eps * (1 + dl) + at_gates (P_h2 P) i + dl * at_gates (P_h1 P) ((i + 1) mod n))).
Definition gate_vals (P : polys F) (i : nat) : vals F :=
  let w col j := at_gates (P_w P col) j in let i' := ((i + 1) mod n)%nat in
  mk_vals (w Left i) (w Right i) (w Output i) (w Fourth i) (w Left i') (w Right i') (w Fourth i').
Definition Dq (zeta : F) (k : key F) (P : polys F) (i : nat) : F :=
  let v := gate_vals P i in at_gates (q_lookup (k_sel k)) i * (combined zeta (v_a v, v_b v, v_c v, v_d v) - at_gates (P_f P) i).
Definition first (z : list F) (i : nat) : F := if (i =? 0)%nat then at_gates z 0 - 1 else 0.
Lemma coset_factor (col : column) : coset col = factor col :> F. Proof using. now destruct col. Qed.
Lemma gate_term_pi e s pi x v : gate_term ca cd e s (pi + x) v = gate_term ca cd e s pi v + x.
Proof using fl. unfold gate_term. ring. Qed.
Lemma num_at_gate ch k P i : (i < n)%nat ->
  num_value ca cd ch (point_at omega n k P (fpow omega i)) =
  gate_term ca cd (ch_seps ch) (sel_map (fun l => at_gates l i) (k_sel k))
    (at_gates (P_pi P) i + (ch_alpha ch * Z1 (ch_beta ch) (ch_gamma ch) k P i + ch_alpha ch * ch_alpha ch * first (P_z P) i)) (gate_vals P i)
  + (ch_lookup ch * Dq (ch_zeta ch) k P i + ch_lookup ch * ch_lookup ch * Z2 (ch_delta ch) (ch_eps ch) P i + ch_lookup ch * ch_lookup ch * ch_lookup ch * first (P_z2 P) i).
Proof using fl pl D.
  intros Hi. unfold num_value, perm_value, lookup_value, point_at. cbv zeta.
  cbn [p_x p_l1 p_sel p_pi p_v p_sl p_sr p_so p_sf p_z p_z' p_f p_t p_t' p_h1 p_h1' p_h2 p_z2 p_z2']. rewrite l1_value by auto. rewrite !(next_gate i Hi).
  unfold gate_vals. cbv zeta. change (peval ?l (fpow omega ?j)) with (at_gates l j). 
  set (v := mk_vals _ _ _ _ _ _ _).
  change (sel_map (fun l => peval l (fpow omega i)) (k_sel k)) with (sel_map (fun l => at_gates l i) (k_sel k)).
  set (sm := sel_map (fun l => at_gates l i) (k_sel k)).
  set (l1 := if (i =? 0)%nat then 1 else 0).
  assert (forall z, first z i = (at_gates z i - 1) * l1) as FI by (intros z; unfold first, l1; destruct (Nat.eqb_spec i 0) as [->|]; ring).
  rewrite gate_term_pi. 
  assert (forall a b c d e : F, b = d -> c = e -> a + b + c = a + d + e) as C3 by (intros; subst; reflexivity). apply C3.
  - unfold permutation_term, Z1, over_columns. rewrite FI. rewrite (coset_factor Right), (coset_factor Output), (coset_factor Fourth). cbn [v v_a v_b v_c v_d]. change (factor Left) with (1 : F). ring.
  - rewrite FI. unfold Z2, Dq, gate_vals. cbv zeta. cbn [v v_a v_b v_c v_d v_a' v_b' v_d']. change (q_lookup sm) with (at_gates (q_lookup (k_sel k)) i). ring.
Qed.

(** *** If all parts are zero, so is the numerator *)
Definition parts (zeta beta gamma dl eps : F) (k : key F) (P : polys F) (i : nat) : Prop :=
  gates_ok ca cd (sel_map (fun l => at_gates l i) (k_sel k)) (at_gates (P_pi P) i) (gate_vals P i) /\
  Z1 beta gamma k P i = 0 /\ first (P_z P) i = 0 /\ Dq zeta k P i = 0 /\ Z2 dl eps P i = 0 /\ first (P_z2 P) i = 0.
Lemma parts_zero ch k P i : (i < n)%nat -> logic_kind (sel_map (fun l => at_gates l i) (k_sel k)) ->
  parts (ch_zeta ch) (ch_beta ch) (ch_gamma ch) (ch_delta ch) (ch_eps ch) k P i -> num_value ca cd ch (point_at omega n k P (fpow omega i)) = 0.
Proof using fl pl D.
  intros Hi LK [G [A [B [C [E H]]]]]. rewrite num_at_gate, A, B, C, E, H by auto.
  match goal with |- gate_term _ _ _ _ (?p + ?q) _ + _ = _ => replace (p + q) with p by ring end.
  destruct (ch_seps ch) as [r l f x]. rewrite gates_complete by auto. ring.
Qed.
(** *** otherwise it is not zero for most challenges *)
Lemma quad_most (c0 c1 c2 : F) : c0 <> 0 \/ c1 <> 0 \/ c2 <> 0 -> most 2 (fun x => c0 + (x * c1 + x * x * c2) <> 0).
Proof using fl.
  intros H. apply (most_intro _ (fun x => (exists i, coef [c0; c1; c2] i <> 0) /\ peval [c0; c1; c2] x = 0)); [apply cnt_roots; cbn; lia|intros; apply dec_roots|].
  intros x N E. apply N. split; [destruct H as [H|[H|H]]; [now exists 0%nat|now exists 1%nat|now exists 2%nat]|]. cbn [peval]. etransitivity; [|exact E]. ring.
Qed.
Lemma cubic_most (c0 c1 c2 c3 : F) : c0 <> 0 \/ c1 <> 0 \/ c2 <> 0 \/ c3 <> 0 -> most 3 (fun x => c0 + (x * c1 + x * x * c2 + x * x * x * c3) <> 0).
Proof using fl.
  intros H. apply (most_intro _ (fun x => (exists i, coef [c0; c1; c2; c3] i <> 0) /\ peval [c0; c1; c2; c3] x = 0)); [apply cnt_roots; cbn; lia|intros; apply dec_roots|].
  intros x N E. apply N. split; [destruct H as [H|[H|[H|H]]]; [now exists 0%nat|now exists 1%nat|now exists 2%nat|now exists 3%nat]|]. cbn [peval]. etransitivity; [|exact E]. ring.
Qed.
Definition most_seps (Q : seps F -> F -> Prop) : Prop :=
  most 7 (fun r => most 9 (fun l => most 7 (fun f => most 5 (fun x => most 3 (fun lk => Q (mk_seps r l f x) lk))))).
Lemma most_seps_always Q : (forall e, most 3 (Q e)) -> most_seps Q.
Proof using. intros H. do 4 (apply most_always; intros ?). apply H. Qed.
Lemma parts_most zeta beta gamma dl eps k P i : (3 < modulus (F:=F))%Z -> (i < n)%nat -> ~ parts zeta beta gamma dl eps k P i ->
  most 2 (fun alpha => most_seps (fun e lk => num_value ca cd (mk_chal zeta beta gamma dl eps alpha e lk) (point_at omega n k P (fpow omega i)) <> 0)).
Proof using fl pl D.
  intros Hm Hi NP. set (s := sel_map (fun l => at_gates l i) (k_sel k)).
  assert (forall alpha e lk, num_value ca cd (mk_chal zeta beta gamma dl eps alpha e lk) (point_at omega n k P (fpow omega i)) =
    gate_term ca cd e s (at_gates (P_pi P) i + (alpha * Z1 beta gamma k P i + alpha * alpha * first (P_z P) i)) (gate_vals P i)
     + (lk * Dq zeta k P i + lk * lk * Z2 dl eps P i + lk * lk * lk * first (P_z2 P) i)) as V by (intros; now rewrite num_at_gate by auto).
  assert (forall x : F, x = 0 \/ x <> 0) as Z by (intros x; destruct (feq_dec x 0); auto).
  assert ((Dq zeta k P i <> 0 \/ Z2 dl eps P i <> 0 \/ first (P_z2 P) i <> 0) \/ (Dq zeta k P i = 0 /\ Z2 dl eps P i = 0 /\ first (P_z2 P) i = 0)) as [L|[L1 [L2 L3]]].
  { destruct (Z (Dq zeta k P i)), (Z (Z2 dl eps P i)), (Z (first (P_z2 P) i)); tauto. }
  { apply most_always. intros alpha. apply most_seps_always. intros e. eapply most_weaken; [apply Nat.le_refl| |apply cubic_most; right; exact L].
    cbv beta. intros lk N. rewrite V. exact N. }
  set (v := gate_vals P i) in *. set (pi := at_gates (P_pi P) i) in *.
  assert (most 2 (fun alpha => arith_val s (pi + (alpha * Z1 beta gamma k P i + alpha * alpha * first (P_z P) i)) v <> 0 \/ ~ all0 (range_list s v) \/ ~ all0 (logic_list s v)
    \/ ~ all0 (fixed_list ca cd s v) \/ ~ all0 (var_list ca cd s v))) as M.
  { destruct (gates_dec ca cd s pi v Hm) as [G|[G|G]]; [| |apply most_always; intros alpha; right; exact G].
    - assert (Z1 beta gamma k P i <> 0 \/ first (P_z P) i <> 0) as H1.
      { destruct (Z (Z1 beta gamma k P i)), (Z (first (P_z P) i)); try tauto. exfalso. apply NP. split; [exact G|tauto]. }
      eapply most_weaken; [apply Nat.le_refl| |apply (quad_most (arith_val s pi v)); right; exact H1]. cbv beta. intros x N. left. intros E. apply N. etransitivity; [|exact E]. unfold arith_val. ring.
    - eapply most_weaken; [apply Nat.le_refl| |apply (quad_most (arith_val s pi v) (Z1 beta gamma k P i) (first (P_z P) i)); left; exact G]. cbv beta. intros x N. left. intros E. apply N. etransitivity; [|exact E]. unfold arith_val. ring. }
  eapply most_weaken; [apply Nat.le_refl| |exact M]. cbv beta. intros alpha H. apply gates_sound_coef in H. unfold most_seps.
  eapply most_weaken; [apply Nat.le_refl| |exact H]. cbv beta. intros r Hr. eapply most_weaken; [apply Nat.le_refl| |exact Hr]. cbv beta. intros l Hl.
  eapply most_weaken; [apply Nat.le_refl| |exact Hl]. cbv beta. intros f Hf. eapply most_weaken; [apply Nat.le_refl| |exact Hf]. cbv beta. intros x Hx.
  apply most_always. intros lk. rewrite V, L1, L2, L3. intros E. apply Hx. etransitivity; [|exact E]. ring.
Qed.
End PlonkQuot2.

(** PlonkQuot4.v: proof facts for the soundness of the quotient (C76). *)
From Verif Require Import Base Spec Tools ToolsProofs KZG IntProofs SnarkProofs SoundSpec Sound Plonk PlonkSpec PlonkProofs PlonkBuilt PlonkPI PlonkPIProofs PlonkSigmaSpec PlonkCopy
  Properties_PlonkWires PlonkProver PlonkGPSpec PlonkGP Properties_PlonkPerm PlonkGatesSpec PlonkGates Properties_PlonkGates PlonkLookupSpec PlonkLookup PlonkLookup4 Properties_PlonkLookup
  PlonkQuot PolyDom PlonkQuotSpec PlonkQuotProofs PlonkQuot2 PlonkQuot3.
From Coq Require Import Permutation.
Local Open Scope F_scope.

Section S.
Context {F : Type} {fo : FieldOps F} {fl : FieldLaws F} {po : PrimeFieldOps F} {pl : PrimeFieldLaws F}.
Add Field Fq4 : F_th.
Variables (ca cd : F) (size : nat) (chk : F * F -> bool).
Notation built := (built ca cd size chk).
Implicit Types (c : composer F) (k : key F) (P : polys F).

Lemma gates_ok_dec s pi v : (3 < modulus (F:=F))%Z -> logic_kind s -> gates_ok ca cd s pi v \/ ~ gates_ok ca cd s pi v.
Proof using fl pl.
  intros M K. destruct (gates_dec ca cd s pi v M) as [G|G]; [now left|]. right. intros H. unfold gates_ok, row_ok in H.
  cbn [with_lookup q_m q_l q_r q_o q_4 q_c q_hl q_hr q_h4 q_arith q_range q_logic q_fixed q_var q_lookup] in H.
  destruct H as [A [R [L [X [V _]]]]]. rewrite <- arith_eq in A. destruct G as [G|[G|[G|[G|G]]]]; apply G.
  - exact A.
  - exact (proj2 (range_iff s v) R).
  - exact (logic_complete s v K L).
  - exact (proj2 (fixed_iff ca cd s v) X).
  - exact (proj2 (var_iff ca cd s v) V).
Qed.
Lemma row4_dec (x y : F * F * F * F) : {x = y} + {x <> y}.
Proof using fl. repeat (decide equality; try apply feq_dec). Qed.
Lemma lookup_ok_dec table s (v : vals F) : lookup_ok table s v \/ (q_lookup s <> 0 /\ ~ (In (v_a v, v_b v, v_c v, v_d v) table \/ table = [] /\ (v_a v, v_b v, v_c v, v_d v) = (0, 0, 0, 0))).
Proof using fl.
  unfold lookup_ok. destruct (feq_dec (q_lookup s) 0) as [E|N]; [left; contradiction|].
  destruct (in_dec row4_dec (v_a v, v_b v, v_c v, v_d v) table) as [I|I]; [left; auto|].
  destruct table as [|r table]; [|right; split; auto; intros [|[X _]]; [auto|discriminate X]].
  destruct (row4_dec (v_a v, v_b v, v_c v, v_d v) (0, 0, 0, 0)) as [E|E]; [left; auto|right; split; auto; intros [|[_ X]]; auto].
Qed.
Lemma below_dec n (Q : nat -> Prop) : (forall i, (i < n)%nat -> Q i \/ ~ Q i) -> (forall i, (i < n)%nat -> Q i) \/ exists i, (i < n)%nat /\ ~ Q i.
Proof.
  induction n as [|n IH]; intros H; [left; intros i Hi; lia|]. destruct IH as [IH|[i [Hi IH]]]; [intros; apply H; lia| |right; exists i; split; auto; lia].
  destruct (H n ltac:(lia)) as [Hn|Hn]; [left|right; exists n; split; auto; lia]. intros i Hi. destruct (Nat.eq_dec i n) as [->|]; [auto|apply IH; lia].
Qed.

(** the values of wires given as polynomials *)
Definition gates_of (omega : F) (ws : column -> list F) (col : column) (i : nat) : F := at_gates omega (ws col) i.

(** for most challenges, and all polynomials of the prover that are fixed before alpha, some part is not zero *)
Lemma parts_fail c s omega k pi ws : (3 < modulus (F:=F))%Z -> built c -> sigma_for c s ->
  domain_of omega (circuit_bound c) -> ids_distinct omega (circuit_bound c) ->
  preprocess omega (circuit_bound c) c s = Ok k -> pi_evals (c_pi c) (circuit_bound c) = Ok pi -> ~ (exists a, satisfies ca cd c a) ->
  let n := circuit_bound c in
  most (3 * n) (fun zeta => forall f h1 h2, most (4 * n - 1) (fun beta => most (4 * n - 1) (fun gamma => most (2 * n + 1) (fun dl => most (2 * n - 1) (fun eps =>
    forall z z2, let P := mk_polys ws (ifft omega n pi) z z2 f (ifft omega n (map (combined zeta) (padded_table n (c_table c)))) h1 h2 in
      ~ forall i, (i < n)%nat -> parts ca cd omega n zeta beta gamma dl eps k P i))))).
Proof using fl pl size chk.
  intros Hm B SF D ID EK EP NS n. fold n in D, ID, EK, EP. assert (0 < n)%nat as Hn by apply D. assert (2 < modulus (F:=F))%Z as odd2 by lia.
  destruct (key_at omega n D c s k EK) as [sg [ES [HK [KS KG]]]].
  set (w := gates_of omega ws).
  assert (forall i, (i < n)%nat -> nth i pi 0 = pi_get (c_pi c) i) as VP.
  { intros i Hi. destruct (proj1 (c71_evals (c_pi c) n pi (proj1 (c71_circuit ca cd size chk c B))) EP) as [_ [_ ->]]. now rewrite nth_map_seq by auto. }
  assert (forall P i, (i < n)%nat -> P_w P = ws -> P_pi P = ifft omega n pi -> 
    (gates_ok ca cd (sel_map (fun l => at_gates omega l i) (k_sel k)) (at_gates omega (P_pi P) i) (gate_vals omega n P i) <-> gates_ok ca cd (sel_at c i) (pi_get (c_pi c) i) (row_vals n w i))) as GI.
  { intros P i Hi E1 E2. rewrite KS, E2, (at_ifft omega n D), VP by auto. unfold gate_vals. rewrite E1. reflexivity. }
  destruct (below_dec n (fun i => gates_ok ca cd (sel_at c i) (pi_get (c_pi c) i) (row_vals n w i))) as [GA|[i [Hi GN]]].
  { intros i Hi. apply gates_ok_dec; [exact Hm|]. exact (c74_logic_kind ca cd size chk c i B). }
  2:{ apply most_always. intros zeta f h1 h2. do 4 (apply most_always; intros ?). intros z z2 P H. destruct (H i Hi) as [G _]. apply GN. apply (GI P i); auto. }
  assert (forall i, (i < n)%nat -> at_gates omega (q_lookup (k_sel k)) i = q_lookup (sel_at c i)) as QL by (intros i Hi; rewrite <- KS by auto; reflexivity).
  destruct (below_dec n (fun i => lookup_ok (c_table c) (sel_at c i) (row_vals n w i))) as [LA|[i [Hi LN]]].
  { intros i Hi. destruct (lookup_ok_dec (c_table c) (sel_at c i) (row_vals n w i)) as [L|[L1 L2]]; [now left|right; intros X; exact (L2 (X L1))]. }
  2:{ destruct (lookup_ok_dec (c_table c) (sel_at c i) (row_vals n w i)) as [L|[Q NI]]; [contradiction|].
      eapply most_weaken; [apply Nat.le_refl| |exact (c75_sound n (c_table c) (q_lookup (sel_at c i)) _ i Hi (bound_table c) Q NI)]. cbv beta. intros zeta HZ f h1 h2.
      apply most_always. intros beta. apply most_always. intros gamma.
      destruct (feq_dec (q_lookup (sel_at c i) * (combined zeta (v_a (row_vals n w i), v_b (row_vals n w i), v_c (row_vals n w i), v_d (row_vals n w i)) - at_gates omega f i)) 0) as [E|NE].
      - eapply most_weaken; [apply Nat.le_refl| |exact (HZ (at_gates omega f) (at_gates omega h1) (at_gates omega h2) E)]. cbv beta. intros dl HD.
        eapply most_weaken; [apply Nat.le_refl| |exact HD]. cbv beta. intros eps HE z z2 P H. apply (HE (at_gates omega z2)). split.
        + destruct (H 0%nat Hn) as [_ [_ [_ [_ [_ X]]]]]. unfold first in X. cbn [Nat.eqb P P_z2] in X. now apply fsub_0_eq in X.
        + intros j Hj. destruct (H j Hj) as [_ [_ [_ [_ [X _]]]]]. unfold Z2 in X. cbn [P P_z2 P_f P_t P_h1 P_h2] in X. apply fsub_0_eq in X. symmetry.
          assert ((j + 1) mod n < n)%nat as Hj' by (apply Nat.mod_upper_bound; lia).
          rewrite !(at_ifft omega n D) in X by auto. exact X.
      - do 2 (apply most_always; intros ?). intros z z2 P H. destruct (H i Hi) as [_ [_ [_ [X _]]]]. apply NE. unfold Dq in X. rewrite QL in X by auto. exact X. }
  assert (rows_hold ca cd c n w) as RH by (apply (c74_split ca cd c n w); auto).
  assert (~ copies s n w) as NC.
  { intros C. apply NS. destruct SF as [maps [PM EM]]. destruct (c72_sound ca cd size chk odd2 c maps s w B PM EM RH C) as [a [A _]]. now exists a. }
  apply most_always. intros zeta f h1 h2.
  eapply most_weaken; [apply Nat.le_refl| |exact (c73_sound ca cd size chk c s omega sg w B SF ES ID NC)]. cbv beta. intros beta HB.
  eapply most_weaken; [apply Nat.le_refl| |exact HB]. cbv beta. intros gamma HG. do 2 (apply most_always; intros ?). intros z z2 P H. apply (HG (at_gates omega z)). split.
  - destruct (H 0%nat Hn) as [_ [_ [X _]]]. unfold first in X. cbn [Nat.eqb P P_z] in X. now apply fsub_0_eq in X.
  - intros i Hi. fold n in Hi. fold n. destruct (H i Hi) as [_ [X _]]. unfold Z1, over_columns in *. cbn [P P_z P_w] in X. apply fsub_0_eq in X. rewrite !KG in X by auto. symmetry. exact X.
Qed.
Lemma parts_ok_dec omega n zeta beta gamma dl eps k P i : (3 < modulus (F:=F))%Z -> logic_kind (sel_map (fun l => at_gates omega l i) (k_sel k)) ->
  parts ca cd omega n zeta beta gamma dl eps k P i \/ ~ parts ca cd omega n zeta beta gamma dl eps k P i.
Proof using fl pl.
  clear size chk. intros Hm K. unfold parts. assert (forall x : F, x = 0 \/ ~ x = 0) as Z by (intros x; destruct (feq_dec x 0); auto).
  destruct (gates_ok_dec _ (at_gates omega (P_pi P) i) (gate_vals omega n P i) Hm K); [|tauto].
  destruct (Z (Z1 omega n beta gamma k P i)); [|tauto]. destruct (Z (first omega (P_z P) i)); [|tauto]. destruct (Z (Dq omega n zeta k P i)); [|tauto].
  destruct (Z (Z2 omega n dl eps P i)); [|tauto]. destruct (Z (first omega (P_z2 P) i)); tauto.
Qed.
End S.

(** PlonkBuilt.v: every circuit that can be built is well formed. *)
From Verif Require Import Base Tools KZG SnarkProofs Plonk PlonkSpec PlonkProofs PlonkGadgets PlonkSelect PlonkRange PlonkRows PlonkLogic PlonkPoint PlonkFixed.
Local Open Scope F_scope.

Section PlonkBuilt.
Context {F : Type} {fo : FieldOps F} {fl : FieldLaws F} {po : PrimeFieldOps F} {pl : PrimeFieldLaws F}.
Variables (ca cd : F) (size : nat) (chk : F * F -> bool).
Implicit Types (c : composer F) (a : nat -> F).
Hypothesis odd_field : (2 < modulus (F:=F))%Z.

Lemma table_wf t c : wf c -> wf (set_table t c).
Proof. intros [A1 A2 A3 A4 A5 A6 A7 A8 A9]. constructor; auto. Qed.
Lemma range_wf w n c c' : wf c -> range_gate size w n c = Ok c' -> wf c'.
Proof.
  intros W H. apply (range_gate_inv ca cd) in H; auto. cbv zeta in H. destruct H as [_ [_ [_ [_ [p [c5 [_ [E [_ [EA _]]]]]]]]]].
  apply ext_wf in E. apply (assert_equal_ext ca cd) in EA; auto. destruct EA as [E' _]. now apply ext_wf in E'.
Qed.
#[local] Opaque add_gate.
Lemma dummy_wf c c' : wf c -> add_dummy_constraints c = Ok c' -> wf c'.
Proof.
  intros W H. unfold add_dummy_constraints in H.
  set (i1 := snd (add_input (from_Z 6) c)) in *. change (add_input (from_Z 6) c) with (nvars c, i1) in H. cbv iota beta in H.
  set (i2 := snd (add_input 1 i1)) in *. change (add_input 1 i1) with (nvars i1, i2) in H. cbv iota beta in H.
  set (i3 := snd (add_input (from_Z 7) i2)) in *. change (add_input (from_Z 7) i2) with (nvars i2, i3) in H. cbv iota beta in H.
  set (i4 := snd (add_input (- from_Z 20) i3)) in *. change (add_input (- from_Z 20) i3) with (nvars i3, i4) in H. cbv iota beta in H.
  assert (wf i4) as W4 by (repeat apply add_input_wf; auto).
  apply obind_ok in H. destruct H as [c5 [E5 H]].
  apply (add_gate_inv ca cd) in E5; auto; [|repeat split]. destruct E5 as [W5 _].
  apply (add_gate_inv ca cd) in H; auto; [|repeat split]. now destruct H.
Qed.
Theorem built_wf c : built ca cd size chk c -> wf c.
Proof.
  induction 1 as [r s c H|v c B W|a b o m l r q k pi c c' B W H|g c o c' B W H|a c o c' B W H|[[x y] z] [[[[s0 s1] s2] s3] s4] c o c' B W H
    |[[x y] z] [[[[s0 s1] s2] s3] s4] c o c' B W H|a b o d pi c v c' B W H|w n c c' B W H|a b n xor c o c' B W H|[x1 y1] [x2 y2] c [x3 y3] c' B W H
    |s g c [x3 y3] c' B W H|r s c c' B W H|c c' B W H|r c B W|c B W].
  - apply (new_wf ca cd) in H. now destruct H.
  - now apply add_input_wf.
  - apply (poly_gate_ext ca cd) in H; auto. destruct H as [E _]. apply (ext_wf _ _ _ _ _ E).
  - destruct (g_witness g) as [[[x y] [o'|]]|] eqn:EG.
    + apply (arithmetic_ext_some ca cd g x y o') in H; auto. destruct H as [_ [_ [E _]]]. apply (ext_wf _ _ _ _ _ E).
    + apply (arithmetic_ext_none ca cd g x y) in H; auto. destruct H as [_ [_ [E _]]]. apply (ext_wf _ _ _ _ _ E).
    + unfold arithmetic_gate in H. rewrite EG in H. discriminate.
  - apply (boolean_ext ca cd) in H; auto. destruct H as [_ [E _]]. apply (ext_wf _ _ _ _ _ E).
  - apply (full_total ca cd) in H; auto. destruct H as [E _]. apply (t_wf _ _ _ _ _ E).
  - apply (partial_total ca cd) in H; auto. destruct H as [E _]. apply (t_wf _ _ _ _ _ E).
  - apply (lookup_ext ca cd) in H; auto. destruct H as [_ [_ [_ E]]]. apply (ext_wf _ _ _ _ _ E).
  - eapply range_wf; eauto.
  - apply (logic_gate_inv ca cd) in H; auto. cbv zeta in H. destruct H as [_ [_ [_ [_ [_ [_ [_ [E _]]]]]]]]. apply (ext_wf _ _ _ _ _ E).
  - apply (point_addition_inv ca cd) in H; auto. cbv zeta in H. destruct H as [_ [_ [_ [_ [_ [_ [E _]]]]]]]. apply (ext_wf _ _ _ _ _ E).
  - apply (fixed_base_inv ca cd) in H; auto. cbv zeta in H. destruct H as [_ [_ [_ [_ [_ [E _]]]]]]. apply (ext_wf _ _ _ _ _ E).
  - apply (blinding_ext ca cd) in H; auto. apply (ext_wf _ _ _ _ _ H).
  - eapply dummy_wf; eauto.
  - now apply table_wf.
  - now apply table_wf.
Qed.
Lemma built_same_len c : built ca cd size chk c -> check_poly_same_len c = true.
Proof.
  intros B. apply built_wf in B. unfold check_poly_same_len. rewrite (wf_sel _ B).
  pose proof (wf_wires _ B Left) as A1. pose proof (wf_wires _ B Right) as A2. pose proof (wf_wires _ B Output) as A3. pose proof (wf_wires _ B Fourth) as A4.
  cbn [wires] in *. now rewrite A1, A2, A3, A4, Nat.eqb_refl.
Qed.
End PlonkBuilt.

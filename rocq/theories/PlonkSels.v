(** PlonkSels.v: the logic gates of every circuit that can be built are AND or XOR gates. *)
From Verif Require Import Base Tools KZG SnarkProofs Plonk PlonkSpec PlonkProofs PlonkProver PlonkGatesSpec.
Local Open Scope F_scope.

Section PlonkSels.
Context {F : Type} {fo : FieldOps F} {fl : FieldLaws F} {po : PrimeFieldOps F} {pl : PrimeFieldLaws F}.
Implicit Types (c : composer F) (s : sel F).

Definition good c : Prop := Forall logic_kind (c_sel c).
Lemma no_logic s : q_logic s = 0 -> logic_kind s.
Proof. intros E N. contradiction. Qed.
#[local] Hint Extern 0 (logic_kind _) => (apply no_logic; reflexivity) : core.
Lemma good_sel c c' : c_sel c' = c_sel c -> good c -> good c'.
Proof. unfold good. now intros ->. Qed.
Lemma good_app c c' ss : c_sel c' = c_sel c ++ ss -> Forall logic_kind ss -> good c -> good c'.
Proof. unfold good. intros -> A B. apply Forall_app. auto. Qed.
Lemma good_input v c : good c -> good (snd (add_input v c)).
Proof. now apply good_sel. Qed.
Lemma good_set_zero z c : good c -> good (set_zero z c).
Proof. now apply good_sel. Qed.
Lemma good_table t c : good c -> good (set_table t c).
Proof. now apply good_sel. Qed.
Lemma map_sel v w c c' : add_variable_to_map v w c = Ok c' -> c_sel c' = c_sel c.
Proof. intros H. unfold add_variable_to_map in H. apply obind_ok in H. destruct H as [u [_ H]]. injection H as <-. reflexivity. Qed.
Lemma maps_sel v1 v2 v3 v4 i c c' : add_variables_to_map v1 v2 v3 v4 i c = Ok c' -> c_sel c' = c_sel c.
Proof.
  intros H. unfold add_variables_to_map in H. apply obind_ok in H. destruct H as [c1 [E1 H]]. apply obind_ok in H. destruct H as [c2 [E2 H]].
  apply obind_ok in H. destruct H as [c3 [E3 H]]. apply map_sel in E1, E2, E3, H. congruence.
Qed.
Lemma pi_sel pi c c' : add_pi_opt pi c = Ok c' -> c_sel c' = c_sel c.
Proof.
  destruct pi as [p|]; cbn [add_pi_opt]; [|intros H; injection H as <-; reflexivity].
  unfold add_pi. intros H. apply obind_ok in H. destruct H as [m [_ H]]. injection H as <-. reflexivity.
Qed.
Lemma good_gate x y o f s pi c c' : good c -> add_gate x y o f s pi c = Ok c' -> logic_kind s -> good c'.
Proof.
  intros G H K. unfold add_gate in H. apply obind_ok in H. destruct H as [d1 [E H]]. apply obind_ok in H. destruct H as [d2 [E0 H]]. injection H as <-.
  apply pi_sel in E. apply maps_sel in E0. refine (good_app c _ [s] _ _ G); [|constructor; auto].
  change (c_sel (add_n 1 d2)) with (c_sel d2). rewrite E0, E. reflexivity.
Qed.
#[local] Opaque add_input.
Ltac ob H x E := apply obind_ok in H; destruct H as [x [E H]].
Ltac inp H := match type of H with context [add_input ?v ?c] =>
  let G := fresh "G" in assert (good c) as G by auto; apply (good_input v) in G;
  let o := fresh "o" in let d := fresh "d" in destruct (add_input v c) as [o d]; cbn [snd] in G; cbv iota beta in H end.
Lemma good_poly x y o m l r q k pi c c' : good c -> poly_gate x y o m l r q k pi c = Ok c' -> good c'.
Proof. intros G H. unfold poly_gate in H. eauto using good_gate. Qed.
Lemma good_constrain x k pi c c' : good c -> constrain_to_constant x k pi c = Ok c' -> good c'.
Proof. intros G H. unfold constrain_to_constant in H. eauto using good_poly. Qed.
Lemma good_assert x y c c' : good c -> assert_equal x y c = Ok c' -> good c'.
Proof. intros G H. unfold assert_equal in H. eauto using good_poly. Qed.
Lemma good_arithmetic g c o c' : good c -> arithmetic_gate g c = Ok (o, c') -> good c'.
Proof.
  intros G H. unfold arithmetic_gate in H. destruct (g_witness g) as [[[x y] w]|]; [|discriminate].
  destruct (match g_fan_in_3 g with Some qv => qv | None => (0, c_zero c) end) as [q4 w4]. ob H oc E. destruct oc as [o1 c1]. ob H c2 E2. injection H as <- <-.
  assert (good c1) as G1; [|eauto using good_gate]. destruct w as [w|].
  - injection E as <- <-. auto.
  - ob E va E1. ob E vb E3. ob E v4 E4. 
    match type of E with Ok (add_input ?v c) = _ => pose proof (good_input v c G) as G1; assert (add_input v c = (o1, c1)) as E' by congruence; rewrite E' in G1 end. exact G1.
Qed.
Lemma good_boolean x c o c' : good c -> boolean_gate x c = Ok (o, c') -> good c'.
Proof. intros G H. unfold boolean_gate in H. ob H c1 E. injection H as <- <-. eauto using good_gate. Qed.
Lemma good_full vs ss c o c' : good c -> full_affine_transform_gate vs ss c = Ok (o, c') -> good c'.
Proof.
  intros G H. destruct vs as [[x y] z], ss as [[[[s0 s1] s2] s3] s4]. unfold full_affine_transform_gate in H.
  ob H vx E1. ob H vy E2. ob H vz E3. ob H v E4. inp H. ob H c2 E. injection H as <- <-. eauto using good_gate.
Qed.
Lemma good_partial vs ss c o c' : good c -> partial_affine_transform_gate vs ss c = Ok (o, c') -> good c'.
Proof.
  intros G H. destruct vs as [[x y] z], ss as [[[[s0 s1] s2] s3] s4]. unfold partial_affine_transform_gate in H.
  ob H vx E1. ob H vy E2. ob H vz E3. ob H v E4. inp H. ob H c2 E. injection H as <- <-. eauto using good_gate.
Qed.
Lemma good_lookup x y o d pi c v c' : good c -> lookup_gate x y o d pi c = Ok (v, c') -> good c'.
Proof. intros G H. unfold lookup_gate in H. ob H c1 E. injection H as <- <-. eauto using good_gate. Qed.
Lemma good_blinding_row r1 r2 r3 r4 c v1 v2 c' : good c -> blinding_row r1 r2 r3 r4 c = Ok (v1, v2, c') -> good c'.
Proof. intros G H. unfold blinding_row in H. do 4 inp H. ob H c5 E. injection H as <- <- <-. eauto using good_gate. Qed.
Lemma good_blinding (r q : F * F * F * F) c c' : good c -> add_blinding_factors r q c = Ok c' -> good c'.
Proof.
  intros G H. destruct r as [[[r1 r2] r3] r4], q as [[[q1 q2] q3] q4]. unfold add_blinding_factors in H.
  ob H x E. destruct x as [[u1 u2] c1]. apply good_blinding_row in E; auto. ob H x E'. destruct x as [[w1 w2] c2]. apply good_blinding_row in E'; auto.
  eauto using good_gate.
Qed.
Lemma good_dummy c c' : good c -> add_dummy_constraints c = Ok c' -> good c'.
Proof. intros G H. unfold add_dummy_constraints in H. do 4 inp H. ob H c5 E. eauto using good_gate. Qed.
Lemma good_new (r q : F * F * F * F) c : new_composer r q = Ok c -> good c.
Proof.
  intros H. unfold new_composer in H. ob H x E. destruct x as [z c1]. assert (good (mkComposer (F:=F) 0 [] [] [] [] [] [] [] [] 0 [] [])) as G0 by constructor. unfold add_witness_to_circuit_description in E.
  inp E. ob E c2 E2. injection E as <- <-. apply good_constrain in E2; auto. eapply good_blinding; [|exact H]. now apply good_set_zero.
Qed.
Lemma good_wnaf : forall accs alphas base first c c', good c -> wnaf_rows first accs alphas base c = Ok c' -> good c'.
Proof.
  induction accs as [|[s [px py]] accs IH]; intros alphas base first c c' G H; cbn [wnaf_rows] in H.
  - injection H as <-. auto.
  - destruct alphas as [|al alphas]; [injection H as <-; auto|]. destruct base as [|g base]; [injection H as <-; auto|].
    do 3 inp H. ob H c4 E. assert (good c4) as G4.
    { destruct first; [|injection E as <-; auto]. ob E d3 E1. ob E d4 E2. eauto using good_constrain. }
    inp H. ob H c6 E6. eapply IH; [|exact H]. eauto using good_gate.
Qed.
Lemma good_fixed_base size ca cd w g c r c' : good c -> fixed_base_scalar_mul size ca cd w g c = Ok (r, c') -> good c'.
Proof.
  intros G H. unfold fixed_base_scalar_mul in H. cbv zeta in H. ob H x E. ob H u E0. ob H va E1. destruct va as [vals als]. ob H c1 E2.
  apply good_wnaf in E2; auto. ob H sp E3. destruct sp as [s [px py]]. do 3 inp H. ob H y E4. destruct y as [o5 c5]. apply good_arithmetic in E4; auto.
  ob H c6 E5. injection H as <- <-. eauto using good_assert.
Qed.


#[local] Transparent add_input.
Lemma good_point_addition ca cd chk p q c r c' : good c -> point_addition_gate ca cd chk p q c = Ok (r, c') -> good c'.
Proof.
  intros G H. destruct p as [x1 y1], q as [x2 y2]. unfold point_addition_gate in H.
  ob H vx1 E1. ob H vy1 E2. ob H vx2 E3. ob H vy2 E4. ob H u1 E5. ob H u2 E6. destruct (te_add ca cd (vx1, vy1) (vx2, vy2)) as [vx3 vy3].
  do 3 inp H. cbv zeta in H. ob H d6 D1. ob H d8 D2. injection H as <- <-. apply maps_sel in D1, D2.
  match type of D1 with _ = c_sel (push_sels _ (push_wires _ _ _ _ (push_wires _ _ _ _ ?d))) => refine (good_app d _ [var_add_sel; no_sel] _ _ _); [|repeat (apply Forall_cons || apply Forall_nil); apply no_logic; reflexivity|auto] end.
  change (c_sel (add_n 1 d8)) with (c_sel d8). rewrite D2. change (c_sel (add_n 1 d6)) with (c_sel d6). rewrite D1. reflexivity.
Qed.
Lemma wire_sel i v c c' : add_wire i v c = Ok c' -> c_sel c' = c_sel c.
Proof. unfold add_wire. intros H. apply map_sel in H. rewrite H. now destruct (match (i mod 4)%nat with 0 => Fourth | 1 => Output | 2 => Right | _ => Left end%nat). Qed.
Lemma pad_sel is : forall c c', pad_wires is c = Ok c' -> c_sel c' = c_sel c.
Proof.
  induction is as [|i is IH]; intros c c' H; cbn [pad_wires] in H; [injection H as <-; reflexivity|].
  ob H c1 E. apply wire_sel in E. apply IH in H. congruence.
Qed.
Lemma quad_sel bits nq is : forall acc accs c accs' c', quad_wires bits nq is acc accs c = Ok (accs', c') -> c_sel c' = c_sel c.
Proof.
  induction is as [|i is IH]; intros acc accs c accs' c' H; cbn [quad_wires] in H; [injection H as <- <-; reflexivity|].
  ob H b0 E0. ob H b1 E1. destruct (add_input (from_Z 4 * acc + from_Z (bit_Z b0 + 2 * bit_Z b1)) c) as [v d] eqn:ED. ob H c2 E2.
  apply wire_sel in E2. apply IH in H. rewrite H, E2. injection ED as <- <-. reflexivity.
Qed.
Lemma repeat_kind s n : logic_kind s -> Forall logic_kind (repeat s n).
Proof. intros K. induction n; cbn; auto. Qed.
Lemma good_range size w nb c c' : good c -> range_gate size w nb c = Ok c' -> good c'.
Proof.
  intros G H. unfold range_gate in H. ob H u E0. ob H x E1. cbv zeta in H. ob H c1 E2. ob H ac E3. destruct ac as [accs c2]. apply pad_sel in E2. apply quad_sel in E3.
  destruct accs as [|l accs]; [discriminate H|]. eapply good_assert; [|exact H].
  match goal with |- good (set_wires _ _ _ _ (add_n _ (push_sels ?ss c2))) => refine (good_app c _ ss _ _ G) end.
  - cbn [set_wires c_sel add_n set_n push_sels set_sel]. congruence.
  - apply Forall_app. split; [apply repeat_kind|repeat (apply Forall_cons || apply Forall_nil)]; apply no_logic; reflexivity.
Qed.
Lemma logic_rows_sel xor ab bb is : forall la ra oa c c', logic_rows xor ab bb is la ra oa c = Ok c' -> c_sel c' = c_sel c.
Proof.
  induction is as [|i is IH]; intros la ra oa c c' H; cbn [logic_rows] in H; [injection H as <-; reflexivity|].
  ob H lq E1. ob H rq E2. cbv zeta in H. ob H u1 E3. ob H u2 E4. ob H u3 E5.
  match type of H with context [add_input ?v c] => destruct (add_input v c) as [o1 d1] eqn:A1 end.
  match type of H with context [add_input ?v d1] => destruct (add_input v d1) as [o2 d2] eqn:A2 end.
  match type of H with context [add_input ?v d2] => destruct (add_input v d2) as [o3 d3] eqn:A3 end.
  match type of H with context [add_input ?v d3] => destruct (add_input v d3) as [o4 d4] eqn:A4 end.
  injection A1 as <- <-. injection A2 as <- <-. injection A3 as <- <-. injection A4 as <- <-.
  ob H c5 M1. ob H c6 M2. ob H c7 M3. ob H c8 M4. apply map_sel in M1, M2, M3, M4. apply IH in H. rewrite H.
  change (c_sel (add_n 1 (push_wires _ _ _ _ c8))) with (c_sel c8). rewrite M4, M3, M2, M1. reflexivity.
Qed.
Lemma good_logic size xa xb nb xor c o c' : good c -> logic_gate size xa xb nb xor c = Ok (o, c') -> good c'.
Proof.
  intros G H. unfold logic_gate in H. ob H u0 E0. cbv zeta in H. ob H va E1. ob H ab E2. ob H vb E3. ob H bb E4. ob H c1 M1. ob H c2 M2. ob H c3 M3. ob H c5 R. ob H c6 M6.
  injection H as _ <-. apply map_sel in M1, M2, M3, M6. apply logic_rows_sel in R.
  match goal with |- good (push_sels ?ss _) => refine (good_app c _ ss _ _ G) end.
  - cbn [push_sels set_sel c_sel push_wire set_wires]. rewrite M6, R. cbn [c_sel add_n set_n set_wires]. congruence.
  - apply Forall_app. split; [apply repeat_kind|repeat (apply Forall_cons || apply Forall_nil); apply no_logic; reflexivity]. intros _. destruct xor; cbn [logic_sel q_c]; auto.
Qed.
Theorem built_kind ca cd size chk c : built ca cd size chk c -> Forall logic_kind (c_sel c).
Proof.
  change (built ca cd size chk c -> good c).
  induction 1 as [r s c H|v c B W|a b o m l r q k pi c c' B W H|g c o c' B W H|a c o c' B W H|vs ss c o c' B W H
    |vs ss c o c' B W H|a b o d pi c v c' B W H|w n c c' B W H|a b n xor c o c' B W H|p q c r c' B W H
    |s g c r c' B W H|r s c c' B W H|c c' B W H|r c B W|c B W].
  - exact (good_new _ _ _ H).
  - now apply good_input.
  - exact (good_poly _ _ _ _ _ _ _ _ _ _ _ W H).
  - exact (good_arithmetic _ _ _ _ W H).
  - exact (good_boolean _ _ _ _ W H).
  - exact (good_full _ _ _ _ _ W H).
  - exact (good_partial _ _ _ _ _ W H).
  - exact (good_lookup _ _ _ _ _ _ _ _ W H).
  - exact (good_range _ _ _ _ _ W H).
  - exact (good_logic _ _ _ _ _ _ _ _ W H).
  - exact (good_point_addition _ _ _ _ _ _ _ _ W H).
  - exact (good_fixed_base _ _ _ _ _ _ _ _ W H).
  - exact (good_blinding _ _ _ _ W H).
  - exact (good_dummy _ _ W H).
  - now apply good_table.
  - now apply good_table.
Qed.
End PlonkSels.

(** PlonkWires2.v: the registered wires of range and logic gates, and of every circuit. *)
From Verif Require Import Base Tools KZG SnarkProofs Plonk PlonkSpec PlonkProofs PlonkGadgets PlonkSelect PlonkRange PlonkRows PlonkLogic PlonkFixed PlonkBuilt PlonkWires.
From Coq Require Import Sorted.
Local Open Scope F_scope.

Section PlonkWires2.
Context {F : Type} {fo : FieldOps F} {fl : FieldLaws F} {po : PrimeFieldOps F} {pl : PrimeFieldLaws F}.
Implicit Types (c : composer F) (a : nat -> F) (K : list wire).
Ltac ob H x E := apply obind_ok in H; destruct H as [x [E H]].
Ltac dm k := pose proof (Nat.div_mod_eq k 4); pose proof (Nat.mod_upper_bound k 4 ltac:(lia)).

(** *** Range gates *)
(** the k-th wire of a range gate comes next *)
Definition next_wires (n k : nat) c : Prop := c_n c = n /\ forall col, length (wires c col) = (n + (k + off col) / 4)%nat.
Lemma add_wire_reg K n k v c c' : reg K c -> next_wires n k c -> add_wire k v c = Ok c' ->
  reg K c' /\ next_wires n (k + 1) c' /\ c_pos c' = c_pos c /\ c_pi c' = c_pi c /\ c_sel c' = c_sel c /\ c_zero c' = c_zero c.
Proof.
  intros R [EN NW] H. pose proof H as H0. apply add_wire_inv in H. destruct H as [_ [_ [E1 [E2 [E3 [E4 [_ [_ EW]]]]]]]].
  assert (c_pos c' = c_pos c) as EP.
  { unfold add_wire in H0. apply map_inv in H0. destruct H0 as [_ [H0 _]]. rewrite H0. fold (colof k). destruct (colof k); reflexivity. }
  assert (regs c c' [(v, (colof k, (n + k / 4)%nat))]) as RE.
  { unfold add_wire in H0. fold (colof k) in H0. rewrite EN in H0. apply regs_map in H0. intros x. rewrite (H0 x). f_equal. destruct (colof k); reflexivity. }
  split; [|split; [|auto]].
  - apply (reg_push K c c' _ (fun col => if column_eq_dec (colof k) col then [v] else []) R RE).
    + intros col. rewrite EW. destruct (column_eq_dec (colof k) col); [auto|now rewrite app_nil_r].
    + cbn. repeat constructor. intros [].
    + intros x col i. rewrite NW. cbn [In]. split.
      * intros [E|[]]. injection E as <- <- <-. exists 0%nat. destruct (column_eq_dec (colof k) (colof k)); [|congruence]. rewrite div_col. split; [symmetry; apply Nat.add_0_r|reflexivity].
      * intros [j [-> E]]. destruct (column_eq_dec (colof k) col) as [<-|]; [|now destruct j]. destruct j as [|[|j]]; try discriminate E. injection E as <-.
        rewrite div_col, Nat.add_0_r. auto.
  - split; [congruence|]. intros col. rewrite EW, div_step. specialize (NW col). destruct (column_eq_dec (colof k) col); rewrite ?app_length; cbn [length]; lia.
Qed.
Lemma pad_reg K n m : forall k c c', reg K c -> next_wires n k c -> pad_wires (seq k m) c = Ok c' ->
  reg K c' /\ next_wires n (k + m) c' /\ c_pos c' = c_pos c /\ c_pi c' = c_pi c /\ c_sel c' = c_sel c.
Proof.
  induction m as [|m IH]; intros k c c' R NW H; cbn [seq pad_wires] in H.
  - injection H as <-. rewrite Nat.add_0_r. auto.
  - ob H c1 E. destruct (add_wire_reg _ _ _ _ _ _ R NW E) as [R1 [NW1 [E1 [E2 [E3 _]]]]]. replace (S k) with (k + 1)%nat in H by lia.
    destruct (IH _ _ _ R1 NW1 H) as [R2 [NW2 [F1 [F2 F3]]]]. replace (k + S m)%nat with (k + 1 + m)%nat by lia. split; [exact R2|]. split; [exact NW2|]. repeat split; congruence.
Qed.
Lemma quad_reg bits nq K n m : forall k acc accs c accs' c', reg K c -> next_wires n k c -> quad_wires bits nq (seq k m) acc accs c = Ok (accs', c') ->
  reg K c' /\ next_wires n (k + m) c' /\ c_pos c' = c_pos c /\ c_pi c' = c_pi c /\ c_sel c' = c_sel c /\ length accs' = (length accs + m)%nat.
Proof.
  induction m as [|m IH]; intros k acc accs c accs' c' R NW H; cbn [seq quad_wires] in H.
  - injection H as <- <-. rewrite !Nat.add_0_r. split; [exact R|]. split; [exact NW|]. auto.
  - ob H b0 E0. ob H b1 E1. 
    match type of H with context [add_input ?v c] => set (ci := snd (add_input v c)) in H; change (add_input v c) with (nvars c, ci) in H; cbv iota beta in H;
      assert (reg K ci) as R0 by (apply (reg_same K c); [exact R|apply regs_input|now intros []]) end.
    assert (next_wires n k ci) as NW0 by (destruct NW as [A B]; split; [exact A|intros []; [apply (B Left)|apply (B Right)|apply (B Output)|apply (B Fourth)]]).
    ob H c1 E. destruct (add_wire_reg _ _ _ _ _ _ R0 NW0 E) as [R1 [NW1 [E1' [E2 [E3 _]]]]]. replace (S k) with (k + 1)%nat in H by lia.
    destruct (IH _ _ _ _ _ _ R1 NW1 H) as [R2 [NW2 [F1 [F2 [F3 F4]]]]]. replace (k + S m)%nat with (k + 1 + m)%nat by lia.
    cbn [length] in F4. change (c_pos ci) with (c_pos c) in *. change (c_pi ci) with (c_pi c) in *. change (c_sel ci) with (c_sel c) in *.
    split; [exact R2|]. split; [exact NW2|]. repeat split; try congruence. lia.
Qed.
Lemma good_range size w nb c c' : good c -> range_gate size w nb c = Ok c' -> good c'.
Proof.
  intros [K [A1 A2 A3 A4 A5]] H. unfold range_gate in H. ob H u E0. ob H x E1. cbv zeta in H.
  fold (range_gates nb) in H. set (g := range_gates nb) in *. ob H c1 E2. ob H ac E3. destruct ac as [accs c2].
  assert (nb mod 2 = 0)%nat as EV by (unfold assert_ in E0; destruct (Nat.eqb_spec (nb mod 2) 0); [auto|discriminate]).
  assert (next_wires (c_n c) 0 c) as NW by (split; [auto|intros col; rewrite A5; destruct col; cbn; lia]).
  destruct (pad_reg _ _ _ _ _ _ A1 NW E2) as [R1 [NW1 [P1 [P2 P3]]]]. rewrite Nat.add_0_l in NW1.
  destruct (quad_reg _ _ _ _ _ _ _ _ _ _ _ R1 NW1 E3) as [R2 [NW2 [Q1 [Q2 [Q3 Q4]]]]].
  destruct (range_sizes nb EV) as [S1 S2]. fold g in S1, S2.
  match type of NW2 with next_wires _ ?k _ => replace k with (4 * g + 1)%nat in NW2 by lia end. cbn [length] in Q4.
  destruct accs as [|last accs]; [discriminate|]. cbn [length] in Q4.
  assert (1 <= g)%nat as G1 by lia.
  match type of H with assert_equal _ _ ?d = _ => set (c5 := d) in H end.
  destruct NW2 as [N2 L2].
  assert (forall col, length (wires c2 col) = match col with Fourth => c_n c + g + 1 | _ => c_n c + g end)%nat as L2'.
  { intros col. rewrite L2. dm (4 * g + 1 + off col)%nat. destruct col; cbn [off] in *; lia. }
  assert (forall col, wires c5 col = wires c2 col ++ match col with Fourth => [] | _ => [c_zero c] end) as EW.
  { intros []; try reflexivity. cbn [wires]. now rewrite app_nil_r. }
  assert (c_sel c5 = c_sel c ++ repeat range_sel g ++ [no_sel]) as ES by (cbn [c5 set_wires add_n set_n push_sels set_sel c_sel]; now rewrite Q3, P3).
  assert (c_n c5 = c_n c + (g + 1))%nat as N5 by (cbn [c5 set_wires add_n set_n push_sels set_sel c_n]; now rewrite N2).
  eapply good_assert; [|exact H].
  set (K' := [(Left, (c_n c + g)%nat); (Right, (c_n c + g)%nat); (Output, (c_n c + g)%nat)]).
  exists (K ++ K'). constructor.
  - apply (reg_skip K c2 c5 _ R2 eq_refl EW). intros col i. rewrite EW, app_length, L2'. unfold K'. cbn [In]. split.
    + intros [E|[E|[E|[]]]]; injection E as <- <-; cbn [length]; lia.
    + destruct col; cbn [length]; intros Hi; [left|right; left|right; right; left|lia]; f_equal; lia.
  - intros col i Hi. apply in_app_or in Hi. destruct Hi as [Hi|Hi].
    + assert (idle_below c5 K) as HI by (eapply idle_app; [exact A2|exact ES]). now apply HI.
    + assert (i = c_n c + g /\ col <> Fourth)%nat as [-> NF] by (destruct Hi as [E|[E|[E|[]]]]; injection E as <- <-; split; auto; discriminate).
      split; [auto|]. unfold sel_at. rewrite ES, !app_length, repeat_length, A4. cbn [length]. split; [lia|].
      rewrite !(app_nth2 (c_sel c)) by lia. rewrite A4. split.
      * rewrite app_nth2; rewrite repeat_length; [|lia]. now replace (c_n c + g - c_n c - g)%nat with 0%nat by lia.
      * rewrite app_nth1 by (rewrite repeat_length; lia).
        rewrite (nth_indep _ no_sel range_sel) by (rewrite repeat_length; lia). apply nth_repeat.
  - eapply posok_same; [exact A3| | |lia]; unfold c5; cbn [set_wires add_n set_n push_sels set_sel c_pos c_pi]; congruence.
  - rewrite ES, N5, !app_length, repeat_length, A4. cbn. lia.
  - intros col. rewrite EW, app_length, L2', N5. destruct col; cbn; lia.
Qed.

(** *** Logic gates *)
Definition logic_lens c : Prop := forall col, length (wires c col) = match col with Output => c_n c - 1 | _ => c_n c end%nat.
Lemma logic_reg xor ab bb K : forall is la ra oa c c', reg K c -> (1 <= c_n c)%nat -> logic_lens c -> logic_rows xor ab bb is la ra oa c = Ok c' ->
  reg K c' /\ logic_lens c' /\ c_n c' = (c_n c + length is)%nat /\ c_pos c' = c_pos c /\ c_pi c' = c_pi c /\ c_sel c' = c_sel c.
Proof.
  induction is as [|i is IH]; intros la ra oa c c' R N L H; cbn [logic_rows] in H.
  - injection H as <-. cbn. rewrite Nat.add_0_r. split; [exact R|]. split; [exact L|]. auto.
  - ob H lq E1. ob H rq E2. ob H u1 E3. ob H u2 E4. ob H u3 E5. clear E1 E2 E3 E4 E5 u1 u2 u3.
    set (la' := la * from_Z 4 + from_Z lq) in *. set (ra' := ra * from_Z 4 + from_Z rq) in *. set (oa' := oa * from_Z 4 + from_Z (lop xor lq rq)) in *.
    set (c1 := snd (add_input la' c)) in *. change (add_input la' c) with (nvars c, c1) in H. cbv iota beta in H.
    set (c2 := snd (add_input ra' c1)) in *. change (add_input ra' c1) with (nvars c1, c2) in H. cbv iota beta in H.
    set (c3 := snd (add_input (from_Z (lq * rq)) c2)) in *. change (add_input (from_Z (lq * rq)) c2) with (nvars c2, c3) in H. cbv iota beta in H.
    set (c4 := snd (add_input oa' c3)) in *. change (add_input oa' c3) with (nvars c3, c4) in H. cbv iota beta in H.
    assert (regs c c4 []) as R4.
    { exact (regs_trans _ _ _ _ _ (regs_input la' c) (regs_trans _ _ _ _ _ (regs_input ra' c1) (regs_trans _ _ _ _ _ (regs_input (from_Z (lq * rq)) c2) (regs_input oa' c3)))). }
    assert (c_n c4 = c_n c) as N4 by reflexivity. assert (c_sel c4 = c_sel c /\ c_pos c4 = c_pos c /\ c_pi c4 = c_pi c) as E4 by (repeat split).
    assert (forall col, wires c4 col = wires c col) as W4 by (now intros []). rewrite N4 in H.
    set (va := nvars c) in *. set (vb := nvars c1) in *. set (vc := nvars c2) in *. set (v4 := nvars c3) in *.
    clearbody c4 va vb vc v4. clear c1 c2 c3.
    ob H c5 E5. ob H c6 E6. ob H c7 E7. ob H c8 E8.
    pose proof (regs_trans _ _ _ _ _ R4 (regs_trans _ _ _ _ _ (regs_map _ _ _ _ E5) (regs_trans _ _ _ _ _ (regs_map _ _ _ _ E6) (regs_trans _ _ _ _ _ (regs_map _ _ _ _ E7) (regs_map _ _ _ _ E8))))) as RR.
    apply map_inv in E5, E6, E7, E8. destruct E5 as [_ [E5 _]], E6 as [_ [E6 _]], E7 as [_ [E7 _]], E8 as [_ [E8 _]].
    pose proof (remap_trans _ _ _ (remap_trans _ _ _ (remap_trans _ _ _ E5 E6) E7) E8) as EE. clear E5 E6 E7 E8.
    set (c9 := add_n 1 (push_wires va vb vc v4 c8)) in *.
    assert (forall col, wires c9 col = wires c col ++ [col4 va vb vc v4 col]) as W9.
    { intros col. rewrite <- W4. destruct col; cbn [c9 add_n set_n push_wires set_wires wires c_wl c_wr c_wo c_w4]; rewrite EE; reflexivity. }
    assert (c_n c9 = c_n c + 1)%nat as N9 by (cbn [c9 add_n set_n push_wires set_wires c_n]; rewrite EE; cbn [set_vars c_n]; lia).
    assert (reg K c9) as R9.
    { eapply (reg_push K c c9 _ (fun col => [col4 va vb vc v4 col]) R); [exact RR|exact W9| |].
      - cbn. repeat (constructor; [cbn; intuition discriminate|]). constructor.
      - intros v col j. rewrite L. cbn [app In]. split.
        + intros [E|[E|[E|[E|[]]]]]; injection E as <- <- <-; exists 0%nat; rewrite Nat.add_0_r; auto.
        + intros [[|[|k]] [-> E]]; [|discriminate E|discriminate E]. rewrite Nat.add_0_r. injection E as <-. destruct col; cbn; auto. }
    assert (logic_lens c9) as L9 by (intros col; rewrite W9, app_length, N9, L; destruct col; cbn; lia).
    destruct E4 as [S1 [S2 S3]].
    assert (c_sel c9 = c_sel c /\ c_pos c9 = c_pos c /\ c_pi c9 = c_pi c) as [T1 [T2 T3]].
    { cbn [c9 add_n set_n push_wires set_wires c_sel c_pos c_pi]. rewrite EE. cbn [set_vars c_sel c_pos c_pi]. auto. }
    destruct (IH _ _ _ _ _ R9 ltac:(lia) L9 H) as [I1 [I2 [I3 [I4 [I5 I6]]]]]. cbn [length].
    split; [exact I1|]. split; [exact I2|]. repeat split; try congruence. lia.
Qed.
Lemma good_logic size xa xb nb xor c o c' : good c -> logic_gate size xa xb nb xor c = Ok (o, c') -> good c'.
Proof.
  intros [K [A1 A2 A3 A4 A5]] H. unfold logic_gate in H. ob H u E0. cbv zeta in H. ob H va E1. ob H ab E2. ob H vb E3. ob H bb E4. clear E0 E1 E2 E3 E4.
  ob H c1 E1. ob H c2 E2. ob H c3 E3. ob H c5 E5. ob H c6 E6. injection H as _ <-.
  set (z := c_zero c) in *. 
  pose proof (regs_trans _ _ _ _ _ (regs_map _ _ _ _ E1) (regs_trans _ _ _ _ _ (regs_map _ _ _ _ E2) (regs_map _ _ _ _ E3))) as RR.
  apply map_inv in E1, E2, E3. destruct E1 as [_ [E1 _]], E2 as [_ [E2 _]], E3 as [_ [E3 _]].
  pose proof (remap_trans _ _ _ (remap_trans _ _ _ E1 E2) E3) as EE. clear E1 E2 E3.
  match type of E5 with logic_rows _ _ _ _ _ _ _ ?d = _ => set (c4 := d) in E5 end.
  set (W := fun col => match col with Output => [] | _ => [z] end).
  assert (forall col, wires c4 col = wires c col ++ W col) as W4.
  { intros []; cbn [c4 add_n set_n set_wires wires c_wl c_wr c_wo c_w4 W]; rewrite EE; try reflexivity. cbn. now rewrite app_nil_r. }
  assert (c_n c4 = c_n c + 1)%nat as N4 by (cbn [c4 add_n set_n set_wires c_n]; rewrite EE; reflexivity).
  assert (c_sel c4 = c_sel c /\ c_pos c4 = c_pos c /\ c_pi c4 = c_pi c) as [S4 [P4 I4]].
  { cbn [c4 add_n set_n set_wires c_sel c_pos c_pi]. rewrite EE. cbn [set_vars c_sel c_pos c_pi]. auto. }
  assert (reg K c4) as R4.
  { eapply (reg_push K c c4 _ W A1); [exact RR|exact W4| |].
    - cbn. repeat (constructor; [cbn; intuition discriminate|]). constructor.
    - intros v col j. rewrite A5. cbn [app In]. split.
      + intros [E|[E|[E|[]]]]; injection E as <- <- <-; exists 0%nat; rewrite Nat.add_0_r; auto.
      + intros [j' [-> E]]. destruct col; cbn [W] in E; destruct j' as [|[|k]]; try discriminate E; rewrite Nat.add_0_r; injection E as <-; auto. }
  assert (logic_lens c4) as L4 by (intros col; rewrite W4, app_length, N4, A5; destruct col; cbn; lia).
  destruct (logic_reg _ _ _ _ _ _ _ _ _ _ R4 ltac:(lia) L4 E5) as [R5 [L5 [N5 [P5 [I5 S5]]]]]. rewrite seq_length in N5.
  pose proof (regs_map _ _ _ _ E6) as R6. apply map_inv in E6. destruct E6 as [_ [E6 _]].
  match goal with |- good ?d => set (c8 := d) end.
  set (W' := fun col => match col with Output => [z] | _ => [] end).
  assert (forall col, wires c8 col = wires c5 col ++ W' col) as W8.
  { intros []; cbn [c8 push_sels set_sel push_wire set_wires wires c_wl c_wr c_wo c_w4 W']; rewrite E6; rewrite ?app_nil_r; reflexivity. }
  assert (c_n c8 = c_n c5) as N8 by (cbn [c8 push_sels set_sel push_wire set_wires c_n]; rewrite E6; reflexivity).
  assert (c_sel c8 = c_sel c ++ repeat (logic_sel xor) (nb / 2) ++ [no_sel]) as S8.
  { cbn [c8 push_sels set_sel push_wire set_wires c_sel]. rewrite E6. cbn [set_vars c_sel]. rewrite S5, S4. reflexivity. }
  exists K. constructor.
  - eapply (reg_push K c5 c8 _ W' R5); [exact R6|exact W8| |].
    + cbn. repeat (constructor; [cbn; intuition discriminate|]). constructor.
    + intros v col j. rewrite L5. cbn [In]. split.
      * intros [E|[]]; injection E as <- <- <-; exists 0%nat; rewrite Nat.add_0_r; auto.
      * intros [j' [-> E]]. destruct col; cbn [W'] in E; destruct j' as [|[|k]]; try discriminate E; rewrite Nat.add_0_r; injection E as <-; auto.
  - eapply idle_app; eauto.
  - eapply posok_same; [exact A3| | |lia]; cbn [c8 push_sels set_sel push_wire set_wires c_pos c_pi]; rewrite E6; cbn [set_vars c_pos c_pi]; congruence.
  - rewrite S8, !app_length, repeat_length, N8, N5, N4, A4. cbn. lia.
  - intros col. rewrite W8, app_length, L5, N8. destruct col; cbn [W' length]; lia.
Qed.

Theorem built_good ca cd size chk c : built ca cd size chk c -> good c.
Proof.
  induction 1 as [r s c H|v c B W|a b o m l r q k pi c c' B W H|g c o c' B W H|a c o c' B W H|vs ss c o c' B W H
    |vs ss c o c' B W H|a b o d pi c v c' B W H|w n c c' B W H|a b n xor c o c' B W H|p q c r c' B W H
    |s g c r c' B W H|r s c c' B W H|c c' B W H|r c B W|c B W].
  - exact (good_new _ _ _ H).
  - now apply good_input.
  - exact (good_poly _ _ _ _ _ _ _ _ _ _ _ W H).
  - exact (good_arithmetic _ _ _ _ W H).
  - exact (good_boolean _ _ _ _ W H).
  - exact (good_full _ _ _ _ _ W H).
  - exact (good_partial _ _ _ _ _ W H).
  - exact (good_lookup _ _ _ _ _ _ _ _ W H).
  - exact (good_range _ _ _ _ _ W H).
  - exact (good_logic _ _ _ _ _ _ _ _ W H).
  - exact (good_point_addition _ _ _ _ _ _ _ _ W H).
  - exact (good_fixed_base _ _ _ _ _ _ _ _ W H).
  - exact (good_blinding _ _ _ _ W H).
  - exact (good_dummy _ _ W H).
  - now apply good_table.
  - now apply good_table.
Qed.
End PlonkWires2.

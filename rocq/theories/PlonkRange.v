(** PlonkRange.v: the range gate. *)
From Verif Require Import Base Tools KZG SnarkProofs Plonk PlonkSpec PlonkProofs PlonkGadgets PlonkSelect.
Local Open Scope F_scope.

Section PlonkRange.
Context {F : Type} {fo : FieldOps F} {fl : FieldLaws F} {po : PrimeFieldOps F} {pl : PrimeFieldLaws F}.
Add Field Fpr : F_th.
Variables ca cd : F.
Implicit Types (c : composer F) (a : nat -> F).
Notation satisfies := (satisfies ca cd).
Notation honest := (honest ca cd).
Notation ext := (ext ca cd).

Ltac dm k := pose proof (Nat.div_mod_eq k 4); pose proof (Nat.mod_upper_bound k 4 ltac:(lia)).

(** the column of the wire i of a range gate *)
Definition colof (i : nat) : column := match (i mod 4)%nat with 0 => Fourth | 1 => Output | 2 => Right | _ => Left end%nat.
Definition off (col : column) : nat := match col with Fourth => 3 | Output => 2 | Right => 1 | Left => 0 end.
(** wires have been pushed from c to c' for the variables vs *)
Record wired c (vs : list nat) c' : Prop := {
  w_n : c_n c' = c_n c; w_sel : c_sel c' = c_sel c; w_pi : c_pi c' = c_pi c; w_zero : c_zero c' = c_zero c;
  w_table : c_table c' = c_table c;
  w_len : forall col, length (wires c' col) = (c_n c + (length vs + off col) / 4)%nat;
  w_old : forall col, firstn (c_n c) (wires c' col) = wires c col;
  w_new : forall i, (i < length vs)%nat -> nth (c_n c + i / 4) (wires c' (colof i)) 0%nat = nth i vs 0%nat;
  w_in : forall col v, In v (wires c' col) -> In v (wires c col) \/ In v vs;
  w_vs : forall v, In v vs -> (v < nvars c')%nat;
  w_nv : (nvars c <= nvars c')%nat;
  w_lv : length (c_vals c') = nvars c';
  w_vals : forall v, (v < nvars c)%nat -> values c' v = values c v }.

Lemma wired_refl c : wf c -> wired c [] c.
Proof.
  intros W. split; auto; try easy.
  - intros col. rewrite (wf_wires _ W). destruct col; cbn; lia.
  - intros col. rewrite <- (wf_wires _ W col). apply firstn_all.
  - apply (wf_vals _ W).
Qed.
Lemma wired_input c vs c' v : wired c vs c' -> wired c vs (snd (add_input v c')).
Proof.
  intros W. pose proof (add_input_nvars v c') as N.
  assert (forall col, wires (snd (add_input v c')) col = wires c' col) as E by (intros []; reflexivity).
  split; [apply W|apply W|apply W|apply W|apply W|..].
  - intros col. rewrite E. apply (w_len _ _ _ W).
  - intros col. rewrite E. apply (w_old _ _ _ W).
  - intros i. rewrite E. apply (w_new _ _ _ W).
  - intros col x. rewrite E. apply (w_in _ _ _ W).
  - intros x Hx. apply (w_vs _ _ _ W) in Hx. lia.
  - pose proof (w_nv _ _ _ W). lia.
  - rewrite N. cbn [add_input snd set_vars c_vals]. rewrite app_length. cbn. rewrite (w_lv _ _ _ W). lia.
  - intros x Hx. rewrite <- (w_vals _ _ _ W x Hx). unfold values. cbn [add_input snd set_vars c_vals]. apply app_nth1.
    rewrite (w_lv _ _ _ W). pose proof (w_nv _ _ _ W). lia.
Qed.
Lemma column_eq_dec (x y : column) : {x = y} + {x <> y}.
Proof. decide equality. Defined.
Lemma wires_push col col' v c : wires (push_wire col v c) col' = if column_eq_dec col col' then wires c col' ++ [v] else wires c col'.
Proof. destruct col, col'; reflexivity. Qed.
Lemma div_step k : forall col, ((k + 1 + off col) / 4 = (k + off col) / 4 + if column_eq_dec (colof k) col then 1 else 0)%nat.
Proof.
  intros col. unfold colof. dm k. dm (k + 1 + off col)%nat. dm (k + off col)%nat.
  destruct (k mod 4)%nat as [|[|[|[|]]]] eqn:E; try lia; destruct col; cbn [off] in *;
    match goal with |- context [column_eq_dec ?x ?y] => destruct (column_eq_dec x y) as [K|K]; try discriminate K; try congruence end; lia.
Qed.
Lemma div_col k : ((k + off (colof k)) / 4 = k / 4)%nat.
Proof.
  unfold colof. dm k. destruct (k mod 4)%nat as [|[|[|[|]]]] eqn:E; try lia; cbn [off];
    match goal with |- context [(?x / 4)%nat = _] => dm x end; lia.
Qed.
Lemma colof_inj i k : (i / 4 = k / 4)%nat -> colof i = colof k -> i = k.
Proof.
  unfold colof. intros H. dm i. dm k.
  destruct (i mod 4)%nat as [|[|[|[|]]]] eqn:E1, (k mod 4)%nat as [|[|[|[|]]]] eqn:E2; intros K; try discriminate K; lia.
Qed.
Lemma add_wire_inv i v c c' : add_wire i v c = Ok c' ->
  (v < nvars c)%nat /\ nvars c' = nvars c /\ c_n c' = c_n c /\ c_sel c' = c_sel c /\ c_pi c' = c_pi c /\ c_zero c' = c_zero c /\ c_table c' = c_table c /\
  c_vals c' = c_vals c /\ forall col, wires c' col = if column_eq_dec (colof i) col then wires c col ++ [v] else wires c col.
Proof.
  unfold add_wire. fold (colof i). intros H. apply map_inv in H. destruct H as [L [E N]].
  assert (nvars (push_wire (colof i) v c) = nvars c) as N1 by (destruct (colof i); reflexivity). rewrite N1 in *.
  split; auto. split; auto. rewrite E. 
  repeat split; try (destruct (colof i); reflexivity). intros col. rewrite <- wires_push. destruct (colof i), col; reflexivity.
Qed.
Lemma add_wire_ok i v c : (v < nvars c)%nat -> exists c', add_wire i v c = Ok c'.
Proof.
  intros L. unfold add_wire. fold (colof i). edestruct (map_ok (F:=F) v) as [c' [E _]]; [|exists c'; exact E].
  destruct (colof i); exact L.
Qed.
Lemma wired_step c vs c' v c'' : wired c vs c' -> add_wire (length vs) v c' = Ok c'' -> wired c (vs ++ [v]) c''.
Proof.
  intros W H. apply add_wire_inv in H. destruct H as [L [N [E1 [E2 [E3 [E4 [E5 [E6 EW]]]]]]]].
  split.
  - now rewrite E1, (w_n _ _ _ W).
  - now rewrite E2, (w_sel _ _ _ W).
  - now rewrite E3, (w_pi _ _ _ W).
  - now rewrite E4, (w_zero _ _ _ W).
  - now rewrite E5, (w_table _ _ _ W).
  - intros col. rewrite EW, app_length. cbn [length]. rewrite div_step. pose proof (w_len _ _ _ W col).
    destruct (column_eq_dec (colof (length vs)) col); rewrite ?app_length; cbn [length]; lia.
  - intros col. rewrite EW. destruct (column_eq_dec (colof (length vs)) col); [|apply (w_old _ _ _ W)].
    rewrite firstn_app, (w_old _ _ _ W). rewrite (w_len _ _ _ W).
    match goal with |- context [firstn ?k [v]] => replace k with 0%nat by lia end. apply app_nil_r.
  - intros i Hi. rewrite app_length in Hi. cbn [length] in Hi. rewrite EW.
    destruct (Nat.eq_dec i (length vs)) as [->|NE].
    + destruct (column_eq_dec (colof (length vs)) (colof (length vs))) as [_|]; [|congruence].
      assert (length (wires c' (colof (length vs))) = (c_n c + length vs / 4)%nat) as EL by (rewrite (w_len _ _ _ W), div_col; auto).
      rewrite app_nth2, EL, Nat.sub_diag by lia. rewrite app_nth2, Nat.sub_diag by lia. reflexivity.
    + rewrite (app_nth1 vs) by lia. rewrite <- (w_new _ _ _ W) by lia.
      destruct (column_eq_dec (colof (length vs)) (colof i)); [|auto]. apply app_nth1.
      rewrite (w_len _ _ _ W), <- e, div_col. pose proof (Nat.div_le_mono i (length vs) 4 ltac:(lia) ltac:(lia)).
      destruct (Nat.eq_dec (i / 4) (length vs / 4)) as [E|E]; [|lia]. apply colof_inj in E; [lia|auto].
  - intros col x. rewrite EW, in_app_iff. destruct (column_eq_dec (colof (length vs)) col).
    + rewrite in_app_iff. intros [K|K]; [apply (w_in _ _ _ W) in K; tauto|tauto].
    + intros K. apply (w_in _ _ _ W) in K. tauto.
  - intros x Hx. apply in_app_or in Hx. rewrite N. destruct Hx as [Hx|[<-|[]]]; [now apply (w_vs _ _ _ W)|auto].
  - rewrite N. apply (w_nv _ _ _ W).
  - rewrite E6, N. apply (w_lv _ _ _ W).
  - intros x Hx. unfold values. rewrite E6. now apply (w_vals _ _ _ W).
Qed.

Lemma pad_wired c k : wf c -> forall vs c' c'', wired c vs c' -> pad_wires (seq (length vs) k) c' = Ok c'' ->
  wired c (vs ++ repeat (c_zero c) k) c'' /\ nvars c'' = nvars c'.
Proof.
  intros Wf. induction k as [|k IH]; intros vs c' c'' W H; cbn [seq pad_wires repeat] in *.
  - injection H as <-. now rewrite app_nil_r.
  - apply obind_ok in H. destruct H as [c1 [E H]]. rewrite (w_zero _ _ _ W) in E.
    assert (nvars c1 = nvars c') as N by (now apply add_wire_inv in E).
    apply (wired_step _ _ _ _ _ W) in E. specialize (IH (vs ++ [c_zero c]) c1 c'' E).
    rewrite app_length in IH. cbn [length] in IH. rewrite Nat.add_1_r in IH. apply IH in H. rewrite <- app_assoc in H. cbn [app] in H.
    destruct H as [H1 H2]. split; [auto|congruence].
Qed.
Lemma pad_ok c k : wf c -> forall vs c', wired c vs c' -> exists c'', pad_wires (seq (length vs) k) c' = Ok c''.
Proof.
  intros Wf. induction k as [|k IH]; intros vs c' W; cbn [seq pad_wires]; [eauto|].
  rewrite (w_zero _ _ _ W). destruct (add_wire_ok (length vs) (c_zero c) c') as [c1 E].
  { pose proof (wf_zero _ Wf). pose proof (w_nv _ _ _ W). lia. }
  rewrite E. cbn [obind]. apply (wired_step _ _ _ _ _ W) in E. specialize (IH _ _ E). rewrite app_length in IH. cbn [length] in IH.
  now rewrite Nat.add_1_r in IH.
Qed.

(** *** bits *)
Lemma bits_nth size (x : F) i : nth_error (to_bits_le size x) i = if (i <? size)%nat then Some (Z.testbit (to_Z x) (Z.of_nat i)) else None.
Proof.
  unfold to_bits_le. destruct (Nat.ltb_spec i size).
  - rewrite nth_error_map. rewrite (nth_error_nth' _ _ i 0%nat) by (rewrite seq_length; lia). rewrite seq_nth by lia. reflexivity.
  - apply nth_error_None. now rewrite map_length, seq_length.
Qed.
Lemma two_bits X e : (0 <= e)%Z -> (bit_Z (Z.testbit X (2 * e)) + 2 * bit_Z (Z.testbit X (2 * e + 1)) = (X / 4 ^ e) mod 4)%Z.
Proof.
  intros He. change 4%Z with (2 ^ 2)%Z. rewrite <- Z.pow_mul_r by lia.
  assert (forall k, (0 <= k)%Z -> Z.testbit X (2 * e + k) = Z.testbit (X / 2 ^ (2 * e)) k) as H.
  { intros k Hk. rewrite Z.div_pow2_bits by lia. f_equal. lia. }
  replace (2 * e)%Z with (2 * e + 0)%Z at 1 by lia. rewrite !H by lia. set (U := (X / 2 ^ (2 * e))%Z).
  change (2 ^ 2)%Z with (2 * 2)%Z. rewrite Z.rem_mul_r by lia. 
  rewrite !Z.testbit_odd, Z.shiftr_0_r, (Z.shiftr_div_pow2 U 1) by lia. change (2 ^ 1)%Z with 2%Z. rewrite !Zmod_odd.
  unfold bit_Z. destruct (Z.odd U), (Z.odd (U / 2)); reflexivity.
Qed.
Lemma quad_step X m j : (0 <= m)%Z -> (0 <= j)%Z ->
  ((X / 4 ^ m) mod 4 ^ (j + 1) = 4 * ((X / 4 ^ (m + 1)) mod 4 ^ j) + (X / 4 ^ m) mod 4)%Z.
Proof.
  intros Hm Hj. rewrite !Z.pow_add_r, !Z.pow_1_r by lia. rewrite (Z.mul_comm (4 ^ j)).
  rewrite Z.rem_mul_r by (try lia; apply Z.pow_pos_nonneg; lia). rewrite Z.div_div by (try lia; apply Z.pow_pos_nonneg; lia). lia.
Qed.

Lemma quad_wired size x nq c : wf c -> forall m vs c' acc accs accs' c'', wired c vs c' -> (length vs + m = nq + 1)%nat ->
  quad_wires (to_bits_le size x) nq (seq (length vs) m) acc accs c' = Ok (accs', c'') ->
  accs' = rev (seq (nvars c') m) ++ accs /\ wired c (vs ++ seq (nvars c') m) c'' /\ nvars c'' = (nvars c' + m)%nat /\ (2 * m <= size)%nat /\
  (forall v, (v < nvars c')%nat -> values c'' v = values c' v) /\
  (forall j, (0 <= j)%Z -> acc = from_Z ((to_Z x / 4 ^ Z.of_nat m) mod 4 ^ j) -> forall k, (k < m)%nat ->
     values c'' (nvars c' + k) = from_Z ((to_Z x / 4 ^ Z.of_nat (m - k - 1)) mod 4 ^ (j + Z.of_nat (k + 1)))).
Proof.
  intros Wf. induction m as [|m IH]; intros vs c' acc accs accs' c'' W HL H; cbn [seq quad_wires] in H.
  - injection H as <- <-. rewrite app_nil_r. cbn [seq rev app]. split; auto. split; auto. split; [lia|]. split; [lia|]. split; auto. intros j _ _ k Hk. lia.
  - apply obind_ok in H. destruct H as [b0 [B0 H]]. apply obind_ok in H. destruct H as [b1 [B1 H]].
    replace (nq - length vs)%nat with m in * by lia. rewrite !bits_nth in *.
    destruct (Nat.ltb_spec (2 * m) size) as [L0|L0]; [|discriminate B0]. injection B0 as <-.
    destruct (Nat.ltb_spec (2 * m + 1) size) as [L1|L1]; [|discriminate B1]. injection B1 as <-.
    match type of H with context [add_input ?v c'] => set (acc' := v) in H end.
    pose proof (wired_input _ _ _ acc' W) as W1. pose proof (add_input_nvars acc' c') as N1. pose proof (add_input_var acc' c') as X1.
    assert (values (snd (add_input acc' c')) (nvars c') = acc') as V1.
    { unfold values. cbn [add_input snd set_vars c_vals]. rewrite <- (w_lv _ _ _ W), app_nth2, Nat.sub_diag by lia. reflexivity. }
    assert (forall v, (v < nvars c')%nat -> values (snd (add_input acc' c')) v = values c' v) as V2.
    { intros v Hv. unfold values. cbn [add_input snd set_vars c_vals]. apply app_nth1. now rewrite (w_lv _ _ _ W). }
    destruct (add_input acc' c') as [v c1]. cbn [fst snd] in *. subst v.
    apply obind_ok in H. destruct H as [c2 [E H]]. pose proof (wired_step _ _ _ _ _ W1 E) as W2.
    apply add_wire_inv in E. destruct E as [_ [N2 [_ [_ [_ [_ [_ [V3 _]]]]]]]].
    specialize (IH (vs ++ [nvars c']) c2 acc' (nvars c' :: accs) accs' c'' W2). rewrite app_length in IH. cbn [length] in IH.
    rewrite Nat.add_1_r in IH. specialize (IH ltac:(lia) H).
    destruct IH as [I1 [I2 [I3 [I4 [I5 I6]]]]]. assert (nvars c2 = S (nvars c')) as N3 by lia. rewrite N3 in *.
    split; [|split; [|split; [|split; [|split]]]].
    + rewrite I1. cbn [seq rev]. now rewrite <- app_assoc.
    + rewrite <- app_assoc in I2. exact I2.
    + lia.
    + lia.
    + intros v Hv. rewrite I5 by lia. unfold values in *. rewrite V3. apply V2. auto.
    + intros j Hj HA k Hk.
      assert (acc' = from_Z ((to_Z x / 4 ^ Z.of_nat m) mod 4 ^ (j + 1))) as HA'.
      { rewrite quad_step by lia. rewrite from_Z_add, from_Z_mul. rewrite <- two_bits by lia. unfold acc'. rewrite HA.
        replace (Z.of_nat (S m)) with (Z.of_nat m + 1)%Z by lia.
        replace (Z.of_nat (m + (m + 0))) with (2 * Z.of_nat m)%Z by lia. replace (Z.of_nat (m + (m + 0) + 1)) with (2 * Z.of_nat m + 1)%Z by lia. reflexivity. }
      destruct k as [|k].
      * rewrite Nat.add_0_r, I5 by lia. unfold values in *. rewrite V3, V1, HA'. repeat f_equal; lia.
      * specialize (I6 (j + 1)%Z ltac:(lia) HA' k ltac:(lia)). replace (nvars c' + S k)%nat with (S (nvars c') + k)%nat by lia. rewrite I6.
        replace (S m - S k - 1)%nat with (m - k - 1)%nat by lia. replace (j + 1 + Z.of_nat (k + 1))%Z with (j + Z.of_nat (S k + 1))%Z by lia. reflexivity.
Qed.
Lemma quad_ok size x nq c : wf c -> forall m vs c' acc accs, wired c vs c' -> (length vs + m = nq + 1)%nat -> (2 * m <= size)%nat ->
  exists accs' c'', quad_wires (to_bits_le size x) nq (seq (length vs) m) acc accs c' = Ok (accs', c'').
Proof.
  intros Wf. induction m as [|m IH]; intros vs c' acc accs W HL HS; cbn [seq quad_wires]; [eauto|].
  replace (nq - length vs)%nat with m in * by lia. rewrite !bits_nth.
  destruct (Nat.ltb_spec (2 * m) size) as [L0|L0]; [|lia]. destruct (Nat.ltb_spec (2 * m + 1) size) as [L1|L1]; [|lia]. cbn [obind unwrap_opt].
  match goal with |- context [add_input ?v c'] => set (acc' := v) end.
  pose proof (wired_input _ _ _ acc' W) as W1. pose proof (add_input_nvars acc' c') as N1. pose proof (add_input_var acc' c') as X1.
  destruct (add_input acc' c') as [v c1]. cbn [fst snd] in *. subst v.
  destruct (add_wire_ok (length vs) (nvars c') c1 ltac:(lia)) as [c2 E]. rewrite E. cbn [obind].
  pose proof (wired_step _ _ _ _ _ W1 E) as W2. specialize (IH _ _ acc' (nvars c' :: accs) W2). rewrite app_length in IH. cbn [length] in IH.
  rewrite Nat.add_1_r in IH. apply IH; lia.
Qed.

(** *** the gates *)
Lemma nth_first {A} (l : list A) m j d : (j < m)%nat -> nth j (firstn m l) d = nth j l d.
Proof. revert m j; induction l as [|x l IH]; intros [|m] [|j] H; cbn; auto; try lia. apply IH. lia. Qed.
Definition chain (vs : list nat) a : Prop := forall i, (i + 1 < length vs)%nat -> quad (a (nth (i + 1) vs 0%nat) - four * a (nth i vs 0%nat)).
Lemma range_row table (pi x y u t x' y' t' : F) : row_ok ca cd table range_sel pi x y u t x' y' t' <->
  pi = 0 /\ quad (u - four * t) /\ quad (y - four * u) /\ quad (x - four * y) /\ quad (t' - four * x).
Proof.
  unfold row_ok, range_sel. cbn [q_arith q_m q_l q_r q_o q_4 q_c q_hl q_hr q_h4 q_range q_logic q_fixed q_var q_lookup]. split.
  - intros [K1 [K2 _]]. split; [refine (eq_trans _ K1); ring|]. apply K2, f1_neq_0.
  - intros [K1 K2]. split; [rewrite K1; ring|]. split; [auto|]. repeat split; intros; congruence.
Qed.
Lemma wired_block c g vs c2 : wf c -> wired c vs c2 -> length vs = (4 * g + 1)%nat -> 
  let c4 := add_n (g + 1) (push_sels (repeat range_sel g ++ [no_sel]) c2) in
  let c5 := set_wires (c_wl c4 ++ [c_zero c]) (c_wr c4 ++ [c_zero c]) (c_wo c4 ++ [c_zero c]) (c_w4 c4) c4 in
  ext c c5 (chain vs) /\ nvars c5 = nvars c2 /\ c_vals c5 = c_vals c2.
Proof.
  intros Wf W HL c4 c5. set (ss := repeat range_sel g ++ [no_sel]).
  assert (length ss = (g + 1)%nat) as LS by (unfold ss; rewrite app_length, repeat_length; reflexivity).
  assert (nvars c5 = nvars c2) as N by reflexivity.
  assert (forall col, wires c5 col = wires c2 col ++ match col with Fourth => [] | _ => [c_zero c] end) as EW.
  { intros []; try reflexivity. cbn [wires]. now rewrite app_nil_r. }
  set (V := fun col => skipn (c_n c) (wires c5 col)).
  assert (forall col, wires c5 col = wires c col ++ V col) as EV.
  { intros col. unfold V. rewrite <- (firstn_skipn (c_n c) (wires c5 col)) at 1. f_equal. rewrite EW, firstn_app, (w_old _ _ _ W).
    assert (c_n c - length (wires c2 col) = 0)%nat as -> by (rewrite (w_len _ _ _ W); lia). apply app_nil_r. }
  assert (forall col, length (wires c5 col) = (c_n c + g + 1)%nat) as LW.
  { intros col. rewrite EW, app_length, (w_len _ _ _ W), HL. dm (4 * g + 1 + off col)%nat. destruct col; cbn [off length] in *; lia. }
  assert (block c c5 ss V 0) as B.
  { split.
    - unfold c5, c4. cbn. rewrite (w_n _ _ _ W), LS. reflexivity.
    - unfold c5, c4. cbn. rewrite (w_sel _ _ _ W). reflexivity.
    - exact EV.
    - intros col. unfold V. rewrite skipn_length, LW. lia.
    - apply (w_table _ _ _ W).
    - apply (w_zero _ _ _ W).
    - rewrite N. apply (w_nv _ _ _ W).
    - split; [|rewrite N; apply (w_lv _ _ _ W)]. unfold c5, c4. cbn [set_wires add_n set_n push_sels set_sel c_vals].
      apply (list_eq_nth _ _ _ 0).
      + rewrite !firstn_length, (w_lv _ _ _ W), (wf_vals _ Wf). pose proof (w_nv _ _ _ W). lia.
      + intros k Hk. rewrite firstn_length in Hk. rewrite !nth_first by lia. apply (w_vals _ _ _ W). lia.
    - intros col v Hv. rewrite N. assert (In v (wires c5 col)) as Hv' by (rewrite EV; apply in_or_app; auto).
      rewrite EW in Hv'. apply in_app_or in Hv'. destruct Hv' as [Hv'|Hv'].
      + apply (w_in _ _ _ W) in Hv'. destruct Hv' as [Hv'|Hv']; [apply (wf_vars _ Wf) in Hv'; pose proof (w_nv _ _ _ W); lia|now apply (w_vs _ _ _ W)].
      + pose proof (wf_zero _ Wf). pose proof (w_nv _ _ _ W). destruct col; cbn in Hv'; destruct Hv' as [<-|[]] || destruct Hv'; lia.
    - intros i. change (c_pi c5) with (c_pi c2). rewrite (w_pi _ _ _ W). destruct (Nat.eqb_spec i (c_n c)) as [->|]; auto.
      apply (wf_pi_out _ _ Wf). lia.
    - intros k v. change (c_pi c5) with (c_pi c2). rewrite (w_pi _ _ _ W). auto.
    - lia.
    - rewrite LS. replace (g + 1 - 1)%nat with g by lia. unfold ss. rewrite app_nth2; rewrite repeat_length; [|lia]. rewrite Nat.sub_diag. apply no_sel_no_next. }
  split; [|split; auto]. split.
  - eapply block_wf; eauto.
  - rewrite N. apply (w_nv _ _ _ W).
  - apply (w_zero _ _ _ W).
  - apply (w_table _ _ _ W).
  - apply (w_vals _ _ _ W).
  - intros a. rewrite (block_sat ca cd _ _ _ _ _ a Wf B).
    assert (block_ok ca cd (c_table c) ss V 0 (c_zero c) a <-> chain vs a) as ->; [|reflexivity].
    assert (forall i, (i < 4 * g + 1)%nat -> nth (i / 4) (V (colof i)) (c_zero c) = nth i vs 0%nat) as HV.
    { intros i Hi. rewrite <- (w_new _ _ _ W) by lia.
      assert (i / 4 <= g)%nat as Hg by (dm i; lia).
      transitivity (nth (c_n c + i / 4) (wires c5 (colof i)) (c_zero c)).
      { rewrite EV, app_nth2; rewrite (wf_wires _ Wf); [|lia]. f_equal. lia. }
      rewrite EW, app_nth1.
      - apply nth_indep. rewrite (w_len _ _ _ W), HL. pose proof (div_col i). pose proof (div_step i (colof i)) as D.
        destruct (column_eq_dec (colof i) (colof i)); [|congruence].
        pose proof (Nat.div_le_mono (i + 1 + off (colof i)) (4 * g + 1 + off (colof i)) 4 ltac:(lia) ltac:(lia)). lia.
      - rewrite (w_len _ _ _ W), HL. pose proof (div_col i). pose proof (div_step i (colof i)) as D.
        destruct (column_eq_dec (colof i) (colof i)); [|congruence].
        pose proof (Nat.div_le_mono (i + 1 + off (colof i)) (4 * g + 1 + off (colof i)) 4 ltac:(lia) ltac:(lia)). lia. }
    assert (forall j r, (r < 4)%nat -> ((4 * j + r) / 4 = j)%nat /\ ((4 * j + r) mod 4 = r)%nat) as DM.
    { intros j r Hr. dm (4 * j + r)%nat. lia. }
    assert (forall j, (j < g)%nat -> nth j (V Fourth) (c_zero c) = nth (4 * j) vs 0%nat /\ nth j (V Output) (c_zero c) = nth (4 * j + 1) vs 0%nat /\
      nth j (V Right) (c_zero c) = nth (4 * j + 2) vs 0%nat /\ nth j (V Left) (c_zero c) = nth (4 * j + 3) vs 0%nat /\
      nth (j + 1) (V Fourth) (c_zero c) = nth (4 * j + 4) vs 0%nat) as HR.
    { intros j Hj. 
      pose proof (HV (4 * j + 0)%nat ltac:(lia)) as H0. pose proof (HV (4 * j + 1)%nat ltac:(lia)) as H1. pose proof (HV (4 * j + 2)%nat ltac:(lia)) as H2.
      pose proof (HV (4 * j + 3)%nat ltac:(lia)) as H3. pose proof (HV (4 * (j + 1) + 0)%nat ltac:(lia)) as H4.
      destruct (DM j 0%nat ltac:(lia)) as [A0 B0]. destruct (DM j 1%nat ltac:(lia)) as [A1 B1]. destruct (DM j 2%nat ltac:(lia)) as [A2 B2].
      destruct (DM j 3%nat ltac:(lia)) as [A3 B3]. destruct (DM (j + 1)%nat 0%nat ltac:(lia)) as [A4 B4].
      unfold colof in H0, H1, H2, H3, H4. rewrite A0, B0 in H0. rewrite A1, B1 in H1. rewrite A2, B2 in H2. rewrite A3, B3 in H3. rewrite A4, B4 in H4.
      rewrite Nat.add_0_r in H0. replace (4 * (j + 1) + 0)%nat with (4 * j + 4)%nat in H4 by lia. auto. }
    unfold block_ok. rewrite LS. split.
    + intros K i Hi. rewrite HL in Hi. assert (exists j, i = 4 * j \/ i = 4 * j + 1 \/ i = 4 * j + 2 \/ i = 4 * j + 3)%nat as [j Ej] by (exists (i / 4)%nat; dm i; lia). assert (j < g)%nat as Hj by lia.
      specialize (K j ltac:(lia)). cbv zeta in K. destruct (HR j Hj) as [E0 [E1 [E2 [E3 E4]]]]. rewrite E0, E1, E2, E3, E4 in K.
      unfold ss in K. rewrite app_nth1 in K by (rewrite repeat_length; auto).
      rewrite (nth_indep _ _ range_sel), nth_repeat in K by (rewrite repeat_length; auto).
      apply range_row in K. destruct K as [_ [Q0 [Q1 [Q2 Q3]]]].
      destruct Ej as [->|[->|[->| ->]]].
      * exact Q0.
      * rewrite <- Nat.add_assoc. exact Q1.
      * rewrite <- Nat.add_assoc. exact Q2.
      * rewrite <- Nat.add_assoc. exact Q3.
    + intros K j Hj. cbv zeta. destruct (Nat.eq_dec j g) as [->|NE].
      * unfold ss. rewrite app_nth2; rewrite repeat_length; [|lia]. rewrite Nat.sub_diag. cbn [nth].
        destruct (g =? 0)%nat; apply no_sel_ok.
      * destruct (HR j ltac:(lia)) as [E0 [E1 [E2 [E3 E4]]]]. rewrite E0, E1, E2, E3, E4.
        unfold ss. rewrite app_nth1 by (rewrite repeat_length; lia).
        rewrite (nth_indep _ _ range_sel), nth_repeat by (rewrite repeat_length; lia). apply range_row.
        pose proof (K (4 * j)%nat ltac:(lia)) as Q0. pose proof (K (4 * j + 1)%nat ltac:(lia)) as Q1.
        pose proof (K (4 * j + 2)%nat ltac:(lia)) as Q2. pose proof (K (4 * j + 3)%nat ltac:(lia)) as Q3.
        rewrite <- Nat.add_assoc in Q1, Q2, Q3. split; [now destruct (j =? 0)%nat|]. auto.
Qed.

(** the wires of a range gate for m pairs of bits, with new variables from n on *)
Definition range_vs (z n p m : nat) : list nat := repeat z p ++ seq n m.
(** the number of gates *)
Definition range_gates (nb : nat) : nat := (nb / 8 + (if (nb mod 8 =? 0)%nat then 0 else 1))%nat.
Lemma range_sizes nb : (nb mod 2 = 0)%nat -> let g := range_gates nb in let m := (nb / 2)%nat in
  let p := (1 + (2 * (g * 4) - nb) / 2)%nat in (nb = 2 * m /\ p + m = 4 * g + 1 /\ 1 <= p)%nat.
Proof.
  intros H g m p. pose proof (Nat.div_mod_eq nb 8). pose proof (Nat.mod_upper_bound nb 8 ltac:(lia)).
  pose proof (Nat.div_mod_eq nb 2). assert (2 * m = nb)%nat as M by (unfold m; lia).
  assert (nb <= 8 * g)%nat as G by (unfold g, range_gates; destruct (Nat.eqb_spec (nb mod 8) 0); lia).
  unfold p. replace (2 * (g * 4) - nb)%nat with ((4 * g - m) * 2)%nat by lia. rewrite Nat.div_mul by lia. lia.
Qed.
Lemma range_gate_inv size w nb c c' : wf c -> range_gate size w nb c = Ok c' ->
  let m := (nb / 2)%nat in
  (nb = 2 * m)%nat /\ (0 < m)%nat /\ (nb <= size)%nat /\ (w < nvars c)%nat /\
  exists p c5, (1 <= p)%nat /\ ext c c5 (chain (range_vs (c_zero c) (nvars c) p m)) /\ nvars c5 = (nvars c + m)%nat /\
    assert_equal (nvars c + m - 1) w c5 = Ok c' /\
    forall k, (k < m)%nat -> values c5 (nvars c + k) = from_Z ((to_Z (values c w) / 4 ^ Z.of_nat (m - k - 1)) mod 4 ^ Z.of_nat (k + 1)).
Proof.
  intros Wf H m. unfold range_gate in H. apply obind_ok in H. destruct H as [u [E0 H]].
  unfold assert_ in E0. destruct (Nat.eqb_spec (nb mod 2) 0) as [Ev|]; [|discriminate].
  apply obind_ok in H. destruct H as [x [Vx H]]. apply value_inv in Vx; auto. destruct Vx as [Lw ->].
  fold (range_gates nb) in H. pose proof (range_sizes nb Ev) as S1. cbv zeta in S1. fold m in S1. set (g := range_gates nb) in *.
  set (p := (1 + (2 * (g * 4) - nb) / 2)%nat) in *. destruct S1 as [EM [EP LP]].
  apply obind_ok in H. destruct H as [c1 [E1 H]]. destruct (pad_wired c p Wf [] c c1 (wired_refl _ Wf) E1) as [W1 N1]. cbn [app] in W1.
  replace (g * 4 + 1 - p)%nat with m in H by lia.
  apply obind_ok in H. destruct H as [[accs c2] [E2 H]].
  rewrite <- (repeat_length (c_zero c) p) in E2.
  eapply (quad_wired _ _ _ _ Wf) in E2; [|exact W1|rewrite repeat_length; lia].
  destruct E2 as [EA [W2 [N2 [LS [_ VV]]]]]. rewrite N1 in *. rewrite app_nil_r in EA.
  destruct (Nat.eq_dec m 0) as [Z|NZ]; [rewrite Z in EA; cbn in EA; subst accs; discriminate H|].
  split; [auto|]. split; [lia|]. split; [lia|]. split; [auto|].
  replace m with (m - 1 + 1)%nat in EA at 1 by lia. rewrite seq_app, rev_app_distr in EA. cbn [seq rev app] in EA. subst accs.
  destruct (wired_block c g _ _ Wf W2) as [EX [N5 V5]]. { rewrite app_length, repeat_length, seq_length. lia. }
  eexists p, _. split; [auto|]. split; [exact EX|]. split; [now rewrite N5, N2|]. split.
  - replace (nvars c + m - 1)%nat with (nvars c + (m - 1))%nat by lia. exact H.
  - intros k Hk. unfold values. rewrite V5. specialize (VV 0%Z ltac:(lia)). rewrite Z.pow_0_r, Zmod_1_r in VV.
    specialize (VV (eq_sym from_Z_0) k Hk). exact VV.
Qed.

Lemma range_vs_len z n p m : length (range_vs z n p m) = (p + m)%nat.
Proof. unfold range_vs. now rewrite app_length, repeat_length, seq_length. Qed.
Lemma range_vs_pad z n p m i : (i < p)%nat -> nth i (range_vs z n p m) 0%nat = z.
Proof. intros H. unfold range_vs. rewrite app_nth1 by (now rewrite repeat_length). rewrite (nth_indep _ _ z), nth_repeat; auto. now rewrite repeat_length. Qed.
Lemma range_vs_new z n p m k : (k < m)%nat -> nth (p + k) (range_vs z n p m) 0%nat = (n + k)%nat.
Proof. intros H. unfold range_vs. rewrite app_nth2; rewrite repeat_length; [|lia]. replace (p + k - p)%nat with k by lia. now apply seq_nth. Qed.
Lemma quad_0 : quad (F:=F) 0.
Proof. exists 0%Z. split; [lia|]. now rewrite from_Z_0. Qed.
Definition below (m : nat) (x : F) : Prop := exists z, (0 <= z < 4 ^ Z.of_nat m)%Z /\ x = from_Z z.
Lemma chain_sound z n p m a : (1 <= p)%nat -> a z = 0 -> chain (range_vs z n p m) a -> forall k, (k < m)%nat -> below (k + 1) (a (n + k)%nat).
Proof.
  intros LP Z C. induction k as [|k IH]; intros Hk.
  - specialize (C (p - 1)%nat). rewrite range_vs_len in C. specialize (C ltac:(lia)).
    replace (p - 1 + 1)%nat with (p + 0)%nat in C by lia. rewrite range_vs_new, range_vs_pad, Z in C by lia.
    destruct C as [q [Hq E]]. exists q. split; [cbn; lia|]. rewrite <- E. ring.
  - destruct (IH ltac:(lia)) as [y [Hy E]]. specialize (C (p + k)%nat). rewrite range_vs_len in C. specialize (C ltac:(lia)).
    replace (p + k + 1)%nat with (p + S k)%nat in C by lia. rewrite !range_vs_new in C by lia. destruct C as [q [Hq E1]].
    exists (4 * y + q)%Z. split.
    + replace (Z.of_nat (S k + 1)) with (Z.of_nat (k + 1) + 1)%Z by lia. rewrite Z.pow_add_r by lia. lia.
    + rewrite from_Z_add, from_Z_mul, <- E, <- E1. unfold four. ring.
Qed.
Lemma chain_complete z n p m a X : a z = 0 -> (0 <= X)%Z ->
  (forall k, (k < m)%nat -> a (n + k)%nat = from_Z ((X / 4 ^ Z.of_nat (m - k - 1)) mod 4 ^ Z.of_nat (k + 1))) -> chain (range_vs z n p m) a.
Proof.
  intros Z HX H i Hi. rewrite range_vs_len in Hi. destruct (le_lt_dec p (i + 1)) as [L|L].
  - replace (i + 1)%nat with (p + (i + 1 - p))%nat at 1 by lia. rewrite range_vs_new, H by lia. set (k := (i + 1 - p)%nat).
    pose proof (quad_step X (Z.of_nat (m - k - 1)) (Z.of_nat k) ltac:(lia) ltac:(lia)) as Q. 
    exists ((X / 4 ^ Z.of_nat (m - k - 1)) mod 4)%Z. split; [apply Z.mod_pos_bound; lia|].
    replace (Z.of_nat (k + 1)) with (Z.of_nat k + 1)%Z by lia. rewrite Q, from_Z_add, from_Z_mul.
    assert (a (nth i (range_vs z n p m) 0%nat) = from_Z ((X / 4 ^ (Z.of_nat (m - k - 1) + 1)) mod 4 ^ Z.of_nat k)) as ->; [|unfold four; ring].
    destruct (Nat.eq_dec k 0) as [E0|E0].
    + rewrite range_vs_pad by lia. rewrite Z, E0. cbn [Z.of_nat]. now rewrite Z.pow_0_r, Zmod_1_r, from_Z_0.
    + replace i with (p + (k - 1))%nat by lia. rewrite range_vs_new, H by lia.
      replace (k - 1 + 1)%nat with k by lia. replace (Z.of_nat (m - (k - 1) - 1)) with (Z.of_nat (m - k - 1) + 1)%Z by lia. reflexivity.
  - rewrite !range_vs_pad, Z by lia. replace (0 - four * 0) with (0 : F) by ring. apply quad_0.
Qed.

(** *** what the range gate enforces *)
Lemma pow4_2 m : (4 ^ Z.of_nat m = 2 ^ Z.of_nat (2 * m))%Z.
Proof. change 4%Z with (2 ^ 2)%Z. rewrite <- Z.pow_mul_r by lia. f_equal. lia. Qed.
Theorem range_enforces size w nb c c' : wf c -> range_gate size w nb c = Ok c' ->
  enforces ca cd c c' (fun a => exists z, (0 <= z < 2 ^ Z.of_nat nb)%Z /\ a w = from_Z z).
Proof.
  intros W H. apply range_gate_inv in H; auto. cbv zeta in H. set (m := (nb / 2)%nat) in *.
  destruct H as [EM [LM [LS [Lw [p [c5 [LP [EX [N5 [HA _]]]]]]]]]].
  apply (assert_equal_ext ca cd) in HA; [|apply EX]. destruct HA as [EA _].
  pose proof (ext_trans ca cd _ _ _ _ _ EX EA) as E. apply (enforces_intro ca cd _ _ _ _ W E).
  intros a Ha. pose proof (satisfies_zero ca cd _ _ W Ha) as Z. pose proof (wf_zero _ W) as LZ. rewrite EM. rewrite <- pow4_2. split.
  - intros [a' [S1 [C Q]]]. rewrite <- (S1 w), <- Q by auto. apply chain_sound with (k := (m - 1)%nat) in C; auto; [|now rewrite S1|lia].
    replace (m - 1 + 1)%nat with m in C by lia. replace (nvars c + m - 1)%nat with (nvars c + (m - 1))%nat by lia. exact C.
  - intros [X [HX EX']].
    exists (ins (nvars c) (map (fun k => from_Z ((X / 4 ^ Z.of_nat (m - k - 1)) mod 4 ^ Z.of_nat (k + 1))) (seq 0 m)) a).
    assert (forall k, (k < m)%nat -> ins (nvars c) (map (fun k => from_Z ((X / 4 ^ Z.of_nat (m - k - 1)) mod 4 ^ Z.of_nat (k + 1))) (seq 0 m)) a (nvars c + k) =
      from_Z ((X / 4 ^ Z.of_nat (m - k - 1)) mod 4 ^ Z.of_nat (k + 1))) as K by (intros k Hk; rewrite ins_new; now apply nth_map_seq).
    split; [apply ins_same|]. split.
    + apply chain_complete with (X := X); [rewrite ins_old; auto|lia|exact K].
    + rewrite (ins_old _ _ _ w) by auto. replace (nvars c + m - 1)%nat with (nvars c + (m - 1))%nat by lia. rewrite K by lia.
      replace (m - (m - 1) - 1)%nat with 0%nat by lia. replace (m - 1 + 1)%nat with m by lia. rewrite EX'. f_equal.
      change (Z.of_nat 0) with 0%Z. rewrite Z.pow_0_r, Z.div_1_r. apply Z.mod_small. lia.
Qed.
Theorem range_honest size w nb c c' : wf c -> range_gate size w nb c = Ok c' ->
  honest c' <-> honest c /\ (to_Z (values c w) < 2 ^ Z.of_nat nb)%Z.
Proof.
  intros W H. apply range_gate_inv in H; auto. cbv zeta in H. set (m := (nb / 2)%nat) in *.
  destruct H as [EM [LM [LS [Lw [p [c5 [LP [EX [N5 [HA VV]]]]]]]]]].
  apply (assert_equal_ext ca cd) in HA; [|apply EX]. destruct HA as [EA [N' _]].
  rewrite (honest_ext ca cd _ _ _ (ext_wf _ _ _ _ _ EX) EA), (honest_ext ca cd _ _ _ W EX).
  pose proof (to_Z_range (values c w)) as R.
  assert (values c' (nvars c + m - 1) = values c' w <-> (to_Z (values c w) < 2 ^ Z.of_nat nb)%Z) as ->.
  { rewrite !(ext_vals _ _ _ _ _ EA) by lia. rewrite (ext_vals _ _ _ _ _ EX w) by lia.
    replace (nvars c + m - 1)%nat with (nvars c + (m - 1))%nat by lia. rewrite VV by lia.
    replace (m - (m - 1) - 1)%nat with 0%nat by lia. replace (m - 1 + 1)%nat with m by lia. change (Z.of_nat 0) with 0%Z. rewrite Z.pow_0_r, Z.div_1_r.
    rewrite EM, <- pow4_2. assert (0 < 4 ^ Z.of_nat m)%Z as P by (apply Z.pow_pos_nonneg; lia).
    pose proof (Z.mod_pos_bound (to_Z (values c w)) (4 ^ Z.of_nat m) P) as B.
    pose proof (Z.mod_le (to_Z (values c w)) (4 ^ Z.of_nat m) (proj1 R) P) as B2. split.
    - intros E. apply (f_equal to_Z) in E. rewrite to_from_Z in E. rewrite Z.mod_small in E by lia. lia.
    - intros L. rewrite Z.mod_small by lia. apply from_to_Z. }
  split; [tauto|]. intros [HC HL]. split; [|auto]. split; [auto|].
  apply chain_complete with (X := to_Z (values c w)); [|lia|exact VV].
  rewrite (ext_vals _ _ _ _ _ EX) by apply (wf_zero _ W). now apply (honest_zero ca cd).
Qed.
Theorem range_gate_ok size w nb c : wf c -> (exists c', range_gate size w nb c = Ok c') <->
  (w < nvars c)%nat /\ (nb mod 2 = 0)%nat /\ (0 < nb <= size)%nat.
Proof.
  intros W. split.
  - intros [c' H]. apply range_gate_inv in H; auto. cbv zeta in H. destruct H as [E [L1 [L2 [L3 _]]]].
    split; auto. split; [|lia]. rewrite E. rewrite Nat.mul_comm. apply Nat.mod_mul. lia.
  - intros [Lw [Ev LN]]. unfold range_gate. rewrite Ev, Nat.eqb_refl. cbn [assert_ obind]. rewrite value_ok by auto. cbn [obind].
    fold (range_gates nb). pose proof (range_sizes nb Ev) as S1. cbv zeta in S1. set (g := range_gates nb) in *. set (m := (nb / 2)%nat) in *.
    set (p := (1 + (2 * (g * 4) - nb) / 2)%nat) in *. destruct S1 as [EM [EP LP]].
    destruct (pad_ok c p W [] c (wired_refl _ W)) as [c1 E1]. cbn [length] in E1. rewrite E1. cbn [obind].
    destruct (pad_wired c p W [] c c1 (wired_refl _ W) E1) as [W1 N1]. cbn [app] in W1.
    replace (g * 4 + 1 - p)%nat with m by lia.
    destruct (quad_ok size (values c w) (g * 4) c W m (repeat (c_zero c) p) c1 0 [] W1) as [accs [c2 E2]]; [rewrite repeat_length; lia|lia|].
    rewrite repeat_length in E2. rewrite E2. cbn [obind].
    rewrite <- (repeat_length (c_zero c) p) in E2.
    eapply (quad_wired _ _ _ _ W) in E2; [|exact W1|rewrite repeat_length; lia].
    destruct E2 as [EA [W2 [N2 _]]]. rewrite N1 in *. rewrite app_nil_r in EA.
    replace m with (m - 1 + 1)%nat in EA at 1 by lia. rewrite seq_app, rev_app_distr in EA. cbn [seq rev app] in EA. subst accs.
    destruct (wired_block c g _ _ W W2) as [EX [N5 V5]]. { rewrite app_length, repeat_length, seq_length. lia. }
    unfold assert_equal, poly_gate. apply add_gate_ok; try apply EX; rewrite ?N5; rewrite ?N2; try lia.
    all: try (pose proof (wf_zero _ (ext_wf _ _ _ _ _ EX)); lia).
Qed.
End PlonkRange.

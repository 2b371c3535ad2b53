(** PlonkLogic.v: the logic gate. *)
From Verif Require Import Base Tools KZG SnarkProofs Plonk PlonkSpec PlonkProofs PlonkGadgets PlonkSelect PlonkRange PlonkRows.
Local Open Scope F_scope.

Section PlonkLogic.
Context {F : Type} {fo : FieldOps F} {fl : FieldLaws F} {po : PrimeFieldOps F} {pl : PrimeFieldLaws F}.
Add Field Fplg : F_th.
Variables ca cd : F.
Implicit Types (c : composer F) (a : nat -> F).
Notation satisfies := (satisfies ca cd).
Notation honest := (honest ca cd).
Notation ext := (ext ca cd).
Notation computes := (computes ca cd).

(** *** sums of quads, highest first *)
Fixpoint accz (f : nat -> Z) (k : nat) : Z := match k with O => 0%Z | S j => (4 * accz f j + f j)%Z end.
Lemma accz_ext f g k : (forall i, (i < k)%nat -> f i = g i) -> accz f k = accz g k.
Proof. induction k as [|k IH]; intros H; cbn [accz]; auto. rewrite IH, H; auto. Qed.
Lemma accz_bound f k : (forall i, (i < k)%nat -> (0 <= f i < 4)%Z) -> (0 <= accz f k < 4 ^ Z.of_nat k)%Z.
Proof.
  induction k as [|k IH]; intros H; cbn [accz]; [cbn; lia|]. specialize (IH ltac:(auto)). specialize (H k ltac:(lia)).
  replace (Z.of_nat (S k)) with (Z.of_nat k + 1)%Z by lia. rewrite Z.pow_add_r by lia. lia.
Qed.
Definition quads_of (X : Z) (m : nat) (i : nat) : Z := ((X / 4 ^ Z.of_nat (m - 1 - i)) mod 4)%Z.
Lemma quads_bound X m i : (0 <= quads_of X m i < 4)%Z.
Proof. apply Z.mod_pos_bound. lia. Qed.
Lemma accz_quads X m j : (j <= m)%nat -> accz (quads_of X m) j = ((X / 4 ^ Z.of_nat (m - j)) mod 4 ^ Z.of_nat j)%Z.
Proof.
  induction j as [|j IH]; intros H; cbn [accz].
  - now rewrite Z.pow_0_r, Zmod_1_r.
  - rewrite IH by lia. unfold quads_of. pose proof (quad_step X (Z.of_nat (m - S j)) (Z.of_nat j) ltac:(lia) ltac:(lia)) as Q.
    replace (Z.of_nat (S j)) with (Z.of_nat j + 1)%Z by lia. rewrite Q.
    replace (Z.of_nat (m - S j) + 1)%Z with (Z.of_nat (m - j)) by lia. replace (m - 1 - j)%nat with (m - S j)%nat by lia. reflexivity.
Qed.
Lemma lop_4 xor x y : (lop xor x y / 4 = lop xor (x / 4) (y / 4))%Z /\ (lop xor x y mod 4 = lop xor (x mod 4) (y mod 4))%Z.
Proof.
  change 4%Z with (2 ^ 2)%Z. rewrite <- !Z.shiftr_div_pow2, <- !Z.land_ones by lia. unfold lop. destruct xor; split.
  - apply Z.shiftr_lxor.
  - apply Z.bits_inj'. intros n Hn. rewrite ?Z.land_spec, ?Z.lxor_spec, ?Z.land_spec.
    destruct (Z.testbit x n), (Z.testbit y n), (Z.testbit (Z.ones 2) n); reflexivity.
  - apply Z.shiftr_land.
  - apply Z.bits_inj'. intros n Hn. rewrite ?Z.land_spec.
    destruct (Z.testbit x n), (Z.testbit y n), (Z.testbit (Z.ones 2) n); reflexivity.
Qed.
Lemma lop_step xor u v x y : (0 <= x < 4)%Z -> (0 <= y < 4)%Z -> (lop xor (4 * u + x) (4 * v + y) = 4 * lop xor u v + lop xor x y)%Z.
Proof.
  intros Hx Hy. destruct (lop_4 xor (4 * u + x) (4 * v + y)) as [E1 E2].
  rewrite (Z.div_mod (lop xor (4 * u + x) (4 * v + y)) 4) by lia. rewrite E1, E2.
  assert (forall t z, (0 <= z < 4)%Z -> ((4 * t + z) / 4 = t /\ (4 * t + z) mod 4 = z)%Z) as D.
  { intros t z Hz. split; symmetry; [apply (Z.div_unique _ _ _ z)|apply (Z.mod_unique _ _ t)]; try (left; exact Hz); reflexivity. }
  destruct (D u x Hx) as [-> ->]. destruct (D v y Hy) as [-> ->]. reflexivity.
Qed.
Lemma lop_bound xor x y : (0 <= x < 4)%Z -> (0 <= y < 4)%Z -> (0 <= lop xor x y < 4)%Z.
Proof.
  intros Hx Hy. destruct (lop_4 xor x y) as [E1 _]. rewrite (Z.div_small x 4), (Z.div_small y 4) in E1 by lia.
  assert (lop xor 0 0 = 0)%Z as E0 by (now destruct xor). rewrite E0 in E1. pose proof (Z.mod_pos_bound (lop xor x y) 4 ltac:(lia)).
  pose proof (Z.div_mod (lop xor x y) 4 ltac:(lia)). lia.
Qed.
Lemma accz_lop xor f g k : (forall i, (i < k)%nat -> (0 <= f i < 4)%Z) -> (forall i, (i < k)%nat -> (0 <= g i < 4)%Z) ->
  accz (fun i => lop xor (f i) (g i)) k = lop xor (accz f k) (accz g k).
Proof.
  induction k as [|k IH]; intros Hf Hg; cbn [accz]; [now destruct xor|]. rewrite IH by auto. symmetry. apply lop_step; auto.
Qed.

(** *** the loop *)
Definition quad_val (bits : list bool) (i : nat) : Z := match quad_at bits i with Ok q => q | _ => 0%Z end.
Lemma quad_val_bound bits i : (0 <= quad_val bits i < 4)%Z.
Proof.
  unfold quad_val, quad_at. destruct (nth_error bits (2 * i)) as [h|]; cbn [unwrap_opt obind]; [|lia].
  destruct (nth_error bits (2 * i + 1)) as [l|]; cbn [unwrap_opt obind]; [|lia]. destruct h, l; cbn; lia.
Qed.
Definition at4 (n r i : nat) : nat := (n + 4 * i + r)%nat.
Record lrows c (k : nat) c' : Prop := {
  l_n : c_n c' = (c_n c + 1 + k)%nat; l_sel : c_sel c' = c_sel c; l_pi : c_pi c' = c_pi c; l_zero : c_zero c' = c_zero c; l_table : c_table c' = c_table c;
  l_l : c_wl c' = c_wl c ++ c_zero c :: map (at4 (nvars c) 0) (seq 0 k);
  l_r : c_wr c' = c_wr c ++ c_zero c :: map (at4 (nvars c) 1) (seq 0 k);
  l_o : c_wo c' = c_wo c ++ map (at4 (nvars c) 2) (seq 0 k);
  l_4 : c_w4 c' = c_w4 c ++ c_zero c :: map (at4 (nvars c) 3) (seq 0 k);
  l_nv : nvars c' = (nvars c + 4 * k)%nat;
  l_lv : length (c_vals c') = nvars c';
  l_vals : forall v, (v < nvars c)%nat -> values c' v = values c v }.
Definition logic_vals c (n j : nat) (fa fb : nat -> Z) (xor : bool) : Prop :=
  values c (at4 n 0 j) = from_Z (accz fa (j + 1)) /\ values c (at4 n 1 j) = from_Z (accz fb (j + 1)) /\
  values c (at4 n 2 j) = from_Z (fa j * fb j) /\ values c (at4 n 3 j) = from_Z (accz (fun i => lop xor (fa i) (fb i)) (j + 1)).

Lemma vals_app c v (l : list F) : length (c_vals c) = nvars c -> (v < nvars c)%nat -> nth v (c_vals c ++ l) 0 = values c v.
Proof. intros L H. unfold values. apply app_nth1. lia. Qed.
Lemma logic_loop xor ab bb c : forall m k la ra oa c' c'', lrows c k c' ->
  la = from_Z (accz (quad_val ab) k) -> ra = from_Z (accz (quad_val bb) k) -> oa = from_Z (accz (fun i => lop xor (quad_val ab i) (quad_val bb i)) k) ->
  logic_rows xor ab bb (seq k m) la ra oa c' = Ok c'' ->
  lrows c (k + m) c'' /\ (forall v, (v < nvars c')%nat -> values c'' v = values c' v) /\
  (forall j, (k <= j < k + m)%nat -> logic_vals c'' (nvars c) j (quad_val ab) (quad_val bb) xor).
Proof.
  induction m as [|m IH]; intros k la ra oa c' c'' L Ea Eb Eo H; cbn [seq logic_rows] in H.
  - injection H as <-. rewrite Nat.add_0_r. split; auto. split; auto. intros j Hj. lia.
  - apply obind_ok in H. destruct H as [lq [Q1 H]]. apply obind_ok in H. destruct H as [rq [Q2 H]].
    assert (quad_val ab k = lq) as V1 by (unfold quad_val; now rewrite Q1). assert (quad_val bb k = rq) as V2 by (unfold quad_val; now rewrite Q2).
    clear Q1 Q2. cbv zeta in H.
    set (la' := la * from_Z 4 + from_Z lq) in *. set (ra' := ra * from_Z 4 + from_Z rq) in *. set (oa' := oa * from_Z 4 + from_Z (lop xor lq rq)) in *.
    apply obind_ok in H. destruct H as [u1 [_ H]]. apply obind_ok in H. destruct H as [u2 [_ H]]. apply obind_ok in H. destruct H as [u3 [_ H]].
    unfold add_input in H.
    match type of H with context [set_vars ?v ?m (set_vars _ _ (set_vars _ _ (set_vars _ _ c')))] => set (cc := set_vars v m (set_vars _ _ (set_vars _ _ (set_vars _ _ c')))) in H end.
    cbn [set_vars c_vals c_map c_n] in H.
    assert (nvars cc = (nvars c' + 4)%nat) as NC by (unfold nvars, cc; cbn [c_map set_vars]; rewrite !app_length; cbn; lia).
    apply obind_ok in H. destruct H as [c5 [E5 H]]. apply map_inv in E5. destruct E5 as [_ [E5 N5]].
    apply obind_ok in H. destruct H as [c6 [E6 H]]. apply map_inv in E6. destruct E6 as [_ [E6 N6]].
    apply obind_ok in H. destruct H as [c7 [E7 H]]. apply map_inv in E7. destruct E7 as [_ [E7 N7]].
    apply obind_ok in H. destruct H as [c8 [E8 H]]. apply map_inv in E8. destruct E8 as [_ [E8 N8]].
    pose proof (remap_trans _ _ _ (remap_trans _ _ _ (remap_trans _ _ _ E5 E6) E7) E8) as EE. clear E5 E6 E7 E8.
    assert (nvars c8 = nvars c' + 4)%nat as N by lia. clear N5 N6 N7 N8 c5 c6 c7.
    rewrite !app_length in H. cbn [length] in H. fold (nvars c') in H.
    match type of H with logic_rows _ _ _ _ _ _ _ ?x = _ => set (c9 := x) in H end.
    assert (nvars c9 = (nvars c' + 4)%nat) as N9 by (change (nvars c9) with (nvars c8); exact N).
    assert (c_vals c9 = (((c_vals c' ++ [la']) ++ [ra']) ++ [from_Z (lq * rq)]) ++ [oa']) as EV by (unfold c9; cbn; rewrite EE; reflexivity).
    assert (forall v, (v < nvars c')%nat -> values c9 v = values c' v) as VO.
    { intros v Hv. unfold values at 1. rewrite EV, <- !app_assoc. apply vals_app; auto. apply (l_lv _ _ _ L). }
    assert (forall i, nth (nvars c' + i) (c_vals c9) 0 = nth i [la'; ra'; from_Z (lq * rq); oa'] 0) as VN.
    { intros i. rewrite EV, <- !app_assoc. cbn [app]. rewrite app_nth2; rewrite (l_lv _ _ _ L); [|lia]. f_equal. lia. }
    assert (lrows c (S k) c9) as L9.
    { unfold c9. split.
      - cbn. rewrite EE. cbn. rewrite (l_n _ _ _ L). lia.
      - cbn. rewrite EE. cbn. apply (l_sel _ _ _ L).
      - cbn. rewrite EE. cbn. apply (l_pi _ _ _ L).
      - cbn. rewrite EE. cbn. apply (l_zero _ _ _ L).
      - cbn. rewrite EE. cbn. apply (l_table _ _ _ L).
      - cbn [push_wires add_n set_n set_wires c_wl]. rewrite EE. cbn [set_vars cc c_wl]. rewrite (l_l _ _ _ L), <- app_assoc, <- app_comm_cons. rewrite seq_S, map_app. cbn [map].
        rewrite (l_nv _ _ _ L). unfold at4. repeat (f_equal; try lia).
      - cbn [push_wires add_n set_n set_wires c_wr]. rewrite EE. cbn [set_vars cc c_wr]. rewrite (l_r _ _ _ L), <- app_assoc, <- app_comm_cons. rewrite seq_S, map_app. cbn [map].
        rewrite (l_nv _ _ _ L). unfold at4. repeat (f_equal; try lia).
      - cbn [push_wires add_n set_n set_wires c_wo]. rewrite EE. cbn [set_vars cc c_wo]. rewrite (l_o _ _ _ L), <- app_assoc. rewrite seq_S, map_app. cbn [map].
        rewrite (l_nv _ _ _ L). unfold at4. repeat (f_equal; try lia).
      - cbn [push_wires add_n set_n set_wires c_w4]. rewrite EE. cbn [set_vars cc c_w4]. rewrite (l_4 _ _ _ L), <- app_assoc, <- app_comm_cons. rewrite seq_S, map_app. cbn [map].
        rewrite (l_nv _ _ _ L). unfold at4. repeat (f_equal; try lia).
      - fold c9. rewrite N9, (l_nv _ _ _ L). lia.
      - fold c9. rewrite EV, N9, !app_length, (l_lv _ _ _ L). cbn. lia.
      - fold c9. intros v Hv. rewrite VO by (rewrite (l_nv _ _ _ L); lia). now apply (l_vals _ _ _ L). }
    assert (la' = from_Z (accz (quad_val ab) (S k))) as Ea' by (cbn [accz]; unfold la'; rewrite V1, from_Z_add, from_Z_mul, Ea; ring).
    assert (ra' = from_Z (accz (quad_val bb) (S k))) as Eb' by (cbn [accz]; unfold ra'; rewrite V2, from_Z_add, from_Z_mul, Eb; ring).
    assert (oa' = from_Z (accz (fun i => lop xor (quad_val ab i) (quad_val bb i)) (S k))) as Eo'
      by (cbn [accz]; unfold oa'; rewrite V1, V2, from_Z_add, from_Z_mul, Eo; ring).
    destruct (IH (S k) la' ra' oa' c9 c'' L9 Ea' Eb' Eo' H) as [I1 [I2 I3]].
    split; [replace (k + S m)%nat with (S k + m)%nat by lia; auto|]. split.
    + intros v Hv. rewrite I2 by lia. now apply VO.
    + intros j Hj. destruct (Nat.eq_dec j k) as [->|NE]; [|apply I3; lia].
      unfold logic_vals. rewrite !I2 by (unfold at4; rewrite (l_nv _ _ _ L9); lia).
      unfold values, at4. rewrite <- (l_nv _ _ _ L). rewrite !VN. cbn [nth]. rewrite V1, V2. replace (k + 1)%nat with (S k) by lia. auto.
Qed.

(** *** the gates *)
Definition prev (z : nat) (n r j : nat) : nat := match j with O => z | S i => at4 n r i end.
Definition logic_cond (xor : bool) (z n : nat) a (j : nat) : Prop :=
  exists x y, (0 <= x < 4)%Z /\ (0 <= y < 4)%Z /\
    a (at4 n 0 j) - four * a (prev z n 0 j) = from_Z x /\ a (at4 n 1 j) - four * a (prev z n 1 j) = from_Z y /\
    a (at4 n 3 j) - four * a (prev z n 3 j) = from_Z (lop xor x y) /\ a (at4 n 2 j) = from_Z (x * y).
Lemma one_neq_m1 : (2 < modulus (F:=F))%Z -> (1 : F) <> - (1).
Proof.
  intros H E. assert (from_Z 2 = (0 : F)) as E2.
  { change 2%Z with (1 + 1)%Z. rewrite from_Z_add, from_Z_1. rewrite E at 1. ring. }
  apply (f_equal to_Z) in E2. rewrite <- from_Z_0, !to_from_Z, !Z.mod_small in E2 by lia. lia.
Qed.
Lemma m1_neq_0 : - (1) <> (0 : F).
Proof. intros H. apply f1_neq_0. transitivity (- - (1) : F); [ring|rewrite H; ring]. Qed.
Lemma logic_row xor table (pi x y u t x' y' t' : F) : (2 < modulus (F:=F))%Z ->
  row_ok ca cd table (logic_sel xor) pi x y u t x' y' t' <->
  pi = 0 /\ exists q r, (0 <= q < 4)%Z /\ (0 <= r < 4)%Z /\ x' - four * x = from_Z q /\ y' - four * y = from_Z r /\
    t' - four * t = from_Z (lop xor q r) /\ u = from_Z (q * r).
Proof.
  intros HM. pose proof (one_neq_m1 HM) as N1. unfold row_ok, logic_sel. 
  cbn [q_arith q_m q_l q_r q_o q_4 q_c q_hl q_hr q_h4 q_range q_logic q_fixed q_var q_lookup]. split.
  - intros [K1 [_ [K2 _]]]. split; [refine (eq_trans _ K1); ring|].
    destruct K2 as [q [r [w [B1 [B2 [B3 [E1 [E2 [E3 [E4 [E5 E6]]]]]]]]]]]. { destruct xor; [apply m1_neq_0|apply f1_neq_0]. }
    exists q, r. repeat (split; auto). unfold lop. destruct xor; [rewrite <- E6|rewrite <- E5]; auto.
  - intros [K1 [q [r [B1 [B2 [E1 [E2 [E3 E4]]]]]]]]. split; [rewrite K1; ring|]. split; [congruence|]. split.
    + intros _. exists q, r, (lop xor q r). pose proof (lop_bound xor q r B1 B2). repeat (split; auto); unfold lop; destruct xor; intros; congruence.
    + repeat split; congruence.
Qed.
Lemma nth_map_at4 n r k i d : (i < k)%nat -> nth i (map (at4 n r) (seq 0 k)) d = at4 n r i.
Proof. intros H. rewrite (nth_indep _ _ (at4 n r 0)) by (rewrite map_length, seq_length; auto). rewrite map_nth, seq_nth by auto. reflexivity. Qed.
Lemma nth_prev z n r k j d : (j <= k)%nat -> nth j (z :: map (at4 n r) (seq 0 k)) d = prev z n r j.
Proof. intros H. destruct j as [|j]; cbn [nth prev]; auto. apply nth_map_at4. lia. Qed.
Lemma logic_gate_inv size xa xb nb xor c out c' : (2 < modulus (F:=F))%Z -> wf c -> logic_gate size xa xb nb xor c = Ok (out, c') ->
  let m := (nb / 2)%nat in
  (nb = 2 * m)%nat /\ (nb <= 256)%nat /\ (nb <= size - (256 - nb))%nat /\ (xa < nvars c)%nat /\ (xb < nvars c)%nat /\
  out = prev (c_zero c) (nvars c) 3 m /\ nvars c' = (nvars c + 4 * m)%nat /\
  ext c c' (fun a => forall j, (j < m)%nat -> logic_cond xor (c_zero c) (nvars c) a j) /\
  (forall j, (j < m)%nat -> logic_vals c' (nvars c) j (quad_val (skipn (256 - nb) (rev (to_bits_le size (values c xa)))))
     (quad_val (skipn (256 - nb) (rev (to_bits_le size (values c xb))))) xor).
Proof.
  intros HM Wf H m. unfold logic_gate in H. apply obind_ok in H. destruct H as [u [E0 H]].
  unfold assert_ in E0. destruct (Nat.eqb_spec (nb mod 2) 0) as [Ev|]; [|discriminate].
  assert (nb = 2 * m)%nat as EM by (pose proof (Nat.div_mod_eq nb 2); unfold m; lia).
  apply obind_ok in H. destruct H as [va [Va H]]. apply value_inv in Va; auto. destruct Va as [La ->].
  apply obind_ok in H. destruct H as [ab [Ab H]]. apply obind_ok in H. destruct H as [vb [Vb H]]. apply value_inv in Vb; auto. destruct Vb as [Lb ->].
  apply obind_ok in H. destruct H as [bb [Bb H]].
  assert (forall x l, high_bits size nb x = Ok l -> (nb <= 256)%nat /\ l = skipn (256 - nb) (rev (to_bits_le size x)) /\ (nb <= size - (256 - nb))%nat) as HB.
  { intros x l. unfold high_bits. destruct (Nat.ltb_spec 256 nb) as [L|L]; [discriminate|]. unfold assert_.
    destruct (Nat.leb_spec nb (length (skipn (256 - nb) (rev (to_bits_le size x))))) as [L2|L2]; [|discriminate]. cbn [obind]. intros [= <-].
    rewrite skipn_length, rev_length in L2. unfold to_bits_le in L2. rewrite map_length, seq_length in L2. auto. }
  apply HB in Ab. destruct Ab as [L1 [-> L2]]. apply HB in Bb. destruct Bb as [_ [-> _]]. clear HB.
  apply obind_ok in H. destruct H as [c1 [E1 H]]. apply map_inv in E1. destruct E1 as [_ [E1 N1]].
  apply obind_ok in H. destruct H as [c2 [E2 H]]. apply map_inv in E2. destruct E2 as [_ [E2 N2]].
  apply obind_ok in H. destruct H as [c3 [E3 H]]. apply map_inv in E3. destruct E3 as [_ [E3 N3]].
  pose proof (remap_trans _ _ _ (remap_trans _ _ _ E1 E2) E3) as EE. assert (nvars c3 = nvars c) as N by lia. clear E1 E2 E3 N1 N2 N3 c1 c2.
  match type of H with context [logic_rows _ _ _ _ _ _ _ ?x] => set (c4 := x) in H end.
  assert (lrows c 0 c4) as L0.
  { assert (forall col, wires c4 col = match col with Output => wires c col | _ => wires c col ++ [c_zero c] end) as EW.
    { intros []; unfold c4; cbn; rewrite EE; reflexivity. }
    unfold c4. cbn [map seq]. split.
    - cbn. rewrite EE. cbn. lia.
    - cbn. rewrite EE. reflexivity.
    - cbn. rewrite EE. reflexivity.
    - cbn. rewrite EE. reflexivity.
    - cbn. rewrite EE. reflexivity.
    - exact (EW Left).
    - exact (EW Right).
    - rewrite app_nil_r. exact (EW Output).
    - exact (EW Fourth).
    - change (nvars c3 = nvars c + 4 * 0)%nat. lia.
    - change (length (c_vals c3) = nvars c3). rewrite N, EE. apply (wf_vals _ Wf).
    - intros v Hv. change (values c3 v = values c v). unfold values. now rewrite EE. }
  apply obind_ok in H. destruct H as [c5 [E5 H]]. fold m in E5.
  eapply logic_loop in E5; [|exact L0|cbn; now rewrite from_Z_0|cbn; now rewrite from_Z_0|cbn; now rewrite from_Z_0].
  destruct E5 as [L5 [_ V5]]. cbn [Nat.add] in L5, V5.
  apply obind_ok in H. destruct H as [c6 [E6 H]]. apply map_inv in E6. destruct E6 as [_ [E6 N6]].
  match type of H with context [push_sels ?l ?x] => set (c8 := push_sels l x) in H end.
  assert (c8 = c') as Ec by congruence. assert (nth (length (c_w4 c8) - 1) (c_w4 c8) 0%nat = out) as Eo by congruence. rewrite Ec in Eo. unfold c8 in Ec. clear H c8.
  assert (nvars c' = (nvars c + 4 * m)%nat) as NV. { rewrite <- Ec. change (nvars c6 = nvars c + 4 * m)%nat. rewrite N6. apply (l_nv _ _ _ L5). }
  assert (c_vals c' = c_vals c5) as EV by (rewrite <- Ec; cbn; rewrite E6; reflexivity).
  set (z := c_zero c) in *. set (n := nvars c) in *.
  set (W := fun col => match col with Left => z :: map (at4 n 0) (seq 0 m) | Right => z :: map (at4 n 1) (seq 0 m)
     | Output => map (at4 n 2) (seq 0 m) ++ [z] | Fourth => z :: map (at4 n 3) (seq 0 m) end).
  set (ss := repeat (logic_sel (F:=F) xor) m ++ [no_sel]).
  assert (length ss = (m + 1)%nat) as LS by (unfold ss; rewrite app_length, repeat_length; reflexivity).
  assert (rows c c' ss W) as R.
  { split.
    - rewrite LS, <- Ec. cbn [push_sels push_wire set_sel set_wires c_n]. rewrite E6. cbn [set_vars c_n]. rewrite (l_n _ _ _ L5). lia.
    - rewrite <- Ec. cbn. rewrite E6. cbn. now rewrite (l_sel _ _ _ L5).
    - intros col. rewrite <- Ec. destruct col; cbn; rewrite E6; cbn; rewrite ?(l_l _ _ _ L5), ?(l_r _ _ _ L5), ?(l_o _ _ _ L5), ?(l_4 _ _ _ L5); try reflexivity.
      now rewrite <- app_assoc.
    - intros col. rewrite LS. destruct col; cbn; rewrite ?app_length, map_length, seq_length; cbn; lia.
    - rewrite <- Ec. cbn. rewrite E6. cbn. apply (l_table _ _ _ L5).
    - rewrite <- Ec. cbn. rewrite E6. cbn. apply (l_zero _ _ _ L5).
    - rewrite <- Ec. cbn. rewrite E6. cbn. apply (l_pi _ _ _ L5).
    - rewrite NV. unfold n. lia.
    - rewrite EV, (l_lv _ _ _ L5), (l_nv _ _ _ L5). symmetry. exact NV.
    - intros v Hv. unfold values. rewrite EV. now apply (l_vals _ _ _ L5).
    - intros col v Hv. rewrite NV. pose proof (wf_zero _ Wf) as LZ. fold z n in LZ.
      assert (v = z \/ exists r i, (r < 4)%nat /\ (i < m)%nat /\ v = at4 n r i) as [->|[r [i [Hr [Hi ->]]]]]; [|lia|unfold at4; lia].
      destruct col; unfold W in Hv.
      all: try (destruct Hv as [Hv|Hv]; [now left|]).
      3: apply in_app_or in Hv; destruct Hv as [Hv|[Hv|[]]]; [|now left].
      all: right; apply in_map_iff in Hv; destruct Hv as [i [<- Hi]]; apply in_seq in Hi; eexists _, i; refine (conj _ (conj _ eq_refl)); lia. }
  assert (no_next (nth (length ss - 1) ss no_sel)) as NN.
  { rewrite LS. replace (m + 1 - 1)%nat with m by lia. unfold ss. rewrite app_nth2; rewrite repeat_length; [|lia]. rewrite Nat.sub_diag. apply no_sel_no_next. }
  pose proof (rows_ext ca cd _ _ _ _ Wf R ltac:(lia) NN) as E.
  split; [auto|]. split; [auto|]. split; [auto|]. split; [auto|]. split; [auto|]. split; [|split; [auto|split]].
  - rewrite <- Eo. pose proof (r_wires _ _ _ _ R Fourth) as RW. cbn [wires] in RW. rewrite RW.
    pose proof (wf_wires _ Wf Fourth) as LW. cbn [wires] in LW.
    assert (length (W Fourth) = S m) as LF by (cbn [W length]; now rewrite map_length, seq_length).
    rewrite app_length, app_nth2 by (rewrite LF; lia). rewrite LF. replace (length (c_w4 c) + S m - 1 - length (c_w4 c))%nat with m by lia.
    cbn [W]. now apply nth_prev.
  - eapply (ext_iff ca cd); [exact E|]. intros a. unfold rows_ok, block_ok. rewrite LS. fold z. split.
    + intros K j Hj. specialize (K j ltac:(lia)). cbv zeta in K. rewrite pi_0_row in K. unfold ss in K. rewrite app_nth1 in K by (rewrite repeat_length; auto).
      rewrite (nth_indep _ _ (logic_sel xor)), nth_repeat in K by (rewrite repeat_length; auto).
      apply logic_row in K; auto. destruct K as [_ [x [y [B1 [B2 [E1 [E2 [E3 E4]]]]]]]]. exists x, y. cbn [W] in *.
      rewrite !nth_prev in E1, E2, E3 by lia. rewrite app_nth1, nth_map_at4 in E4 by (rewrite ?map_length, ?seq_length; lia).
      rewrite Nat.add_1_r in *. cbn [prev] in *. auto 10.
    + intros K j Hj. cbv zeta. rewrite pi_0_row. destruct (Nat.eq_dec j m) as [->|NE].
      * unfold ss. rewrite app_nth2; rewrite repeat_length; [|lia]. rewrite Nat.sub_diag. apply no_sel_ok.
      * unfold ss. rewrite app_nth1 by (rewrite repeat_length; lia). rewrite (nth_indep _ _ (logic_sel xor)), nth_repeat by (rewrite repeat_length; lia).
        apply logic_row; auto. split; auto. destruct (K j ltac:(lia)) as [x [y [B1 [B2 [E1 [E2 [E3 E4]]]]]]]. exists x, y. cbn [W].
        rewrite !nth_prev by lia. rewrite app_nth1, nth_map_at4 by (rewrite ?map_length, ?seq_length; lia).
        rewrite Nat.add_1_r. cbn [prev]. auto 10.
  - intros j Hj. specialize (V5 j ltac:(lia)). unfold logic_vals, values in *. rewrite EV. exact V5.
Qed.

(** *** what the logic gate enforces *)
Lemma logic_sound xor z n a m : a z = 0 -> (forall j, (j < m)%nat -> logic_cond xor z n a j) ->
  forall j, (j <= m)%nat -> exists w, (0 <= w < 4 ^ Z.of_nat j)%Z /\ a (prev z n 3 j) = from_Z w.
Proof.
  intros Z K. induction j as [|j IH]; intros Hj.
  - exists 0%Z. split; [cbn; lia|]. cbn [prev]. now rewrite Z, from_Z_0.
  - destruct (IH ltac:(lia)) as [w [Hw E]]. destruct (K j ltac:(lia)) as [x [y [B1 [B2 [_ [_ [E3 _]]]]]]].
    pose proof (lop_bound xor x y B1 B2). exists (4 * w + lop xor x y)%Z. split.
    + replace (Z.of_nat (S j)) with (Z.of_nat j + 1)%Z by lia. rewrite Z.pow_add_r by lia. lia.
    + cbn [prev]. rewrite from_Z_add, from_Z_mul, <- E, <- E3. unfold four. ring.
Qed.
Lemma logic_complete xor z n a m fa fb : a z = 0 -> (forall i, (0 <= fa i < 4)%Z) -> (forall i, (0 <= fb i < 4)%Z) ->
  (forall j, (j < m)%nat -> a (at4 n 0 j) = from_Z (accz fa (j + 1)) /\ a (at4 n 1 j) = from_Z (accz fb (j + 1)) /\
    a (at4 n 2 j) = from_Z (fa j * fb j) /\ a (at4 n 3 j) = from_Z (accz (fun i => lop xor (fa i) (fb i)) (j + 1))) ->
  forall j, (j < m)%nat -> logic_cond xor z n a j.
Proof.
  intros Z Ba Bb K j Hj. exists (fa j), (fb j). split; auto. split; auto.
  destruct (K j Hj) as [E0 [E1 [E2 E3]]].
  assert (forall r f, (forall j, (j < m)%nat -> a (at4 n r j) = from_Z (accz f (j + 1))) -> a (prev z n r j) = from_Z (accz f j)) as HP.
  { intros r f Hf. destruct j as [|i]; cbn [prev accz]; [now rewrite Z, from_Z_0|]. rewrite Hf by lia. now replace (i + 1)%nat with (S i) by lia. }
  assert (forall r f, (forall j, (j < m)%nat -> a (at4 n r j) = from_Z (accz f (j + 1))) -> a (at4 n r j) - four * a (prev z n r j) = from_Z (f j)) as HD.
  { intros r f Hf. rewrite (HP r f Hf), Hf by auto. replace (j + 1)%nat with (S j) by lia. cbn [accz]. rewrite from_Z_add, from_Z_mul. unfold four. ring. }
  split; [apply HD; apply K|]. split; [apply HD; apply K|]. split; [apply (HD 3%nat (fun i => lop xor (fa i) (fb i))); apply K|auto].
Qed.
Theorem logic_computes size xa xb nb xor c out c' : (2 < modulus (F:=F))%Z -> wf c -> logic_gate size xa xb nb xor c = Ok (out, c') ->
  computes c c' out (fun _ y => exists w, (0 <= w < 2 ^ Z.of_nat nb)%Z /\ y = from_Z w).
Proof.
  intros HM W H. apply logic_gate_inv in H; auto. cbv zeta in H. set (m := (nb / 2)%nat) in *.
  destruct H as [EM [_ [_ [_ [_ [EO [N [E _]]]]]]]]. apply (computes_intro ca cd _ _ _ _ _ W E).
  intros a Ha y. pose proof (satisfies_zero ca cd _ _ W Ha) as Z. pose proof (wf_zero _ W) as LZ. rewrite EM, <- pow4_2. split.
  - intros [a' [S1 [E1 K]]]. destruct (logic_sound xor (c_zero c) (nvars c) a' m) with (j := m) as [w [Hw Ew]]; auto; [now rewrite S1|].
    exists w. rewrite <- E1, EO. auto.
  - intros [w [Hw ->]]. set (fa := quads_of w m). set (fb := fun _ : nat => if xor then 0%Z else 3%Z).
    assert (forall i, (0 <= fa i < 4)%Z) as Ba by (intros; apply quads_bound). assert (forall i, (0 <= fb i < 4)%Z) as Bb by (intros; unfold fb; destruct xor; lia).
    set (vals := fun k => let j := (k / 4)%nat in match (k mod 4)%nat with 0 => from_Z (accz fa (j + 1)) | 1 => from_Z (accz fb (j + 1))
      | 2 => from_Z (fa j * fb j) | _ => from_Z (accz (fun i => lop xor (fa i) (fb i)) (j + 1)) end%nat).
    set (a' := ins (nvars c) (map vals (seq 0 (4 * m))) a).
    assert (forall r j, (r < 4)%nat -> (j < m)%nat -> a' (at4 (nvars c) r j) = vals (4 * j + r)%nat) as HV.
    { intros r j Hr Hj. unfold a', at4. rewrite <- Nat.add_assoc, ins_new. rewrite nth_map_seq by lia. reflexivity. }
    assert (forall r j, (r < 4)%nat -> ((4 * j + r) / 4 = j)%nat /\ ((4 * j + r) mod 4 = r)%nat) as DM.
    { intros r j Hr. pose proof (Nat.div_mod_eq (4 * j + r) 4). pose proof (Nat.mod_upper_bound (4 * j + r) 4 ltac:(lia)). lia. }
    assert (forall j, (j < m)%nat -> a' (at4 (nvars c) 0 j) = from_Z (accz fa (j + 1)) /\ a' (at4 (nvars c) 1 j) = from_Z (accz fb (j + 1)) /\
      a' (at4 (nvars c) 2 j) = from_Z (fa j * fb j) /\ a' (at4 (nvars c) 3 j) = from_Z (accz (fun i => lop xor (fa i) (fb i)) (j + 1))) as HA.
    { intros j Hj. rewrite !HV by lia. unfold vals. cbv zeta.
      destruct (DM 0%nat j ltac:(lia)) as [A0 B0], (DM 1%nat j ltac:(lia)) as [A1 B1], (DM 2%nat j ltac:(lia)) as [A2 B2], (DM 3%nat j ltac:(lia)) as [A3 B3].
      rewrite A0, B0, A1, B1, A2, B2, A3, B3. auto. }
    exists a'. split; [apply ins_same|]. split.
    + rewrite EO. destruct m as [|j] eqn:Em.
      * cbn [prev]. unfold a'. rewrite ins_old, Z by auto. cbn in Hw. replace w with 0%Z by lia. now rewrite from_Z_0.
      * cbn [prev]. destruct (HA j ltac:(lia)) as [_ [_ [_ ->]]]. f_equal.
        rewrite (accz_ext _ fa). 2:{ intros i Hi. unfold fb. pose proof (Ba i) as B. unfold lop. destruct xor; [apply Z.lxor_0_r|].
          change 3%Z with (Z.ones 2). rewrite Z.land_ones by lia. apply Z.mod_small. change (2 ^ 2)%Z with 4%Z. lia. }
        replace (j + 1)%nat with (S j) by lia. unfold fa. rewrite accz_quads by lia. rewrite Nat.sub_diag. change (Z.of_nat 0) with 0%Z.
        rewrite Z.pow_0_r, Z.div_1_r. apply Z.mod_small. lia.
    + apply logic_complete with (fa := fa) (fb := fb); auto. unfold a'. rewrite ins_old by auto. exact Z.
Qed.
Theorem logic_honest size xa xb nb xor c out c' : (2 < modulus (F:=F))%Z -> wf c -> logic_gate size xa xb nb xor c = Ok (out, c') ->
  honest c' <-> honest c.
Proof.
  intros HM W H. apply logic_gate_inv in H; auto. cbv zeta in H. destruct H as [EM [_ [_ [_ [_ [EO [N [E V]]]]]]]].
  rewrite (honest_ext ca cd _ _ _ W E). split; [tauto|]. intros HC. split; auto.
  eapply logic_complete; [|apply quad_val_bound|apply quad_val_bound|exact V].
  rewrite (ext_vals _ _ _ _ _ E) by apply (wf_zero _ W). now apply (honest_zero ca cd).
Qed.
Lemma nth_error_skip {A} (l : list A) : forall k j, nth_error (skipn k l) j = nth_error l (k + j).
Proof. induction l as [|x l IH]; intros [|k] j; cbn; auto. now destruct j. Qed.
(** the value computed, if the integers of the field have 256 bits *)
Lemma quad_val_256 x nb m i : nb = (2 * m)%nat -> (nb <= 256)%nat -> (i < m)%nat ->
  quad_val (skipn (256 - nb) (rev (to_bits_le (F:=F) 256 x))) i = quads_of (to_Z x) m i.
Proof.
  intros EN LN Hi. assert (forall j, (j < nb)%nat -> nth_error (skipn (256 - nb) (rev (to_bits_le (F:=F) 256 x))) j = Some (Z.testbit (to_Z x) (Z.of_nat (nb - 1 - j)))) as HB.
  { intros j Hj. rewrite nth_error_skip. set (l := rev (to_bits_le 256 x)). assert (length l = 256%nat) as LL by (unfold l; rewrite rev_length; unfold to_bits_le; now rewrite map_length, seq_length).
    rewrite (nth_error_nth' _ l _ false) by lia. f_equal. unfold l. rewrite rev_nth; (unfold to_bits_le at 1; rewrite map_length, seq_length); [|lia].
    apply nth_error_nth. rewrite bits_nth. replace (256 - S (256 - nb + j))%nat with (nb - 1 - j)%nat by lia.
    destruct (Nat.ltb_spec (nb - 1 - j) 256); [reflexivity|lia]. }
  unfold quad_val, quad_at. rewrite !HB by lia. cbn [unwrap_opt obind]. unfold quads_of. rewrite <- two_bits by lia.
  replace (Z.of_nat (nb - 1 - 2 * i)) with (2 * Z.of_nat (m - 1 - i) + 1)%Z by lia. replace (Z.of_nat (nb - 1 - (2 * i + 1))) with (2 * Z.of_nat (m - 1 - i))%Z by lia. lia.
Qed.
Theorem logic_value xa xb nb xor c out c' : (2 < modulus (F:=F))%Z -> wf c -> honest c -> logic_gate 256 xa xb nb xor c = Ok (out, c') ->
  values c' out = from_Z (lop xor (to_Z (values c xa) mod 2 ^ Z.of_nat nb) (to_Z (values c xb) mod 2 ^ Z.of_nat nb)).
Proof.
  intros HM W HC H. apply logic_gate_inv in H; auto. cbv zeta in H. set (m := (nb / 2)%nat) in *. destruct H as [EM [LN [_ [La [Lb [EO [N [E V]]]]]]]].
  replace (2 ^ Z.of_nat nb)%Z with (4 ^ Z.of_nat m)%Z by (rewrite EM; apply pow4_2). rewrite EO. clearbody m. destruct m as [|j].
  - cbn [prev]. rewrite (ext_vals _ _ _ _ _ E) by apply (wf_zero _ W). rewrite (honest_zero ca cd _ W HC). cbn. rewrite !Zmod_1_r. destruct xor; cbn; now rewrite from_Z_0.
  - cbn [prev]. destruct (V j ltac:(lia)) as [_ [_ [_ ->]]]. f_equal. replace (j + 1)%nat with (S j) by lia.
    rewrite accz_lop by (intros; apply quad_val_bound).
    rewrite (accz_ext (quad_val _) (quads_of (to_Z (values c xa)) (S j)) (S j)) by (intros i Hi; now apply quad_val_256).
    rewrite (accz_ext (quad_val _) (quads_of (to_Z (values c xb)) (S j)) (S j)) by (intros i Hi; now apply quad_val_256).
    rewrite !accz_quads, Nat.sub_diag by lia. change (Z.of_nat 0) with 0%Z. now rewrite Z.pow_0_r, !Z.div_1_r.
Qed.
End PlonkLogic.

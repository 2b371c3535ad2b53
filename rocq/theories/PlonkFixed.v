(** PlonkFixed.v: multiplication of a fixed point by a scalar, and its signed digits. *)
From Verif Require Import Base Tools KZG Plonk PlonkSpec PlonkProofs PlonkGadgets PlonkSelect PlonkRange PlonkRows PlonkLogic PlonkPoint.
From Verif Require Import SnarkProofs.
Local Open Scope F_scope.

Section PlonkFixed.
Context {F : Type} {fo : FieldOps F} {fl : FieldLaws F} {po : PrimeFieldOps F} {pl : PrimeFieldLaws F}.
Variables ca cd : F.
Add Field Ffix : F_th.
Implicit Types (c : composer F) (a : nat -> F).
Notation add_rel := (add_rel ca cd).
Notation te_add := (te_add ca cd).
Notation ext := (ext ca cd).
Notation satisfies := (satisfies ca cd).
Notation honest := (honest ca cd).
Notation computes2 := (computes2 ca cd).
Notation on_curve := (on_curve ca cd).
Notation sums := (sums ca cd).

#[local] Opaque add_gate constrain_to_constant assert_equal.

(** *** the non-adjacent form *)
Lemma digits_val_app s l l' : digits_val s (l ++ l') = digits_val (digits_val s l) l'.
Proof. apply fold_left_app. Qed.
Lemma wnaf_digits fuel : forall e, Forall digit (find_wnaf fuel e).
Proof.
  induction fuel as [|f IH]; intros e; cbn; auto. destruct (e =? 0)%Z; auto. constructor; auto.
  unfold digit. destruct (Z.odd e); [destruct (_ =? _)%Z|]; auto.
Qed.
Lemma wnaf_step e : (0 <= e)%Z -> let z := (if Z.odd e then if (e mod 4 =? 1)%Z then 1 else -1 else 0)%Z in
  (e = 2 * ((e - z) / 2) + z)%Z /\ (0 <= (e - z) / 2)%Z /\ (Z.odd e = true -> exists k, (e - z) / 2 = 2 * k)%Z.
Proof.
  intros H z. pose proof (Z.div_mod e 4 ltac:(lia)) as D. pose proof (Z.mod_pos_bound e 4 ltac:(lia)) as B.
  set (q := (e / 4)%Z) in *. set (r := (e mod 4)%Z) in *.
  assert (0 <= q)%Z by (apply Z.div_pos; lia).
  assert (Z.odd e = Z.odd r) as O. { transitivity (Z.odd (r + 2 * (2 * q))); [f_equal; lia | apply Z.odd_add_mul_2]. }
  assert (r = 0 \/ r = 1 \/ r = 2 \/ r = 3)%Z as [R|[R|[R|R]]] by lia; rewrite R in O; cbn in O; unfold z; rewrite O.
  - replace (e - 0)%Z with ((2 * q) * 2)%Z by lia. rewrite Z.div_mul by lia. repeat split; try lia; try congruence.
  - rewrite R; cbn [Z.eqb Pos.eqb]. replace (e - 1)%Z with ((2 * q) * 2)%Z by lia. rewrite Z.div_mul by lia. repeat split; try lia. exists q. lia.
  - replace (e - 0)%Z with ((2 * q + 1) * 2)%Z by lia. rewrite Z.div_mul by lia. repeat split; try lia; try congruence.
  - rewrite R; cbn [Z.eqb Pos.eqb]. replace (e - -1)%Z with ((2 * q + 2) * 2)%Z by lia. rewrite Z.div_mul by lia. repeat split; try lia. exists (q + 1)%Z. lia.
Qed.
Lemma wnaf_val fuel : forall e, (0 <= e <= 2 ^ (Z.of_nat fuel - 1))%Z -> digits_val 0 (rev (find_wnaf fuel e)) = e.
Proof.
  induction fuel as [|f IH]; intros e H.
  - cbn in *. lia.
  - cbn [find_wnaf]. destruct (e =? 0)%Z eqn:E0; [cbn; apply Z.eqb_eq in E0; lia|].
    apply Z.eqb_neq in E0. pose proof (wnaf_step e ltac:(lia)) as [D [P O]]. cbv zeta in D, P, O.
    set (z := (if Z.odd e then if (e mod 4 =? 1)%Z then 1 else -1 else 0)%Z) in *. cbn [rev].
    rewrite digits_val_app, IH; [unfold digits_val; cbn [fold_left]; lia|]. split; auto.
    destruct f as [|f].
    + cbn in H. assert (e = 1)%Z as -> by lia. cbn in *. lia.
    + assert (2 ^ (Z.of_nat (S (S f)) - 1) = 2 * 2 ^ (Z.of_nat (S f) - 1))%Z as EP.
      { rewrite <- Z.pow_succ_r by lia. f_equal. lia. }
      rewrite EP in H. assert (-1 <= z <= 1)%Z by (unfold z; destruct (Z.odd e); [destruct (_ =? _)%Z|]; lia). lia.
Qed.
Lemma pow2_not_3 k n : (0 <= n)%Z -> (3 * k <> 2 ^ n)%Z.
Proof.
  intros Hn. revert k. pattern n. apply natlike_ind; auto.
  - intros k. rewrite Z.pow_0_r. lia.
  - intros m Hm IH k E. rewrite Z.pow_succ_r in E by auto.
    assert (Z.even (3 * k) = true) as EV. { rewrite E, Z.even_mul. reflexivity. }
    rewrite Z.even_mul in EV. cbn in EV. apply Z.even_spec in EV. destruct EV as [j Ej]. apply (IH j). lia.
Qed.
(** The form of e has at most k digits iff 3 e < 2^(k+1). *)
Lemma wnaf_length fuel : forall e k, (0 <= e <= 2 ^ (Z.of_nat fuel - 1))%Z ->
  (length (find_wnaf fuel e) <= k)%nat <-> (3 * e < 2 ^ (Z.of_nat k + 1))%Z.
Proof.
  induction fuel as [|f IH]; intros e k H.
  - change (2 ^ (Z.of_nat 0 - 1))%Z with 0%Z in H. assert (0 < 2 ^ (Z.of_nat k + 1))%Z by (apply Z.pow_pos_nonneg; lia). cbn [find_wnaf length]. split; intros; lia.
  - cbn [find_wnaf]. destruct (e =? 0)%Z eqn:E0.
    { apply Z.eqb_eq in E0. subst. assert (0 < 2 ^ (Z.of_nat k + 1))%Z by (apply Z.pow_pos_nonneg; lia). cbn [length]. split; intros; lia. }
    apply Z.eqb_neq in E0. pose proof (wnaf_step e ltac:(lia)) as [D [P O]]. cbv zeta in D, P, O.
    set (z := (if Z.odd e then if (e mod 4 =? 1)%Z then 1 else -1 else 0)%Z) in *. cbn [length].
    set (e' := ((e - z) / 2)%Z) in *.
    assert (-1 <= z <= 1)%Z as BZ by (unfold z; destruct (Z.odd e); [destruct (_ =? _)%Z|]; lia).
    assert (0 <= e' <= 2 ^ (Z.of_nat f - 1))%Z as B'.
    { split; auto. destruct f as [|f].
      - cbn in H. assert (e = 1)%Z as E1 by lia. destruct (O ltac:(rewrite E1; reflexivity)) as [h Eh]. change (2 ^ (Z.of_nat 0 - 1))%Z with 0%Z. lia.
      - assert (2 ^ (Z.of_nat (S (S f)) - 1) = 2 * 2 ^ (Z.of_nat (S f) - 1))%Z as EP.
        { rewrite <- Z.pow_succ_r by lia. f_equal. lia. }
        rewrite EP in H. lia. }
    destruct k as [|k].
    + change (2 ^ (Z.of_nat 0 + 1))%Z with 2%Z. split; intros; lia.
    + transitivity (length (find_wnaf f e') <= k)%nat; [lia|]. rewrite IH by auto.
      replace (Z.of_nat (S k) + 1)%Z with (Z.succ (Z.of_nat k + 1)) by lia. rewrite Z.pow_succ_r by lia.
      set (p := (2 ^ (Z.of_nat k + 1))%Z).
      assert (exists p', p = 2 * p')%Z as [p' Ep]. { exists (2 ^ Z.of_nat k)%Z. unfold p. rewrite <- Z.pow_succ_r by lia. f_equal; lia. }
      pose proof (pow2_not_3 e' (Z.of_nat k + 1) ltac:(lia)) as N3. fold p in N3.
      destruct (Z.odd e) eqn:OE.
      * destruct (O eq_refl) as [h Eh]. lia.
      * assert (z = 0)%Z by reflexivity. lia.
Qed.

(** *** the rows *)
Definition fcol (col : column) : nat := match col with Left => 0 | Right => 1 | Output => 3 | Fourth => 2 end.
Definition fw (n k : nat) (col : column) : list nat := map (at4 n (fcol col)) (seq 0 k).
Lemma fw_S n k col : fw n (S k) col = fw n k col ++ [at4 n (fcol col) k].
Proof. unfold fw. rewrite seq_S, map_app. reflexivity. Qed.
Lemma rows_eq c c' ss ss' (W W' : column -> list nat) : rows c c' ss W -> ss = ss' -> (forall col, W col = W' col) -> rows c c' ss' W'.
Proof.
  intros R <- E. destruct R as [A1 A2 A3 A4 A5 A6 A7 A8 A9 A10 A11]. constructor; auto.
  - intros col. now rewrite <- E.
  - intros col. now rewrite <- E.
  - intros col v. rewrite <- E. apply A11.
Qed.
(** the values of the four variables of a row *)
Definition row_vals c (n k : nat) (acc : F * (F * F)) (al : F) : Prop :=
  values c (at4 n 0 k) = fst (snd acc) /\ values c (at4 n 1 k) = snd (snd acc) /\ values c (at4 n 2 k) = fst acc /\ values c (at4 n 3 k) = al.
Lemma wnaf_row_step d n k c ss s px py al g c' : rows d c ss (fw n k) -> nvars c = at4 n 0 k ->
  add_gate (nvars c) (nvars (snd (add_input px c))) (nvars (snd (add_input s (snd (add_input py (snd (add_input px c)))))))
    (nvars (snd (add_input py (snd (add_input px c))))) (fixed_sel g) None (snd (add_input al (snd (add_input s (snd (add_input py (snd (add_input px c)))))))) = Ok c' ->
  rows d c' (ss ++ [fixed_sel g]) (fw n (S k)) /\ nvars c' = at4 n 0 (S k) /\ (forall v, (v < nvars c)%nat -> values c' v = values c v) /\
  row_vals c' n k (s, (px, py)) al.
Proof.
  intros R N.
  pose proof (rows_input _ _ _ _ px R) as R1. set (c1 := snd (add_input px c)) in *.
  pose proof (rows_input _ _ _ _ py R1) as R2. set (c2 := snd (add_input py c1)) in *.
  pose proof (rows_input _ _ _ _ s R2) as R3. set (c3 := snd (add_input s c2)) in *.
  pose proof (rows_input _ _ _ _ al R3) as R4. set (c4 := snd (add_input al c3)) in *. intros H.
  assert (nvars c1 = S (nvars c)) as N1 by apply add_input_nvars. assert (nvars c2 = S (nvars c1)) as N2 by apply add_input_nvars.
  assert (nvars c3 = S (nvars c2)) as N3 by apply add_input_nvars. assert (nvars c4 = S (nvars c3)) as N4 by apply add_input_nvars.
  pose proof (rows_gate _ _ _ _ _ _ _ _ _ _ R4 H) as R5. pose proof (add_gate_none _ _ _ _ _ _ _ H) as [_ [N5 [_ [_ [_ [_ [_ [_ V]]]]]]]].
  assert (forall v, values c' v = values c4 v) as V' by (intros v; unfold values; now rewrite V).
  pose proof (r_lv _ _ _ _ R) as L0. pose proof (r_lv _ _ _ _ R1) as L1. pose proof (r_lv _ _ _ _ R2) as L2. pose proof (r_lv _ _ _ _ R3) as L3.
  unfold at4 in *. split; [|split; [lia|split]].
  - apply (rows_eq _ _ _ _ _ _ R5 eq_refl). intros col. rewrite fw_S. f_equal. f_equal. unfold at4. destruct col; cbn [col4 fcol]; lia.
  - intros v Hv. rewrite V'. unfold c4. rewrite input_old by (auto; lia). unfold c3. rewrite input_old by (auto; lia).
    unfold c2. rewrite input_old by (auto; lia). unfold c1. now rewrite input_old by (auto; lia).
  - unfold row_vals, at4. rewrite !V'. cbn [fst snd]. repeat split.
    + replace (n + 4 * k + 0)%nat with (nvars c) by lia. unfold c4. rewrite input_old by (auto; lia). unfold c3. rewrite input_old by (auto; lia).
      unfold c2. rewrite input_old by (auto; lia). unfold c1. now apply input_value'.
    + replace (n + 4 * k + 1)%nat with (nvars c1) by lia. unfold c4. rewrite input_old by (auto; lia). unfold c3. rewrite input_old by (auto; lia).
      unfold c2. now apply input_value'.
    + replace (n + 4 * k + 2)%nat with (nvars c2) by lia. unfold c4. rewrite input_old by (auto; lia). unfold c3. now apply input_value'.
    + replace (n + 4 * k + 3)%nat with (nvars c3) by lia. unfold c4. now apply input_value'.
Qed.
Lemma wnaf_loop d n : forall accs alphas base k c ss c', length alphas = length accs -> length base = length accs ->
  rows d c ss (fw n k) -> nvars c = at4 n 0 k -> wnaf_rows false accs alphas base c = Ok c' ->
  rows d c' (ss ++ map fixed_sel base) (fw n (k + length accs)) /\ nvars c' = at4 n 0 (k + length accs) /\
  (forall v, (v < nvars c)%nat -> values c' v = values c v) /\
  (forall j, (j < length accs)%nat -> row_vals c' n (k + j) (nth j accs (0, (0, 0))) (nth j alphas 0)).
Proof.
  induction accs as [|[s [px py]] accs IH]; intros alphas base k c ss c' L1 L2 R N H.
  - destruct alphas; [|discriminate]. destruct base; [|discriminate]. cbn in H. injection H as <-. cbn [length]. rewrite Nat.add_0_r, app_nil_r.
    split; [exact R|]. split; [exact N|]. split; [auto|]. intros j Hj. lia.
  - destruct alphas as [|al alphas]; [discriminate|]. destruct base as [|g base]; [discriminate|]. cbn [length] in L1, L2.
    assert (exists c1, add_gate (nvars c) (nvars (snd (add_input px c))) (nvars (snd (add_input s (snd (add_input py (snd (add_input px c)))))))
      (nvars (snd (add_input py (snd (add_input px c))))) (fixed_sel g) None (snd (add_input al (snd (add_input s (snd (add_input py (snd (add_input px c)))))))) = Ok c1 /\
      wnaf_rows false accs alphas base c1 = Ok c') as [c1 [E1 E2]].
    { cbn [wnaf_rows] in H. set (i1 := snd (add_input px c)). change (add_input px c) with (nvars c, i1) in H. cbv iota beta in H.
      set (i2 := snd (add_input py i1)). change (add_input py i1) with (nvars i1, i2) in H. cbv iota beta in H.
      set (i3 := snd (add_input s i2)). change (add_input s i2) with (nvars i2, i3) in H. cbv iota beta in H. cbn [obind] in H.
      set (i4 := snd (add_input al i3)). change (add_input al i3) with (nvars i3, i4) in H. cbv iota beta in H. apply obind_ok in H. exact H. }
    apply (wnaf_row_step d n k) with (ss := ss) in E1; auto. destruct E1 as [R1 [N1 [V1 W1]]].
    apply (IH _ _ (S k) _ (ss ++ [fixed_sel g])) in E2; auto. destruct E2 as [R2 [N2 [V2 W2]]].
    cbn [length]. replace (k + S (length accs))%nat with (S k + length accs)%nat by lia. split; [|split; [auto|split]].
    + rewrite <- app_assoc in R2. exact R2.
    + intros v Hv. rewrite V2; auto. rewrite N1, N in *. unfold at4 in *. lia.
    + intros [|j] Hj.
      * rewrite Nat.add_0_r. cbn [nth]. unfold row_vals in *. rewrite N1 in V2. rewrite !V2 by (unfold at4; lia). exact W1.
      * cbn [nth]. replace (k + S j)%nat with (S k + j)%nat by lia. apply W2. lia.
Qed.

(** *** what one row says *)
Definition fixed_rel (g : F * F) (x y al s x' y' s' : F) : Prop :=
  exists e, digit e /\ s' = from_Z 2 * s + from_Z e /\ al = fst (signed e g) * snd (signed e g) /\ add_rel (x, y) (signed e g) (x', y').
Lemma from_Z_m1 : from_Z (-1) = - (1) :> F.
Proof. assert (from_Z (-1) + 1 = 0 :> F) as H. { rewrite <- from_Z_1, <- from_Z_add. apply from_Z_0. } transitivity (from_Z (-1) + 1 - 1); [ring|rewrite H; ring]. Qed.
Lemma from_Z_2 : from_Z 2 = 1 + 1 :> F.
Proof. change 2%Z with (1 + 1)%Z. now rewrite from_Z_add, from_Z_1. Qed.
Lemma fixed_row table g (x y al s x' y' s' : F) : row_ok ca cd table (fixed_sel g) 0 x y al s x' y' s' <-> fixed_rel g x y al s x' y' s'.
Proof.
  destruct g as [gx gy]. unfold row_ok, fixed_rel, fixed_sel, PlonkSpec.add_rel. cbn [q_arith q_m q_l q_r q_o q_4 q_c q_hl q_hr q_h4 q_range q_logic q_fixed q_var q_lookup fst snd].
  pose proof f1_neq_0 as N1. rewrite from_Z_2. split.
  - intros [_ [_ [_ [H _]]]]. destruct (H N1) as [B [C [X Y]]]. clear H. set (bit := s' - s - s) in *.
    destruct B as [B|[B|B]].
    + exists 0%Z. rewrite from_Z_0. cbn [signed Z.eqb fst snd]. rewrite C, B in *. split; [unfold digit; auto|].
      split; [transitivity (bit + (1 + 1) * s); [unfold bit; ring|rewrite B; ring]|]. split; [ring|].
      split; [transitivity (x' * (1 + cd * (0 * (gx * gy) * x * y))); [ring|rewrite X; ring]|transitivity (y' * (1 - cd * (0 * (gx * gy) * x * y))); [ring|rewrite Y; ring]].
    + exists 1%Z. rewrite from_Z_1. cbn [signed Z.eqb Pos.eqb fst snd]. rewrite C, B in *. split; [unfold digit; auto|].
      split; [transitivity (bit + (1 + 1) * s); [unfold bit; ring|rewrite B; ring]|]. split; [ring|].
      split; [transitivity (x' * (1 + cd * (1 * (gx * gy) * x * y))); [ring|rewrite X; ring]|transitivity (y' * (1 - cd * (1 * (gx * gy) * x * y))); [ring|rewrite Y; ring]].
    + exists (-1)%Z. rewrite from_Z_m1. cbn [signed Z.eqb Pos.eqb fst snd]. rewrite C, B in *. split; [unfold digit; auto|].
      split; [transitivity (bit + (1 + 1) * s); [unfold bit; ring|rewrite B; ring]|]. split; [ring|].
      split; [transitivity (x' * (1 + cd * (- (1) * (gx * gy) * x * y))); [ring|rewrite X; ring]|transitivity (y' * (1 - cd * (- (1) * (gx * gy) * x * y))); [ring|rewrite Y; ring]].
  - intros [e [D [-> [-> [X Y]]]]]. split; [ring|]. do 2 (split; [intros E; now destruct E|]). split; [|split; intros E; now destruct E].
    intros _. cbv zeta. destruct D as [-> | [-> | ->]]; rewrite ?from_Z_m1, ?from_Z_0, ?from_Z_1; cbn [signed Z.eqb Pos.eqb fst snd] in *.
    + assert ((1 + 1) * s + - (1) - s - s = - (1)) as -> by ring. split; [auto|]. split; [ring|].
      split; [transitivity (x' * (1 + cd * (x * - gx * (y * gy)))); [ring|rewrite X; ring]|transitivity (y' * (1 - cd * (x * - gx * (y * gy)))); [ring|rewrite Y; ring]].
    + assert ((1 + 1) * s + 0 - s - s = 0) as -> by ring. split; [auto|]. split; [ring|].
      split; [transitivity (x' * (1 + cd * (x * 0 * (y * 1)))); [ring|rewrite X; ring]|transitivity (y' * (1 - cd * (x * 0 * (y * 1)))); [ring|rewrite Y; ring]].
    + assert ((1 + 1) * s + 1 - s - s = 1) as -> by ring. split; [auto|]. split; [ring|].
      split; [transitivity (x' * (1 + cd * (x * gx * (y * gy)))); [ring|rewrite X; ring]|transitivity (y' * (1 - cd * (x * gx * (y * gy)))); [ring|rewrite Y; ring]].
Qed.

(** *** the whole gadget *)
Lemma multiples_length n : forall g, length (point_multiples ca cd g n) = n.
Proof. induction n as [|n IH]; intros g; cbn; auto. Qed.
Lemma wnaf_values_length ds : forall base s p vals als, wnaf_values ca cd ds base s p = Ok (vals, als) -> length vals = length ds /\ length als = length ds.
Proof.
  induction ds as [|e ds IH]; intros base s p vals als H.
  - destruct base; cbn in H; injection H as <- <-; auto.
  - destruct base as [|g base]; cbn [wnaf_values] in H; [discriminate|]. apply obind_ok in H. destruct H as [[rest al] [E H]].
    cbn in H. injection H as <- <-. apply IH in E. destruct E. cbn [length]. split; congruence.
Qed.
Lemma wnaf_values_ok ds : forall base s p, (length ds <= length base)%nat -> exists r, wnaf_values ca cd ds base s p = Ok r.
Proof.
  induction ds as [|e ds IH]; intros base s p H.
  - destruct base; cbn; eauto.
  - destruct base as [|g base]; cbn [length] in H; [lia|]. cbn [wnaf_values].
    destruct (IH base (from_Z 2 * s + from_Z e) (te_add p (if (e =? 0)%Z then (0, 1) else if (e =? 1)%Z then g else (- fst g, snd g)))) as [[rest al] E]; [lia|].
    rewrite E. cbn. eauto.
Qed.
Lemma bits_pos : (2 <= modulus_bits (F:=F))%nat.
Proof. unfold modulus_bits. pose proof modulus_gt1. assert (1 <= Z.log2 (modulus (F:=F)))%Z; [|lia]. change 1%Z with (Z.log2 2). apply Z.log2_le_mono. lia. Qed.
Lemma bits_modulus : (modulus (F:=F) < 2 ^ Z.of_nat (modulus_bits (F:=F)))%Z.
Proof.
  unfold modulus_bits. pose proof modulus_gt1. pose proof (Z.log2_nonneg (modulus (F:=F))). rewrite Z2Nat.id by lia.
  apply Z.log2_spec. lia.
Qed.
Definition fixed_base (g : F * F) : list (F * F) := rev (point_multiples ca cd g (modulus_bits (F:=F))).
Lemma fixed_base_length g : length (fixed_base g) = modulus_bits (F:=F).
Proof. unfold fixed_base. now rewrite rev_length, multiples_length. Qed.
Definition fixed_cond (base : list (F * F)) (n : nat) a (i : nat) : Prop :=
  fixed_rel (nth i base (0, 1)) (a (at4 n 0 i)) (a (at4 n 1 i)) (a (at4 n 3 i)) (a (at4 n 2 i))
    (a (at4 n 0 (S i))) (a (at4 n 1 (S i))) (a (at4 n 2 (S i))).
Definition fixed_all (base : list (F * F)) (n s : nat) a : Prop :=
  a n = 0 /\ a (n + 1)%nat = 1 /\ a (n + 2)%nat = 0 /\ (forall i, (i < length base)%nat -> fixed_cond base n a i) /\
  a (at4 n 2 (length base)) = a s.
Lemma fixed_rows_ok table base n z zz a : 
  rows_ok ca cd table (map fixed_sel base ++ [arith_sel 0 0 0 0 0 0]) (fun col => fw n (length base) col ++ [col4 (at4 n 0 (length base)) (at4 n 1 (length base)) zz (at4 n 2 (length base)) col]) z a
  <-> forall i, (i < length base)%nat -> fixed_cond base n a i.
Proof.
  unfold rows_ok, block_ok. rewrite app_length, map_length. cbn [length].
  assert (forall col i, (i < length base)%nat -> nth i (fw n (length base) col ++ [col4 (at4 n 0 (length base)) (at4 n 1 (length base)) zz (at4 n 2 (length base)) col]) z = at4 n (fcol col) i) as HN.
  { intros col i Hi. rewrite app_nth1 by (unfold fw; rewrite map_length, seq_length; auto). unfold fw. now rewrite nth_map_at4. }
  assert (forall col, nth (length base) (fw n (length base) col ++ [col4 (at4 n 0 (length base)) (at4 n 1 (length base)) zz (at4 n 2 (length base)) col]) z =
    col4 (at4 n 0 (length base)) (at4 n 1 (length base)) zz (at4 n 2 (length base)) col) as HL.
  { intros col. rewrite app_nth2 by (unfold fw; rewrite map_length, seq_length; auto). unfold fw. rewrite map_length, seq_length, Nat.sub_diag. reflexivity. }
  assert (forall col i, col <> Output -> (i <= length base)%nat -> nth i (fw n (length base) col ++ [col4 (at4 n 0 (length base)) (at4 n 1 (length base)) zz (at4 n 2 (length base)) col]) z = at4 n (fcol col) i) as HA.
  { intros col i NO Hi. destruct (Nat.eq_dec i (length base)) as [->|]; [|apply HN; lia]. rewrite HL. destruct col; cbn [col4 fcol]; congruence. }
  assert (forall i, (i < length base)%nat -> row_ok ca cd table (nth i (map fixed_sel base ++ [arith_sel 0 0 0 0 0 0]) no_sel) 0
     (a (at4 n 0 i)) (a (at4 n 1 i)) (a (at4 n 3 i)) (a (at4 n 2 i)) (a (at4 n 0 (S i))) (a (at4 n 1 (S i))) (a (at4 n 2 (S i))) <-> fixed_cond base n a i) as HR.
  { intros i Hi. rewrite app_nth1 by (rewrite map_length; auto). rewrite (nth_indep _ no_sel (fixed_sel (0, 1))) by (rewrite map_length; auto).
    rewrite map_nth. apply fixed_row. }
  split.
  - intros H i Hi. specialize (H i ltac:(lia)). rewrite pi_0_row, !HN in H by auto. rewrite !HA in H by (try discriminate; lia).
    cbn [fcol] in H. rewrite Nat.add_1_r in H. now apply HR in H.
  - intros H j Hj. rewrite pi_0_row. destruct (Nat.eq_dec j (length base)) as [->|].
    + rewrite app_nth2 by (rewrite map_length; auto). rewrite map_length, Nat.sub_diag. cbn [nth]. apply arith_ok. ring.
    + rewrite !HN by lia. rewrite !HA by (try discriminate; lia). cbn [fcol]. rewrite Nat.add_1_r. apply HR; [lia|]. apply H. lia.
Qed.

Definition fixed_lead (fuel : nat) (e : Z) : nat := (modulus_bits (F:=F) - length (find_wnaf fuel e))%nat.
Definition fixed_accs (fuel : nat) (e : Z) (vals : list (F * (F * F))) : list (F * (F * F)) := repeat (0, (0, 1)) (fixed_lead fuel e + 1) ++ vals.
Lemma wnaf_first s px py al g accs alphas base c c' : wnaf_rows true ((s, (px, py)) :: accs) (al :: alphas) (g :: base) c = Ok c' ->
  let c1 := snd (add_input px c) in let c2 := snd (add_input py c1) in let c3 := snd (add_input s c2) in
  exists d1 d2 d3 c6, constrain_to_constant (nvars c) 0 None c3 = Ok d1 /\ constrain_to_constant (nvars c1) 1 None d1 = Ok d2 /\
    constrain_to_constant (nvars c2) 0 None d2 = Ok d3 /\
    add_gate (nvars c) (nvars c1) (nvars d3) (nvars c2) (fixed_sel g) None (snd (add_input al d3)) = Ok c6 /\ wnaf_rows false accs alphas base c6 = Ok c'.
Proof.
  intros H c1 c2 c3. cbn [wnaf_rows] in H.
  change (add_input px c) with (nvars c, c1) in H. cbv iota beta in H.
  change (add_input py c1) with (nvars c1, c2) in H. cbv iota beta in H.
  change (add_input s c2) with (nvars c2, c3) in H. cbv iota beta in H.
  apply obind_ok in H. destruct H as [d3 [E H]].
  apply obind_ok in E. destruct E as [d1 [E1 E]]. apply obind_ok in E. destruct E as [d2 [E2 E3]].
  change (add_input al d3) with (nvars d3, snd (add_input al d3)) in H. cbv iota beta in H.
  apply obind_ok in H. destruct H as [c6 [E6 H]]. eauto 10.
Qed.
Lemma fixed_base_inv size s g c x3 y3 c' : wf c -> fixed_base_scalar_mul size ca cd s g c = Ok (x3, y3, c') ->
  let nb := modulus_bits (F:=F) in let n := nvars c in let e := to_Z (values c s) in
  (s < n)%nat /\ (length (find_wnaf (size + 1) e) <= nb)%nat /\ x3 = at4 n 0 nb /\ y3 = at4 n 1 nb /\ nvars c' = at4 n 3 nb /\
  ext c c' (fixed_all (fixed_base g) n s) /\
  exists vals alphas, wnaf_values ca cd (rev (find_wnaf (size + 1) e)) (skipn (fixed_lead (size + 1) e) (fixed_base g)) 0 (0, 1) = Ok (vals, alphas) /\
    (forall j, (j < nb)%nat -> row_vals c' n j (nth j (fixed_accs (size + 1) e vals) (0, (0, 0))) (nth j (repeat 0 (fixed_lead (size + 1) e) ++ alphas) 0)) /\
    let l := nth nb (fixed_accs (size + 1) e vals) (0, (0, 0)) in
    values c' (at4 n 0 nb) = fst (snd l) /\ values c' (at4 n 1 nb) = snd (snd l) /\ values c' (at4 n 2 nb) = fst l.
Proof.
  intros W H nb n e. unfold fixed_base_scalar_mul in H. fold (fixed_base g) in H. fold nb in H.
  apply obind_ok in H. destruct H as [x [EV H]]. apply value_inv in EV; auto. destruct EV as [LS ->]. fold e in H.
  cbv zeta in H. apply obind_ok in H. destruct H as [[] [EL H]]. unfold assert_ in EL. destruct (_ <=? _)%nat eqn:EL' in EL; [clear EL; rename EL' into EL|discriminate]. apply Nat.leb_le in EL.
  change (nb - length (find_wnaf (size + 1) e))%nat with (fixed_lead (size + 1) e) in H. set (lead := fixed_lead (size + 1) e) in *.
  apply obind_ok in H. destruct H as [[vals alphas] [EW H]]. 
  change (repeat (0, (0, 1)) (lead + 1) ++ vals) with (fixed_accs (size + 1) e vals) in H. set (accs := fixed_accs (size + 1) e vals) in *.
  apply obind_ok in H. destruct H as [c1 [ER H]]. apply obind_ok in H. destruct H as [[sl [px py]] [EN H]].
  pose proof (wnaf_values_length _ _ _ _ _ _ EW) as [LV LA]. rewrite rev_length in LV, LA.
  assert (lead + length (find_wnaf (size + 1) e) = nb)%nat as LL by (unfold lead, fixed_lead, nb in *; lia).
  assert (length accs = S nb) as LAC by (unfold accs, fixed_accs; rewrite app_length, repeat_length; fold lead; lia).
  assert (length (repeat 0 lead ++ alphas) = nb) as LAL by (rewrite app_length, repeat_length; lia).
  set (als := repeat 0 lead ++ alphas) in *. assert (length (firstn nb accs) = nb) as LF by (rewrite firstn_length; lia).
  pose proof bits_pos as BP. fold nb in BP. pose proof (fixed_base_length g) as LB. fold nb in LB.
  assert (forall j, (j < nb)%nat -> nth j (firstn nb accs) (0, (0, 0)) = nth j accs (0, (0, 0))) as NF by (intros j Hj; now apply nth_first).
  set (fa := firstn nb accs) in *. set (bs := fixed_base g) in *.
  destruct fa as [|[s0 [px0 py0]] fa'] eqn:EFA; [cbn in LF; lia|]. destruct als as [|al0 als'] eqn:EAL; [cbn in LAL; lia|].
  destruct bs as [|g0 bs'] eqn:EBS; [cbn in LB; lia|]. cbn [length] in LF, LAL, LB.
  apply wnaf_first in ER. cbv zeta in ER. destruct ER as [d1 [d2 [d3 [c6 [D1 [D2 [D3 [E6 ER]]]]]]]].
  pose proof (ext_input ca cd px0 c W) as X1. set (i1 := snd (add_input px0 c)) in *. pose proof (ext_wf _ _ _ _ _ X1) as W1.
  pose proof (ext_input ca cd py0 i1 W1) as X2. set (i2 := snd (add_input py0 i1)) in *. pose proof (ext_wf _ _ _ _ _ X2) as W2.
  pose proof (ext_input ca cd s0 i2 W2) as X3. set (i3 := snd (add_input s0 i2)) in *. pose proof (ext_wf _ _ _ _ _ X3) as W3.
  assert (nvars i1 = S n) as N1 by apply add_input_nvars. assert (nvars i2 = S (nvars i1)) as N2 by apply add_input_nvars.
  assert (nvars i3 = S (nvars i2)) as N3 by apply add_input_nvars.
  apply (constrain_ext ca cd) in D1; auto. destruct D1 as [Y1 [M1 _]]. pose proof (ext_wf _ _ _ _ _ Y1) as U1.
  apply (constrain_ext ca cd) in D2; auto. destruct D2 as [Y2 [M2 _]]. pose proof (ext_wf _ _ _ _ _ Y2) as U2.
  apply (constrain_ext ca cd) in D3; auto. destruct D3 as [Y3 [M3 _]]. pose proof (ext_wf _ _ _ _ _ Y3) as U3.
  assert (nvars d3 = n + 3)%nat as ND by lia.
  (* the first row *)
  pose proof (rows_input _ _ _ _ al0 (rows_refl d3 U3)) as R1.
  pose proof (rows_gate _ _ _ _ _ _ _ _ _ _ R1 E6) as R6. pose proof (add_gate_none _ _ _ _ _ _ _ E6) as [_ [N6 [_ [_ [_ [_ [_ [_ V6]]]]]]]].
  rewrite add_input_nvars, ND in N6.
  assert (forall v, values c6 v = values (snd (add_input al0 d3)) v) as V6' by (intros v; unfold values; now rewrite V6).
  pose proof (wf_vals _ W) as LV0. pose proof (wf_vals _ W1) as LV1. pose proof (wf_vals _ W2) as LV2. pose proof (wf_vals _ W3) as LV3. pose proof (wf_vals _ U3) as LVD.
  assert (forall v, (v < n + 3)%nat -> values c6 v = values i3 v) as V63.
  { intros v Hv. rewrite V6', input_old by (auto; lia). rewrite (ext_vals _ _ _ _ _ Y3), (ext_vals _ _ _ _ _ Y2), (ext_vals _ _ _ _ _ Y1) by lia. reflexivity. }
  assert (row_vals c6 n 0 (s0, (px0, py0)) al0) as RV0.
  { unfold row_vals, at4. cbn [fst snd]. rewrite Nat.mul_0_r, !Nat.add_0_r. rewrite !V63 by lia. unfold i3. split; [|split; [|split]].
    - rewrite input_old by (auto; lia). unfold i2. rewrite input_old by (auto; lia). now apply input_value'.
    - rewrite input_old by (auto; lia). replace (n + 1)%nat with (nvars i1) by lia. now apply input_value'.
    - replace (n + 2)%nat with (nvars i2) by lia. now apply input_value'.
    - rewrite V6'. rewrite <- ND. now apply input_value'. }
  assert (rows d3 c6 [fixed_sel g0] (fw n 1)) as R7.
  { apply (rows_eq _ _ _ _ _ _ R6 eq_refl). intros col. unfold fw, at4. cbn [seq map app]. f_equal. fold n. rewrite N1, ND, N2. destruct col; cbn [col4 fcol]; lia. }
  apply (wnaf_loop d3 n _ _ _ 1%nat c6 [fixed_sel g0]) in ER; [|lia|lia|exact R7|rewrite N6; unfold at4; lia].
  destruct ER as [R8 [N8 [V8 RV]]].
  replace (1 + length fa')%nat with nb in R8, N8 by lia. replace ([fixed_sel g0] ++ map fixed_sel bs') with (map fixed_sel bs) in R8 by (rewrite EBS; reflexivity).
  (* the last row *)
  pose proof (rows_input _ _ _ _ px R8) as R9. set (j1 := snd (add_input px c1)) in R9.
  pose proof (rows_input _ _ _ _ py R9) as R10. set (j2 := snd (add_input py j1)) in R10.
  pose proof (rows_input _ _ _ _ sl R10) as R11. set (j3 := snd (add_input sl j2)) in R11.
  change (add_input px c1) with (nvars c1, j1) in H. cbv iota beta in H.
  change (add_input py j1) with (nvars j1, j2) in H. cbv iota beta in H.
  change (add_input sl j2) with (nvars j2, j3) in H. cbv iota beta in H.
  apply obind_ok in H. destruct H as [[o5 c5] [E5 H]]. apply obind_ok in H. destruct H as [c7 [E7 H]]. injection H as <- <- <-.
  assert (nvars j1 = S (nvars c1)) as K1 by apply add_input_nvars. assert (nvars j2 = S (nvars j1)) as K2 by apply add_input_nvars.
  assert (nvars j3 = S (nvars j2)) as K3 by apply add_input_nvars.
  unfold arithmetic_gate in E5. cbn [g_witness with_out with_fan_in_3 gate_of g_fan_in_3 obind g_mul g_add g_out g_const g_pi fst snd] in E5.
  apply obind_ok in E5. destruct E5 as [c5' [E5 H]]. injection H as <- <-.
  pose proof (rows_gate _ _ _ _ _ _ _ _ _ _ R11 E5) as R12. pose proof (add_gate_none _ _ _ _ _ _ _ E5) as [_ [N12 [_ [_ [_ [_ [_ [_ V12]]]]]]]].
  assert (forall v, values c5' v = values j3 v) as V12' by (intros v; unfold values; now rewrite V12).
  apply (rows_ext ca cd) in R12; auto; [|rewrite app_length; cbn; lia|].
  2:{ rewrite app_length. cbn [length]. rewrite app_nth2 by lia. replace (length (map fixed_sel bs) + 1 - 1 - length (map fixed_sel bs))%nat with 0%nat by lia. apply arith_no_next. }
  pose proof (ext_wf _ _ _ _ _ R12) as W12.
  apply (assert_equal_ext ca cd) in E7; auto. destruct E7 as [Y7 [N7 _]].
  pose proof (r_lv _ _ _ _ R8) as LW8. pose proof (r_lv _ _ _ _ R9) as LW9. pose proof (r_lv _ _ _ _ R10) as LW10. pose proof (r_lv _ _ _ _ R11) as LW11.
  assert (forall v, (v < nvars c1)%nat -> values c7 v = values c1 v) as V7.
  { intros v Hv. rewrite (ext_vals _ _ _ _ _ Y7), V12' by lia. unfold j3. rewrite input_old by (auto; lia). unfold j2. rewrite input_old by (auto; lia).
    unfold j1. now rewrite input_old by (auto; lia). }
  rewrite N8 in *. unfold at4 in K1, K2, K3, V7, N7, N12, N8.
  split; [exact LS|]. split; [exact EL|]. split; [reflexivity|]. split; [rewrite K1; unfold at4; lia|]. split; [unfold at4; lia|]. split.
  - eapply ext_iff.
    + eapply ext_trans; [exact X1|]. eapply ext_trans; [exact X2|]. eapply ext_trans; [exact X3|].
      eapply ext_trans; [exact Y1|]. eapply ext_trans; [exact Y2|]. eapply ext_trans; [exact Y3|]. eapply ext_trans; [exact R12|exact Y7].
    + intros a. cbv beta. unfold fixed_all. fold bs. rewrite EBS. cbn [length]. rewrite LB.
      assert (length bs = nb) as LB2 by (rewrite EBS; cbn [length]; lia).
      assert (rows_ok ca cd (c_table d3) (map fixed_sel bs ++ [arith_sel 0 0 0 0 0 0])
        (fun col => fw n nb col ++ [col4 (nvars c1) (nvars j1) (c_zero c) (nvars j2) col]) (c_zero d3) a <-> forall i, (i < nb)%nat -> fixed_cond bs n a i) as RO.
      { replace (nvars j1) with (at4 n 1 nb) by (unfold at4; lia). replace (nvars j2) with (at4 n 2 nb) by (unfold at4; lia). rewrite N8.
        replace (n + 4 * nb + 0)%nat with (at4 n 0 nb) by reflexivity. rewrite <- LB2. apply fixed_rows_ok. }
      cbn [pi_val]. replace (nvars i1) with (n + 1)%nat by lia. replace (nvars i2) with (n + 2)%nat by lia. fold n.
      replace (nvars j2) with (at4 n 2 nb) in * by (unfold at4; lia). rewrite N8 in RO.
      rewrite EBS in RO. 
      split.
      * intros [_ [_ [_ [A1 [A2 [A3 [A4 A5]]]]]]]. split; [transitivity (a n + 0); [ring|exact A1]|]. split; [transitivity (a (n + 1)%nat + 0); [ring|exact A2]|].
        split; [transitivity (a (n + 2)%nat + 0); [ring|exact A3]|]. split; [apply RO; exact A4|exact A5].
      * intros [A1 [A2 [A3 [A4 A5]]]]. do 3 (split; [exact I|]). split; [rewrite A1; ring|]. split; [rewrite A2; ring|]. split; [rewrite A3; ring|].
        split; [apply RO; exact A4|exact A5].
  - exists vals, alphas. split; [exact EW|]. split.
    + fold als. fold accs. intros j Hj. assert (row_vals c1 n j (nth j fa (0, (0, 0))) (nth j als 0)) as RJ.
      { rewrite EFA, EAL. destruct j as [|j].
        - cbn [nth]. unfold row_vals in *. rewrite !V8 by (rewrite N6; unfold at4; lia). exact RV0.
        - cbn [nth]. replace (S j) with (1 + j)%nat by lia. apply RV. lia. }
      rewrite EFA in RJ. rewrite NF in RJ by auto. unfold row_vals in *. rewrite !V7 by (unfold at4; lia). exact RJ.
    + fold accs. assert (nth nb accs (0, (0, 0)) = (sl, (px, py))) as ->.
      { destruct (nth_error accs nb) as [l|] eqn:El; cbn in EN; [|discriminate]. injection EN as ->. now apply nth_error_nth. }
      cbv zeta. cbn [fst snd]. rewrite !(ext_vals _ _ _ _ _ Y7), !V12' by (unfold at4; lia). unfold at4. split; [|split].
      * replace (n + 4 * nb + 0)%nat with (nvars c1) by lia. unfold j3. rewrite input_old by (auto; lia). unfold j2. rewrite input_old by (auto; lia).
        apply input_value'. unfold at4 in LW8. lia.
      * replace (n + 4 * nb + 1)%nat with (nvars j1) by lia. unfold j3. rewrite input_old by (auto; lia). apply input_value'. lia.
      * replace (n + 4 * nb + 2)%nat with (nvars j2) by lia. apply input_value'. lia.
Qed.

(** *** the relation *)
Definition pt_at n a i : F * F := (a (at4 n 0 i), a (at4 n 1 i)).
Lemma from_digit s0 e : from_Z (2 * s0 + e) = from_Z 2 * from_Z s0 + from_Z e :> F.
Proof. now rewrite from_Z_add, from_Z_mul. Qed.
Lemma fixed_sound n a : forall base k s0, a (at4 n 2 k) = from_Z s0 ->
  (forall i, (i < length base)%nat -> fixed_rel (nth i base (0, 1)) (a (at4 n 0 (k + i))) (a (at4 n 1 (k + i))) (a (at4 n 3 (k + i))) (a (at4 n 2 (k + i)))
    (a (at4 n 0 (S (k + i)))) (a (at4 n 1 (S (k + i)))) (a (at4 n 2 (S (k + i))))) ->
  exists ds, Forall digit ds /\ a (at4 n 2 (k + length base)) = from_Z (digits_val s0 ds) /\ sums ds base (pt_at n a k) (pt_at n a (k + length base)).
Proof.
  induction base as [|g base IH]; intros k s0 E H.
  - exists []. cbn [length]. rewrite Nat.add_0_r. cbn. auto.
  - pose proof (H 0%nat ltac:(cbn; lia)) as H0. cbn [nth] in H0. rewrite Nat.add_0_r in H0. destruct H0 as [e [D [Es [_ A]]]].
    rewrite E, <- from_digit in Es. destruct (IH (S k) _ Es) as [ds [FD [V SU]]].
    { intros i Hi. specialize (H (S i) ltac:(cbn; lia)). cbn [nth] in H. replace (k + S i)%nat with (S k + i)%nat in H by lia. exact H. }
    exists (e :: ds). cbn [length]. replace (k + S (length base))%nat with (S k + length base)%nat by lia. split; [now constructor|]. split; [exact V|].
    cbn [sums]. exists (pt_at n a (S k)). split; [exact A|exact SU].
Qed.
Lemma sums_fun : forall ds base p r, sums ds base p r -> length ds = length base /\ exists P : nat -> F * F, P 0%nat = p /\ P (length ds) = r /\
  forall i, (i < length ds)%nat -> add_rel (P i) (signed (nth i ds 0%Z) (nth i base (0, 1))) (P (S i)).
Proof.
  induction ds as [|e ds IH]; intros [|g base] p r H; cbn [sums] in H; try contradiction.
  - split; auto. exists (fun _ => p). cbn. split; auto. split; auto. intros; lia.
  - destruct H as [q [A H]]. apply IH in H. destruct H as [L [P [P0 [P1 HP]]]]. cbn [length]. split; [congruence|].
    exists (fun i => match i with O => p | S i => P i end). split; auto. split; auto. intros [|i] Hi; cbn [nth]; [now rewrite P0|apply HP; lia].
Qed.
Lemma digits_firstn s0 ds i : (i < length ds)%nat -> digits_val s0 (firstn (S i) ds) = (2 * digits_val s0 (firstn i ds) + nth i ds 0)%Z.
Proof.
  intros H. assert (firstn (S i) ds = firstn i ds ++ [nth i ds 0%Z]) as ->.
  { revert i H. induction ds as [|e ds IH]; intros [|i] H; cbn [length] in H; try lia; auto. cbn [firstn nth app]. f_equal. apply IH. lia. }
  rewrite digits_val_app. reflexivity.
Qed.
Definition fixed_scalar (g : F * F) (k : Z) (r : F * F) : Prop := exists ds, Forall digit ds /\ digits_val 0 ds = k /\ sums ds (fixed_base g) (0, 1) r.
Theorem fixed_base_computes size s g c x3 y3 c' : wf c -> fixed_base_scalar_mul size ca cd s g c = Ok (x3, y3, c') ->
  computes2 c c' (x3, y3) (fun a x y => exists k, from_Z k = a s /\ fixed_scalar g k (x, y)).
Proof.
  intros W H. apply fixed_base_inv in H; auto. cbv zeta in H. set (nb := modulus_bits (F:=F)) in *. set (n := nvars c) in *.
  destruct H as [LS [_ [EX [EY [N [E _]]]]]]. pose proof (fixed_base_length g) as LB. fold nb in LB.
  intros a x y. cbn [fst snd]. split.
  - intros [a' [S1 [X [Y K]]]]. apply (ext_sat _ _ _ _ _ E) in K. destruct K as [K [A1 [A2 [A3 [A4 A5]]]]].
    split; [apply (satisfies_same ca cd _ _ _ W S1); exact K|].
    destruct (fixed_sound n a' (fixed_base g) 0 0%Z) as [ds [FD [V SU]]].
    + unfold at4. rewrite from_Z_0. replace (n + 4 * 0 + 2)%nat with (n + 2)%nat by lia. exact A3.
    + intros i Hi. apply A4 in Hi. exact Hi.
    + cbn [Nat.add] in V, SU. exists (digits_val 0 ds). split; [rewrite <- V, A5; apply S1; exact LS|]. exists ds. split; auto. split; auto.
      unfold pt_at in SU. rewrite LB, <- EX, <- EY, X, Y in SU. unfold at4 in SU. replace (n + 4 * 0 + 0)%nat with n in SU by lia. replace (n + 4 * 0 + 1)%nat with (n + 1)%nat in SU by lia.
      rewrite A1, A2 in SU. exact SU.
  - intros [K [k [Ek [ds [FD [V SU]]]]]]. apply sums_fun in SU. destruct SU as [L [P [P0 [P1 HP]]]]. rewrite LB in L. rewrite L in *.
    set (vals := fun k => let j := (k / 4)%nat in match (k mod 4)%nat with 0 => fst (P j) | 1 => snd (P j)
      | 2 => from_Z (digits_val 0 (firstn j ds)) | _ => let q := signed (nth j ds 0%Z) (nth j (fixed_base g) (0%F, 1%F)) in (fst q * snd q)%F end%nat).
    set (a' := ins n (map vals (seq 0 (4 * nb + 3))) a).
    assert (forall r j, (r < 4)%nat -> (4 * j + r < 4 * nb + 3)%nat -> a' (at4 n r j) = vals (4 * j + r)%nat) as HV.
    { intros r j Hr Hj. unfold a', at4. rewrite <- Nat.add_assoc, ins_new. rewrite nth_map_seq by lia. reflexivity. }
    assert (forall r j, (r < 4)%nat -> ((4 * j + r) / 4 = j)%nat /\ ((4 * j + r) mod 4 = r)%nat) as DM.
    { intros r j Hr. pose proof (Nat.div_mod_eq (4 * j + r) 4). pose proof (Nat.mod_upper_bound (4 * j + r) 4 ltac:(lia)). lia. }
    assert (forall j, (j <= nb)%nat -> a' (at4 n 0 j) = fst (P j) /\ a' (at4 n 1 j) = snd (P j) /\ a' (at4 n 2 j) = from_Z (digits_val 0 (firstn j ds))) as HA.
    { intros j Hj. rewrite !HV by lia. unfold vals. cbv zeta.
      destruct (DM 0%nat j ltac:(lia)) as [A0 B0], (DM 1%nat j ltac:(lia)) as [A1 B1], (DM 2%nat j ltac:(lia)) as [A2 B2].
      rewrite A0, B0, A1, B1, A2, B2. auto. }
    assert (forall j, (j < nb)%nat -> a' (at4 n 3 j) = fst (signed (nth j ds 0%Z) (nth j (fixed_base g) (0, 1))) * snd (signed (nth j ds 0%Z) (nth j (fixed_base g) (0, 1)))) as HA3.
    { intros j Hj. rewrite HV by lia. unfold vals. cbv zeta. destruct (DM 3%nat j ltac:(lia)) as [A3 B3]. rewrite A3, B3. reflexivity. }
    exists a'. assert (same_upto n a a') as SU by apply ins_same. split; [exact SU|].
    destruct (HA nb ltac:(lia)) as [B1 [B2 B3]]. rewrite EX, EY, B1, B2, P1. split; [reflexivity|]. split; [reflexivity|].
    apply (ext_sat _ _ _ _ _ E). split; [apply (satisfies_same ca cd _ _ _ W SU); exact K|].
    destruct (HA 0%nat ltac:(lia)) as [C1 [C2 C3]]. unfold at4 in C1, C2, C3. rewrite P0 in C1, C2. cbn [fst snd firstn] in C1, C2, C3. change (digits_val 0 []) with 0%Z in C3.
    rewrite from_Z_0 in C3. replace (n + 4 * 0 + 0)%nat with n in C1 by lia. replace (n + 4 * 0 + 1)%nat with (n + 1)%nat in C2 by lia. replace (n + 4 * 0 + 2)%nat with (n + 2)%nat in C3 by lia.
    unfold fixed_all. rewrite LB. split; [exact C1|]. split; [exact C2|]. split; [exact C3|]. split.
    + intros i Hi. destruct (HA i ltac:(lia)) as [D1 [D2 D3]]. destruct (HA (S i) ltac:(lia)) as [D4 [D5 D6]].
      unfold fixed_cond, fixed_rel. rewrite D1, D2, D3, D4, D5, D6, HA3 by auto. exists (nth i ds 0%Z). split.
      * assert (i < length ds)%nat as Hi' by lia. apply (proj1 (Forall_forall _ _) FD). now apply nth_In.
      * rewrite digits_firstn by lia. rewrite from_digit. split; [reflexivity|]. split; [reflexivity|]. rewrite <- !surjective_pairing. now apply HP.
    + rewrite B3. rewrite <- L, firstn_all, V, Ek. symmetry. apply SU. exact LS.
Qed.

(** *** the values stored by the builder *)
Lemma wnaf_values_spec : forall ds base s p vals als, wnaf_values ca cd ds base s p = Ok (vals, als) -> forall j, (j < length ds)%nat ->
  let q := signed (nth j ds 0%Z) (nth j base (0, 1)) in let b := nth j ((s, p) :: vals) (0, (0, 0)) in
  nth j vals (0, (0, 0)) = (from_Z 2 * fst b + from_Z (nth j ds 0%Z), te_add (snd b) q) /\ nth j als 0 = fst q * snd q.
Proof.
  induction ds as [|e ds IH]; intros base s p vals als H j Hj; cbn [length] in Hj; [lia|].
  destruct base as [|g base]; cbn [wnaf_values] in H; [discriminate|]. apply obind_ok in H. destruct H as [[rest al] [E H]].
  cbv iota beta in H. injection H as <- <-. destruct j as [|j].
  - cbv zeta. cbn [nth]. split; reflexivity.
  - apply (IH _ _ _ _ _ E j). lia.
Qed.
Lemma nth_app_repeat {A} (x : A) m l j d : nth j (repeat x m ++ l) d = if (j <? m)%nat then x else nth (j - m) l d.
Proof.
  destruct (Nat.ltb_spec j m).
  - rewrite app_nth1 by now rewrite repeat_length. rewrite (nth_indep _ d x) by now rewrite repeat_length. apply nth_repeat.
  - rewrite app_nth2 by now rewrite repeat_length. now rewrite repeat_length.
Qed.
Lemma te_add_id : te_add (0, 1) (0, 1) = (0, 1).
Proof.
  unfold Plonk.te_add. pose proof f1_neq_0 as N1. assert (1 + cd * (0 * 0 * (1 * 1)) = 1) as -> by ring. assert (1 - cd * (0 * 0 * (1 * 1)) = 1) as -> by ring.
  f_equal; field; exact N1.
Qed.
Lemma nth_skip {A} (l : list A) d : forall m j, nth j (skipn m l) d = nth (m + j) l d.
Proof. induction l as [|x l IH]; intros [|m] j; cbn; auto. now destruct j. Qed.
Lemma digits_zeros m ds : digits_val 0 (repeat 0%Z m ++ ds) = digits_val 0 ds.
Proof. induction m as [|m IH]; auto. Qed.
Hypothesis two_nz : (1 + 1 : F) <> 0.
Lemma zero_on_curve : on_curve (0, 1).
Proof. unfold PlonkSpec.on_curve. cbn [fst snd]. ring. Qed.
Lemma signed_on_curve e g : on_curve g -> on_curve (signed e g).
Proof.
  intros H. unfold signed. destruct (e =? 0)%Z; [apply zero_on_curve|]. destruct (e =? 1)%Z; auto.
  unfold PlonkSpec.on_curve in *. cbn [fst snd]. transitivity (ca * (fst g * fst g) + snd g * snd g); [ring|]. rewrite H. ring.
Qed.
Lemma multiples_on_curve n : forall g, complete_curve ca cd -> on_curve g -> Forall on_curve (point_multiples ca cd g n).
Proof. induction n as [|n IH]; intros g C H; cbn; constructor; auto. apply IH; auto. now apply te_add_on_curve. Qed.
Lemma base_on_curve g i : complete_curve ca cd -> on_curve g -> on_curve (nth i (fixed_base g) (0, 1)).
Proof.
  intros C H. destruct (Nat.lt_ge_cases i (length (fixed_base g))) as [L|L].
  - pose proof (multiples_on_curve (modulus_bits (F:=F)) g C H) as M. apply (proj1 (Forall_forall _ _) M). apply in_rev. now apply nth_In.
  - rewrite nth_overflow by auto. apply zero_on_curve.
Qed.
Theorem fixed_base_honest size s g c x3 y3 c' : wf c -> (modulus (F:=F) <= 2 ^ Z.of_nat size)%Z -> complete_curve ca cd -> on_curve g ->
  fixed_base_scalar_mul size ca cd s g c = Ok (x3, y3, c') -> honest c' <-> honest c.
Proof.
  intros W HS C G H. apply fixed_base_inv in H; auto. cbv zeta in H. set (nb := modulus_bits (F:=F)) in *. set (n := nvars c) in *.
  destruct H as [LS [LW [EX [EY [N [E [vals [als [EV [RV LV]]]]]]]]]]. pose proof (fixed_base_length g) as LB. fold nb in LB.
  set (e := to_Z (values c s)) in *. set (lead := fixed_lead (size + 1) e) in *. set (w := find_wnaf (size + 1) e) in *.
  assert (lead + length w = nb)%nat as LL by (unfold lead, fixed_lead; fold w nb; lia).
  set (accs := fixed_accs (size + 1) e vals) in *. set (ds := repeat 0%Z lead ++ rev w).
  pose proof (wnaf_values_spec _ _ _ _ _ _ EV) as VS. cbv zeta in VS. rewrite rev_length in VS.
  assert (forall j, (j < nb)%nat -> let q := signed (nth j ds 0%Z) (nth j (fixed_base g) (0, 1)) in let b := nth j accs (0, (0, 0)) in
    nth (S j) accs (0, (0, 0)) = (from_Z 2 * fst b + from_Z (nth j ds 0%Z), te_add (snd b) q) /\ nth j (repeat 0 lead ++ als) 0 = fst q * snd q) as ST.
  { intros j Hj. cbv zeta. unfold accs, fixed_accs, ds. fold lead. rewrite !nth_app_repeat.
    destruct (Nat.ltb_spec j lead) as [Lj|Lj].
    - destruct (Nat.ltb_spec (S j) (lead + 1)); [|lia]. destruct (Nat.ltb_spec j (lead + 1)); [|lia].
      unfold signed. cbn [Z.eqb fst snd]. rewrite te_add_id, from_Z_0. split; [f_equal; ring|ring].
    - destruct (Nat.ltb_spec (S j) (lead + 1)); [lia|]. specialize (VS (j - lead)%nat ltac:(lia)). rewrite nth_skip in VS.
      replace (lead + (j - lead))%nat with j in VS by lia. replace (S j - (lead + 1))%nat with (j - lead)%nat by lia.
      destruct VS as [V1 V2]. split; [|exact V2]. rewrite V1. 
      assert (nth (j - lead) ((0, (0, 1)) :: vals) (0, (0, 0)) = if (j <? lead + 1)%nat then (0, (0, 1)) else nth (j - (lead + 1)) vals (0, (0, 0))) as ->; [|reflexivity].
      destruct (Nat.ltb_spec j (lead + 1)).
      + replace (j - lead)%nat with 0%nat by lia. reflexivity.
      + replace (j - lead)%nat with (S (j - (lead + 1))) by lia. reflexivity. }
  assert (nth 0 accs (0, (0, 0)) = (0, (0, 1))) as A0.
  { unfold accs, fixed_accs. fold lead. rewrite nth_app_repeat. destruct (Nat.ltb_spec 0 (lead + 1)); [reflexivity|lia]. }
  assert (length ds = nb) as LD by (unfold ds; rewrite app_length, repeat_length, rev_length; exact LL).
  assert (forall j, (j <= nb)%nat -> fst (nth j accs (0, (0, 0))) = from_Z (digits_val 0 (firstn j ds)) /\ on_curve (snd (nth j accs (0, (0, 0))))) as INV.
  { induction j as [|j IH]; intros Hj.
    - rewrite A0. cbn [fst snd firstn]. change (digits_val 0 []) with 0%Z. rewrite from_Z_0. split; [reflexivity|apply zero_on_curve].
    - destruct (IH ltac:(lia)) as [I1 I2]. destruct (ST j ltac:(lia)) as [-> _]. cbn [fst snd]. rewrite digits_firstn, from_digit, I1 by lia. split; [reflexivity|].
      apply te_add_on_curve; auto. apply signed_on_curve. now apply base_on_curve. }
  assert (Forall digit ds) as FD.
  { unfold ds. apply Forall_app. split; [|apply Forall_rev; apply wnaf_digits]. apply Forall_forall. intros z Hz. apply repeat_spec in Hz. subst. unfold digit. auto. }
  assert (digits_val 0 ds = e) as VD.
  { unfold ds. rewrite digits_zeros. apply wnaf_val. pose proof (to_Z_range (values c s)) as T. fold e in T.
    replace (Z.of_nat (size + 1) - 1)%Z with (Z.of_nat size) by lia. lia. }
  rewrite (honest_ext ca cd _ _ _ W E). split; [tauto|]. intros HC. split; auto.
  assert (forall j, (j <= nb)%nat -> values c' (at4 n 0 j) = fst (snd (nth j accs (0, (0, 0)))) /\ values c' (at4 n 1 j) = snd (snd (nth j accs (0, (0, 0)))) /\
    values c' (at4 n 2 j) = fst (nth j accs (0, (0, 0)))) as VA.
  { intros j Hj. destruct (Nat.eq_dec j nb) as [->|]; [exact LV|]. destruct (RV j ltac:(lia)) as [R1 [R2 [R3 _]]]. auto. }
  unfold fixed_all. rewrite LB. destruct (VA 0%nat ltac:(lia)) as [B1 [B2 B3]]. rewrite A0 in B1, B2, B3. cbn [fst snd] in B1, B2, B3. unfold at4 in B1, B2, B3.
  replace (n + 4 * 0 + 0)%nat with n in B1 by lia. replace (n + 4 * 0 + 1)%nat with (n + 1)%nat in B2 by lia. replace (n + 4 * 0 + 2)%nat with (n + 2)%nat in B3 by lia.
  split; [exact B1|]. split; [exact B2|]. split; [exact B3|]. split.
  - intros i Hi. destruct (VA i ltac:(lia)) as [D1 [D2 D3]]. destruct (VA (S i) ltac:(lia)) as [D4 [D5 D6]]. destruct (RV i Hi) as [_ [_ [_ D7]]].
    destruct (ST i Hi) as [T1 T2]. unfold fixed_cond, fixed_rel. rewrite D1, D2, D3, D4, D5, D6, D7, T1, T2. cbn [fst snd].
    exists (nth i ds 0%Z). split; [apply (proj1 (Forall_forall _ _) FD); apply nth_In; lia|]. split; [reflexivity|]. split; [reflexivity|].
    rewrite <- !surjective_pairing. apply te_add_rel; auto; [apply INV; lia|]. apply signed_on_curve. now apply base_on_curve.
  - destruct LV as [_ [_ ->]]. destruct (INV nb ltac:(lia)) as [-> _]. rewrite <- LD, firstn_all, VD.
    unfold e. rewrite (ext_vals _ _ _ _ _ E) by exact LS. apply from_to_Z.
Qed.

(** *** when the gadget panics *)
Lemma wnaf_loop_ok : forall accs alphas base c, exists c', wnaf_rows false accs alphas base c = Ok c'.
Proof.
  induction accs as [|[s [px py]] accs IH]; intros [|al alphas] [|g base] c; cbn [wnaf_rows]; eauto.
  set (i1 := snd (add_input px c)). change (add_input px c) with (nvars c, i1). cbv iota beta.
  set (i2 := snd (add_input py i1)). change (add_input py i1) with (nvars i1, i2). cbv iota beta.
  set (i3 := snd (add_input s i2)). change (add_input s i2) with (nvars i2, i3). cbv iota beta. cbn [obind].
  set (i4 := snd (add_input al i3)). change (add_input al i3) with (nvars i3, i4). cbv iota beta.
  assert (nvars i1 = S (nvars c)) as N1 by apply add_input_nvars. assert (nvars i2 = S (nvars i1)) as N2 by apply add_input_nvars.
  assert (nvars i3 = S (nvars i2)) as N3 by apply add_input_nvars. assert (nvars i4 = S (nvars i3)) as N4 by apply add_input_nvars.
  destruct (add_gate_none_ok (nvars c) (nvars i1) (nvars i3) (nvars i2) (fixed_sel g) i4) as [c6 E]; [lia|lia|lia|lia|]. rewrite E. cbn [obind]. apply IH.
Qed.
#[local] Transparent constrain_to_constant assert_equal.
Lemma constrain_ok x k c : wf c -> (x < nvars c)%nat -> exists c', constrain_to_constant x k None c = Ok c'.
Proof. intros W H. apply add_gate_ok; auto. apply (wf_zero _ W). Qed.
#[local] Opaque constrain_to_constant assert_equal.
Lemma wnaf_first_ok accs alphas base c : wf c -> exists c', wnaf_rows true accs alphas base c = Ok c'.
Proof.
  intros W. destruct accs as [|[s [px py]] accs], alphas as [|al alphas], base as [|g base]; cbn [wnaf_rows]; eauto.
  set (i1 := snd (add_input px c)). change (add_input px c) with (nvars c, i1). cbv iota beta.
  set (i2 := snd (add_input py i1)). change (add_input py i1) with (nvars i1, i2). cbv iota beta.
  set (i3 := snd (add_input s i2)). change (add_input s i2) with (nvars i2, i3). cbv iota beta.
  assert (nvars i1 = S (nvars c)) as N1 by apply add_input_nvars. assert (nvars i2 = S (nvars i1)) as N2 by apply add_input_nvars.
  assert (nvars i3 = S (nvars i2)) as N3 by apply add_input_nvars.
  assert (wf i3) as W3 by (repeat apply add_input_wf; auto).
  destruct (constrain_ok (nvars c) 0 i3) as [d1 E1]; auto; [lia|]. pose proof E1 as X1. apply (constrain_ext ca cd) in X1; auto. destruct X1 as [X1 [M1 _]]. apply ext_wf in X1.
  destruct (constrain_ok (nvars i1) 1 d1) as [d2 E2]; auto; [lia|]. pose proof E2 as X2. apply (constrain_ext ca cd) in X2; auto. destruct X2 as [X2 [M2 _]]. apply ext_wf in X2.
  destruct (constrain_ok (nvars i2) 0 d2) as [d3 E3]; auto; [lia|]. pose proof E3 as X3. apply (constrain_ext ca cd) in X3; auto. destruct X3 as [X3 [M3 _]].
  rewrite E1. cbn [obind]. rewrite E2. cbn [obind]. rewrite E3. cbn [obind].
  set (i4 := snd (add_input al d3)). change (add_input al d3) with (nvars d3, i4). cbv iota beta.
  assert (nvars i4 = S (nvars d3)) as N4 by apply add_input_nvars.
  destruct (add_gate_none_ok (nvars c) (nvars i1) (nvars d3) (nvars i2) (fixed_sel g) i4) as [c6 E]; [lia|lia|lia|lia|]. rewrite E. cbn [obind]. apply wnaf_loop_ok.
Qed.
#[local] Transparent constrain_to_constant assert_equal.
Definition grows c c' : Prop := (nvars c <= nvars c')%nat /\ c_zero c' = c_zero c.
Lemma grows_input v c : grows c (snd (add_input v c)).
Proof. split; [rewrite add_input_nvars; lia|reflexivity]. Qed.
Lemma grows_gate x y o f s c c' : add_gate x y o f s None c = Ok c' -> grows c c'.
Proof. intros H. apply add_gate_none in H. destruct H as [_ [N [_ [_ [_ [_ [Z _]]]]]]]. split; [lia|auto]. Qed.
Lemma grows_trans c c1 c2 : grows c c1 -> grows c1 c2 -> grows c c2.
Proof. intros [N1 Z1] [N2 Z2]. split; [lia|congruence]. Qed.
Lemma wnaf_grows : forall accs alphas base first c c', wnaf_rows first accs alphas base c = Ok c' -> grows c c'.
Proof.
  induction accs as [|[s [px py]] accs IH]; intros [|al alphas] [|g base] first c c' H; cbn [wnaf_rows] in H;
    try (injection H as <-; split; [lia|reflexivity]).
  set (i1 := snd (add_input px c)) in *. change (add_input px c) with (nvars c, i1) in H. cbv iota beta in H.
  set (i2 := snd (add_input py i1)) in *. change (add_input py i1) with (nvars i1, i2) in H. cbv iota beta in H.
  set (i3 := snd (add_input s i2)) in *. change (add_input s i2) with (nvars i2, i3) in H. cbv iota beta in H.
  apply obind_ok in H. destruct H as [d [E H]].
  assert (grows i3 d) as G.
  { destruct first; [|injection E as <-; split; auto; lia]. apply obind_ok in E. destruct E as [d1 [E1 E]]. apply obind_ok in E. destruct E as [d2 [E2 E3]].
    eapply grows_trans; [eapply grows_gate; exact E1|]. eapply grows_trans; [eapply grows_gate; exact E2|eapply grows_gate; exact E3]. }
  change (add_input al d) with (nvars d, snd (add_input al d)) in H. cbv iota beta in H. apply obind_ok in H. destruct H as [c6 [E6 H]].
  apply IH in H. apply grows_gate in E6. eapply grows_trans; [apply (grows_input px)|]. eapply grows_trans; [apply (grows_input py)|]. eapply grows_trans; [apply (grows_input s)|].
  eapply grows_trans; [exact G|]. eapply grows_trans; [apply (grows_input al)|]. eapply grows_trans; [exact E6|exact H].
Qed.
Theorem fixed_base_ok size s g c : wf c -> (modulus (F:=F) <= 2 ^ Z.of_nat size)%Z ->
  (exists r, fixed_base_scalar_mul size ca cd s g c = Ok r) <-> (s < nvars c)%nat /\ (3 * to_Z (values c s) < 2 ^ (Z.of_nat (modulus_bits (F:=F)) + 1))%Z.
Proof.
  intros W HS. set (e := to_Z (values c s)).
  assert (0 <= e <= 2 ^ (Z.of_nat (size + 1) - 1))%Z as BE.
  { pose proof (to_Z_range (values c s)) as T. fold e in T. replace (Z.of_nat (size + 1) - 1)%Z with (Z.of_nat size) by lia. lia. }
  split.
  - intros [[[x3 y3] c'] H]. apply fixed_base_inv in H; auto. cbv zeta in H. destruct H as [LS [LW _]]. split; auto. now apply (wnaf_length (size + 1)).
  - intros [LS LW]. apply (wnaf_length (size + 1)) in LW; auto. unfold fixed_base_scalar_mul. rewrite value_ok by auto. cbn [obind]. cbv zeta. fold e.
    rewrite (proj2 (Nat.leb_le _ _) LW). cbn [assert_ obind]. fold (fixed_base g).
    set (nb := modulus_bits (F:=F)) in *. set (w := find_wnaf (size + 1) e) in *.
    destruct (wnaf_values_ok (rev w) (skipn (nb - length w) (fixed_base g)) 0 (0, 1)) as [[vals als] EV].
    { rewrite rev_length, skipn_length, fixed_base_length. fold nb. lia. }
    rewrite EV. cbn [obind]. pose proof (wnaf_values_length _ _ _ _ _ _ EV) as [LV LA]. rewrite rev_length in LV, LA.
    set (accs := repeat (0, (0, 1)) (nb - length w + 1) ++ vals).
    destruct (wnaf_first_ok (firstn nb accs) (repeat 0 (nb - length w) ++ als) (fixed_base g) c W) as [c1 E1].
    rewrite E1. cbn [obind]. assert (length accs = S nb) as LAC by (unfold accs; rewrite app_length, repeat_length; lia).
    destruct (nth_error accs nb) as [[sl [px py]]|] eqn:EN; [|apply nth_error_None in EN; lia]. cbn [unwrap_opt obind].
    set (j1 := snd (add_input px c1)). change (add_input px c1) with (nvars c1, j1). cbv iota beta.
    set (j2 := snd (add_input py j1)). change (add_input py j1) with (nvars j1, j2). cbv iota beta.
    set (j3 := snd (add_input sl j2)). change (add_input sl j2) with (nvars j2, j3). cbv iota beta.
    assert (nvars j1 = S (nvars c1)) as K1 by apply add_input_nvars. assert (nvars j2 = S (nvars j1)) as K2 by apply add_input_nvars.
    assert (nvars j3 = S (nvars j2)) as K3 by apply add_input_nvars.
    pose proof (wnaf_grows _ _ _ _ _ _ E1) as [G1 G2]. pose proof (wf_zero _ W) as WZ.
    unfold arithmetic_gate. cbn [g_witness with_out with_fan_in_3 gate_of g_fan_in_3 obind g_mul g_add g_out g_const g_pi fst snd].
    match goal with |- context [add_gate ?x ?y ?o ?f ?s None j3] => destruct (add_gate_none_ok x y o f s j3) as [c5 E5]; [lia|lia|lia|lia|] end.
    rewrite E5. cbn [obind]. apply grows_gate in E5. destruct E5 as [G3 G4].
    unfold assert_equal, poly_gate.
    match goal with |- context [add_gate ?x ?y ?o ?f ?s None c5] => destruct (add_gate_none_ok x y o f s c5) as [c7 E7]; [lia|lia| | |] end.
    + rewrite G4. change (c_zero j3) with (c_zero c1). lia.
    + rewrite G4. change (c_zero j3) with (c_zero c1). lia.
    + rewrite E7. cbn [obind]. eauto.
Qed.
End PlonkFixed.

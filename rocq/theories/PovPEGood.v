(** PovPEGood.v: a satisfied circuit makes every summand of the constant term vanish. *)
From Verif Require Import Base Spec Tools ToolsProofs ToolsProofs2 PermProofs CS KZG KZGProofs Snark Laurent SnarkPerm
  PovPE PovPEProofs PovPEConst.
Local Open Scope F_scope.

Section PovPEGood.
Context {F : Type} {fo : FieldOps F} {fl : FieldLaws F}.
Add Field Fpg : F_th.

Section Good.
Variable e : pe_s4 F.
Variables (nm na : nat) (consts a b c : list F) (wires : list (nat * nat)) (pos : list nat) (vals : list F).
Variables (d0 d1 d2 d3 : F) (ku kv : nat).
Let n := (nm + na + length consts)%nat.
Hypothesis EC : pe_cap_c_total e = Z.of_nat n.
Hypothesis ECa : pe_cap_c_a e = Z.of_nat na.
Hypothesis ECm : pe_cap_c_m e = Z.of_nat nm.
Hypothesis Hn : (1 <= n)%nat.
Hypothesis La : length a = n.
Hypothesis Lb : length b = n.
Hypothesis Lc : length c = n.
Hypothesis Hku : (n + nm + ku = 3 * n)%nat.
Hypothesis Hkv : (n + na + kv = 3 * n)%nat.
Hypothesis Eu : pe_u_vec e = (firstn (n - 0) (skipn 0 a) ++ firstn (nm - 0) (skipn 0 b)) ++ repeat 0 ku ++ [d0].
Hypothesis Ev : pe_v_vec e = (firstn (n - nm) (skipn nm b) ++ firstn (na + nm - 0) (skipn 0 c)) ++ repeat 0 kv ++ [d1].
Hypothesis Ed : pe_d_vec e = consts.
Hypothesis Es : permutation_vector_from_wires (E:=error) (pe_gamma e) wires (3 * n) = Ok (pe_sigma_vec e).
Hypothesis Ex : forall k, coef (pe_x_vec e) k = sparse_at pos vals k.
Hypothesis Et : forall k, coef (pe_t_vec e) k = sparse_at pos (map (fun _ => 1) pos) k.
Hypothesis Er : pe_r_vec e = accumulate_vector 1 (fun i => pe_r_num e i * finv (pe_r_den e i)) (pe_r_len e) fmul ++ [d2].
Hypothesis Hden : forall i, (1 <= i <= 3 * pe_cap_c_total e)%Z -> pe_r_den e i <> 0.
Hypothesis Et1 : pe_t_vec_1 e = d3 :: pe_t_vec_1_tail e.
Hypothesis Hsat : pov_holds consts wires nm na pos vals a b c.
Hypothesis Hnd : NoDup pos.
Hypothesis Hlen : length pos = length vals.
Hypothesis Hpos : forall p, In p pos -> (p < 2 * n + nm + na)%nat.

Lemma n_eq : n = (nm + na + length consts)%nat. Proof. reflexivity. Qed.

Lemma good_u i : (1 <= i <= 3 * Z.of_nat n)%Z -> vidx (pe_u_vec e) i =
  if (i <=? Z.of_nat n)%Z then coef a (Z.to_nat (i - 1)) else
  if (i <=? Z.of_nat n + Z.of_nat nm)%Z then coef b (Z.to_nat (i - 1) - n) else 0.
Proof.
  pose proof n_eq. intros Hi. rewrite vidx_in by lia. rewrite Eu, !coef_app, !app_length, !slice_length by lia.
  rewrite !coef_slice', coef_repeat_0, repeat_length by lia.
  destruct (Z.leb_spec i (Z.of_nat n)), (Z.leb_spec i (Z.of_nat n + Z.of_nat nm)); try lia.
  all: repeat match goal with |- context [(?x <? ?y)%nat] => destruct (Nat.ltb_spec x y); try lia end; auto; f_equal; lia.
Qed.
Lemma good_v i : (1 <= i <= 3 * Z.of_nat n)%Z -> vidx (pe_v_vec e) i =
  if (i <=? Z.of_nat n - Z.of_nat nm)%Z then coef b (nm + Z.to_nat (i - 1)) else
  if (i <=? Z.of_nat n + Z.of_nat na)%Z then coef c (Z.to_nat (i - 1) - (n - nm)) else 0.
Proof.
  pose proof n_eq. intros Hi. rewrite vidx_in by lia. rewrite Ev, !coef_app, !app_length, !slice_length by lia.
  rewrite !coef_slice', coef_repeat_0, repeat_length by lia.
  destruct (Z.leb_spec i (Z.of_nat n - Z.of_nat nm)), (Z.leb_spec i (Z.of_nat n + Z.of_nat na)); try lia.
  all: repeat match goal with |- context [(?x <? ?y)%nat] => destruct (Nat.ltb_spec x y); try lia end; auto; f_equal; lia.
Qed.
Notation W := (a ++ b ++ c).
Lemma good_W i : (1 <= i <= 3 * Z.of_nat n)%Z ->
  vidx (pe_u_vec e) i + vidx (pe_v_vec e) (i - (Z.of_nat nm + Z.of_nat n)) +
  vidx (pe_d_vec e) (i - (Z.of_nat na + Z.of_nat nm + 2 * Z.of_nat n)) = coef W (Z.to_nat (i - 1)).
Proof.
  pose proof n_eq. intros Hi. rewrite good_u by lia. rewrite Ed.
  assert (forall k, (k < length consts)%nat -> coef c (nm + na + k) = coef consts k) as Hc by apply Hsat.
  rewrite !coef_app, La, Lb.
  destruct (Z.leb_spec i (Z.of_nat n)) as [H1|H1].
  { rewrite (vidx_out (pe_v_vec e)), (vidx_out consts) by lia.
    destruct (Nat.ltb_spec (Z.to_nat (i - 1)) n); [ring|lia]. }
  destruct (Nat.ltb_spec (Z.to_nat (i - 1)) n); [lia|].
  destruct (Z.leb_spec i (Z.of_nat n + Z.of_nat nm)) as [H2|H2].
  { rewrite (vidx_out (pe_v_vec e)), (vidx_out consts) by lia.
    destruct (Nat.ltb_spec (Z.to_nat (i - 1) - n) n); [ring|lia]. }
  rewrite good_v by lia.
  destruct (Z.leb_spec (i - (Z.of_nat nm + Z.of_nat n)) (Z.of_nat n - Z.of_nat nm)) as [H3|H3].
  { rewrite (vidx_out consts) by lia. destruct (Nat.ltb_spec (Z.to_nat (i - 1) - n) n); [|lia].
    match goal with |- 0 + coef b ?x + 0 = coef b ?y => replace x with y by lia end. ring. }
  destruct (Nat.ltb_spec (Z.to_nat (i - 1) - n) n); [lia|].
  destruct (Z.leb_spec (i - (Z.of_nat nm + Z.of_nat n)) (Z.of_nat n + Z.of_nat na)) as [Q4|Q4].
  { rewrite (vidx_out consts) by lia.
    match goal with |- 0 + coef c ?x + 0 = coef c ?y => replace x with y by lia end. ring. }
  rewrite vidx_in by lia. rewrite <- Hc by lia.
  match goal with |- 0 + 0 + coef c ?x = coef c ?y => replace x with y by lia end. ring.
Qed.
Lemma good_num i : (1 <= i <= 3 * Z.of_nat n)%Z -> pe_r_num e i =
  coef W (Z.to_nat (i - 1)) + fpow (pe_gamma e) (Z.to_nat (i - 1)) * pe_zeta e + pe_zeta_1 e.
Proof.
  intros Hi. rewrite <- good_W by lia. unfold pe_r_num, minus_i64. rewrite EC, ECa, ECm.
  replace (i - 1 + 1)%Z with i by lia. rewrite range_in by lia.
  replace (i - (Z.of_nat nm + Z.of_nat n + 1) + 1)%Z with (i - (Z.of_nat nm + Z.of_nat n))%Z by lia.
  replace (i - (Z.of_nat na + Z.of_nat nm + 2 * Z.of_nat n + 1) + 1)%Z with (i - (Z.of_nat na + Z.of_nat nm + 2 * Z.of_nat n))%Z by lia.
  destruct (sigma_at _ _ _ _ Es) as [Hg _].
  assert (power_vidx (pe_gamma e) (3 * Z.of_nat n) i = fpow (pe_gamma e) (Z.to_nat (i - 1))) as ->; [|ring].
  unfold power_vidx. destruct (Z.leb_spec 1 i), (Z.leb_spec i (3 * Z.of_nat n)); try lia. cbn [andb].
  replace (i - 1)%Z with (Z.of_nat (Z.to_nat (i - 1))) at 1 by lia. now apply power_nat.
Qed.
Lemma good_den i : (1 <= i <= 3 * Z.of_nat n)%Z -> pe_r_den e i =
  coef W (Z.to_nat (i - 1)) + coef (pe_sigma_vec e) (Z.to_nat (i - 1)) * pe_zeta e + pe_zeta_1 e.
Proof.
  intros Hi. rewrite <- good_W by lia. unfold pe_r_den, minus_i64. rewrite EC, ECa, ECm.
  replace (i - 1 + 1)%Z with i by lia. rewrite range_in by lia.
  replace (i - (Z.of_nat nm + Z.of_nat n + 1) + 1)%Z with (i - (Z.of_nat nm + Z.of_nat n))%Z by lia.
  replace (i - (Z.of_nat na + Z.of_nat nm + 2 * Z.of_nat n + 1) + 1)%Z with (i - (Z.of_nat na + Z.of_nat nm + 2 * Z.of_nat n))%Z by lia.
  rewrite (vidx_in (pe_sigma_vec e)) by lia. ring.
Qed.

Lemma sat_pe_good : pe_good e.
Proof.
  pose proof n_eq as En. destruct Hsat as [S1 [S2 [S3 [S4 S5]]]].
  split; rewrite ?EC, ?ECa, ?ECm.
  - intros i Hi. destruct (Z_le_gt_dec i (Z.of_nat n)) as [H1|H1].
    { rewrite (vidx_out _ (i - Z.of_nat n)), range_out by lia. ring. }
    destruct (Z_le_gt_dec i (Z.of_nat n + Z.of_nat nm)) as [H2|H2].
    + rewrite range_in, !good_u, good_v by lia.
      repeat match goal with |- context [(?x <=? ?y)%Z] => destruct (Z.leb_spec x y); try lia end.
      replace (Z.to_nat (i - Z.of_nat nm - 1) - (n - nm))%nat with (Z.to_nat (i - 1) - n)%nat by lia.
      replace (Z.to_nat (i - Z.of_nat n - 1)) with (Z.to_nat (i - 1) - n)%nat by lia.
      rewrite S1 by lia. ring.
    + rewrite range_out, (good_u i) by lia.
      repeat match goal with |- context [(?x <=? ?y)%Z] => destruct (Z.leb_spec x y); try lia end. ring.
  - intros i Hi. rewrite !good_v, good_u by lia.
    repeat match goal with |- context [(?x <=? ?y)%Z] => destruct (Z.leb_spec x y); try lia end.
    replace (Z.to_nat (i + Z.of_nat nm - Z.of_nat n - 1)) with (Z.to_nat (i - 1) - (n - nm))%nat by lia.
    rewrite S2 by lia.
    replace (nm + Z.to_nat (i - Z.of_nat n - 1))%nat with (Z.to_nat (i - 1) - (n - nm))%nat by lia. ring.
  - intros i Hi. rewrite (vidx_in (pe_t_vec e)), (vidx_in (pe_x_vec e)), Ex, Et by lia.
    set (k := Z.to_nat (i - 1)). destruct (in_dec Nat.eq_dec k pos) as [Hk|Hk].
    + apply In_nth with (d := 0%nat) in Hk. destruct Hk as [j [Hj Ej]].
      assert (In (k, coef vals j) (combine pos vals)) as Hin.
      { rewrite <- Ej. unfold coef. rewrite <- combine_nth by auto. apply nth_In. rewrite combine_length. lia. }
      unfold sparse_at at 2. rewrite (NoDup_fsum_pick _ k (coef vals j)); auto using combine_NoDup_fst.
      destruct (S5 j) as [_ E5]; [lia|lia|]. rewrite Ej in E5. rewrite <- E5.
      assert (k < 2 * n + nm + na)%nat as Hkk by (apply Hpos; rewrite <- Ej; now apply nth_In).
      unfold k in *. rewrite <- good_W by lia. rewrite (vidx_out (pe_d_vec e)) by lia.
      replace (i - Z.of_nat nm - Z.of_nat n)%Z with (i - (Z.of_nat nm + Z.of_nat n))%Z by lia. ring.
    + unfold sparse_at at 1. rewrite (fsum_pick_out _ k); [ring|].
      intros Hc. apply Hk. apply in_map_iff in Hc. destruct Hc as [[k' y] [<- Hc]]. now apply in_combine_l in Hc.
  - intros i Hi. rewrite Er. unfold pe_r_len. rewrite EC.
    replace (3 * Z.of_nat n)%Z with (Z.of_nat (3 * n)) by lia.
    apply (grand_product_rec (pe_r_num e) (pe_r_den e)); [|lia]. intros j Hj. apply Hden. lia.
  - rewrite Er. unfold pe_r_len. rewrite EC.
    replace (3 * Z.of_nat n)%Z with (Z.of_nat (3 * n)) by lia.
    apply (grand_product_end (pe_r_num e) (pe_r_den e) wires); [lia| |].
    { intros j Hj. apply Hden. lia. }
    destruct (sigma_at _ _ _ _ Es) as [Hg [Hb Hs]].
    intros j Hj. pose proof (sg_below wires (3 * n) j Hj) as Hsg. rewrite good_den, good_num by lia.
    replace (Z.to_nat (Z.of_nat (S j) - 1)) with j by lia.
    replace (Z.to_nat (Z.of_nat (S (sg wires (3 * n) j)) - 1)) with (sg wires (3 * n) j) by lia.
    rewrite Hs by auto. assert (coef W (sg wires (3 * n) j) = coef W j) as ->; auto.
    apply (respects_inv wires (3 * n)); auto. intros x y Hxy. now apply S4.
  - exists d3. exact Et1.
Qed.
End Good.
End PovPEGood.

(** PovGood.v: a satisfied circuit makes every constraint of the POV argument vanish. *)
From Verif Require Import Base Spec Tools ToolsProofs ToolsProofs2 PermProofs CS KZG KZGProofs Snark Laurent SnarkPerm
  PovPEConst Pov PovProofs PovConst.
Local Open Scope F_scope.

Section PovGood.
Context {F : Type} {fo : FieldOps F} {fl : FieldLaws F}.
Add Field Fpg : F_th.

Section Good.
Variable e : pv_s4 F.
Variables (nm na : nat) (consts a b c : list F) (wires : list (nat * nat)) (pos : list nat) (vals : list F).
Variables (d0 d1 d2 : F).
Let n := (nm + na + length consts)%nat.
Hypothesis EC : pv_cap_c_total e = Z.of_nat n.
Hypothesis ECa : pv_cap_c_a e = Z.of_nat na.
Hypothesis ECm : pv_cap_c_m e = Z.of_nat nm.
Hypothesis Hn : (1 <= n)%nat.
Hypothesis La : length a = n.
Hypothesis Lb : length b = n.
Hypothesis Lc : length c = n.
Hypothesis Ew : pv_w_vec e = (a ++ b ++ c) ++ [d0].
Hypothesis Ed : pv_d_vec e = consts.
Hypothesis Es : permutation_vector_from_wires (E:=error) (pv_gamma e) wires (3 * n) = Ok (pv_sigma_vec e).
Hypothesis Ex : forall k, coef (pv_x_vec e) k = sparse_at pos vals k.
Hypothesis Et : forall k, coef (pv_t_vec e) k = sparse_at pos (map (fun _ => 1) pos) k.
Hypothesis Er : pv_r_vec e = accumulate_vector 1 (fun i => pv_r_num e i * finv (pv_r_den e i)) (pv_r_len e) fmul ++ [d1].
Hypothesis Hden : forall i, (1 <= i <= 3 * pv_cap_c_total e)%Z -> pv_r_den e i <> 0.
Hypothesis Hsat : pov_holds consts wires nm na pos vals a b c.
Hypothesis Hnd : NoDup pos.
Hypothesis Hlen : length pos = length vals.

Lemma pn_eq : n = (nm + na + length consts)%nat. Proof. reflexivity. Qed.
Notation W := (a ++ b ++ c).

Lemma pgood_w i : (1 <= i <= 3 * Z.of_nat n)%Z -> vidx (pv_w_vec e) i = coef W (Z.to_nat (i - 1)).
Proof.
  intros Hi. rewrite vidx_in by lia. rewrite Ew, coef_app, !app_length, La, Lb, Lc.
  destruct (Nat.ltb_spec (Z.to_nat (i - 1)) (n + (n + n))); [reflexivity|lia].
Qed.
Lemma pgood_abc i : (1 <= i <= 3 * Z.of_nat n)%Z -> vidx (pv_w_vec e) i =
  if (i <=? Z.of_nat n)%Z then coef a (Z.to_nat (i - 1)) else
  if (i <=? 2 * Z.of_nat n)%Z then coef b (Z.to_nat (i - 1) - n) else coef c (Z.to_nat (i - 1) - 2 * n).
Proof.
  intros Hi. rewrite pgood_w by auto. rewrite !coef_app, La, Lb.
  destruct (Z.leb_spec i (Z.of_nat n)), (Z.leb_spec i (2 * Z.of_nat n)); try lia.
  all: repeat match goal with |- context [(?x <? ?y)%nat] => destruct (Nat.ltb_spec x y); try lia end; auto; f_equal; lia.
Qed.
Lemma pgood_num i : (1 <= i <= 3 * Z.of_nat n)%Z -> pv_r_num e i =
  coef W (Z.to_nat (i - 1)) + fpow (pv_gamma e) (Z.to_nat (i - 1)) * pv_zeta e + pv_zeta_1 e.
Proof.
  intros Hi. rewrite <- pgood_w by lia. unfold pv_r_num, minus_i64. rewrite EC.
  replace (i - 1 + 1)%Z with i by lia. rewrite range_in by lia.
  destruct (sigma_at _ _ _ _ Es) as [Hg _].
  assert (power_vidx (pv_gamma e) (3 * Z.of_nat n) i = fpow (pv_gamma e) (Z.to_nat (i - 1))) as ->; [|ring].
  unfold power_vidx. destruct (Z.leb_spec 1 i), (Z.leb_spec i (3 * Z.of_nat n)); try lia. cbn [andb].
  replace (i - 1)%Z with (Z.of_nat (Z.to_nat (i - 1))) at 1 by lia. now apply power_nat.
Qed.
Lemma pgood_den i : (1 <= i <= 3 * Z.of_nat n)%Z -> pv_r_den e i =
  coef W (Z.to_nat (i - 1)) + coef (pv_sigma_vec e) (Z.to_nat (i - 1)) * pv_zeta e + pv_zeta_1 e.
Proof.
  intros Hi. rewrite <- pgood_w by lia. unfold pv_r_den, minus_i64. rewrite EC.
  replace (i - 1 + 1)%Z with i by lia. rewrite range_in by lia.
  rewrite (vidx_in (pv_sigma_vec e)) by lia. ring.
Qed.

Lemma sat_pv_sat : pv_sat e.
Proof.
  pose proof pn_eq as En. destruct Hsat as [S1 [S2 [S3 [S4 S5]]]].
  split; rewrite ?EC; unfold pv_k0, pv_k1, pv_k2, pv_k3, pv_k4, pv_k5; rewrite ?EC, ?ECa, ?ECm; intros i Hi.
  - destruct (Z_le_gt_dec i (3 * Z.of_nat n - Z.of_nat nm)) as [H1|H1].
    { rewrite (vidx_out _ (i + Z.of_nat nm - 3 * Z.of_nat n)), range_out by lia. ring. }
    rewrite range_in, !pgood_abc by lia.
    repeat match goal with |- context [(?x <=? ?y)%Z] => destruct (Z.leb_spec x y); try lia end.
    set (k := Z.to_nat (i + Z.of_nat nm - 3 * Z.of_nat n - 1)).
    replace (Z.to_nat (i + Z.of_nat nm - 2 * Z.of_nat n - 1) - n)%nat with k by lia.
    replace (Z.to_nat (i + Z.of_nat nm - Z.of_nat n - 1) - 2 * n)%nat with k by lia.
    rewrite S1 by lia. ring.
  - destruct (Z_le_gt_dec (Z.of_nat nm + 2 * Z.of_nat n + 1) i), (Z_le_gt_dec i (Z.of_nat na + Z.of_nat nm + 2 * Z.of_nat n));
      try (rewrite range_out by lia; ring).
    rewrite range_in, !pgood_abc by lia.
    repeat match goal with |- context [(?x <=? ?y)%Z] => destruct (Z.leb_spec x y); try lia end.
    set (k := Z.to_nat (i - 2 * Z.of_nat n - 1)).
    replace (Z.to_nat (i - Z.of_nat n - 1) - n)%nat with k by lia.
    replace (Z.to_nat (i - 1) - 2 * n)%nat with k by lia.
    rewrite S2 by lia. ring.
  - destruct (Z_le_gt_dec (2 * Z.of_nat n + Z.of_nat na + Z.of_nat nm + 1) i); [|rewrite range_out by lia; ring].
    rewrite range_in, !pgood_abc, Ed by lia.
    repeat match goal with |- context [(?x <=? ?y)%Z] => destruct (Z.leb_spec x y); try lia end.
    rewrite vidx_in by lia. rewrite <- S3 by lia.
    match goal with |- 1 * (coef c ?x - coef c ?y) = 0 => replace y with x by lia end. ring.
  - rewrite (vidx_in (pv_t_vec e)), (vidx_in (pv_x_vec e)), Ex, Et by lia.
    set (k := Z.to_nat (i - 1)). destruct (in_dec Nat.eq_dec k pos) as [Hk|Hk].
    + apply In_nth with (d := 0%nat) in Hk. destruct Hk as [j [Hj Ej]].
      assert (In (k, coef vals j) (combine pos vals)) as Hin.
      { rewrite <- Ej. unfold coef. rewrite <- combine_nth by auto. apply nth_In. rewrite combine_length. lia. }
      unfold sparse_at at 2. rewrite (NoDup_fsum_pick _ k (coef vals j)); auto using combine_NoDup_fst.
      destruct (S5 j) as [_ E5]; [lia|lia|]. rewrite Ej in E5. rewrite <- E5.
      rewrite pgood_w by lia. unfold k. ring.
    + unfold sparse_at at 1. rewrite (fsum_pick_out _ k); [ring|].
      intros Hc. apply Hk. apply in_map_iff in Hc. destruct Hc as [[k' y] [<- Hc]]. now apply in_combine_l in Hc.
  - rewrite Er. unfold pv_r_len. rewrite EC.
    replace (3 * Z.of_nat n)%Z with (Z.of_nat (3 * n)) by lia.
    rewrite (grand_product_rec (pv_r_num e) (pv_r_den e)); [ring| |lia]. intros j Hj. apply Hden. lia.
  - unfold delta. destruct (Z.eqb_spec i (3 * Z.of_nat n)) as [->|]; [|ring].
    rewrite Er. unfold pv_r_len. rewrite EC.
    replace (3 * Z.of_nat n)%Z with (Z.of_nat (3 * n)) by lia.
    rewrite (grand_product_end (pv_r_num e) (pv_r_den e) wires); [ring|lia| |].
    { intros j Hj. apply Hden. lia. }
    destruct (sigma_at _ _ _ _ Es) as [Hg [Hb Hs]].
    intros j Hj. pose proof (sg_below wires (3 * n) j Hj) as Hsg. rewrite pgood_den, pgood_num by lia.
    replace (Z.to_nat (Z.of_nat (S j) - 1)) with j by lia.
    replace (Z.to_nat (Z.of_nat (S (sg wires (3 * n) j)) - 1)) with (sg wires (3 * n) j) by lia.
    rewrite Hs by auto. assert (coef W (sg wires (3 * n) j) = coef W j) as ->; auto.
    apply (respects_inv wires (3 * n)); auto. intros x y Hxy. now apply S4.
Qed.
End Good.
End PovGood.

(** Properties_PRounds.v: C83, the numbers of rounds of the Poseidon hash. *)
From Verif Require Import Base KZG PRounds.
Local Open Scope Z_scope.

(** the pairs of numbers of full and partial rounds that are searched *)
Definition searched (rf rp : Z) : Prop := Z.even rf = true /\ 2 <= rf <= 1000 /\ 4 <= rp < 200.

Section C83.
Variable secure : Z -> Z -> Z -> bool.
Variable enlarge : Z -> Z.
Hypothesis EM : forall x y, 4 <= x -> x <= y -> y < 200 -> enlarge x <= enlarge y.
Variable t : Z.
Variable security_margin : bool.
Definition full_of (rf : Z) : Z := if security_margin then rf + 2 else rf.
Definition partial_of (rp : Z) : Z := if security_margin then enlarge rp else rp.
(** the number of S-boxes *)
Definition cost (rf rp : Z) : Z := t * rf + rp.
Hypothesis T0 : 0 <= t.
Hypothesis T1 : forall rp, 4 <= rp < 200 -> t * 1394 + partial_of rp < 2 ^ 64 - 1.

Lemma partial_mono x y : 4 <= x -> x <= y -> y < 200 -> partial_of x <= partial_of y.
Proof. intros A B C. unfold partial_of. destruct security_margin; [apply EM; assumption|exact B]. Qed.

(** the first key is at least as good as the second one *)
Definition good (a b : Z * Z) : Prop := fst a < fst b \/ (fst a = fst b /\ snd a <= snd b).
Lemma good_refl a : good a a. Proof. right. lia. Qed.
Lemma good_trans a b d : good a b -> good b d -> good a d. Proof. unfold good. lia. Qed.
Definition key (rf rp : Z) : Z * Z := (cost (full_of rf) (partial_of rp), full_of rf).
Definition bkey (b : Z * Z * Z) : Z * Z := (snd b, fst (fst b)).
Definition improve (b : Z * Z * Z) (rf rp : Z) : Z * Z * Z :=
  if (cost (full_of rf) (partial_of rp) <? snd b) || ((cost (full_of rf) (partial_of rp) =? snd b) && (full_of rf <? fst (fst b)))
  then (full_of rf, partial_of rp, cost (full_of rf) (partial_of rp)) else b.
Lemma improve_keep b rf rp : good (bkey b) (key rf rp) -> improve b rf rp = b.
Proof.
  unfold improve, good, bkey, key. cbn [fst snd]. intros H.
  destruct (Z.ltb_spec (cost (full_of rf) (partial_of rp)) (snd b)); [lia|].
  destruct (Z.eqb_spec (cost (full_of rf) (partial_of rp)) (snd b)); [|reflexivity].
  destruct (Z.ltb_spec (full_of rf) (fst (fst b))); [lia|reflexivity].
Qed.
Lemma improve_good b rf rp : good (bkey (improve b rf rp)) (bkey b) /\ good (bkey (improve b rf rp)) (key rf rp).
Proof.
  unfold improve, good, bkey, key. cbn [fst snd].
  destruct (Z.ltb_spec (cost (full_of rf) (partial_of rp)) (snd b)); cbn [orb fst snd]; [lia|].
  destruct (Z.eqb_spec (cost (full_of rf) (partial_of rp)) (snd b)); cbn [andb fst snd]; [|lia].
  destruct (Z.ltb_spec (full_of rf) (fst (fst b))); cbn [fst snd]; lia.
Qed.
Lemma step_eq rf rp rps b : 2 <= rf -> full_of rf <= 1394 -> 4 <= rp < 200 -> secure t rf rp = true ->
  over_partial secure enlarge t security_margin (rp :: rps) rf b = over_partial secure enlarge t security_margin rps (full_of rf) (improve b rf rp).
Proof.
  intros H1 H2 H3 SE. cbn [over_partial]. rewrite SE. fold (full_of rf) (partial_of rp). unfold n_sboxes.
  assert (t * full_of rf + partial_of rp < 2 ^ 64) as L by (pose proof (T1 rp H3); nia). apply Z.ltb_lt in L. rewrite L. cbn [assert_ obind].
  destruct b as [[b_rf b_rp] b_min]. unfold improve, cost. cbn [fst snd]. reflexivity.
Qed.
(** after a secure pair, the rest of the loop changes nothing *)
Lemma rest_same n : forall r k rf b, (k + n <= 196)%nat -> 2 <= rf -> rf <= 1002 + 2 * Z.of_nat k ->
  4 <= r <= 4 + Z.of_nat k -> good (bkey b) (cost rf (partial_of r), rf) ->
  over_partial secure enlarge t security_margin (map (fun k => 4 + Z.of_nat k) (seq k n)) rf b = Ok b.
Proof.
  induction n as [|n IH]; intros r k rf b Hk Hf Hf2 Hr G; [reflexivity|]. cbn [seq map].
  assert (rf <= full_of rf) as LE by (unfold full_of; destruct security_margin; lia).
  assert (full_of rf <= rf + 2) as LE2 by (unfold full_of; destruct security_margin; lia).
  pose proof (partial_mono r (4 + Z.of_nat k) ltac:(lia) ltac:(lia) ltac:(lia)) as PM.
  destruct (secure t rf (4 + Z.of_nat k)) eqn:SE.
  - rewrite step_eq by (assumption || lia).
    assert (good (cost rf (partial_of r), rf) (key rf (4 + Z.of_nat k))) as G2.
    { unfold good, key, cost. cbn [fst snd]. assert (t * rf <= t * full_of rf) by nia. lia. }
    rewrite improve_keep by (eapply good_trans; eassumption).
    apply (IH (4 + Z.of_nat k)); try lia. eapply good_trans; eassumption.
  - cbn [over_partial]. rewrite SE. apply (IH r); (lia || assumption).
Qed.
Lemma inner n : forall k rf b, (k + n <= 196)%nat -> 2 <= rf <= 1000 ->
  exists b', over_partial secure enlarge t security_margin (map (fun k => 4 + Z.of_nat k) (seq k n)) rf b = Ok b' /\ good (bkey b') (bkey b) /\
    (forall j, (k <= j < k + n)%nat -> secure t rf (4 + Z.of_nat j) = true -> good (bkey b') (key rf (4 + Z.of_nat j))) /\
    (b' = b \/ exists j, (k <= j < k + n)%nat /\ secure t rf (4 + Z.of_nat j) = true /\ b' = (full_of rf, partial_of (4 + Z.of_nat j), cost (full_of rf) (partial_of (4 + Z.of_nat j)))).
Proof.
  induction n as [|n IH]; intros k rf b Hk Hf.
  - exists b. split; [reflexivity|]. split; [apply good_refl|]. split; [intros; lia|left; reflexivity].
  - cbn [seq map]. destruct (secure t rf (4 + Z.of_nat k)) eqn:SE.
    + exists (improve b rf (4 + Z.of_nat k)). destruct (improve_good b rf (4 + Z.of_nat k)) as [G1 G2].
      assert (rf <= full_of rf <= rf + 2) as LE by (unfold full_of; destruct security_margin; lia).
      split; [|split; [exact G1|split]].
      * rewrite step_eq by (assumption || lia). apply (rest_same n (4 + Z.of_nat k)); try lia. exact G2.
      * intros j Hj _. eapply good_trans; [exact G2|]. unfold good, key, cost. cbn [fst snd].
        pose proof (partial_mono (4 + Z.of_nat k) (4 + Z.of_nat j) ltac:(lia) ltac:(lia) ltac:(lia)). lia.
      * unfold improve. match goal with |- context [if ?c then _ else _] => destruct c end; [right|left; reflexivity]. exists k. split; [lia|]. split; [exact SE|reflexivity].
    + cbn [over_partial]. rewrite SE. destruct (IH (S k) rf b ltac:(lia) Hf) as (b' & E & G & A & W). exists b'. split; [exact E|]. split; [exact G|]. split.
      * intros j Hj SJ. destruct (Nat.eq_dec j k) as [->|]; [congruence|]. apply A; [lia|exact SJ].
      * destruct W as [W|(j & Hj & W)]; [left; exact W|right; exists j; split; [lia|exact W]].
Qed.
Definition found (b : Z * Z * Z) : Prop := exists rf rp, searched rf rp /\ secure t rf rp = true /\ b = (full_of rf, partial_of rp, cost (full_of rf) (partial_of rp)).
Lemma outer n : forall k b, (k + n <= 500)%nat ->
  exists b', over_full secure enlarge t security_margin (map (fun k => 2 + 2 * Z.of_nat k) (seq k n)) b = Ok b' /\ good (bkey b') (bkey b) /\
    (forall i rp, (k <= i < k + n)%nat -> 4 <= rp < 200 -> secure t (2 + 2 * Z.of_nat i) rp = true -> good (bkey b') (key (2 + 2 * Z.of_nat i) rp)) /\
    (b' = b \/ found b').
Proof.
  induction n as [|n IH]; intros k b Hk.
  - exists b. split; [reflexivity|]. split; [apply good_refl|]. split; [intros; lia|left; reflexivity].
  - cbn [seq map over_full]. destruct (inner 196 0 (2 + 2 * Z.of_nat k) b ltac:(lia) ltac:(lia)) as (b1 & E1 & G1 & A1 & W1).
    unfold partials. rewrite E1. cbn [obind]. destruct (IH (S k) b1 ltac:(lia)) as (b' & E & G & A & W). exists b'. split; [exact E|].
    split; [eapply good_trans; eassumption|]. split.
    + intros i rp Hi Hr SE. destruct (Nat.eq_dec i k) as [->|]; [|apply A; (assumption || lia)].
      eapply good_trans; [exact G|]. specialize (A1 (Z.to_nat (rp - 4)) ltac:(lia)). replace (4 + Z.of_nat (Z.to_nat (rp - 4))) with rp in A1 by lia. apply A1. exact SE.
    + destruct W as [->|W]; [|right; exact W]. destruct W1 as [->|(j & Hj & SE & ->)]; [left; reflexivity|right].
      exists (2 + 2 * Z.of_nat k), (4 + Z.of_nat j). split; [|split; [exact SE|reflexivity]]. split; [|lia].
      replace (2 + 2 * Z.of_nat k) with (0 + 2 * (1 + Z.of_nat k)) by lia. rewrite Z.even_add_mul_2. reflexivity.
Qed.
(** ** C83: the numbers of rounds are those of a secure pair, enlarged, and of the least cost; of those of the same cost, with the fewest full rounds *)
Theorem c83_optimal : (exists rf rp, searched rf rp /\ secure t rf rp = true) ->
  exists rf0 rp0, searched rf0 rp0 /\ secure t rf0 rp0 = true /\
    calc_round_numbers secure enlarge t security_margin = Ok (full_of rf0, partial_of rp0) /\
    forall rf rp, searched rf rp -> secure t rf rp = true ->
      cost (full_of rf0) (partial_of rp0) <= cost (full_of rf) (partial_of rp) /\
      (cost (full_of rf0) (partial_of rp0) = cost (full_of rf) (partial_of rp) -> full_of rf0 <= full_of rf).
Proof.
  intros (rfx & rpx & IX & SX). unfold calc_round_numbers, fulls.
  destruct (outer 500 0 (0, 0, 2 ^ 64 - 1) ltac:(lia)) as (b' & -> & _ & A & W). cbn [obind].
  assert (forall rf rp, searched rf rp -> secure t rf rp = true -> good (bkey b') (key rf rp)) as AA.
  { intros rf rp (EV & Hf & Hr) SE. apply Z.even_spec in EV as [m ->]. specialize (A (Z.to_nat (m - 1)) rp ltac:(lia) Hr).
    replace (2 + 2 * Z.of_nat (Z.to_nat (m - 1))) with (2 * m) in A by lia. apply A. exact SE. }
  destruct W as [->|(rf0 & rp0 & I0 & S0 & ->)].
  - exfalso. specialize (AA rfx rpx IX SX). destruct IX as (_ & Hf & Hr). unfold good, bkey, key, cost in AA. cbn [fst snd] in AA.
    assert (2 <= full_of rfx <= 1394) as [L1 L2] by (unfold full_of; destruct security_margin; lia). pose proof (T1 rpx Hr). assert (t * full_of rfx <= t * 1394) by nia. lia.
  - exists rf0, rp0. split; [exact I0|]. split; [exact S0|]. split; [reflexivity|].
    intros rf rp I S1. specialize (AA rf rp I S1). unfold good, bkey, key in AA. cbn [fst snd] in AA. lia.
Qed.
Theorem c83_none : (forall rf rp, searched rf rp -> secure t rf rp = false) -> calc_round_numbers secure enlarge t security_margin = Ok (0, 0).
Proof.
  intros H. unfold calc_round_numbers, fulls. destruct (outer 500 0 (0, 0, 2 ^ 64 - 1) ltac:(lia)) as (b' & -> & _ & A & W). cbn [obind].
  destruct W as [->|(rf0 & rp0 & I0 & S0 & _)]; [reflexivity|]. rewrite (H _ _ I0) in S0. discriminate S0.
Qed.
End C83.

(** Example: the inequalities in whole numbers, for a state of 3 elements (the binary logarithm of 3 rounded up), of a
    field of 256 bits; the result is that of the paper, and of the test of this code. *)
Definition secure83 (t rf rp : Z) : bool := (6 <=? rf) && (57 <=? rf + rp) && (54 <=? rf + rp) && (35 <=? rp + rf * (t - 1)).
Definition enlarge83 (rp : Z) : Z := (1075 * rp + 999) / 1000.
Example c83_example : (forall x y, 4 <= x -> x <= y -> y < 200 -> enlarge83 x <= enlarge83 y) /\ (0 <= 3) /\
  (forall rp, 4 <= rp < 200 -> 3 * 1394 + partial_of enlarge83 true rp < 2 ^ 64 - 1) /\
  searched 6 51 /\ secure83 3 6 51 = true /\ calc_round_numbers secure83 enlarge83 3 true = Ok (8, 55).
Proof.
  split; [intros x y _ H _; unfold enlarge83; apply Z.div_le_mono; lia|]. split; [lia|].
  split; [intros rp H; cbn [partial_of]; unfold enlarge83; assert ((1075 * rp + 999) / 1000 <= (1075 * 199 + 999) / 1000) as L by (apply Z.div_le_mono; lia);
    change ((1075 * 199 + 999) / 1000) with 214 in L; lia|].
  split; [repeat split; lia|]. split; vm_compute; reflexivity.
Qed.

Print Assumptions c83_optimal.
Print Assumptions c83_none.
Print Assumptions c83_example.

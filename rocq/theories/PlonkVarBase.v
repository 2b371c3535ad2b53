(** PlonkVarBase.v: multiplication of a point of the circuit by a scalar. *)
From Verif Require Import Base Tools KZG SnarkProofs Plonk PlonkSpec PlonkProofs PlonkGadgets PlonkSelect PlonkRange PlonkRows PlonkLogic PlonkPoint PlonkFixed.
Local Open Scope F_scope.

Section PlonkVarBase.
Context {F : Type} {fo : FieldOps F} {fl : FieldLaws F} {po : PrimeFieldOps F} {pl : PrimeFieldLaws F}.
Add Field Fvb : F_th.
Variables ca cd : F.
Implicit Types (c : composer F) (a : nat -> F).
Notation satisfies := (satisfies ca cd).
Notation honest := (honest ca cd).
Notation ext := (ext ca cd).
Notation computes2 := (computes2 ca cd).
Notation add_rel := (add_rel ca cd).
Notation te_add := (te_add ca cd).
Notation on_curve := (on_curve ca cd).
Notation mul_rel := (mul_rel ca cd).
#[local] Opaque add_gate assert_equal arithmetic_gate boolean_gate point_addition_gate conditional_select_zero conditional_select_one add_witness_to_circuit_description.

Ltac glin := unfold g_lin, g_in4; cbn [g_mul g_add g_const g_pi g_out g_fan_in_3 with_mul with_add with_const with_fan_in_3 gate_of fst snd pi_val].

(** *** the bits of the scalar *)
Lemma add_inputs_spec : forall vs c, wf c -> let '(xs, c') := add_inputs vs c in
  xs = seq (nvars c) (length vs) /\ nvars c' = (nvars c + length vs)%nat /\ ext c c' (fun _ => True) /\
  forall i, (i < length vs)%nat -> values c' (nvars c + i) = nth i vs 0.
Proof.
  induction vs as [|v vs IH]; intros c W; cbn [add_inputs].
  - cbn [length seq]. split; auto. split; [lia|]. split; [now apply ext_refl|]. intros; lia.
  - set (c1 := snd (add_input v c)). change (add_input v c) with (nvars c, c1). cbv iota beta.
    pose proof (ext_input ca cd v c W) as E1. fold c1 in E1. pose proof (ext_wf _ _ _ _ _ E1) as W1. specialize (IH c1 W1).
    assert (nvars c1 = S (nvars c)) as N1 by apply add_input_nvars. destruct (add_inputs vs c1) as [xs c2]. destruct IH as [-> [N2 [E2 V]]].
    cbn [length seq]. rewrite N1. split; auto. split; [lia|]. split.
    + eapply ext_iff; [eapply ext_trans; [exact E1|exact E2]|]. cbn. tauto.
    + intros [|i] Hi; cbn [nth].
      * rewrite Nat.add_0_r. rewrite (ext_vals _ _ _ _ _ E2) by lia. unfold c1. now apply input_value.
      * replace (nvars c + S i)%nat with (nvars c1 + i)%nat by lia. apply V. lia.
Qed.
Definition isbit (x : F) : Prop := x = 0 \/ x = 1.
(** the equations of the rows *)
Fixpoint dec_rel (bits : list nat) (power acc n : nat) a : Prop :=
  match bits with
  | [] => True
  | bit :: bits' => isbit (a bit) /\ a n = fpow (from_Z 2) power * a bit + a acc /\ dec_rel bits' (power + 1) n (S n) a
  end.
Definition last_acc (acc n k : nat) : nat := match k with O => acc | S k => (n + k)%nat end.
Lemma decompose_inv : forall bits power acc c out c', wf c -> decompose_rows bits power acc c = Ok (out, c') ->
  out = last_acc acc (nvars c) (length bits) /\ nvars c' = (nvars c + length bits)%nat /\ (acc < nvars c \/ bits = [])%nat /\ (forall b, In b bits -> (b < nvars c + length bits)%nat) /\
  ext c c' (dec_rel bits power acc (nvars c)) /\
  ((forall b, In b bits -> isbit (values c b)) -> (forall b, In b bits -> (b < nvars c)%nat) -> dec_rel bits power acc (nvars c) (values c')).
Proof.
  induction bits as [|bit bits IH]; intros power acc c out c' W H; cbn [decompose_rows] in H.
  - injection H as <- <-. cbn [length last_acc dec_rel]. split; auto. split; [lia|]. split; auto. split; [intros b []|]. split; [now apply ext_refl|auto].
  - apply obind_ok in H. destruct H as [[o1 c1] [E1 H]]. apply obind_ok in H. destruct H as [[acc' c2] [E2 H]].
    apply (boolean_ext ca cd) in E1; auto. destruct E1 as [_ [X1 [N1 L1]]]. pose proof (ext_wf _ _ _ _ _ X1) as W1.
    eapply (arithmetic_ext_none ca cd) in E2; [|exact W1|reflexivity]. destruct E2 as [-> [N2 [X2 [[L2 [L3 _]] V2]]]]. pose proof (ext_wf _ _ _ _ _ X2) as W2.
    apply IH in H; auto. destruct H as [-> [N3 [LA [LB [X3 V3]]]]].
    assert (forall a, g_lin c1 (with_add (fpow (from_Z 2) power) 1 (gate_of bit acc None)) bit acc a = fpow (from_Z 2) power * a bit + a acc) as EG.
    { intros a. glin. ring. }
    cbn [length]. split; [cbn [last_acc]; destruct bits; cbn [length last_acc]; lia|]. split; [lia|]. split; [left; lia|]. split.
    { intros b [<-|Hb]; [lia|]. apply LB in Hb. lia. }
    assert (ext c c' (dec_rel (bit :: bits) power acc (nvars c))) as XX.
    { eapply ext_iff; [eapply ext_trans; [exact X1|eapply ext_trans; [exact X2|exact X3]]|].
      intros a. cbn [dec_rel g_out with_add gate_of]. rewrite EG. cbn [g_out gate_of]. rewrite N2, N1. unfold isbit.
      set (A := fpow (from_Z 2) power * a bit + a acc).
      assert (A + - (1) * a (nvars c) = 0 <-> a (nvars c) = A) as ->; [|tauto]. split; intros K; [|rewrite K; ring].
      transitivity (A - (A + - (1) * a (nvars c))); [ring|rewrite K; ring]. }
    split; [exact XX|].
    intros HB HL. cbn [dec_rel]. rewrite (ext_vals _ _ _ _ _ X3), (ext_vals _ _ _ _ _ X2), (ext_vals _ _ _ _ _ X1) by lia. split; [apply HB; now left|]. split.
    + rewrite (ext_vals _ _ _ _ _ X3) by lia. rewrite <- N1. rewrite V2, EG. cbn [g_out with_add gate_of].
      rewrite (ext_vals _ _ _ _ _ X1) by lia. rewrite !(ext_vals _ _ _ _ _ X3), !(ext_vals _ _ _ _ _ X2), !(ext_vals _ _ _ _ _ X1) by lia. ring.
    + rewrite <- N1. replace (S (nvars c1)) with (nvars c2) by lia. apply V3.
      * intros b Hb. assert (b < nvars c)%nat by (apply HL; now right). rewrite (ext_vals _ _ _ _ _ X2), (ext_vals _ _ _ _ _ X1) by lia. apply HB. now right.
      * intros b Hb. assert (b < nvars c)%nat by (apply HL; now right). lia.
Qed.

Fixpoint bval (bl : list bool) : Z := match bl with [] => 0 | b :: bl => bit_Z b + 2 * bval bl end%Z.
Lemma bval_range bl : (0 <= bval bl < 2 ^ Z.of_nat (length bl))%Z.
Proof.
  induction bl as [|b bl IH]; [cbn; lia|]. cbn [length bval]. rewrite Nat2Z.inj_succ, Z.pow_succ_r by lia. destruct b; cbn [bit_Z]; lia.
Qed.
Lemma zbits_S nb z : zbits (S nb) z = Z.odd z :: zbits nb (z / 2).
Proof.
  unfold zbits. cbn [seq map]. rewrite <- seq_shift, map_map. f_equal. apply map_ext. intros i.
  rewrite Nat2Z.inj_succ. rewrite <- Z.div2_div, Z.div2_spec, Z.shiftr_spec by lia. f_equal.
Qed.
Lemma zbits_length nb z : length (zbits nb z) = nb.
Proof. unfold zbits. now rewrite map_length, seq_length. Qed.
Lemma bval_zbits nb : forall z, (0 <= z < 2 ^ Z.of_nat nb)%Z -> bval (zbits nb z) = z.
Proof.
  induction nb as [|nb IH]; intros z H; [cbn in *; lia|]. rewrite zbits_S. cbn [bval]. rewrite Nat2Z.inj_succ, Z.pow_succ_r in H by lia.
  rewrite IH; [|split; [apply Z.div_pos; lia|apply Z.div_lt_upper_bound; lia]].
  pose proof (Z.div_mod z 2 ltac:(lia)) as D. rewrite Zmod_odd in D. destruct (Z.odd z); cbn [bit_Z]; lia.
Qed.
Lemma zbits_bval bl : zbits (length bl) (bval bl) = bl.
Proof.
  induction bl as [|b bl IH]; [reflexivity|]. cbn [length]. rewrite zbits_S. cbn [bval]. f_equal.
  - rewrite Z.odd_add_mul_2. now destruct b.
  - replace ((bit_Z b + 2 * bval bl) / 2)%Z with (bval bl); [exact IH|]. rewrite Z.mul_comm, Z.div_add by lia. destruct b; cbn; lia.
Qed.
Definition fbit (b : bool) : F := from_Z (bit_Z b).
Lemma isbit_b x : isbit x <-> exists b, x = fbit b.
Proof.
  unfold isbit, fbit. split.
  - intros [-> | ->]; [exists false|exists true]; cbn; [now rewrite from_Z_0|now rewrite from_Z_1].
  - intros [[|] ->]; cbn; [right; apply from_Z_1|left; apply from_Z_0].
Qed.
Lemma dec_sound : forall bits power acc n a, dec_rel bits power acc n a -> exists bl, map a bits = map fbit bl /\
  a (last_acc acc n (length bits)) = a acc + fpow (from_Z 2) power * from_Z (bval bl).
Proof.
  induction bits as [|bit bits IH]; intros power acc n a H; cbn [dec_rel] in H.
  - exists []. cbn. rewrite from_Z_0. split; [auto|ring].
  - destruct H as [B [E H]]. apply isbit_b in B. destruct B as [b B]. apply IH in H. destruct H as [bl [M V]].
    exists (b :: bl). cbn [map length]. split; [congruence|].
    assert (last_acc acc n (S (length bits)) = last_acc n (S n) (length bits)) as -> by (cbn [last_acc]; destruct (length bits); cbn [last_acc]; lia).
    rewrite V, E, B. cbn [bval]. unfold fbit. rewrite !from_Z_add, from_Z_mul. rewrite Nat.add_1_r. cbn [fpow]. ring.
Qed.
Lemma dec_ext : forall bits power acc n a a', (acc < n)%nat -> (forall b, In b bits -> (b < n)%nat) -> same_upto (n + length bits) a a' -> dec_rel bits power acc n a -> dec_rel bits power acc n a'.
Proof.
  induction bits as [|bit bits IH]; intros power acc n a a' LA LB S1 H; cbn [dec_rel] in *; auto.
  cbn [length] in S1. assert (bit < n)%nat by (apply LB; now left). rewrite !S1 by lia. destruct H as [H1 [H2 H3]]. split; auto. split; auto.
  apply (IH _ _ _ a a'); auto; try lia.
  - intros b Hb. assert (b < n)%nat by (apply LB; now right). lia.
  - intros v Hv. apply S1. lia.
Qed.
Lemma dec_complete : forall bits power acc n a, (acc < n)%nat -> (forall b, In b bits -> (b < n)%nat) -> (forall b, In b bits -> isbit (a b)) ->
  exists a', same_upto n a a' /\ dec_rel bits power acc n a'.
Proof.
  induction bits as [|bit bits IH]; intros power acc n a LA LB HB.
  - exists a. split; [apply same_upto_refl|exact I].
  - assert (bit < n)%nat as LBit by (apply LB; now left).
    set (a1 := ins n [fpow (from_Z 2) power * a bit + a acc] a).
    destruct (IH (power + 1)%nat n (S n) a1) as [a' [S1 D]]; [lia|intros b Hb; assert (b < n)%nat by (apply LB; now right); lia| |].
    + intros b Hb. unfold a1. rewrite ins_old by (apply LB; now right). apply HB. now right.
    + assert (same_upto n a a') as S2. { apply (same_upto_trans _ _ a1); [apply ins_same|]. apply (same_upto_le _ (S n)); [lia|exact S1]. }
      exists a'. split; [exact S2|]. cbn [dec_rel]. rewrite !S2 by auto. split; [apply HB; now left|]. split; [|exact D].
      rewrite (S2 acc) by auto. rewrite S1 by lia. unfold a1. rewrite ins_new0. reflexivity.
Qed.
Lemma decomposition_inv size w x c bits c' : wf c -> (w < nvars c)%nat -> scalar_decomposition size w x c = Ok (bits, c') ->
  let nb := modulus_bits (F:=F) in let n := nvars c in
  (nb <= size)%nat /\ bits = seq n nb /\ nvars c' = (n + size + nb)%nat /\
  ext c c' (fun a => dec_rel (seq n nb) 0 (c_zero c) (n + size) a /\ a (n + size + nb - 1)%nat = a w) /\
  dec_rel (seq n nb) 0 (c_zero c) (n + size) (values c') /\ forall i, (i < size)%nat -> values c' (n + i) = fbit (Z.testbit (to_Z x) (Z.of_nat i)).
Proof.
  intros W LW H nb n. unfold scalar_decomposition in H.
  pose proof (add_inputs_spec (map (fun b => from_Z (bit_Z b)) (to_bits_le size x)) c W) as AI. destruct (add_inputs _ c) as [all c1].
  destruct AI as [-> [N1 [E1 V1]]]. pose proof (ext_wf _ _ _ _ _ E1) as W1.
  assert (length (map (fun b => from_Z (bit_Z b)) (to_bits_le size x)) = size) as LS by (unfold to_bits_le; now rewrite !map_length, seq_length).
  rewrite LS in *. fold nb n in H. apply obind_ok in H. destruct H as [[] [EA H]]. unfold assert_ in EA. rewrite seq_length in EA.
  destruct (Nat.leb_spec nb size) as [LN|]; [|discriminate]. clear EA.
  assert (firstn nb (seq n size) = seq n nb) as EF. { replace size with (nb + (size - nb))%nat by lia. rewrite seq_app, firstn_app, seq_length, Nat.sub_diag. cbn. rewrite app_nil_r. now rewrite <- (seq_length nb n) at 1; rewrite firstn_all. }
  rewrite EF in H. apply obind_ok in H. destruct H as [[acc c2] [E2 H]]. apply obind_ok in H. destruct H as [c3 [E3 H]]. injection H as <- <-.
  apply decompose_inv in E2; auto. destruct E2 as [-> [N2 [_ [_ [E2 D]]]]]. rewrite seq_length in N2. pose proof (ext_wf _ _ _ _ _ E2) as W2.
  apply (assert_equal_ext ca cd) in E3; auto. destruct E3 as [E3 [N3 _]]. rewrite seq_length in E3.
  pose proof bits_pos as BP. fold nb in BP. pose proof (ext_zero _ _ _ _ _ E1) as Z1. fold n in N1. rewrite Z1, N1 in *.
  assert (last_acc (c_zero c) (n + size) nb = n + size + nb - 1)%nat as EL by (destruct nb; cbn [last_acc]; lia). rewrite EL in E3.
  split; [exact LN|]. split; [reflexivity|]. split; [lia|]. split.
  - eapply ext_iff; [eapply ext_trans; [exact E1|eapply ext_trans; [exact E2|exact E3]]|]. cbn. tauto.
  - assert (forall i, (i < size)%nat -> values c1 (n + i) = fbit (Z.testbit (to_Z x) (Z.of_nat i))) as V1'.
    { intros i Hi. unfold n. rewrite V1 by auto. rewrite (nth_indep _ 0 (fbit false)) by (rewrite LS; auto). unfold fbit. rewrite (map_nth (fun b => from_Z (bit_Z b))). do 2 f_equal.
      unfold to_bits_le. now rewrite nth_map_seq by auto. }
    split.
    + assert (dec_rel (seq n nb) 0 (c_zero c) (n + size) (values c2)) as D2.
      { apply D.
        - intros b Hb. apply in_seq in Hb. apply isbit_b. exists (Z.testbit (to_Z x) (Z.of_nat (b - n))). rewrite <- V1' by lia. f_equal. lia.
        - intros b Hb. apply in_seq in Hb. lia. }
      apply (dec_ext _ _ _ _ (values c2)); [pose proof (wf_zero _ W); lia| | |exact D2].
      * intros b Hb. apply in_seq in Hb. lia.
      * intros v Hv. rewrite seq_length in Hv. apply (ext_vals _ _ _ _ _ E3). lia.
    + intros i Hi. rewrite (ext_vals _ _ _ _ _ E3), (ext_vals _ _ _ _ _ E2) by lia. now apply V1'.
Qed.

(** *** doubling and adding *)
(** the equations of the rows: eight new variables for each bit *)
Fixpoint dbl_rel (bits : list nat) (p res : nat * nat) (n : nat) a : Prop :=
  match bits with
  | [] => True
  | bit :: bits => (a n = a (fst res) * a (snd res) /\ add_rel (pnt res a) (pnt res a) (pnt (n + 1, n + 2)%nat a)) /\
      a (n + 3)%nat = a bit * a (fst p) /\ a (n + 4)%nat = a bit * a (snd p) + (1 - a bit) /\
      (a (n + 5)%nat = a (n + 1)%nat * a (n + 4)%nat /\ add_rel (pnt (n + 1, n + 2)%nat a) (pnt (n + 3, n + 4)%nat a) (pnt (n + 6, n + 7)%nat a)) /\
      dbl_rel bits p (n + 6, n + 7)%nat (n + 8) a
  end.
Definition last_pt (res : nat * nat) (n k : nat) : nat * nat := match k with O => res | S k => (n + 8 * k + 6, n + 8 * k + 7)%nat end.
Lemma last_pt_S res n k : last_pt res n (S k) = last_pt (n + 6, n + 7)%nat (n + 8) k.
Proof. destruct k; cbn [last_pt]; f_equal; lia. Qed.
Lemma dbl_sound : forall bits p res n a bl, map a bits = map fbit bl -> dbl_rel bits p res n a ->
  mul_rel bl (pnt p a) (pnt res a) (pnt (last_pt res n (length bits)) a).
Proof.
  induction bits as [|bit bits IH]; intros p res n a [|b bl] M H; cbn [map] in M; try discriminate.
  - reflexivity.
  - injection M as Mb M. cbn [dbl_rel] in H. destruct H as [[_ A1] [E3 [E4 [[_ A2] H]]]]. apply (IH _ _ _ _ _ M) in H.
    cbn [length]. rewrite last_pt_S. cbn [mul_rel]. exists (pnt (n + 1, n + 2)%nat a), (pnt (n + 6, n + 7)%nat a). split; [exact A1|]. split; [|exact H].
    replace (if b then pnt p a else (0, 1)) with (pnt (n + 3, n + 4)%nat a); [exact A2|]. unfold pnt. cbn [fst snd]. rewrite E3, E4, Mb. unfold fbit.
    destruct b; cbn [bit_Z]; rewrite ?from_Z_1, ?from_Z_0; f_equal; ring.
Qed.
Lemma pnt_same n p a a' : below_pt p n -> same_upto n a a' -> pnt p a' = pnt p a.
Proof. intros [H1 H2] S1. unfold pnt. now rewrite !S1 by auto. Qed.
Lemma dbl_complete : forall bits p res n a bl r, (forall b, In b bits -> (b < n)%nat) -> below_pt p n -> below_pt res n ->
  map a bits = map fbit bl -> mul_rel bl (pnt p a) (pnt res a) r ->
  exists a', same_upto n a a' /\ dbl_rel bits p res n a' /\ pnt (last_pt res n (length bits)) a' = r.
Proof.
  induction bits as [|bit bits IH]; intros p res n a [|b bl] r LB LP LR M H; cbn [map] in M; try discriminate.
  - exists a. split; [apply same_upto_refl|]. split; [exact I|]. cbn in H. now subst.
  - injection M as Mb M. cbn [mul_rel] in H. destruct H as [r1 [r2 [A1 [A2 H]]]].
    assert (bit < n)%nat as Lb by (apply LB; now left).
    set (q := if b then pnt p a else (0, 1)) in *.
    set (a1 := ins n [a (fst res) * a (snd res); fst r1; snd r1; fst q; snd q; fst r1 * snd q; fst r2; snd r2] a).
    assert (same_upto n a a1) as S1 by apply ins_same.
    assert (forall v, In v bits -> a1 v = a v) as Sb by (intros v Hv; apply S1; apply LB; now right).
    assert (forall i x, nth_error [a (fst res) * a (snd res); fst r1; snd r1; fst q; snd q; fst r1 * snd q; fst r2; snd r2] i = Some x -> a1 (n + i)%nat = x) as HV.
    { intros i x Hx. unfold a1. rewrite ins_new. now apply nth_error_nth. }
    destruct (IH p (n + 6, n + 7)%nat (n + 8)%nat a1 bl r) as [a' [S2 [D E]]].
    + intros v Hv. assert (v < n)%nat by (apply LB; now right). lia.
    + destruct LP. split; lia.
    + split; cbn; lia.
    + rewrite <- M. apply map_ext_in. exact Sb.
    + replace (pnt (n + 6, n + 7)%nat a1) with r2. 2:{ unfold pnt. cbn [fst snd]. rewrite (HV 6%nat (fst r2)), (HV 7%nat (snd r2)) by reflexivity. now destruct r2. }
      rewrite (pnt_same n p a a1) by auto. exact H.
    + assert (same_upto n a a') as S3. { apply (same_upto_trans _ _ a1); auto. apply (same_upto_le _ (n + 8)); [lia|auto]. }
      exists a'. split; [exact S3|]. split; [|cbn [length]; rewrite last_pt_S; exact E].
      cbn [dbl_rel]. assert (forall i x, (i < 8)%nat -> nth_error [a (fst res) * a (snd res); fst r1; snd r1; fst q; snd q; fst r1 * snd q; fst r2; snd r2] i = Some x -> a' (n + i)%nat = x) as HV'.
      { intros i x Hi Hx. rewrite S2 by lia. now apply HV. }
      assert (pnt (n + 1, n + 2)%nat a' = r1) as P1. { unfold pnt. cbn [fst snd]. rewrite (HV' 1%nat (fst r1)), (HV' 2%nat (snd r1)) by (reflexivity || lia). now destruct r1. }
      assert (pnt (n + 3, n + 4)%nat a' = q) as P2. { unfold pnt. cbn [fst snd]. rewrite (HV' 3%nat (fst q)), (HV' 4%nat (snd q)) by (reflexivity || lia). now destruct q. }
      assert (pnt (n + 6, n + 7)%nat a' = r2) as P3. { unfold pnt. cbn [fst snd]. rewrite (HV' 6%nat (fst r2)), (HV' 7%nat (snd r2)) by (reflexivity || lia). now destruct r2. }
      rewrite P1, P2, P3, (pnt_same n res a a') by auto. destruct LP as [LP1 LP2], LR as [LR1 LR2].
      pose proof (HV' 0%nat _ ltac:(lia) eq_refl) as V0. rewrite Nat.add_0_r in V0.
      rewrite V0, (HV' 1%nat (fst r1)), (HV' 3%nat (fst q)), (HV' 4%nat (snd q)), (HV' 5%nat (fst r1 * snd q)) by (reflexivity || lia). rewrite !S3 by auto.
      split; [split; [reflexivity|exact A1]|]. split; [|split; [|split; [split; [reflexivity|exact A2]|exact D]]].
      * rewrite Mb. unfold q, fbit. destruct b; cbn [bit_Z pnt fst snd]; rewrite ?from_Z_1, ?from_Z_0; ring.
      * rewrite Mb. unfold q, fbit. destruct b; cbn [bit_Z pnt fst snd]; rewrite ?from_Z_1, ?from_Z_0; ring.
Qed.
Lemma double_and_add_inv chk : forall bits p res c out c', wf c -> below_pt p (nvars c) -> (forall b, In b bits -> (b < nvars c)%nat) ->
  double_and_add ca cd chk bits p res c = Ok (out, c') ->
  out = last_pt res (nvars c) (length bits) /\ nvars c' = (nvars c + 8 * length bits)%nat /\ (below_pt res (nvars c) \/ bits = []) /\
  ext c c' (dbl_rel bits p res (nvars c)) /\
  ((1 + 1 : F) <> 0 -> complete_curve ca cd -> honest c -> on_curve (pnt p (values c)) -> on_curve (pnt res (values c)) ->
    (forall b, In b bits -> isbit (values c b)) -> honest c').
Proof.
  induction bits as [|bit bits IH]; intros p [rx ry] c out c' W BP BB H; cbn [double_and_add] in H.
  - injection H as <- <-. cbn [length last_pt dbl_rel]. split; auto. split; [lia|]. split; auto. split; [now apply ext_refl|auto].
  - assert (bit < nvars c)%nat as Lbit by (apply BB; now left).
    assert (forall b, In b bits -> (b < nvars c)%nat) as BB' by (intros b Hb; apply BB; now right).
    apply obind_ok in H. destruct H as [[[x1 y1] c1] [E1 H]]. apply obind_ok in H. destruct H as [[[qx qy] c2] [E2 H]]. apply obind_ok in H. destruct H as [[[x2 y2] c3] [E3 H]].
    apply (point_addition_inv ca cd) in E1; auto. cbv zeta in E1. destruct E1 as [[L1 [L2 _]] [N1 [-> [-> [_ [_ [X1 [V1a [V1b V1c]]]]]]]]].
    pose proof (ext_wf _ _ _ _ _ X1) as W1. unfold conditional_select_identity in E2.
    apply obind_ok in E2. destruct E2 as [[qx' d1] [E2a E2]]. apply obind_ok in E2. destruct E2 as [[qy' d2] [E2b E2]]. injection E2 as -> -> ->.
    apply (cond_zero_defines ca cd) in E2a; auto. destruct E2a as [D1 [L3 L4]]. pose proof (def_ext _ _ _ _ _ _ D1) as X2. pose proof (ext_wf _ _ _ _ _ X2) as W2.
    apply (cond_one_defines ca cd) in E2b; auto. destruct E2b as [D2 [L5 L6]]. pose proof (def_ext _ _ _ _ _ _ D2) as X3. pose proof (ext_wf _ _ _ _ _ X3) as W3.
    pose proof (def_n _ _ _ _ _ _ D1) as N2. pose proof (def_n _ _ _ _ _ _ D2) as N3. pose proof (def_o _ _ _ _ _ _ D1) as O2. pose proof (def_o _ _ _ _ _ _ D2) as O3. subst qx qy.
    apply (point_addition_inv ca cd) in E3; auto. cbv zeta in E3. destruct E3 as [_ [N4 [-> [-> [_ [_ [X4 [V4a [V4b V4c]]]]]]]]]. pose proof (ext_wf _ _ _ _ _ X4) as W4.
    set (n := nvars c) in *. assert (nvars d1 = n + 4)%nat as M2 by lia. assert (nvars c2 = n + 5)%nat as M3 by lia. assert (nvars c3 = n + 8)%nat as M4 by lia.
    destruct BP as [BP1 BP2].
    apply IH in H; auto; [|split; lia|intros b Hb; apply BB' in Hb; lia]. destruct H as [-> [N5 [LR [X5 HC]]]].
    clear N2 N3 N4. rewrite ?M4, ?M3, ?M2, ?N1 in *.
    replace (n + 5 + 1)%nat with (n + 6)%nat in * by lia. replace (n + 5 + 2)%nat with (n + 7)%nat in * by lia.
    cbn [length]. rewrite last_pt_S. split; [reflexivity|]. split; [lia|]. split; [left; split; auto|]. 
    pose proof (def_val _ _ _ _ _ _ D1) as VD1. pose proof (def_val _ _ _ _ _ _ D2) as VD2. cbv beta in VD1, VD2.
    split.
    + eapply ext_iff; [eapply ext_trans; [exact X1|]; eapply ext_trans; [exact X2|]; eapply ext_trans; [exact X3|]; eapply ext_trans; [exact X4|exact X5]|].
      intros a. cbn [dbl_rel]. unfold pnt. cbn [fst snd]. tauto.
    + intros T C HH CP CR HB. assert (isbit (values c bit)) as IB by (apply HB; now left).
      set (r1 := te_add (values c rx, values c ry) (values c rx, values c ry)) in *.
      change (pnt (rx, ry) (values c)) with (values c rx, values c ry) in CR.
      assert (on_curve r1) as C1 by (apply te_add_on_curve; auto).
      assert (values c1 (n + 1) = fst r1 /\ values c1 (n + 2) = snd r1) as [R1 R2] by auto.
      assert (honest c1) as H1.
      { apply (honest_ext ca cd _ _ _ W X1). split; auto. rewrite V1a, R1, R2. rewrite !(ext_vals _ _ _ _ _ X1) by auto. split; auto.
        rewrite <- surjective_pairing. apply te_add_rel; auto. }
      assert (honest d1) as H2 by (apply (defines_honest ca cd _ _ _ _ W1 D1); auto).
      assert (honest c2) as H3 by (apply (defines_honest ca cd _ _ _ _ W2 D2); auto).
      specialize (VD1 H1). specialize (VD2 H2).
      assert (forall v, (v < n)%nat -> values c1 v = values c v) as O1 by (intros v Hv; apply (ext_vals _ _ _ _ _ X1); lia).
      assert (forall v, (v < n + 3)%nat -> values d1 v = values c1 v) as O2 by (intros v Hv; apply (ext_vals _ _ _ _ _ X2); lia).
      assert (forall v, (v < n + 4)%nat -> values c2 v = values d1 v) as O3 by (intros v Hv; apply (ext_vals _ _ _ _ _ X3); lia).
      assert (forall v, (v < n + 5)%nat -> values c3 v = values c2 v) as O4 by (intros v Hv; apply (ext_vals _ _ _ _ _ X4); lia).
      assert ((values c2 (n + 1), values c2 (n + 2)) = r1) as P1.
      { rewrite (O3 (n + 1)%nat), (O3 (n + 2)%nat), (O2 (n + 1)%nat), (O2 (n + 2)%nat), R1, R2 by lia. symmetry. apply surjective_pairing. }
      assert (on_curve (values c2 (n + 3), values c2 (n + 4))) as CQ.
      { rewrite (O3 (n + 3)%nat) by lia. rewrite VD1, VD2. rewrite (O3 bit), (O3 (snd p)), (O2 bit), (O2 (fst p)), (O2 (snd p)), (O1 bit), (O1 (fst p)), (O1 (snd p)) by lia.
        destruct IB as [-> | ->].
        - match goal with |- PlonkSpec.on_curve _ _ (?u, ?v) => replace u with (0 : F) by ring; replace v with (1 : F) by ring end. apply zero_on_curve.
        - match goal with |- PlonkSpec.on_curve _ _ (?u, ?v) => replace u with (values c (fst p)) by ring; replace v with (values c (snd p)) by ring end. exact CP. }
      rewrite P1 in V4b, V4c. set (q := (values c2 (n + 3), values c2 (n + 4))) in *.
      assert (on_curve (te_add r1 q)) as C2 by (apply te_add_on_curve; auto).
      apply HC; auto.
      * apply (honest_ext ca cd _ _ _ W3 X4). split; auto. rewrite V4a, V4b, V4c. rewrite (O4 (n + 1)%nat), (O4 (n + 2)%nat), (O4 (n + 3)%nat), (O4 (n + 4)%nat) by lia. split; auto.
        rewrite P1. fold q. rewrite <- surjective_pairing. apply te_add_rel; auto.
      * unfold pnt in *. rewrite (O4 (fst p)), (O4 (snd p)), (O3 (fst p)), (O3 (snd p)), (O2 (fst p)), (O2 (snd p)), (O1 (fst p)), (O1 (snd p)) by lia. exact CP.
      * unfold pnt. cbn [fst snd]. rewrite V4b, V4c, <- surjective_pairing. exact C2.
      * intros b Hb. pose proof (BB' b Hb). rewrite O4, O3, O2, O1 by lia. apply HB. now right.
Qed.

(** *** the whole gadget *)
Lemma var_base_inv size chk w p c out c' : wf c -> below_pt p (nvars c) -> variable_base_scalar_mul size ca cd chk w p c = Ok (out, c') ->
  let nb := modulus_bits (F:=F) in let n := nvars c in let m := (n + size + nb)%nat in
  (w < n)%nat /\ (nb <= size)%nat /\ out = last_pt (c_zero c, m) (S m) nb /\
  ext c c' (fun a => (dec_rel (seq n nb) 0 (c_zero c) (n + size) a /\ a (m - 1)%nat = a w) /\ a m = 1 /\ dbl_rel (rev (seq n nb)) p (c_zero c, m) (S m) a) /\
  ((1 + 1 : F) <> 0 -> (modulus (F:=F) <= 2 ^ Z.of_nat size)%Z -> complete_curve ca cd -> honest c -> on_curve (pnt p (values c)) -> honest c').
Proof.
  intros W BP H nb n m. unfold variable_base_scalar_mul in H. apply obind_ok in H. destruct H as [x [EV H]]. apply value_inv in EV; auto. destruct EV as [LW ->].
  apply obind_ok in H. destruct H as [[bits c1] [E1 H]]. apply obind_ok in H. destruct H as [[[z one] c2] [E2 H]].
  apply decomposition_inv in E1; auto. cbv zeta in E1. fold nb n in E1. destruct E1 as [LN [-> [N1 [X1 [D1 V1]]]]]. pose proof (ext_wf _ _ _ _ _ X1) as W1.
  unfold point_identity in E2. apply obind_ok in E2. destruct E2 as [[one' c2'] [E2 E2']]. injection E2' as <- <- <-.
  apply (witness_ext ca cd) in E2; auto. destruct E2 as [-> [N2 [X2 V2]]]. pose proof (ext_wf _ _ _ _ _ X2) as W2.
  pose proof (ext_zero _ _ _ _ _ X1) as Z1. pose proof (ext_zero _ _ _ _ _ X2) as Z2. destruct BP as [BP1 BP2]. pose proof (wf_zero _ W) as LZ.
  apply double_and_add_inv in H; auto; [|split; fold n; lia|intros b Hb; apply in_rev in Hb; apply in_seq in Hb; lia].
  destruct H as [-> [N3 [_ [X3 HC]]]]. rewrite rev_length, seq_length in *. fold m in N1. rewrite ?N2, ?N1, ?Z2, ?Z1 in *.
  split; [exact LW|]. split; [exact LN|]. split; [reflexivity|]. split.
  - eapply ext_iff; [eapply ext_trans; [exact X1|eapply ext_trans; [exact X2|exact X3]]|]. intros a. cbv beta. reflexivity.
  - intros T HS C HH CP. pose proof (to_Z_range (values c w)) as TR.
    assert (forall v, (v < n)%nat -> values c2' v = values c v) as O by (intros v Hv; rewrite (ext_vals _ _ _ _ _ X2), (ext_vals _ _ _ _ _ X1) by lia; reflexivity).
    assert (forall i, (i < nb)%nat -> values c1 (n + i) = fbit (Z.testbit (to_Z (values c w)) (Z.of_nat i))) as V1' by (intros i Hi; apply V1; lia).
    assert (honest c1) as H1.
    { apply (honest_ext ca cd _ _ _ W X1). split; auto. split; auto. destruct (dec_sound _ _ _ _ _ D1) as [bl [M E]].
      assert (bl = zbits nb (to_Z (values c w))) as Ebl.
      { assert (length bl = nb) as Lbl by (rewrite <- (map_length fbit), <- M, map_length, seq_length; reflexivity).
        assert (forall b b', fbit b = fbit b' -> b = b') as FI.
        { intros [|] [|]; unfold fbit; cbn [bit_Z]; rewrite ?from_Z_0, ?from_Z_1; intros Q; auto; exfalso; apply (f1_neq_0 (F:=F)); auto. }
        apply (list_eq_nth _ _ _ false); [now rewrite zbits_length|]. intros i Hi. apply FI. unfold zbits. rewrite nth_map_seq by lia.
        rewrite Nat.add_0_l. rewrite <- V1' by lia.
        rewrite <- (map_nth fbit). rewrite (nth_indep _ (fbit false) 0) by (rewrite map_length; lia). rewrite <- M.
        rewrite (nth_indep _ 0 (values c1 0%nat)) by (rewrite map_length, seq_length; lia). rewrite (map_nth (values c1)). rewrite seq_nth by lia. reflexivity. }
      rewrite seq_length in E. replace (last_acc (c_zero c) (n + size) nb) with (m - 1)%nat in E. 2:{ pose proof bits_pos. unfold m. destruct nb as [|k] eqn:Enb; [unfold nb in Enb; lia|]. cbn [last_acc]. lia. }
      fold m. rewrite E, Ebl. rewrite bval_zbits. 2:{ split; [lia|]. pose proof bits_modulus as BM. fold nb in BM. lia. }
      rewrite (ext_vals _ _ _ _ _ X1) by auto. rewrite (honest_zero ca cd c) by auto. rewrite from_to_Z. rewrite (ext_vals _ _ _ _ _ X1) by auto. cbn [fpow]. ring. }
    apply HC; auto.
    + apply (honest_ext ca cd _ _ _ W1 X2). split; auto.
    + unfold pnt. rewrite !O by auto. exact CP.
    + unfold pnt. cbn [fst snd]. rewrite O by auto. rewrite (honest_zero ca cd) by auto. rewrite V2. apply zero_on_curve.
    + intros b Hb. apply in_rev in Hb. apply in_seq in Hb. apply isbit_b. exists (Z.testbit (to_Z (values c w)) (Z.of_nat (b - n))).
      rewrite <- V1' by lia. rewrite (ext_vals _ _ _ _ _ X2) by lia. f_equal. lia.
Qed.
(** the scalar enters as an integer that is only determined modulo the characteristic *)
Definition var_scalar (k : Z) (p r : F * F) : Prop := let nb := modulus_bits (F:=F) in
  (0 <= k < 2 ^ Z.of_nat nb)%Z /\ mul_rel (rev (zbits nb k)) p (0, 1) r.
Theorem var_base_computes size chk w p c out c' : wf c -> below_pt p (nvars c) -> variable_base_scalar_mul size ca cd chk w p c = Ok (out, c') ->
  computes2 c c' out (fun a x y => exists k, from_Z k = a w /\ var_scalar k (pnt p a) (x, y)).
Proof.
  intros W BP H. apply var_base_inv in H; auto. cbv zeta in H. set (nb := modulus_bits (F:=F)) in *. set (n := nvars c) in *. set (m := (n + size + nb)%nat) in *.
  destruct H as [LW [LN [EO [E _]]]]. pose proof (wf_zero _ W) as LZ. fold n in LZ.
  assert (2 <= nb)%nat as NB by apply bits_pos.
  assert (last_acc (c_zero c) (n + size) nb = m - 1)%nat as EL by (unfold m; destruct nb; cbn [last_acc]; lia).
  intros a x y. unfold var_scalar. fold nb. split.
  - intros [a' [S1 [X [Y K]]]]. apply (ext_sat _ _ _ _ _ E) in K. destruct K as [K [[D A1] [A2 A3]]].
    assert (satisfies c a) as K' by (apply (satisfies_same ca cd _ _ _ W S1); exact K). split; [exact K'|].
    pose proof (satisfies_zero ca cd _ _ W K) as Z. destruct (dec_sound _ _ _ _ _ D) as [bl [M V]].
    assert (length bl = nb) as Lbl by (rewrite <- (map_length fbit), <- M, map_length, seq_length; reflexivity).
    rewrite seq_length, EL, A1, Z in V. exists (bval bl). split; [rewrite <- S1, V by exact LW; cbn [fpow]; ring|].
    rewrite <- Lbl at 1. split; [apply bval_range|]. rewrite <- Lbl, zbits_bval.
    apply (dbl_sound _ _ _ _ _ (rev bl)) in A3; [|rewrite !map_rev; congruence]. rewrite rev_length, seq_length, <- EO in A3.
    rewrite (pnt_same n p a a') in A3 by auto. replace (pnt (c_zero c, m) a') with (0 : F, 1 : F) in A3 by (unfold pnt; cbn [fst snd]; rewrite Z, A2; reflexivity).
    unfold pnt in A3 at 2. rewrite X, Y in A3. exact A3.
  - intros [K [k [Ek [Bk MR]]]]. pose proof (satisfies_zero ca cd _ _ W K) as Z. set (bl := zbits nb k) in *.
    assert (length bl = nb) as Lbl by apply zbits_length.
    set (a1 := ins n (map fbit bl ++ repeat 0 (size - nb)) a).
    assert (same_upto n a a1) as S1 by apply ins_same.
    assert (map a1 (seq n nb) = map fbit bl) as M1.
    { apply (list_eq_nth _ _ _ 0); [now rewrite !map_length, seq_length|]. rewrite map_length, seq_length. intros i Hi. rewrite nth_map_seq by auto. unfold a1. rewrite ins_new.
      rewrite app_nth1 by (rewrite map_length; lia). reflexivity. }
    assert (forall b, In b (seq n nb) -> isbit (a1 b)) as B1.
    { intros b Hb. apply (in_map a1) in Hb. rewrite M1 in Hb. apply in_map_iff in Hb. destruct Hb as [b' [Hb' _]]. apply isbit_b. exists b'. congruence. }
    destruct (dec_complete (seq n nb) 0 (c_zero c) (n + size) a1) as [a2 [S2 D2]]; auto; [lia|intros b Hb; apply in_seq in Hb; lia|].
    assert (a2 (m - 1)%nat = a1 w) as A2.
    { destruct (dec_sound _ _ _ _ _ D2) as [bl2 [M2 V2]]. assert (map a2 (seq n nb) = map fbit bl) as M2'.
      { rewrite <- M1. apply map_ext_in. intros b Hb. apply in_seq in Hb. apply S2. lia. }
      assert (bl2 = bl) as ->.
      { assert (forall b b', fbit b = fbit b' -> b = b') as FI.
        { intros [|] [|]; unfold fbit; cbn [bit_Z]; rewrite ?from_Z_0, ?from_Z_1; intros Q; auto; exfalso; apply (f1_neq_0 (F:=F)); auto. }
        rewrite M2' in M2. clear - M2 FI. revert bl2 M2. induction bl as [|b bl IH]; intros [|b2 bl2] M2; cbn [map] in M2; try discriminate; auto.
        injection M2 as E1 E2. f_equal; [symmetry; now apply FI|symmetry; symmetry; now apply IH]. }
      rewrite seq_length, EL in V2. rewrite V2. unfold bl. rewrite bval_zbits by exact Bk. rewrite (S2 (c_zero c)), (S1 (c_zero c)), Z, Ek, (S1 w) by lia. cbn [fpow]. ring. }
    set (a3 := fun v => if (v =? m)%nat then 1 else a2 v).
    assert (same_upto m a2 a3) as S3. { intros v Hv. unfold a3. destruct (Nat.eqb_spec v m); [lia|reflexivity]. }
    assert (same_upto n a a3) as S13. { apply (same_upto_trans _ _ a2); [apply (same_upto_trans _ _ a1); [exact S1|apply (same_upto_le _ (n + size)); [lia|exact S2]]|apply (same_upto_le _ m); [lia|exact S3]]. }
    destruct (dbl_complete (rev (seq n nb)) p (c_zero c, m) (S m) a3 (rev bl) (x, y)) as [a4 [S4 [D4 E4]]].
    + intros b Hb. apply in_rev in Hb. apply in_seq in Hb. lia.
    + destruct BP. split; lia.
    + split; cbn [fst snd]; lia.
    + rewrite !map_rev. f_equal. rewrite <- M1. apply map_ext_in. intros b Hb. apply in_seq in Hb. rewrite S3, S2 by lia. reflexivity.
    + rewrite (pnt_same n p a a3) by auto. replace (pnt (c_zero c, m) a3) with (0 : F, 1 : F); [exact MR|].
      unfold pnt. cbn [fst snd]. rewrite S13, Z by auto. unfold a3. now rewrite Nat.eqb_refl.
    + exists a4. assert (same_upto n a a4) as S14. { apply (same_upto_trans _ _ a3); [exact S13|apply (same_upto_le _ (S m)); [lia|exact S4]]. }
      split; [exact S14|]. rewrite rev_length, seq_length, <- EO in E4. unfold pnt in E4. injection E4 as E4x E4y. split; [exact E4x|]. split; [exact E4y|].
      apply (ext_sat _ _ _ _ _ E). split; [apply (satisfies_same ca cd _ _ _ W S14); exact K|]. split; [split|split].
      * apply (dec_ext _ _ _ _ a2); [lia|intros b Hb; apply in_seq in Hb; lia| |exact D2]. rewrite seq_length. fold m.
        apply (same_upto_trans _ _ a3); [exact S3|apply (same_upto_le _ (S m)); [lia|exact S4]].
      * rewrite S4, S3, A2 by lia. rewrite S14 by auto. apply S1. exact LW.
      * rewrite S4 by lia. unfold a3. now rewrite Nat.eqb_refl.
      * exact D4.
Qed.
Theorem var_base_honest size chk w p c out c' : (1 + 1 : F) <> 0 -> (modulus (F:=F) <= 2 ^ Z.of_nat size)%Z -> complete_curve ca cd ->
  wf c -> below_pt p (nvars c) -> on_curve (pnt p (values c)) -> variable_base_scalar_mul size ca cd chk w p c = Ok (out, c') -> honest c' <-> honest c.
Proof.
  intros T HS C W BP CP H. apply var_base_inv in H; auto. cbv zeta in H. destruct H as [_ [_ [_ [E HC]]]]. split; [|auto].
  intros HH. apply (honest_ext ca cd _ _ _ W E) in HH. tauto.
Qed.
End PlonkVarBase.

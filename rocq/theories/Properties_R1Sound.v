(** Properties_R1Sound.v: soundness of the argument for R1CS (C54). *)
From Verif Require Import Base Spec Tools ToolsProofs CS CSProofs CSExtra KZG KZGProofs Snark SnarkPerm R1 R1Complete R1CSPov SoundSpec PovSound R1SoundSpec R1Sound Properties_Snark.
Local Open Scope F_scope.

Section S.
Context {F G1 G2 GT : Type} {fo : FieldOps F} {fl : FieldLaws F}
        {po : PairingOps F G1 G2 GT} {pl : PairingLaws F G1 G2 GT}.

(** Whatever polynomials the prover commits to in each round -- knowing the challenges so far -- up to
    the given numbers of unlucky challenges, trapdoors and randomizers: if the verifier accepts, the
    coefficients of the first polynomial after the 3*nrows first ones are an assignment that satisfies
    the system, starts with 1 and continues with the public inputs (missing ones count as zero, those
    after the declared number are ignored). *)
Theorem c54_sound_any_length gamma d (cs : R1CS F) x pu :
  let h := r_nrows cs in let k := r_ncols cs in let m := r1_nnz cs in
  let assignment := row pu (3 * h) k in
  gamma <> 0 -> distinct_powers gamma (3 * h) -> distinct_powers gamma k ->
  r1_lengths cs -> r1cs_shape cs -> (1 <= h)%nat -> (3 * h <= m)%nat -> (r_input_size cs + 1 <= k)%nat ->
  (2 * k + 2 * m <= d + h)%nat -> (length pu <= d + 1)%nat ->
  most (3 * h) (fun mu => forall ps, (length ps <= d + 1)%nat ->
  most k (fun nu => forall ph, (length ph <= d + 1)%nat ->
  most 1 (fun beta => forall pr, (length pr <= d + 1)%nat ->
  most (8 * (k + m)) (fun alpha => forall pt, (length pt <= d + 1)%nat ->
  most (d + k + m + 3 * h + 2) (fun omega =>
  forall ph2 ph3, (length ph2 <= d + 1)%nat -> (length ph3 <= d + 1)%nat ->
  most (2 * (d + 3 * h + length x + 2)) (fun z => forall y y1, most 1 (fun xi =>
  forall pW pW1, (length pW <= d + 1)%nat -> (length pW1 <= d + 1)%nat -> most (2 * (d + 1)) (fun tau => most 1 (fun rnd =>
  r1_accepts_with (G1:=G1) (G2:=G2) (GT:=GT) gamma d cs x pu ps ph pr pt ph2 ph3 pW pW1 mu nu beta alpha omega z y y1 xi tau rnd ->
  (forall i, (i <= r_input_size cs)%nat -> coef assignment i = coef (1 :: x) i) /\
  r1cs_holds (entries_of (r_arows cs) (r_acols cs) (r_avals cs)) (entries_of (r_brows cs) (r_bcols cs) (r_bvals cs))
             (entries_of (r_crows cs) (r_ccols cs) (r_cvals cs)) h k assignment))))))))).
Proof. intros. now apply r1_sound. Qed.
(** In terms of the satisfaction check: with the declared number of public inputs, the remaining
    coefficients are a witness that [satisfy] accepts. *)
Theorem c54_sound gamma d (cs : R1CS F) x pu :
  let h := r_nrows cs in let k := r_ncols cs in let m := r1_nnz cs in let l := r_input_size cs in
  gamma <> 0 -> distinct_powers gamma (3 * h) -> distinct_powers gamma k ->
  r1_lengths cs -> r1cs_shape cs -> (1 <= h)%nat -> (3 * h <= m)%nat -> (l + 1 <= k)%nat -> length x = l ->
  (2 * k + 2 * m <= d + h)%nat -> (length pu <= d + 1)%nat ->
  most (3 * h) (fun mu => forall ps, (length ps <= d + 1)%nat ->
  most k (fun nu => forall ph, (length ph <= d + 1)%nat ->
  most 1 (fun beta => forall pr, (length pr <= d + 1)%nat ->
  most (8 * (k + m)) (fun alpha => forall pt, (length pt <= d + 1)%nat ->
  most (d + k + m + 3 * h + 2) (fun omega =>
  forall ph2 ph3, (length ph2 <= d + 1)%nat -> (length ph3 <= d + 1)%nat ->
  most (2 * (d + 3 * h + length x + 2)) (fun z => forall y y1, most 1 (fun xi =>
  forall pW pW1, (length pW <= d + 1)%nat -> (length pW1 <= d + 1)%nat -> most (2 * (d + 1)) (fun tau => most 1 (fun rnd =>
  r1_accepts_with (G1:=G1) (G2:=G2) (GT:=GT) gamma d cs x pu ps ph pr pt ph2 ph3 pW pW1 mu nu beta alpha omega z y y1 xi tau rnd ->
  r1cs_satisfy (E:=error) cs x (row pu (3 * h + 1 + l) (k - 1 - l)) = Ok true))))))))).
Proof.
  intros h k m l Hg Hd1 Hd2 HL Hsh Hh H3 Hl Hx Hd Hu.
  enough (Q : forall mu ps nu ph beta pr alpha pt omega ph2 ph3 z y y1 xi pW pW1 tau rnd,
    (r1_accepts_with (G1:=G1) (G2:=G2) (GT:=GT) gamma d cs x pu ps ph pr pt ph2 ph3 pW pW1 mu nu beta alpha omega z y y1 xi tau rnd ->
     (forall i, (i <= r_input_size cs)%nat -> coef (row pu (3 * h) k) i = coef (1 :: x) i) /\
     r1cs_holds (entries_of (r_arows cs) (r_acols cs) (r_avals cs)) (entries_of (r_brows cs) (r_bcols cs) (r_bvals cs))
             (entries_of (r_crows cs) (r_ccols cs) (r_cvals cs)) h k (row pu (3 * h) k)) ->
    r1_accepts_with (G1:=G1) (G2:=G2) (GT:=GT) gamma d cs x pu ps ph pr pt ph2 ph3 pW pW1 mu nu beta alpha omega z y y1 xi tau rnd ->
    r1cs_satisfy (E:=error) cs x (row pu (3 * h + 1 + l) (k - 1 - l)) = Ok true).
  { eapply Sound.most_weaken; [apply Nat.le_refl| |now apply (c54_sound_any_length gamma d cs x pu)].
    intros mu S ps Ls. eapply Sound.most_weaken; [apply Nat.le_refl| |exact (S ps Ls)]; clear S.
    intros nu S ph Lp. eapply Sound.most_weaken; [apply Nat.le_refl| |exact (S ph Lp)]; clear S.
    intros be S pr Lr. eapply Sound.most_weaken; [apply Nat.le_refl| |exact (S pr Lr)]; clear S.
    intros al S pt Lt. eapply Sound.most_weaken; [apply Nat.le_refl| |exact (S pt Lt)]; clear S.
    intros om S p2 p3 L2 L3. eapply Sound.most_weaken; [apply Nat.le_refl| |exact (S p2 p3 L2 L3)]; clear S.
    intros z S y y1. eapply Sound.most_weaken; [apply Nat.le_refl| |exact (S y y1)]; clear S.
    intros xi S pW pW1 LW LW1. eapply Sound.most_weaken; [apply Nat.le_refl| |exact (S pW pW1 LW LW1)]; clear S.
    intros tau S. eapply Sound.most_weaken; [apply Nat.le_refl| |exact S]; clear S.
    intros rnd S. exact (Q _ _ _ _ _ _ _ _ _ _ _ _ _ _ _ _ _ _ _ S). }
  intros mu ps nu ph beta pr alpha pt omega ph2 ph3 z y y1 xi pW pW1 tau rnd S HA. destruct (S HA) as [S1 S2]. clear S HA.
  assert (row pu (3 * h) k = 1 :: x ++ row pu (3 * h + 1 + l) (k - 1 - l)) as E.
  { apply (nth_ext _ _ 0 0).
    - cbn [length]. rewrite app_length, !row_length. lia.
    - rewrite row_length. intros i Hi. change (coef (row pu (3 * h) k) i = coef (1 :: x ++ row pu (3 * h + 1 + l) (k - 1 - l)) i).
      destruct (Nat.le_gt_cases i l) as [Hil|Hil].
      + rewrite S1 by auto. destruct i as [|i]; [reflexivity|].
        change (coef x i = coef (x ++ row pu (3 * h + 1 + l) (k - 1 - l)) i). rewrite coef_app.
        destruct (Nat.ltb_spec i (length x)); [reflexivity|lia].
      + rewrite coef_row by auto. destruct i as [|i]; [lia|].
        change (coef pu (3 * h + S i) = coef (x ++ row pu (3 * h + 1 + l) (k - 1 - l)) i). rewrite coef_app.
        destruct (Nat.ltb_spec i (length x)); [lia|]. rewrite coef_row by lia. f_equal. lia. }
  destruct (r1cs_satisfy_ok (E:=error) cs x (row pu (3 * h + 1 + l) (k - 1 - l))) as [b [Eb Hb]]; auto.
  { rewrite row_length. fold k. lia. }
  rewrite Eb. f_equal. apply Hb. fold h k. rewrite <- E. exact S2.
Qed.
End S.

(** A run that meets all hypotheses: the system w * w = 9, with the challenges of a hash function. *)
Example c54_example :
  let h := r_nrows r1cs_example in let k := r_ncols r1cs_example in
  f101 2 <> 0 /\ distinct_powers (f101 2) (3 * h) /\ distinct_powers (f101 2) k /\ r1_lengths r1cs_example /\
  r1cs_shape r1cs_example /\ (1 <= h)%nat /\ (3 * h <= r1_nnz r1cs_example)%nat /\ (r_input_size r1cs_example + 1 <= k)%nat /\
  (2 * k + 2 * r1_nnz r1cs_example <= 11 + h)%nat /\
  r1_accepts_with (G1:=F101) (G2:=F101) (GT:=F101) (f101 2) 11 r1cs_example [f101 9]
    (l101 [3; 3; 9; 1; 9; 3; 21]%Z) (l101 [52; 98; 14; 0; 87; 52]%Z) (l101 [31; 36; 82; 22; 57; 100]%Z)
    (l101 [55; 46; 71; 28; 9; 0; 22]%Z) (l101 [23; 58; 53; 53; 58; 68; 0; 0]%Z)
    (l101 [0; 0; 0; 0; 99; 51; 73; 79; 8; 31; 92; 36]%Z) (l101 [49; 62; 51; 47; 48; 65; 35; 0; 0; 0; 0]%Z)
    (l101 [40; 14; 65; 100; 100]%Z) (l101 [67; 65; 43; 79; 94; 76; 49; 33; 95; 53; 65]%Z)
    (f101 69) (f101 89) (f101 80) (f101 75) (f101 75) (f101 10) (f101 28) (f101 71) (f101 0) (f101 7) (f101 77) /\
  row (l101 [3; 3; 9; 1; 9; 3; 21]%Z) (3 * h + 1 + 1) (k - 1 - 1) = [f101 3].
Proof.
  cbn zeta. split; [vm_compute; discriminate|]. split; [apply distinct_powers_check; vm_compute; reflexivity|].
  split; [apply distinct_powers_check; vm_compute; reflexivity|].
  split; [vm_compute; auto 10|]. split; [apply r1cs_example_ok|]. split; [cbn; lia|]. split; [cbn; lia|]. split; [cbn; lia|]. split; [cbn; lia|].
  split; [|vm_compute; reflexivity].
  exists H101, (f101 3), (f101 5).
  destruct (setup101 11) as [pp| |] eqn:Ep; [|vm_compute in Ep; discriminate..].
  destruct (r1_index (GT:=F101) (f101 2) pp r1cs_example) as [[pk vk]| |] eqn:Ei.
  2: { vm_compute in Ep. injection Ep as <-. vm_compute in Ei. discriminate. }
  2: { vm_compute in Ep. injection Ep as <-. vm_compute in Ei. discriminate. }
  vm_compute in Ep. injection Ep as <-. vm_compute in Ei. injection Ei as <- <-.
  eexists _, _, _, _, _, _, _, _, _, _, _, _.
  repeat match goal with |- _ /\ _ => split end; try (vm_compute; (reflexivity || discriminate)).
Qed.

Print Assumptions c54_sound_any_length.
Print Assumptions c54_sound.

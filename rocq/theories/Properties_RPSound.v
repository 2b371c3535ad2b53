(** Properties_RPSound.v: soundness of the prover-efficient argument for R1CS (C57). *)
From Verif Require Import Base Spec Tools ToolsProofs CS CSProofs CSExtra KZG KZGProofs Snark SnarkPerm R1Complete RP RPComplete R1CSPov SoundSpec PovSound RPSoundSpec RPSound Properties_Snark.
Local Open Scope F_scope.

Section S.
Context {F G1 G2 GT : Type} {fo : FieldOps F} {fl : FieldLaws F}
        {po : PairingOps F G1 G2 GT} {pl : PairingLaws F G1 G2 GT}.
Add Field Frps : F_th.

(** Whatever polynomials the prover commits to in each round -- knowing the challenges so far -- up to
    the given numbers of unlucky challenges, trapdoors and randomizers: if the verifier accepts, the sum
    of (1, instance) and the committed witness, moved behind the declared public inputs, satisfies the
    system.  The instance may have any length: entries after the declared number are added to the witness. *)
Theorem c57_sound_any_length gamma d (cs : R1CS F) x py pw :
  let h := r_nrows cs in let k := r_ncols cs in let m := r1_nnz cs in let l := r_input_size cs in
  gamma <> 0 -> distinct_powers gamma (3 * h) -> distinct_powers gamma k ->
  r1_lengths cs -> r1cs_shape cs -> (1 <= h)%nat -> (3 * h <= m)%nat -> (k <= m)%nat -> (l + 1 <= k)%nat ->
  (2 * h + m <= d)%nat -> (length py <= d + 1)%nat -> (length pw <= d + 1)%nat ->
  most (3 * h) (fun mu => forall pr pc, (length pr <= d + 1)%nat -> (length pc <= d + 1)%nat ->
  most k (fun nu => forall pn pt, (length pn <= d + 1)%nat -> (length pt <= d + 1)%nat ->
  most 1 (fun beta => forall prt, (length prt <= d + 1)%nat ->
  most (10 * m) (fun alpha => forall pt1, (length pt1 <= d + 1)%nat ->
  most (d + m + 2 * h + 2) (fun omega =>
  forall ph1 ph2, (length ph1 <= d + 1)%nat -> (length ph2 <= d + 1)%nat ->
  most (2 * (d + 2 * h + l + length x + 2)) (fun z => forall y y1 y2, most 2 (fun xi =>
  forall pW pW1, (length pW <= d + 1)%nat -> (length pW1 <= d + 1)%nat -> most (2 * (d + 1)) (fun tau => most 1 (fun rnd =>
  rp_accepts_with (G1:=G1) (G2:=G2) (GT:=GT) gamma d cs x py pw pr pc pn pt prt pt1 ph1 ph2 pW pW1 mu nu beta alpha omega z y y1 y2 xi tau rnd ->
  r1cs_holds (entries_of (r_arows cs) (r_acols cs) (r_avals cs)) (entries_of (r_brows cs) (r_bcols cs) (r_bvals cs))
             (entries_of (r_crows cs) (r_ccols cs) (r_cvals cs)) h k (rp_assignment l k x pw)))))))))).
Proof. intros. now apply rp_sound. Qed.
(** In terms of the satisfaction check: with the declared number of public inputs, the coefficients of
    the committed witness are a witness that [satisfy] accepts. *)
Theorem c57_sound gamma d (cs : R1CS F) x py pw :
  let h := r_nrows cs in let k := r_ncols cs in let m := r1_nnz cs in let l := r_input_size cs in
  gamma <> 0 -> distinct_powers gamma (3 * h) -> distinct_powers gamma k ->
  r1_lengths cs -> r1cs_shape cs -> (1 <= h)%nat -> (3 * h <= m)%nat -> (k <= m)%nat -> (l + 1 <= k)%nat -> length x = l ->
  (2 * h + m <= d)%nat -> (length py <= d + 1)%nat -> (length pw <= d + 1)%nat ->
  most (3 * h) (fun mu => forall pr pc, (length pr <= d + 1)%nat -> (length pc <= d + 1)%nat ->
  most k (fun nu => forall pn pt, (length pn <= d + 1)%nat -> (length pt <= d + 1)%nat ->
  most 1 (fun beta => forall prt, (length prt <= d + 1)%nat ->
  most (10 * m) (fun alpha => forall pt1, (length pt1 <= d + 1)%nat ->
  most (d + m + 2 * h + 2) (fun omega =>
  forall ph1 ph2, (length ph1 <= d + 1)%nat -> (length ph2 <= d + 1)%nat ->
  most (2 * (d + 2 * h + l + length x + 2)) (fun z => forall y y1 y2, most 2 (fun xi =>
  forall pW pW1, (length pW <= d + 1)%nat -> (length pW1 <= d + 1)%nat -> most (2 * (d + 1)) (fun tau => most 1 (fun rnd =>
  rp_accepts_with (G1:=G1) (G2:=G2) (GT:=GT) gamma d cs x py pw pr pc pn pt prt pt1 ph1 ph2 pW pW1 mu nu beta alpha omega z y y1 y2 xi tau rnd ->
  r1cs_satisfy (E:=error) cs x (row pw 0 (k - 1 - l)) = Ok true))))))))).
Proof.
  intros h k m l Hg Hd1 Hd2 HL Hsh Hh H3 Hkm Hl Hx Hd Hy Hw.
  enough (Q : r1cs_holds (entries_of (r_arows cs) (r_acols cs) (r_avals cs)) (entries_of (r_brows cs) (r_bcols cs) (r_bvals cs))
             (entries_of (r_crows cs) (r_ccols cs) (r_cvals cs)) h k (rp_assignment l k x pw) ->
     r1cs_satisfy (E:=error) cs x (row pw 0 (k - 1 - l)) = Ok true).
  { eapply Sound.most_weaken; [apply Nat.le_refl| |now apply (c57_sound_any_length gamma d cs x py pw)].
    intros mu S pr pc L1 L1'. eapply Sound.most_weaken; [apply Nat.le_refl| |exact (S pr pc L1 L1')]; clear S.
    intros nu S pn pt L2 L2'. eapply Sound.most_weaken; [apply Nat.le_refl| |exact (S pn pt L2 L2')]; clear S.
    intros be S prt Lr. eapply Sound.most_weaken; [apply Nat.le_refl| |exact (S prt Lr)]; clear S.
    intros al S pt1 Lt. eapply Sound.most_weaken; [apply Nat.le_refl| |exact (S pt1 Lt)]; clear S.
    intros om S p2 p3 L3 L4. eapply Sound.most_weaken; [apply Nat.le_refl| |exact (S p2 p3 L3 L4)]; clear S.
    intros z S y y1 y2. eapply Sound.most_weaken; [apply Nat.le_refl| |exact (S y y1 y2)]; clear S.
    intros xi S pW pW1 LW LW1. eapply Sound.most_weaken; [apply Nat.le_refl| |exact (S pW pW1 LW LW1)]; clear S.
    intros tau S. eapply Sound.most_weaken; [apply Nat.le_refl| |exact S]; clear S.
    intros rnd S HA. exact (Q (S HA)). }
  intros SH.
  assert (rp_assignment l k x pw = 1 :: x ++ row pw 0 (k - 1 - l)) as E.
  { apply (nth_ext _ _ 0 0).
    - cbn [length]. rewrite app_length, row_length, rp_assignment_length. lia.
    - rewrite rp_assignment_length. intros i Hi. change (coef (rp_assignment l k x pw) i = coef (1 :: x ++ row pw 0 (k - 1 - l)) i).
      rewrite coef_assignment by auto. destruct i as [|i].
      + destruct (Nat.leb_spec 0 l); [|lia]. unfold coef; cbn [nth]. ring.
      + change (coef (1 :: x) (S i)) with (coef x i). change (coef (1 :: x ++ row pw 0 (k - 1 - l)) (S i)) with (coef (x ++ row pw 0 (k - 1 - l)) i).
        rewrite coef_app. destruct (Nat.leb_spec (S i) l), (Nat.ltb_spec i (length x)); try lia.
        * ring.
        * rewrite coef_row by lia. unfold coef at 1. rewrite nth_overflow by lia. replace (S i - l - 1)%nat with (0 + (i - length x))%nat by lia. ring. }
  destruct (r1cs_satisfy_ok (E:=error) cs x (row pw 0 (k - 1 - l))) as [b [Eb Hb]]; auto.
  { rewrite row_length. fold k. lia. }
  rewrite Eb. f_equal. apply Hb. fold h k. rewrite <- E. exact SH.
Qed.
End S.

(** A run that meets all hypotheses: the system w * w = 9, with the challenges of a hash function. *)
Example c57_example :
  let h := r_nrows r1cs_example in let k := r_ncols r1cs_example in
  f101 2 <> 0 /\ distinct_powers (f101 2) (3 * h) /\ distinct_powers (f101 2) k /\ r1_lengths r1cs_example /\
  r1cs_shape r1cs_example /\ (1 <= h)%nat /\ (3 * h <= r1_nnz r1cs_example)%nat /\ (k <= r1_nnz r1cs_example)%nat /\
  (r_input_size r1cs_example + 1 <= k)%nat /\ (2 * h + r1_nnz r1cs_example <= 6)%nat /\
  rp_accepts_with (G1:=F101) (G2:=F101) (GT:=F101) (f101 2) 6 r1cs_example [f101 9]
    (l101 [3; 9; 3; 21]%Z) (l101 [3; 0; 0; 22]%Z) (l101 [71; 87; 3]%Z) (l101 [0; 87; 74]%Z) (l101 [58; 61; 2]%Z)
    (l101 [41; 55; 6]%Z) (l101 [35; 35; 0; 23]%Z) (l101 [24; 87; 0; 0; 0]%Z) (l101 [0; 0; 89; 46; 45; 79; 30]%Z)
    (l101 [81; 98; 54; 29; 0]%Z) (l101 [3; 51; 10]%Z) (l101 [84; 42; 1; 23; 95; 24]%Z)
    (f101 38) (f101 55) (f101 58) (f101 49) (f101 13) (f101 19) (f101 82) (f101 55) (f101 55) (f101 63) (f101 7) (f101 77) /\
  row (l101 [3; 0; 0; 22]%Z) 0 (k - 1 - 1) = [f101 3].
Proof.
  cbn zeta. split; [vm_compute; discriminate|]. split; [apply distinct_powers_check; vm_compute; reflexivity|].
  split; [apply distinct_powers_check; vm_compute; reflexivity|].
  split; [vm_compute; auto 10|]. split; [apply r1cs_example_ok|]. split; [cbn; lia|]. split; [cbn; lia|]. split; [cbn; lia|]. split; [cbn; lia|]. split; [cbn; lia|].
  split; [|vm_compute; reflexivity].
  exists H101, (f101 3), (f101 5).
  destruct (setup101 6) as [pp| |] eqn:Ep; [|vm_compute in Ep; discriminate..].
  destruct (rp_index (GT:=F101) (f101 2) pp r1cs_example) as [[pk vk]| |] eqn:Ei.
  2: { vm_compute in Ep. injection Ep as <-. vm_compute in Ei. discriminate. }
  2: { vm_compute in Ep. injection Ep as <-. vm_compute in Ei. discriminate. }
  vm_compute in Ep. injection Ep as <-. vm_compute in Ei. injection Ei as <- <-.
  eexists _, _, _, _, _, _, _, _, _, _, _, _, _, _, _.
  repeat match goal with |- _ /\ _ => split end; try (vm_compute; (reflexivity || discriminate)).
Qed.

Print Assumptions c57_sound_any_length.
Print Assumptions c57_sound.

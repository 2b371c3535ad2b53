(** Properties_RCSound.v: soundness of the range-check argument (C59). *)
From Verif Require Import Base Spec Tools ToolsProofs KZG KZGProofs Snark SnarkPerm RC SoundSpec RCSoundSpec RCSound IntProofs Properties_Tools Properties_Snark.
Local Open Scope F_scope.

Section S.
Context {F G1 G2 GT : Type} {fo : FieldOps F} {fl : FieldLaws F} {pfo : PrimeFieldOps F} {pfl : PrimeFieldLaws F}
        {po : PairingOps F G1 G2 GT} {pl : PairingLaws F G1 G2 GT}.

(** Whatever polynomials the prover commits to in each round -- knowing the challenges so far -- up to
    the given numbers of unlucky challenges, trapdoors and randomizers: if the verifier accepts, each of
    the first [lookup_size] coefficients of the committed value polynomial is one of
    0, ..., range_size - 1.  The number of values has to be below the characteristic. *)
Theorem c59_sound d cs pw pm :
  let ns := rc_lookup_size cs in let rg := rc_range_size cs in
  (1 <= ns)%nat -> (1 <= rg)%nat -> (Nat.max ns rg <= d)%nat -> (Z.of_nat ns < modulus (F:=F))%Z ->
  (length pw <= d + 1)%nat -> (length pm <= d + 1)%nat ->
  most (ns + 2 * rg) (fun beta => forall pr ps prt, (length pr <= d + 1)%nat -> (length ps <= d + 1)%nat -> (length prt <= d + 1)%nat ->
  most (3 * Nat.max ns rg) (fun alpha => forall pt1, (length pt1 <= d + 1)%nat ->
  most (d + 2) (fun omega =>
  forall ph1 ph2, (length ph1 <= d + 1)%nat -> (length ph2 <= d + 1)%nat ->
  most (2 * (d + 2)) (fun z => forall y y1 y2, most 2 (fun xi =>
  forall pW pW1, (length pW <= d + 1)%nat -> (length pW1 <= d + 1)%nat -> most (2 * (d + 1)) (fun tau => most 1 (fun rnd =>
  rc_accepts_with (G1:=G1) (G2:=G2) (GT:=GT) d cs pw pm pr ps prt pt1 ph1 ph2 pW pW1 beta alpha omega z y y1 y2 xi tau rnd ->
  forall j, (j < ns)%nat -> below rg (coef pw j)))))))).
Proof.
  intros ns rg H1 H2 H3 H4 L1 L2.
  eapply Sound.most_weaken; [apply Nat.le_refl| |now apply (rc_sound (G1:=G1) (G2:=G2) (GT:=GT) d cs H1 H2 H3 H4 pw pm L1 L2)].
  intros be S pr ps prt Lr Ls Lt. eapply Sound.most_weaken; [apply Nat.le_refl| |exact (S pr ps prt Lr Ls Lt)]; clear S.
  intros al S pt1 Lt1. eapply Sound.most_weaken; [apply Nat.le_refl| |exact (S pt1 Lt1)]; clear S.
  intros om S p2 p3 L3 L4. eapply Sound.most_weaken; [apply Nat.le_refl| |exact (S p2 p3 L3 L4)]; clear S.
  intros z S y y1 y2. eapply Sound.most_weaken; [apply Nat.le_refl| |exact (S y y1 y2)]; clear S.
  intros xi S pW pW1 LW LW1. eapply Sound.most_weaken; [apply Nat.le_refl| |exact (S pW pW1 LW LW1)]; clear S.
  intros tau S. eapply Sound.most_weaken; [apply Nat.le_refl| |exact S]; clear S.
  intros rnd S HA j Hj. destruct (S HA j Hj) as [i [Hi E]]. exists (i - (ns - rg))%nat. split; [unfold ns, rg in *; lia|].
  rewrite E. now apply (rc_tpoly_entry d).
Qed.

(** Not every value in the range can be used, though: with more values than the range has members, the
    accepted values are even below 2 * range_size - lookup_size (or zero). *)
Theorem c59_long_lookup_refuted d cs pw pm :
  let ns := rc_lookup_size cs in let rg := rc_range_size cs in
  (1 <= ns)%nat -> (1 <= rg)%nat -> (Nat.max ns rg <= d)%nat -> (Z.of_nat ns < modulus (F:=F))%Z ->
  (length pw <= d + 1)%nat -> (length pm <= d + 1)%nat -> (rg < ns)%nat ->
  most (ns + 2 * rg) (fun beta => forall pr ps prt, (length pr <= d + 1)%nat -> (length ps <= d + 1)%nat -> (length prt <= d + 1)%nat ->
  most (3 * Nat.max ns rg) (fun alpha => forall pt1, (length pt1 <= d + 1)%nat ->
  most (d + 2) (fun omega =>
  forall ph1 ph2, (length ph1 <= d + 1)%nat -> (length ph2 <= d + 1)%nat ->
  most (2 * (d + 2)) (fun z => forall y y1 y2, most 2 (fun xi =>
  forall pW pW1, (length pW <= d + 1)%nat -> (length pW1 <= d + 1)%nat -> most (2 * (d + 1)) (fun tau => most 1 (fun rnd =>
  rc_accepts_with (G1:=G1) (G2:=G2) (GT:=GT) d cs pw pm pr ps prt pt1 ph1 ph2 pW pW1 beta alpha omega z y y1 y2 xi tau rnd ->
  forall j, (j < ns)%nat -> below (Nat.max 1 (2 * rg - ns)) (coef pw j)))))))).
Proof.
  intros ns rg H1 H2 H3 H4 L1 L2 HL.
  eapply Sound.most_weaken; [apply Nat.le_refl| |now apply (rc_sound (G1:=G1) (G2:=G2) (GT:=GT) d cs H1 H2 H3 H4 pw pm L1 L2)].
  intros be S pr ps prt Lr Ls Lt. eapply Sound.most_weaken; [apply Nat.le_refl| |exact (S pr ps prt Lr Ls Lt)]; clear S.
  intros al S pt1 Lt1. eapply Sound.most_weaken; [apply Nat.le_refl| |exact (S pt1 Lt1)]; clear S.
  intros om S p2 p3 L3 L4. eapply Sound.most_weaken; [apply Nat.le_refl| |exact (S p2 p3 L3 L4)]; clear S.
  intros z S y y1 y2. eapply Sound.most_weaken; [apply Nat.le_refl| |exact (S y y1 y2)]; clear S.
  intros xi S pW pW1 LW LW1. eapply Sound.most_weaken; [apply Nat.le_refl| |exact (S pW pW1 LW LW1)]; clear S.
  intros tau S. eapply Sound.most_weaken; [apply Nat.le_refl| |exact S]; clear S.
  intros rnd S HA j Hj. destruct (S HA j Hj) as [i [Hi E]]. exists (i - (ns - rg))%nat. split; [unfold ns, rg in *; lia|].
  rewrite E. now apply (rc_tpoly_entry d).
Qed.
End S.

(** A run that meets all hypotheses: the values 2, 0 in the range 0, 1, 2, with the challenges of a hash
    function. *)
Example c59_example : (Z.of_nat 2 < modulus (F:=F101))%Z /\
  rc_accepts_with (G1:=F101) (G2:=F101) (GT:=F101) 4 (mkRCCS 2 3) (l101 [2; 0; 0; 21]%Z) (l101 [1; 0; 1; 22]%Z)
    (l101 [13; 52; 0; 23]%Z) (l101 [52; 0; 13; 24]%Z) (l101 [62; 13; 0; 0]%Z) (l101 [26; 79; 0]%Z)
    (l101 [0; 0; 72; 8; 90]%Z) (l101 [33; 85; 71]%Z) (l101 [10]%Z) (l101 [70]%Z)
    (f101 68) (f101 95) (f101 27) (f101 48) (f101 8) (f101 16) (f101 40) (f101 70) (f101 7) (f101 77) /\
  below 3 (f101 2) /\ ~ below 2 (f101 2).
Proof.
  split; [reflexivity|]. split.
  { exists H101, (f101 3), (f101 5).
    destruct (setup101 4) as [pp| |] eqn:Ep; [|vm_compute in Ep; discriminate..].
    destruct (rc_index (GT:=F101) pp (mkRCCS 2 3)) as [[pk vk]| |] eqn:Ei.
    2: { vm_compute in Ep. injection Ep as <-. vm_compute in Ei. discriminate. }
    2: { vm_compute in Ep. injection Ep as <-. vm_compute in Ei. discriminate. }
    vm_compute in Ep. injection Ep as <-. vm_compute in Ei. injection Ei as <- <-.
    eexists _, _, _, _, _, _, _, _, _, _, _, _, _.
    repeat match goal with |- _ /\ _ => split end; try (vm_compute; (reflexivity || discriminate)). }
  split; [exists 2%nat; split; [lia|reflexivity]|].
  intros [i [Hi E]]. destruct i as [|[|i]]; [vm_compute in E; discriminate|vm_compute in E; discriminate|lia].
Qed.

Print Assumptions c59_sound.
Print Assumptions c59_long_lookup_refuted.

(** Properties_HPSound.v: soundness of the argument for Hadamard product relations (C62), and what it
    enforces exactly. *)
From Verif Require Import Base Spec Tools ToolsProofs CS CSProofs CSExtra KZG KZGProofs Snark SnarkPerm HP HPComplete HPTop R1CSPov SoundSpec PovSound HPSoundSpec HPSound HPStrategy Properties_Snark Properties_HP.
Local Open Scope F_scope.

Section S.
Context {F G1 G2 GT : Type} {fo : FieldOps F} {fl : FieldLaws F}
        {po : PairingOps F G1 G2 GT} {pl : PairingLaws F G1 G2 GT}.
Add Field Fphs : F_th.

(** Whatever polynomials the prover commits to in each round -- knowing the challenges so far -- up to
    the given numbers of unlucky challenges, trapdoors and randomizers: if the verifier accepts, the
    coefficients of the first polynomial satisfy the enforced relation. *)
Theorem c62_acceptance_enforces gamma d (cs : HPR F) x pw :
  let h := h_nrows cs in let k := h_ncols cs in let m := hp_claimed cs in
  gamma <> 0 -> distinct_powers gamma h -> distinct_powers gamma (3 * k + 1) ->
  hp_lengths cs -> hpr_shape cs -> (1 <= h)%nat -> (1 <= k)%nat -> (h <= m)%nat -> (hp_nnz cs <= d + 1)%nat ->
  (5 * k + 2 * m + 2 <= d)%nat -> (length pw <= d + 1)%nat ->
  most h (fun mu => forall ps, (length ps <= d + 1)%nat ->
  most (3 * k + 1) (fun nu => forall ph, (length ph <= d + 1)%nat ->
  most 1 (fun beta => forall pr, (length pr <= d + 1)%nat ->
  most (7 * (3 * k + 1 + m)) (fun alpha => forall pt, (length pt <= d + 1)%nat ->
  most (d + 2 * k + m + length x + 3) (fun omega =>
  forall ph2 ph3, (length ph2 <= d + 1)%nat -> (length ph3 <= d + 1)%nat ->
  most (2 * (d + h + 3 * k + length x + 2)) (fun z => forall y y1, most 1 (fun xi =>
  forall pW pW1, (length pW <= d + 1)%nat -> (length pW1 <= d + 1)%nat -> most (2 * (d + 1)) (fun tau => most 1 (fun rnd =>
  hp_accepts_with (G1:=G1) (G2:=G2) (GT:=GT) gamma d cs x pw ps ph pr pt ph2 ph3 pW pW1 mu nu beta alpha omega z y y1 xi tau rnd ->
  hp_enforced cs x pw))))))))).
Proof. intros. now apply hp_sound. Qed.
(** In terms of the satisfaction check: if B and C together have no more entries than twice those of A,
    and the instance is not longer than the number of rows, the coefficients are a witness that
    [satisfy] accepts. *)
Theorem c62_sound gamma d (cs : HPR F) x pw :
  let h := h_nrows cs in let k := h_ncols cs in let m := hp_claimed cs in
  gamma <> 0 -> distinct_powers gamma h -> distinct_powers gamma (3 * k + 1) ->
  hp_lengths cs -> hpr_shape cs -> (1 <= h)%nat -> (1 <= k)%nat -> (h <= m)%nat ->
  (length (h_brows cs) + length (h_crows cs) <= 2 * length (h_arows cs))%nat -> (length x <= h)%nat ->
  (5 * k + 2 * m + 2 <= d)%nat -> (length pw <= d + 1)%nat ->
  most h (fun mu => forall ps, (length ps <= d + 1)%nat ->
  most (3 * k + 1) (fun nu => forall ph, (length ph <= d + 1)%nat ->
  most 1 (fun beta => forall pr, (length pr <= d + 1)%nat ->
  most (7 * (3 * k + 1 + m)) (fun alpha => forall pt, (length pt <= d + 1)%nat ->
  most (d + 2 * k + m + length x + 3) (fun omega =>
  forall ph2 ph3, (length ph2 <= d + 1)%nat -> (length ph3 <= d + 1)%nat ->
  most (2 * (d + h + 3 * k + length x + 2)) (fun z => forall y y1, most 1 (fun xi =>
  forall pW pW1, (length pW <= d + 1)%nat -> (length pW1 <= d + 1)%nat -> most (2 * (d + 1)) (fun tau => most 1 (fun rnd =>
  hp_accepts_with (G1:=G1) (G2:=G2) (GT:=GT) gamma d cs x pw ps ph pr pt ph2 ph3 pW pW1 mu nu beta alpha omega z y y1 xi tau rnd ->
  hpr_satisfy (E:=error) cs x (row pw 0 k) (row pw k k) (row pw (2 * k) k) = Ok true))))))))).
Proof.
  intros h k m Hg Hd1 Hd2 HL Hsh Hh Hk Hhm HB Hx Hd Hw.
  assert (Q : hp_enforced cs x pw -> hpr_satisfy (E:=error) cs x (row pw 0 k) (row pw k k) (row pw (2 * k) k) = Ok true).
  { intros HE. apply hp_enforced_holds in HE; auto.
    destruct (hpr_satisfy_ok (E:=error) cs x (row pw 0 k) (row pw k k) (row pw (2 * k) k)) as [b [Eb Hb]]; auto; try apply row_length.
    rewrite Eb. f_equal. now apply Hb. }
  assert (hp_nnz cs <= d + 1)%nat as Hn.
  { unfold m, hp_claimed in Hd. unfold hp_nnz. lia. }
  eapply Sound.most_weaken; [apply Nat.le_refl| |now apply (c62_acceptance_enforces gamma d cs x pw)].
  intros mu S ps Ls. eapply Sound.most_weaken; [apply Nat.le_refl| |exact (S ps Ls)]; clear S.
  intros nu S ph Lp. eapply Sound.most_weaken; [apply Nat.le_refl| |exact (S ph Lp)]; clear S.
  intros be S pr Lr. eapply Sound.most_weaken; [apply Nat.le_refl| |exact (S pr Lr)]; clear S.
  intros al S pt Lt. eapply Sound.most_weaken; [apply Nat.le_refl| |exact (S pt Lt)]; clear S.
  intros om S p2 p3 L2 L3. eapply Sound.most_weaken; [apply Nat.le_refl| |exact (S p2 p3 L2 L3)]; clear S.
  intros z S y y1. eapply Sound.most_weaken; [apply Nat.le_refl| |exact (S y y1)]; clear S.
  intros xi S pW pW1 LW LW1. eapply Sound.most_weaken; [apply Nat.le_refl| |exact (S pW pW1 LW LW1)]; clear S.
  intros tau S. eapply Sound.most_weaken; [apply Nat.le_refl| |exact S]; clear S.
  intros rnd S A. auto.
Qed.
(** Nothing more is enforced: a prover with any assignment that satisfies the enforced relation can
    answer all challenges, but for the values for which the prescribed divisions are by zero. *)
Theorem c62_enforced_is_provable gamma d (cs : HPR F) x pw (g : G1) (h : G2) :
  let k := h_ncols cs in let m := hp_claimed cs in
  g <> v0 -> h <> v0 -> gamma <> 0 -> hp_lengths cs -> hpr_shape cs -> (1 <= h_nrows cs <= m)%nat -> (1 <= k)%nat ->
  (1 <= hp_nnz cs)%nat -> (3 * k + hp_nnz cs <= d)%nat -> (5 * k + 2 * m + 2 <= d)%nat ->
  (length x <= 3 * k + 1 + m)%nat -> (length pw <= 3 * k + 1 + m)%nat ->
  hp_enforced cs x pw -> hp_prover_wins (G1:=G1) (G2:=G2) (GT:=GT) gamma d cs x pw.
Proof. intros. eapply hp_strategy; eauto; tauto. Qed.
End S.

(** ** The two ways in which the enforced relation is weaker: integers modulo 101 *)
(** w2 + 1 = x1, w2 + 2 = x2 (and w1 w2 = w3): four entries, but the sizes claim two *)
Definition hpr_truncated : HPR F101 :=
  mkHPR [] [] [] [0; 1]%nat [0; 0]%nat (l101 [1; 1]%Z) [] [] [] [0; 1]%nat (l101 [1; 2]%Z) 2 1 2.
(** 4 = x1 *)
Definition hpr_constant : HPR F101 :=
  mkHPR [0]%nat [0]%nat (l101 [0]%Z) [0]%nat [0]%nat (l101 [0]%Z) [0]%nat [0]%nat (l101 [0]%Z) [0]%nat (l101 [4]%Z) 1 1 1.
Ltac shape101 := unfold hpr_shape, in_shape, entries_of; cbn; repeat split; intros;
  repeat match goal with H : _ \/ _ |- _ => destruct H | H : False |- _ => destruct H end;
  match goal with H : (_, _) = _ |- _ => injection H as <- end; lia.
Ltac sides101 := lazymatch goal with
  | |- hp_enforced _ _ _ => idtac
  | |- _ <> _ => let E := fresh in intros E; apply (f_equal (zval 101)) in E; vm_compute in E; discriminate
  | |- hp_lengths _ => assumption | |- hpr_shape _ => assumption
  | |- _ => cbn; lia end.
Add Field F101_field_hp : (F_th (F:=F101)).
(** An instance that no witness satisfies, and that the prover can nevertheless prove: when B and C
    have more entries than claimed, the last entries of (A, B, C, d) are not enforced. *)
Theorem c62_more_entries_refuted : exists (cs : HPR F101) x pw d,
  hp_lengths cs /\ hpr_shape cs /\ (h_nrows cs <= hp_claimed cs)%nat /\ length x = h_nrows cs /\
  (forall wa wb wc, length wa = h_ncols cs -> length wb = h_ncols cs -> length wc = h_ncols cs ->
     hpr_satisfy (E:=error) cs x wa wb wc = Ok false) /\
  hp_prover_wins (G1:=F101) (G2:=F101) (GT:=F101) (f101 2) d cs x pw.
Proof.
  exists hpr_truncated, (l101 [0; 0]%Z), (l101 [0; 0; 0]%Z), 11%nat.
  assert (hp_lengths hpr_truncated) as HL by (unfold hp_lengths; cbn; repeat split; lia).
  assert (hpr_shape hpr_truncated) as HS by shape101.
  split; [exact HL|]. split; [exact HS|]. split; [cbn; lia|]. split; [reflexivity|]. split.
  - intros wa wb wc La Lb Lc.
    destruct (hpr_satisfy_ok (E:=error) hpr_truncated (l101 [0; 0]%Z) wa wb wc) as [[|] [Eb Hb]]; auto; try (cbn; lia).
    exfalso. destruct (proj1 Hb eq_refl) as [_ R]. pose proof (R 0%nat ltac:(cbn; lia)) as R0. pose proof (R 1%nat ltac:(cbn; lia)) as R1.
    unfold mat_vec in R0, R1. cbn [h_ncols h_nrows hpr_truncated sumn] in R0, R1.
    cbn [h_arows h_acols h_avals h_brows h_bcols h_bvals h_crows h_ccols h_cvals h_drows h_dvals hpr_truncated] in R0, R1.
    match type of R0 with context [mat_at (entries_of [0;1]%nat ?a ?b) 0 0] => replace (mat_at (entries_of [0;1]%nat a b) 0 0) with (f101 1) in R0 by (apply (zp_eq 101); vm_compute; reflexivity) end.
    match type of R1 with context [mat_at (entries_of [0;1]%nat ?a ?b) 1 0] => replace (mat_at (entries_of [0;1]%nat a b) 1 0) with (f101 1) in R1 by (apply (zp_eq 101); vm_compute; reflexivity) end.
    match type of R0 with context [sparse_at ?a ?b 0] => replace (sparse_at a b 0) with (f101 1) in R0 by (apply (zp_eq 101); vm_compute; reflexivity) end.
    match type of R1 with context [sparse_at ?a ?b 1] => replace (sparse_at a b 1) with (f101 2) in R1 by (apply (zp_eq 101); vm_compute; reflexivity) end.
    change (mat_at (entries_of [] [] []) 0 0) with (0 : F101) in R0. change (mat_at (entries_of [] [] []) 1 0) with (0 : F101) in R1.
    assert (f101 2 - f101 1 = coef (l101 [0; 0]%Z) 1 - coef (l101 [0; 0]%Z) 0) as X by (rewrite <- R0, <- R1; ring).
    apply (f_equal (zval 101)) in X. vm_compute in X. discriminate.
  - apply (c62_enforced_is_provable (f101 2) 11 hpr_truncated (l101 [0; 0]%Z) (l101 [0; 0; 0]%Z) (f101 3) (f101 5)); sides101.
    split.
    + intros [|i] Hi; [apply (zp_eq 101); vm_compute; reflexivity|cbn in Hi; lia].
    + intros [|[|r]] Hr; [apply (zp_eq 101); vm_compute; reflexivity..|cbn in Hr; lia].
Qed.
(** The same with an instance that has one entry too many: it is added to the constant 1 that d is
    multiplied with. *)
Theorem c62_long_instance_refuted : exists (cs : HPR F101) x x' pw d,
  hp_lengths cs /\ hpr_shape cs /\ hp_nnz cs = hp_claimed cs /\ (h_nrows cs <= hp_claimed cs)%nat /\ length x = h_nrows cs /\
  (forall wa wb wc, length wa = h_ncols cs -> length wb = h_ncols cs -> length wc = h_ncols cs ->
     hpr_satisfy (E:=error) cs x wa wb wc = Ok false) /\
  hp_prover_wins (G1:=F101) (G2:=F101) (GT:=F101) (f101 2) d cs (x ++ x') pw.
Proof.
  exists hpr_constant, (l101 [0]%Z), (l101 [100]%Z), (l101 [0; 0; 0]%Z), 15%nat.
  assert (hp_lengths hpr_constant) as HL by (unfold hp_lengths; cbn; repeat split; lia).
  assert (hpr_shape hpr_constant) as HS by shape101.
  split; [exact HL|]. split; [exact HS|]. split; [reflexivity|]. split; [cbn; lia|]. split; [reflexivity|]. split.
  - intros wa wb wc La Lb Lc.
    destruct (hpr_satisfy_ok (E:=error) hpr_constant (l101 [0]%Z) wa wb wc) as [[|] [Eb Hb]]; auto; try (cbn; lia).
    exfalso. destruct (proj1 Hb eq_refl) as [_ R]. pose proof (R 0%nat ltac:(cbn; lia)) as R0.
    unfold mat_vec in R0. cbn [h_ncols h_nrows hpr_constant sumn] in R0.
    cbn [h_arows h_acols h_avals h_brows h_bcols h_bvals h_crows h_ccols h_cvals h_drows h_dvals hpr_constant] in R0.
    repeat match type of R0 with context [mat_at ?a 0 0] => replace (mat_at a 0 0) with (0 : F101) in R0 by (apply (zp_eq 101); vm_compute; reflexivity) end.
    match type of R0 with context [sparse_at ?a ?b 0] => replace (sparse_at a b 0) with (f101 4) in R0 by (apply (zp_eq 101); vm_compute; reflexivity) end.
    assert (f101 4 = coef (l101 [0]%Z) 0) as X by (rewrite <- R0; ring).
    apply (f_equal (zval 101)) in X. vm_compute in X. discriminate.
  - apply (c62_enforced_is_provable (f101 2) 15 hpr_constant (l101 [0]%Z ++ l101 [100]%Z) (l101 [0; 0; 0]%Z) (f101 3) (f101 5)); sides101.
    split.
    + intros [|i] Hi; [apply (zp_eq 101); vm_compute; reflexivity|cbn in Hi; lia].
    + intros [|r] Hr; [apply (zp_eq 101); vm_compute; reflexivity|cbn in Hr; lia].
Qed.
(** A case that meets the hypotheses of [c62_sound], and in which the verifier accepts. *)
Example c62_example :
  let h := h_nrows hpr_one in let k := h_ncols hpr_one in let m := hp_claimed hpr_one in
  f101 2 <> 0 /\ distinct_powers (f101 2) h /\ distinct_powers (f101 2) (3 * k + 1) /\
  hp_lengths hpr_one /\ hpr_shape hpr_one /\ (1 <= h)%nat /\ (1 <= k)%nat /\ (h <= m)%nat /\
  (length (h_brows hpr_one) + length (h_crows hpr_one) <= 2 * length (h_arows hpr_one))%nat /\
  (5 * k + 2 * m + 2 <= 15)%nat /\
  hp_prover_wins (G1:=F101) (G2:=F101) (GT:=F101) (f101 2) 15 hpr_one (l101 [30]%Z) (l101 [2; 3; 6]%Z).
Proof.
  cbn zeta. split; [intros E; apply (f_equal (zval 101)) in E; vm_compute in E; discriminate|].
  split; [apply distinct_powers_check; vm_compute; reflexivity|]. split; [apply distinct_powers_check; vm_compute; reflexivity|].
  assert (hp_lengths hpr_one) as HL by (unfold hp_lengths; cbn; repeat split; lia).
  assert (hpr_shape hpr_one) as HS by shape101.
  split; [exact HL|]. split; [exact HS|]. do 5 (split; [cbn; lia|]).
  apply (c62_enforced_is_provable (f101 2) 15 hpr_one (l101 [30]%Z) (l101 [2; 3; 6]%Z) (f101 3) (f101 5)); sides101.
  split.
  - intros [|i] Hi; [apply (zp_eq 101); vm_compute; reflexivity|cbn in Hi; lia].
  - intros [|r] Hr; [apply (zp_eq 101); vm_compute; reflexivity|cbn in Hr; lia].
Qed.

Print Assumptions c62_acceptance_enforces.
Print Assumptions c62_sound.
Print Assumptions c62_enforced_is_provable.
Print Assumptions c62_more_entries_refuted.
Print Assumptions c62_long_instance_refuted.

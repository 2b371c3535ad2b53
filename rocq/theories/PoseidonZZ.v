(** PoseidonZZ.v: the rounds with affine gates (zprize_constraints.rs). *)
From Verif Require Import Base Tools KZG SnarkProofs Plonk PlonkSpec PlonkProofs PlonkGadgets PlonkSelect PlonkBuilt Poseidon PoseidonSpec PoseidonProofs PoseidonPlonk.
Local Open Scope F_scope.

Section PoseidonZZ.
Context {F : Type} {fo : FieldOps F} {fl : FieldLaws F} {po : PrimeFieldOps F} {pl : PrimeFieldLaws F}.
Add Field Fpozz : F_th.
Variables (ca cd : F) (size : nat) (chk : F * F -> bool).
Hypothesis odd_field : (2 < modulus (F:=F))%Z.
Notation total := (total ca cd).
Notation built := (built ca cd size chk).
Notation grows := (grows ca cd size chk).
Implicit Types c : composer F.
Variable pc : constants F.
Notation K := (round_key 3 (pc_rc pc)).
Notation M := (entry (pc_m pc)).
Hypothesis sq : square 3 (pc_m pc).
Hypothesis sym : forall i j, (i < 3)%nat -> (j < 3)%nat -> M i j = M j i.

(** what is already added to the state r: the keys of round r *)
Definition early (r i : nat) : F := if ((r =? 0) || (r * 3 =? length (pc_rc pc)))%nat then 0 else K r i.
Definition holds_zz (r : nat) a st (s : nat -> F) : Prop := holds rd 3 a st (fun i => s i + early r i).
Lemma holds3 a x y z (s : nat -> F) : holds rd 3 a [x; y; z] s <-> a x = s 0%nat /\ a y = s 1%nat /\ a z = s 2%nat.
Proof. unfold holds, rd. cbn. split; [intros H; injection H; auto|intros [-> [-> ->]]; auto]. Qed.

Lemma row_of i : (i < 3)%nat -> exists row, nth_error (pc_m pc) i = Some row /\ length row = 3%nat /\ (forall j, entry (pc_m pc) i j = nth j row 0).
Proof using sq.
  intros H. destruct sq as [S1 S2]. destruct (nth_error (pc_m pc) i) as [row|] eqn:E; [|apply nth_error_None in E; lia].
  exists row. split; auto. split.
  - rewrite Forall_forall in S2. apply S2. now apply nth_error_In in E.
  - intros j. unfold entry. now rewrite (nth_error_nth _ _ [] E).
Qed.
Lemma coefficients_ok i key : (i < 3)%nat -> zz_coefficients (pc_m pc) i key = Ok (M 0%nat i, M 1%nat i, M 2%nat i, key, - (1)).
Proof using sq sym.
  intros H. unfold zz_coefficients. destruct (row_of i H) as [row [-> [L E]]]. cbn [unwrap_opt obind].
  rewrite (sym 0 i), (sym 1 i), (sym 2 i), !E by lia.
  destruct row as [|r0 [|r1 [|r2 [|]]]]; try discriminate. reflexivity.
Qed.
Lemma key_ok r i : (r * 3 + i < length (pc_rc pc))%nat -> nth_error (skipn (r * 3) (pc_rc pc)) i = Some (K r i).
Proof.
  intros H. rewrite (@nth_error_nth' F (skipn (r * 3) (pc_rc pc)) i 0) by (rewrite skipn_length; lia). now rewrite nth_skipn0.
Qed.
Lemma next_keys r : ((S r * 3 = length (pc_rc pc)) \/ (S r * 3 + 3 <= length (pc_rc pc)))%nat ->
  (let keys := skipn (r * 3) (pc_rc pc) in
   if (length keys =? 3)%nat then Ok (0, 0, 0)
   else let! k0 := unwrap_opt (nth_error keys 3) in let! k1 := unwrap_opt (nth_error keys 4) in
        let! k2 := unwrap_opt (nth_error keys 5) in Ok (k0, k1, k2)) =
  (Ok (early (S r) 0, early (S r) 1, early (S r) 2) : outcome error (F * F * F)).
Proof.
  intros H. cbv zeta. rewrite skipn_length. unfold early. cbn [Nat.eqb orb].
  destruct H as [H|H].
  - assert ((length (pc_rc pc) - r * 3 =? 3)%nat = true) as -> by (apply Nat.eqb_eq; lia).
    assert ((S r * 3 =? length (pc_rc pc))%nat = true) as -> by (apply Nat.eqb_eq; lia). reflexivity.
  - assert ((length (pc_rc pc) - r * 3 =? 3)%nat = false) as -> by (apply Nat.eqb_neq; lia).
    assert ((S r * 3 =? length (pc_rc pc))%nat = false) as -> by (apply Nat.eqb_neq; lia).
    rewrite !key_ok by lia. cbn [unwrap_opt obind]. unfold round_key.
    replace (r * 3 + 3)%nat with (S r * 3 + 0)%nat by lia. replace (r * 3 + 4)%nat with (S r * 3 + 1)%nat by lia.
    replace (r * 3 + 5)%nat with (S r * 3 + 2)%nat by lia. reflexivity.
Qed.

(** three affine gates in a row *)
Lemma affines (gate : nat * nat * nat -> F * F * F * F * F -> composer F -> outcome error (nat * composer F)) (f0 f1 f2 : (nat -> F) -> F) x y z (nk : nat -> F) c :
  (forall s0 s1 s2 s3 c, built c -> exists_in c x -> exists_in c y -> exists_in c z ->
    exists o c', gate (x, y, z) (s0, s1, s2, s3, - (1)) c = Ok (o, c') /\ exists_in c' o /\
      grows c c' (fun a => rd a o = s0 * f0 a + s1 * f1 a + s2 * f2 a + s3)) ->
  built c -> exists_in c x -> exists_in c y -> exists_in c z ->
  exists st' c', (let! s0 := zz_coefficients (pc_m pc) 0 (nk 0%nat) in let! (x2, c4) := gate (x, y, z) s0 c in
    let! s1 := zz_coefficients (pc_m pc) 1 (nk 1%nat) in let! (y2, c5) := gate (x, y, z) s1 c4 in
    let! s2 := zz_coefficients (pc_m pc) 2 (nk 2%nat) in let! (z2, c6) := gate (x, y, z) s2 c5 in Ok ([x2; y2; z2], c6)) = Ok (st', c') /\
    Forall (exists_in c') st' /\ length st' = 3%nat /\
    grows c c' (fun a => forall u, u 0%nat = f0 a -> u 1%nat = f1 a -> u 2%nat = f2 a -> holds rd 3 a st' (fun i => mix 3 M u i + nk i)).
Proof using sq sym fl.
  intros G B X Y Z. rewrite !coefficients_ok by lia. cbn [obind].
  destruct (G (M 0%nat 0%nat) (M 1%nat 0%nat) (M 2%nat 0%nat) (nk 0%nat) c B X Y Z) as [x2 [c4 [-> [X2 T1]]]]. cbn [obind].
  destruct (G (M 0%nat 1%nat) (M 1%nat 1%nat) (M 2%nat 1%nat) (nk 1%nat) c4) as [y2 [c5 [-> [Y2 T2]]]];
    [apply (grows_built _ _ _ _ _ _ _ T1)|eapply grows_known; eauto..|]. cbn [obind].
  destruct (G (M 0%nat 2%nat) (M 1%nat 2%nat) (M 2%nat 2%nat) (nk 2%nat) c5) as [z2 [c6 [-> [Z2 T3]]]];
    [apply (grows_built _ _ _ _ _ _ _ T2)|eapply grows_known; [eauto|]; eapply grows_known; eauto..|]. cbn [obind].
  exists [x2; y2; z2], c6. split; auto. split.
  { constructor; [|constructor; [|constructor; [|constructor]]]; auto.
    - eapply grows_known; [exact T3|]. eapply grows_known; eauto.
    - eapply grows_known; eauto. }
  split; auto.
  eapply grows_weak; [exact (grows_trans _ _ _ _ _ _ _ _ _ T1 (grows_trans _ _ _ _ _ _ _ _ _ T2 T3))|].
  intros a [E1 [E2 E3]] u U0 U1 U2. unfold rd in *. apply holds3. unfold mix. cbn [sumn]. rewrite E1, E2, E3, U0, U1, U2. repeat split; ring.
Qed.

Variables (half partial : nat).
Hypothesis Eh : pc_half pc = half.
Hypothesis Ep : pc_partial pc = partial.
Lemma full_zz_ok r : ((S r * 3 = length (pc_rc pc)) \/ (S r * 3 + 3 <= length (pc_rc pc)))%nat -> is_full half partial r = true ->
  round_ok built exists_in grows 3 0 pc holds_zz (one_round 3 (pc_half pc) (pc_partial pc) M K) full_round_zz r.
Proof using sq sym fl pl odd_field Eh Ep.
  intros H Fr st c B KS L. destruct st as [|x [|y [|z [|]]]]; try discriminate.
  inversion_clear KS as [|? ? X KS1]. inversion_clear KS1 as [|? ? Y KS2]. inversion_clear KS2 as [|? ? Z _].
  unfold full_round_zz. change (0 + r * 3)%nat with (r * 3)%nat. cbv zeta.
  assert (exists x1 y1 z1 c3, (if (r * 3 =? 0)%nat
      then let! k0 := unwrap_opt (nth_error (skipn (r * 3) (pc_rc pc)) 0) in let! (x1, c1) := o_addi plonk_zz x k0 c in
        let! k1 := unwrap_opt (nth_error (skipn (r * 3) (pc_rc pc)) 1) in let! (y1, c2) := o_addi plonk_zz y k1 c1 in
        let! k2 := unwrap_opt (nth_error (skipn (r * 3) (pc_rc pc)) 2) in let! (z1, c3) := o_addi plonk_zz z k2 c2 in
        Ok (x1, y1, z1, c3)
      else Ok (x, y, z, c)) = Ok (x1, y1, z1, c3) /\ exists_in c3 x1 /\ exists_in c3 y1 /\ exists_in c3 z1 /\
      grows c c3 (fun a => forall s, holds_zz r a [x; y; z] s -> a x1 = s 0%nat + K r 0 /\ a y1 = s 1%nat + K r 1 /\ a z1 = s 2%nat + K r 2))
    as [x1 [y1 [z1 [c3 [-> [X1 [Y1 [Z1 T0]]]]]]]].
  { destruct r as [|r].
    - cbn [Nat.mul Nat.eqb]. change 0%nat with (0 * 3)%nat at 1 3 5. rewrite !key_ok by lia. cbn [unwrap_opt obind].
      change (o_addi (plonk_zz (F:=F))) with (o_addi (plonk (F:=F))).
      destruct (grows_addi ca cd size chk odd_field x (K 0 0) c B X) as [x1 [c1 [-> [T1 X1]]]]. cbn [obind].
      destruct (grows_addi ca cd size chk odd_field y (K 0 1) c1) as [y1 [c2 [-> [T2 Y1]]]];
        [apply (grows_built _ _ _ _ _ _ _ T1)|eapply grows_known; eauto|]. cbn [obind].
      destruct (grows_addi ca cd size chk odd_field z (K 0 2) c2) as [z1 [c3 [-> [T3 Z1]]]];
        [apply (grows_built _ _ _ _ _ _ _ T2)|eapply grows_known; [eauto|]; eapply grows_known; eauto|]. cbn [obind].
      exists x1, y1, z1, c3. split; auto. split; [eapply grows_known; [eauto|]; eapply grows_known; eauto|]. split; [eapply grows_known; eauto|]. split; auto.
      eapply grows_weak; [exact (grows_trans _ _ _ _ _ _ _ _ _ T1 (grows_trans _ _ _ _ _ _ _ _ _ T2 T3))|].
      intros a [E1 [E2 E3]] s Hs. apply holds3 in Hs. unfold early, rd in *. cbn [Nat.eqb orb] in Hs. destruct Hs as [H1 [H2 H3]].
      rewrite E1, E2, E3, H1, H2, H3. repeat split; ring.
    - exists x, y, z, c. split; [reflexivity|]. repeat (split; [solve [auto]|]).
      eapply grows_weak; [apply grows_refl; auto|]. intros a _ s Hs. apply holds3 in Hs. unfold early in Hs. cbn [Nat.eqb orb] in Hs.
      assert ((S r * 3 =? length (pc_rc pc))%nat = false) as E by (apply Nat.eqb_neq; lia). rewrite E in Hs. exact Hs. }
  cbn [obind]. pose proof (next_keys r H) as NK. cbv zeta in NK. rewrite NK. cbn [obind].
  destruct (affines full_affine_transform_gate (fun a => fifth (rd a x1)) (fun a => fifth (rd a y1)) (fun a => fifth (rd a z1)) x1 y1 z1 (early (S r)) c3)
    as [st' [c' [E [KS' [L' T']]]]]; auto.
  { intros s0 s1 s2 s3 c0 B0 A1 A2 A3. now apply affine_full_ok. }
  { apply (grows_built _ _ _ _ _ _ _ T0). }
  exists st', c'. split.
  { rewrite !coefficients_ok in * by lia. cbn [obind] in *.
    repeat match goal with |- context [full_affine_transform_gate ?v ?s ?cc] => destruct (full_affine_transform_gate v s cc) as [[? ?]| |]; cbn [obind] in *; try discriminate end.
    injection E as <- <-. replace (r * 3 + 3)%nat with (S r * 3)%nat by lia. reflexivity. }
  split; auto. split; auto. eapply grows_weak; [exact (grows_trans _ _ _ _ _ _ _ _ _ T0 T')|].
  intros a [E1 E2] s Hs. destruct (E1 s Hs) as [A1 [A2 A3]]. unfold holds_zz, one_round.
  apply (E2 (substitute (pc_half pc) (pc_partial pc) K r s)); unfold substitute, rd; rewrite Eh, Ep, Fr; cbn [orb]; congruence.
Qed.
Lemma partial_zz_ok r : (S r * 3 + 3 <= length (pc_rc pc))%nat -> (1 <= r)%nat -> is_full half partial r = false ->
  round_ok built exists_in grows 3 0 pc holds_zz (one_round 3 (pc_half pc) (pc_partial pc) M K) partial_round_zz r.
Proof using sq sym fl pl odd_field Eh Ep.
  intros H Hr Fr st c B KS L. destruct st as [|x [|y [|z [|]]]]; try discriminate.
  inversion_clear KS as [|? ? X KS1]. inversion_clear KS1 as [|? ? Y KS2]. inversion_clear KS2 as [|? ? Z _].
  unfold partial_round_zz. change (0 + r * 3)%nat with (r * 3)%nat. cbv zeta.
  assert (forall i, (i < 3)%nat -> nth_error (skipn (r * 3) (pc_rc pc)) (3 + i) = Some (early (S r) i)) as NK.
  { intros i Hi. rewrite key_ok by lia. unfold early. cbn [Nat.eqb orb].
    assert ((S r * 3 =? length (pc_rc pc))%nat = false) as -> by (apply Nat.eqb_neq; lia).
    unfold round_key. f_equal. f_equal. lia. }
  pose proof (NK 0%nat ltac:(lia)) as N0. pose proof (NK 1%nat ltac:(lia)) as N1. pose proof (NK 2%nat ltac:(lia)) as N2. cbn [Nat.add] in N0, N1, N2.
  rewrite N0, N1, N2. cbn [unwrap_opt obind].
  destruct (affines partial_affine_transform_gate (fun a => fifth (rd a x)) (fun a => rd a y) (fun a => rd a z) x y z (early (S r)) c)
    as [st' [c' [E [KS' [L' T']]]]]; auto.
  { intros s0 s1 s2 s3 c0 B0 A1 A2 A3. now apply affine_partial_ok. }
  exists st', c'. split.
  { rewrite !coefficients_ok in * by lia. cbn [obind] in *.
    repeat match goal with |- context [partial_affine_transform_gate ?v ?s ?cc] => destruct (partial_affine_transform_gate v s cc) as [[? ?]| |]; cbn [obind] in *; try discriminate end.
    injection E as <- <-. replace (r * 3 + 3)%nat with (S r * 3)%nat by lia. reflexivity. }
  split; auto. split; auto. eapply grows_weak; [exact T'|].
  intros a E2 s Hs. apply holds3 in Hs. unfold early in Hs.
  assert (((r =? 0) || (r * 3 =? length (pc_rc pc)))%nat = false) as E0.
  { apply Bool.orb_false_iff. split; apply Nat.eqb_neq; lia. }
  rewrite E0 in Hs. destruct Hs as [A1 [A2 A3]]. unfold holds_zz, one_round.
  apply (E2 (substitute (pc_half pc) (pc_partial pc) K r s)); unfold substitute, rd; rewrite Eh, Ep, Fr; cbn [orb Nat.eqb]; congruence.
Qed.
End PoseidonZZ.

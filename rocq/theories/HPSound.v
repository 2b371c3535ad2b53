(** HPSound.v: soundness of the HPR argument, round by round. *)
From Verif Require Import Base Spec Tools ToolsProofs MatProofs ToolsProofs2 PermProofs CS CSProofs KZG KZGSpec KZGProofs Snark Laurent Laurent2 SnarkProofs
  SnarkPerm Properties_KZG PovPEConst SparseSum HP HPProofs HPConst HPComplete HPTop SoundSpec Sound KZGSound PovSound PartFrac R1Sound HPSoundSpec.
Local Open Scope F_scope.

Section HPSoundA.
Context {F : Type} {fo : FieldOps F} {fl : FieldLaws F}.
Add Field Frs : F_th.

(** the assignment (1, w) plus what the instance has after its first h entries *)
Definition hp_asg (h k : nat) (x pw : list F) : list F :=
  map (fun c => match c with 0 => 1 | S c' => coef pw c' end + coef x (h + c)) (seq 0 (3 * k + 1)).
(** the difference between the instance and the products *)
Definition hp_dM (M : entries (F:=F)) (h k : nat) (x pw : list F) (r : nat) : F :=
  coef x r - mat_vec M (3 * k + 1) (hp_asg h k x pw) r.
(** the difference between the committed combination of the rows and the right one *)
Definition hp_dC (M : entries (F:=F)) (h : nat) (ga mu : F) (ps : list F) (c : nat) : F :=
  coef ps (h + c) + mat_vec (transpose M) h (r1_rinv ga mu h) c.
(** the two inner products combined with beta *)
Definition hp_A (h vv : nat) (x pw ps : list F) : F :=
  sumn vv (fun i => (coef x i + vidx pw (Z.of_nat (S i) - Z.of_nat h - 1) + delta (Z.of_nat (S i)) (Z.of_nat h + 1)) * coef ps i).
Definition hp_B (h k : nat) (vals ps ph : list F) (vv : nat) : F :=
  sumn vv (fun i => vidx ph (Z.of_nat (S i) - Z.of_nat h) * coef ps i + coef ph i * vidx vals (Z.of_nat (S i) - 3 * Z.of_nat k - 1)).

Lemma nth_firstn_lt {A} (l : list A) m j d : (j < m)%nat -> nth j (firstn m l) d = nth j l d.
Proof. revert m j. induction l as [|a l IH]; intros [|m] [|j] H; cbn; auto; try lia. apply IH. lia. Qed.
Lemma coef_off off (l : list F) j : coef (repeat 0 off ++ l) (off + j) = coef l j.
Proof. rewrite coef_app, repeat_length. destruct (Nat.ltb_spec (off + j) off); [lia|]. f_equal. lia. Qed.
Lemma coef_off_0 off (l : list F) j : (j < off)%nat -> coef (repeat 0 off ++ l) j = 0.
Proof. intros. rewrite coef_app, repeat_length. destruct (Nat.ltb_spec j off); [|lia]. unfold coef. apply nth_repeat. Qed.
Lemma rinv_at (ga mu : F) h r : (r < h)%nat -> coef (r1_rinv ga mu h) r = finv (mu - fpow ga r).
Proof. intros Hr. unfold r1_rinv. now rewrite coef_map_seq by auto. Qed.

(** The value of the two sums, for vectors with the prescribed entries.  The first min(n, m) of the n
    matrix entries count; when n < m, the committed vectors start with m - n zeros. *)
Section Sums.
Variables (h k m n off : nat) (rows cols : list nat) (vals x pw ps ph : list F) (ga mu nu : F).
Let K := (3 * k + 1)%nat.
Let M := entries_of (firstn m rows) (firstn m cols) (firstn m vals).
Hypothesis Hhm : (h <= m)%nat.
Hypothesis Hoff : (off + Nat.min n m = m)%nat.
Hypothesis Lr : length rows = n.
Hypothesis Lc : length cols = n.
Hypothesis Lv : length vals = n.
Hypothesis HM : in_shape M h K.
Notation ri := (r1_rinv ga mu h).
Notation C := (mat_vec (transpose M) h ri).
Notation vs := (repeat 0 off ++ vals).
Hypothesis Pad : forall i, (h + K <= i < K + m)%nat -> coef ps i = 0.
Lemma hp_B_value :
  (forall j, (j < K)%nat -> coef ph j = finv (nu - fpow ga j)) ->
  (forall j, (j < Nat.min n m)%nat -> coef ph (K + (off + j)) = finv (mu - fpow ga (nth j rows 0%nat)) * finv (nu - fpow ga (nth j cols 0%nat))) ->
  hp_B h k vs ps ph (K + m) = sumn K (fun c => finv (nu - fpow ga c) * hp_dC M h ga mu ps c).
Proof.
  intros Hnu Huw. unfold hp_dC.
  assert (Lv' : length (firstn m vals) = Nat.min n m) by (rewrite firstn_length; lia).
  assert (Lr' : length (firstn m rows) = length (firstn m vals)) by (rewrite !firstn_length; lia).
  assert (Lc' : length (firstn m cols) = length (firstn m vals)) by (rewrite !firstn_length; lia).
  assert (sumn K (fun c => finv (nu - fpow ga c) * C c) = sumn m (fun j => coef ph (K + j) * coef vs j)) as E2.
  { unfold mat_vec.
    rewrite (sumn_ext K _ (fun c => finv (nu - fpow ga c) * sumn h (fun r => mat_at M r c * coef ri r))).
    2:{ intros c Hc. f_equal. apply sumn_ext. intros r Hr. now rewrite mat_at_transpose. }
    rewrite (mat_bilinear M h K) by auto. unfold M.
    rewrite (entries_sum _ _ _ (fun r c x => coef ri r * finv (nu - fpow ga c) * x)) by auto.
    rewrite Lv'. transitivity (sumn (off + Nat.min n m) (fun j => coef ph (K + j) * coef vs j)); [|now rewrite Hoff].
    rewrite sumn_split, (sumn_0 off). 2:{ intros j Hj. rewrite coef_off_0 by auto. ring. }
    match goal with |- ?a = _ => transitivity (0 + a); [ring|f_equal] end. apply sumn_ext. intros j Hj.
    destruct (in_shape_nth (firstn m rows) (firstn m cols) (firstn m vals) h K j) as [H1 H2]; auto; [lia|].
    assert (coef (firstn m vals) j = coef vals j) as -> by (apply nth_firstn_lt; lia).
    rewrite rinv_at by auto. rewrite !nth_firstn_lt in * by lia.
    rewrite coef_off, Huw by auto. ring. }
  rewrite (sumn_ext K _ (fun c => finv (nu - fpow ga c) * coef ps (h + c) + finv (nu - fpow ga c) * C c)) by (intros; ring).
  rewrite sumn_add, E2. unfold hp_B. rewrite sumn_add. f_equal.
  - replace (K + m)%nat with (h + (K + (m - h)))%nat by lia. rewrite !sumn_split.
    rewrite (sumn_0 h). 2:{ intros i Hi. rewrite (vidx_out ph) by lia. ring. }
    rewrite (sumn_0 (m - h)). 2:{ intros i Hi. rewrite (Pad (h + (K + i))) by lia. ring. }
    transitivity (sumn K (fun i => vidx ph (Z.of_nat (S (h + i)) - Z.of_nat h) * coef ps (h + i))); [ring|].
    apply sumn_ext. intros i Hi. rewrite (vidx_coef ph _ i) by lia. now rewrite Hnu by auto.
  - rewrite sumn_split. rewrite (sumn_0 K). 2:{ intros i Hi. rewrite (vidx_out vs) by (unfold K in Hi; lia). ring. }
    transitivity (sumn m (fun i => coef ph (K + i) * vidx vs (Z.of_nat (S (K + i)) - 3 * Z.of_nat k - 1))); [ring|].
    apply sumn_ext. intros i Hi. now rewrite (vidx_coef vs _ i) by (unfold K; lia).
Qed.
Lemma hp_A_value :
  (forall j, (j < h)%nat -> coef ps j = finv (mu - fpow ga j)) ->
  (forall c, (c < K)%nat -> coef ps (h + c) = - C c) ->
  hp_A h (K + m) x pw ps = sumn h (fun r => finv (mu - fpow ga r) * hp_dM M h k x pw r).
Proof.
  intros Hmu HC. unfold hp_dM. fold K.
  rewrite (sumn_ext h (fun r => finv (mu - fpow ga r) * _) (fun r => finv (mu - fpow ga r) * coef x r - coef ri r * mat_vec M K (hp_asg h k x pw) r)).
  2:{ intros i Hi. rewrite rinv_at by auto. ring. }
  rewrite sumn_sub, (mat_vec_adjoint M h K ri). unfold hp_A.
  replace (K + m)%nat with (h + (K + (m - h)))%nat by lia. rewrite !sumn_split.
  rewrite (sumn_0 (m - h)). 2:{ intros i Hi. rewrite (Pad (h + (K + i))) by lia. ring. }
  rewrite (sumn_ext h (fun i => _ * coef ps i) (fun r => finv (mu - fpow ga r) * coef x r)).
  2:{ intros i Hi. rewrite (vidx_out pw) by lia. rewrite delta_neq by lia. rewrite Hmu by auto. ring. }
  rewrite (sumn_ext K (fun i => _ * coef ps (h + i)) (fun c => - (coef (hp_asg h k x pw) c * C c))).
  2:{ intros i Hi. rewrite HC by auto. unfold hp_asg. fold K. rewrite coef_map_seq, Nat.add_0_l by auto.
      destruct i as [|i].
      - rewrite (vidx_out pw) by lia. unfold delta. replace (Z.of_nat (S (h + 0)) =? Z.of_nat h + 1)%Z with true by (symmetry; apply Z.eqb_eq; lia). cbv iota. ring.
      - rewrite (vidx_coef pw _ i), delta_neq by lia. cbv iota. ring. }
  rewrite sumn_opp. ring.
Qed.
End Sums.

Section SatHolds.
Variable e : hp_s6 F.
Variables (h k sa sb sc sd off n : nat) (rows cols : list nat) (vals pw ps ph : list F).
Variable m : nat.
Hypothesis Hm : m = (sa + sb + sc + sd)%nat.
Let K := (3 * k + 1)%nat.
Let M := entries_of (firstn m rows) (firstn m cols) (firstn m vals).
Notation x := (hp_x_vec e).
Hypothesis EH : hp_cap_h e = Z.of_nat h.
Hypothesis EK : hp_cap_k e = Z.of_nat k.
Hypothesis ESa : hp_cap_s_a e = Z.of_nat sa.
Hypothesis ESb : hp_cap_s_b e = Z.of_nat sb.
Hypothesis ESc : hp_cap_s_c e = Z.of_nat sc.
Hypothesis ESd : hp_cap_s_d e = Z.of_nat sd.
Hypothesis Hhm : (h <= m)%nat.
Hypothesis Hoff : (off + Nat.min n m = m)%nat.
Hypothesis Lr : length rows = n.
Hypothesis Lc : length cols = n.
Hypothesis Lv : length vals = n.
Hypothesis HM : in_shape M h K.
Hypothesis Hga : hp_gamma e <> 0.
Hypothesis Eu1 : hp_w_vec_1 e = pw ++ [0].
Hypothesis Es : hp_s_vec e = ps.
Hypothesis Eh : hp_h_vec e = ph ++ [0].
Hypothesis Eu : hp_u_vec e = repeat 0 off ++ int_array_to_power_vector rows (hp_gamma e).
Hypothesis Ew : hp_w_vec e = repeat 0 off ++ int_array_to_power_vector cols (hp_gamma e).
Hypothesis Ev : hp_v_vec e = repeat 0 off ++ vals.
Hypothesis Ey : hp_y_vec e = repeat 0 off ++ hadamard_vector (int_array_to_power_vector rows (hp_gamma e)) (int_array_to_power_vector cols (hp_gamma e)).
Notation mu := (hp_mu e).
Notation nu := (hp_nu e).
Notation ga := (hp_gamma e).
Notation vs := (repeat 0 off ++ vals).
Hypothesis Nmu : ~ bad_frac (fpow ga) (hp_dM M h k x pw) h mu.
Hypothesis Nnu : ~ bad_frac (fpow ga) (hp_dC M h ga mu ps) K nu.
Hypothesis Nbe : ~ ((hp_A h (K + m) x pw ps <> 0 \/ - hp_B h k vs ps ph (K + m) <> 0) /\
  hp_A h (K + m) x pw ps + hp_beta e * (- hp_B h k vs ps ph (K + m)) = 0).
Hypothesis G : hp_sat e.

Notation vv := (3 * Z.of_nat k + Z.of_nat sa + Z.of_nat sb + Z.of_nat sc + Z.of_nat sd + 1)%Z.
Lemma hs_m : Z.of_nat m = (Z.of_nat sa + Z.of_nat sb + Z.of_nat sc + Z.of_nat sd)%Z. Proof. lia. Qed.
Lemma hs_K : Z.of_nat K = (3 * Z.of_nat k + 1)%Z. Proof. unfold K. lia. Qed.
Ltac sizes := pose proof hs_m as Em; pose proof hs_K as EK'.
Lemma hs_u1 i : vidx (hp_w_vec_1 e) i = vidx pw i.
Proof.
  rewrite Eu1. destruct (Z_le_gt_dec i 0); [now rewrite !vidx_out by lia|].
  rewrite !(vidx_coef _ i (Z.to_nat (i - 1))) by lia. apply coef_snoc0.
Qed.
Lemma hs_h i : vidx (hp_h_vec e) i = vidx ph i.
Proof.
  rewrite Eh. destruct (Z_le_gt_dec i 0); [now rewrite !vidx_out by lia|].
  rewrite !(vidx_coef _ i (Z.to_nat (i - 1))) by lia. apply coef_snoc0.
Qed.
Lemma hs_s i (j : nat) : i = Z.of_nat (S j) -> vidx (hp_s_vec e) i = coef ps j.
Proof. intros ->. rewrite vidx_S, Es. reflexivity. Qed.

(** the committed rows and columns *)
Lemma hs_mu j : (j < h)%nat -> mu - fpow ga j <> 0 /\ coef ps j = finv (mu - fpow ga j).
Proof.
  intros Hj. apply prod_1. sizes.
  pose proof (hs_k0 e G (Z.of_nat (S j))) as K0. unfold hp_k0 in K0. rewrite EK, ESa, ESb, ESc, ESd, EH in K0. specialize (K0 ltac:(lia)).
  rewrite range_in, (hs_s _ j) in K0 by lia.
  replace (Z.of_nat (S j) - 1)%Z with (Z.of_nat j) in K0 by lia. rewrite fpowZ_nat in K0.
  apply fsub_0_eq. rewrite <- K0. ring.
Qed.
Lemma hs_nu j : (j < K)%nat -> nu - fpow ga j <> 0 /\ coef ph j = finv (nu - fpow ga j).
Proof.
  intros Hj. apply prod_1. sizes.
  pose proof (hs_k1 e G (Z.of_nat (S j))) as K0. unfold hp_k1 in K0. rewrite EK, ESa, ESb, ESc, ESd in K0. specialize (K0 ltac:(lia)).
  rewrite range_in, hs_h, vidx_S in K0 by lia.
  replace (Z.of_nat (S j) - 1)%Z with (Z.of_nat j) in K0 by lia. rewrite fpowZ_nat in K0.
  apply fsub_0_eq. rewrite <- K0. ring.
Qed.
Lemma hs_uw j : (j < Nat.min n m)%nat ->
  coef ph (K + (off + j)) = finv (mu - fpow ga (nth j rows 0%nat)) * finv (nu - fpow ga (nth j cols 0%nat)).
Proof.
  intros Hj. sizes.
  assert (Lv' : length (firstn m vals) = Nat.min n m) by (rewrite firstn_length; lia).
  destruct (in_shape_nth (firstn m rows) (firstn m cols) (firstn m vals) h K j) as [H1 H2]; auto; try (rewrite !firstn_length; lia).
  rewrite nth_firstn_lt in H1, H2 by lia.
  destruct (hs_mu _ H1) as [N1 _]. destruct (hs_nu _ H2) as [N2 _].
  pose proof (hs_k4 e G (Z.of_nat (S (K + (off + j))))) as K0. unfold hp_k4 in K0. rewrite EK, ESa, ESb, ESc, ESd in K0. specialize (K0 ltac:(lia)).
  rewrite !range_in, hs_h, vidx_S, Ey in K0 by lia.
  rewrite !(vidx_coef _ (Z.of_nat (S (K + (off + j))) - 3 * Z.of_nat k - 1) (off + j)) in K0 by lia.
  rewrite Eu, Ew, !coef_off in K0.
  rewrite coef_hadamard, !power_vector_length, Lr, Lc, Nat.min_id, !coef_power_vector in K0 by (auto; lia).
  destruct (Nat.ltb_spec j n); [|lia].
  set (a := mu - fpow ga (nth j rows 0%nat)) in *. set (b := nu - fpow ga (nth j cols 0%nat)) in *.
  assert (coef ph (K + (off + j)) * (a * b) = 1) as E.
  { apply fsub_0_eq. refine (eq_trans _ K0). unfold a, b. ring. }
  transitivity (coef ph (K + (off + j)) * (a * b) * (finv a * finv b)); [field; auto|]. rewrite E. ring.
Qed.
Lemma hs_pad i : (h + K <= i < K + m)%nat -> coef ps i = 0.
Proof.
  intros Hi. sizes.
  pose proof (hs_k2 e G (Z.of_nat (S i))) as K0. unfold hp_k2 in K0. rewrite EK, ESa, ESb, ESc, ESd, EH in K0. specialize (K0 ltac:(lia)).
  rewrite range_in, (hs_s _ i) in K0 by lia. rewrite <- K0. ring.
Qed.

(** the running sum *)
Lemma hs_AB : hp_A h (K + m) x pw ps = 0 /\ hp_B h k vs ps ph (K + m) = 0.
Proof.
  sizes.
  assert (hp_A h (K + m) x pw ps + hp_beta e * (- hp_B h k vs ps ph (K + m)) = 0) as E.
  { pose proof (hs_k7 e G vv) as K0. unfold hp_k7, delta in K0. rewrite EK, ESa, ESb, ESc, ESd, Z.eqb_refl in K0. specialize (K0 ltac:(lia)).
    transitivity (vidx (hp_r_vec_tilde e) vv); [|rewrite <- K0; ring].
    set (f := fun p => (vidx x p + vidx (hp_w_vec_1 e) (p - Z.of_nat h - 1) + delta p (Z.of_nat h + 1)) * vidx (hp_s_vec e) p
      - hp_beta e * (vidx (hp_h_vec e) (p - Z.of_nat h) * vidx (hp_s_vec e) p + vidx (hp_h_vec e) p * vidx (hp_v_vec e) (p - 3 * Z.of_nat k - 1))).
    transitivity (sumn (K + m) (fun i => f (Z.of_nat (S i)))).
    - unfold f, hp_A, hp_B. rewrite <- sumn_opp, <- sumn_mul_l, <- sumn_add. apply sumn_ext. intros i Hi.
      rewrite !hs_u1, (hs_s _ i), !hs_h, Ev, !vidx_S by lia. ring.
    - rewrite (telescope f (vidx (hp_r_vec_tilde e)) (K + m)); [f_equal; lia|apply vidx_out; lia|].
      intros i Hi. pose proof (hs_k6 e G i) as K7. unfold hp_k6 in K7. rewrite EK, ESa, ESb, ESc, ESd, EH in K7. specialize (K7 ltac:(lia)).
      rewrite range_in in K7 by lia. apply fsub_0_eq. rewrite <- K7. unfold f. ring. }
  destruct (feq_dec (hp_A h (K + m) x pw ps) 0) as [QA|QA], (feq_dec (- hp_B h k vs ps ph (K + m)) 0) as [QB|QB]; try (exfalso; apply Nbe; auto; fail).
  split; auto. transitivity (- - hp_B h k vs ps ph (K + m)); [ring|rewrite QB; ring].
Qed.

Notation C := (mat_vec (transpose M) h (r1_rinv ga mu h)).
Lemma hs_C c : (c < K)%nat -> coef ps (h + c) = - C c.
Proof.
  destruct hs_AB as [_ HB]. sizes.
  assert (sumn K (fun c => finv (nu - fpow ga c) * hp_dC M h ga mu ps c) = 0) as E.
  { refine (eq_trans (eq_sym (hp_B_value h k m n off rows cols vals ps ph ga mu nu _ _ _ _ _ _ _ _ _)) HB); auto; [apply hs_pad| |]; intros j Hj; [now apply hs_nu|now apply hs_uw]. }
  intros Hc. destruct (feq_dec (hp_dC M h ga mu ps c) 0) as [Q|Q].
  - unfold hp_dC in Q. match type of Q with ?a + ?b = _ => transitivity (a + b - b); [ring|rewrite Q; ring] end.
  - exfalso. apply Nnu. split; [eauto|]. split; auto. intros i Hi E'. destruct (hs_nu i Hi) as [N _]. apply N. rewrite E'. ring.
Qed.
Lemma hs_M r : (r < h)%nat -> coef x r = mat_vec M K (hp_asg h k x pw) r.
Proof.
  destruct hs_AB as [HA _]. sizes.
  assert (sumn h (fun r => finv (mu - fpow ga r) * hp_dM M h k x pw r) = 0) as E.
  { refine (eq_trans (eq_sym (hp_A_value h k m n off rows cols vals x pw ps ga mu _ _ _ _ _ _ _ _)) HA); auto; [apply hs_pad| |]; intros j Hj; [now apply hs_mu|now apply hs_C]. }
  intros Hr. destruct (feq_dec (hp_dM M h k x pw r) 0) as [Q|Q].
  - now apply fsub_0_eq.
  - exfalso. apply Nmu. split; [eauto|]. split; auto. intros i Hi E'. destruct (hs_mu i Hi) as [N _]. apply N. rewrite E'. ring.
Qed.
(** what the constraints say about the committed assignment *)
Lemma hp_sat_holds :
  (forall i, (i < k)%nat -> coef pw i * coef pw (k + i) = coef pw (2 * k + i)) /\
  (forall r, (r < h)%nat -> mat_vec M K (hp_asg h k x pw) r = coef x r).
Proof.
  sizes. split.
  - intros r Hr.
    pose proof (hs_k5 e G (vv - Z.of_nat k + Z.of_nat (S r))%Z) as K0. unfold hp_k5 in K0. rewrite EK, ESa, ESb, ESc, ESd in K0. specialize (K0 ltac:(lia)).
    rewrite range_in, !hs_u1, (vidx_coef pw _ r), (vidx_coef pw _ (k + r)), (vidx_coef pw _ (2 * k + r)) in K0 by lia.
    apply fsub_0_eq. rewrite <- K0. ring.
  - intros r Hr. symmetry. now apply hs_M.
Qed.
End SatHolds.
End HPSoundA.

Lemma in_shape_firstn {F} m rows cols (vals : list F) h k : in_shape (entries_of rows cols vals) h k ->
  in_shape (entries_of (firstn m rows) (firstn m cols) (firstn m vals)) h k.
Proof.
  unfold in_shape, entries_of. intros H r c x Hi. apply (H r c x). rewrite <- !combine_firstn in Hi.
  revert Hi. generalize (combine (combine rows cols) vals). intros l. revert m. induction l as [|a l IH]; intros [|m]; cbn; try tauto. intros [|]; eauto.
Qed.
Section Listed.
Context {F : Type} {fo : FieldOps F} {fl : FieldLaws F}.
Add Field Fli : F_th.
Lemma combine_app_eq {A B} (a a' : list A) (b b' : list B) : length a = length b -> combine (a ++ a') (b ++ b') = combine a b ++ combine a' b'.
Proof. revert b. induction a as [|x a IH]; intros [|y b] L; cbn in *; try discriminate; auto. rewrite IH by lia. reflexivity. Qed.
Lemma entries_map (f : nat -> nat) rows cols (vals : list F) :
  entries_of rows (map f cols) vals = map (fun rcv => (fst (fst rcv), f (snd (fst rcv)), snd rcv)) (entries_of rows cols vals).
Proof.
  unfold entries_of. revert cols vals. induction rows as [|r rows IH]; intros [|c cols] [|v vals]; cbn; auto. now rewrite IH.
Qed.
Lemma entries_const rows (vals : list F) b : length rows = length vals ->
  entries_of rows (map (fun _ => 0%nat) (seq b (length vals))) vals = map (fun rv => (fst rv, 0%nat, snd rv)) (combine rows vals).
Proof.
  unfold entries_of. revert vals b. induction rows as [|r rows IH]; intros [|v vals] b L; cbn in *; try discriminate; auto. now rewrite IH by lia.
Qed.
Lemma entries_app r1 c1 (v1 : list F) r2 c2 v2 : length r1 = length c1 -> length r1 = length v1 ->
  entries_of (r1 ++ r2) (c1 ++ c2) (v1 ++ v2) = entries_of r1 c1 v1 ++ entries_of r2 c2 v2.
Proof. intros. unfold entries_of. rewrite !combine_app_eq; auto. rewrite combine_length. lia. Qed.
Lemma hp_listed_stack (cs : HPR F) : hp_lengths cs ->
  entries_of (fst (fst (hp_stack cs))) (snd (fst (hp_stack cs))) (snd (hp_stack cs)) = hp_listed cs.
Proof.
  intros [A [B [C [D [X [Y [Z W]]]]]]]. unfold hp_stack, concat_matrix_horizontally, hp_listed. cbn [fst snd].
  rewrite !entries_app by (rewrite ?map_length; auto). rewrite (entries_const (h_drows cs)) by auto.
  rewrite (map_ext (fun i => (i + h_ncols cs * 2 + 1)%nat) (fun i => (i + 2 * h_ncols cs + 1)%nat)) by (intros; lia).
  now rewrite !entries_map.
Qed.
Lemma firstn_entries m rows cols (vals : list F) :
  entries_of (firstn m rows) (firstn m cols) (firstn m vals) = firstn m (entries_of rows cols vals).
Proof. unfold entries_of. now rewrite <- !combine_firstn. Qed.
Lemma hp_asg_eq h k (x w : list F) : map (fun c => coef (1 :: w) c + coef x (h + c)) (seq 0 (3 * k + 1)) = hp_asg h k x w.
Proof. unfold hp_asg. apply map_ext. intros [|c]; reflexivity. Qed.
Lemma hp_enforced_iff (cs : HPR F) x pw : hp_lengths cs ->
  let h := h_nrows cs in let k := h_ncols cs in let m := hp_claimed cs in
  let M := entries_of (firstn m (fst (fst (hp_stack cs)))) (firstn m (snd (fst (hp_stack cs)))) (firstn m (snd (hp_stack cs))) in
  (forall i, (i < k)%nat -> coef pw i * coef pw (k + i) = coef pw (2 * k + i)) /\
  (forall r, (r < h)%nat -> mat_vec M (3 * k + 1) (hp_asg h k x pw) r = coef x r) <-> hp_enforced cs x pw.
Proof.
  intros HL h k m M. unfold hp_enforced. fold h k. change (3 * length (h_arows cs) + length (h_drows cs))%nat with m.
  rewrite hp_asg_eq, <- (hp_listed_stack cs HL), <- firstn_entries. fold M. reflexivity.
Qed.
(** with no more entries than claimed, and no more instance entries than rows, this is the relation *)
Lemma hp_enforced_holds (cs : HPR F) x pw : hp_lengths cs -> hpr_shape cs ->
  (length (h_brows cs) + length (h_crows cs) <= 2 * length (h_arows cs))%nat -> (length x <= h_nrows cs)%nat ->
  hp_enforced cs x pw -> let k := h_ncols cs in
  hpr_holds (entries_of (h_arows cs) (h_acols cs) (h_avals cs)) (entries_of (h_brows cs) (h_bcols cs) (h_bvals cs))
            (entries_of (h_crows cs) (h_ccols cs) (h_cvals cs)) (sparse_at (h_drows cs) (h_dvals cs))
            (h_nrows cs) k x (row pw 0 k) (row pw k k) (row pw (2 * k) k).
Proof.
  intros HL Hsh Hd Hx [E1 E2] k. split.
  - intros i Hi. rewrite !coef_row by auto. now apply E1.
  - intros r Hr. rewrite <- (hp_stack_rows cs) by (auto; apply row_length). rewrite hp_listed_stack by auto.
    rewrite <- (E2 r Hr). fold k. rewrite firstn_all2.
    + f_equal. apply (nth_ext _ _ 0 0).
      * rewrite map_length, seq_length. cbn [length]. rewrite !app_length, !row_length. lia.
      * cbn [length]. rewrite !app_length, !row_length. intros i Hi.
        change (coef (1 :: row pw 0 k ++ row pw k k ++ row pw (2 * k) k) i = coef (map (fun c => coef (1 :: pw) c + coef x (h_nrows cs + c)) (seq 0 (3 * k + 1))) i).
        rewrite coef_map_seq, Nat.add_0_l, (coef_over x) by lia. destruct i as [|i].
        { change (1 = 1 + 0). ring. }
        { change (coef (row pw 0 k ++ row pw k k ++ row pw (2 * k) k) i = coef pw i + 0). rewrite !coef_app, !row_length.
          repeat match goal with |- context [(?a <? ?b)%nat] => destruct (Nat.ltb_spec a b) end; rewrite ?coef_row by lia;
          match goal with |- coef pw ?a = coef pw ?b + 0 => replace a with b by lia; ring end. }
    + unfold hp_listed. rewrite !app_length, !map_length. destruct HL as [A [B [C [D [X [Y [Z W]]]]]]].
      unfold entries_of. rewrite !combine_length. lia.
Qed.
End Listed.

Section HPSoundB.
Context {F G1 G2 GT : Type} {fo : FieldOps F} {fl : FieldLaws F}
        {po : PairingOps F G1 G2 GT} {pl : PairingLaws F G1 G2 GT}.
Add Field Frs2 : F_th.

(** the constraint for power j of alpha at position i *)
Definition hp_kk (e : hp_s6 F) (i : Z) (j : nat) : F :=
  match j with 0 => hp_k0 e i | 1 => hp_k1 e i | 2 => hp_k2 e i | 3 => 0 | 4 => hp_k4 e i | 5 => hp_k5 e i
  | 6 => hp_k6 e i | _ => hp_k7 e i end.
Definition hp_bad_alpha (N : nat) (e : hp_s6 F) (al : F) : Prop :=
  exists i, (i < N)%nat /\ (exists j, (j < 8)%nat /\ hp_kk e (1 + Z.of_nat i) j <> 0) /\
    sumn 8 (fun j => fpow al j * hp_kk e (1 + Z.of_nat i) j) = 0.
Lemma dec_hp_bad_alpha N e al : hp_bad_alpha N e al \/ ~ hp_bad_alpha N e al.
Proof. apply dec_ex. intros i _. apply dec_sumn. destruct (feq_dec (sumn 8 (fun j => fpow al j * hp_kk e (1 + Z.of_nat i) j)) 0); auto. Qed.
Lemma cnt_hp_bad_alpha N e : cnt (N * 7) (hp_bad_alpha N e).
Proof.
  apply (cnt_ex N 7 (fun i al => (exists j, (j < 8)%nat /\ hp_kk e (1 + Z.of_nat i) j <> 0) /\ sumn 8 (fun j => fpow al j * hp_kk e (1 + Z.of_nat i) j) = 0)).
  - intros i al _. apply dec_sumn. destruct (feq_dec (sumn 8 (fun j => fpow al j * hp_kk e (1 + Z.of_nat i) j)) 0); auto.
  - intros i _. apply (cnt_sumn 8 (hp_kk e (1 + Z.of_nat i))).
Qed.

(** the polynomial behind the combined commitment *)
Definition hp_pg (e : hp_s6 F) (q : hp_ctx F) (pw ph ph2 ph3 : list F) : list F :=
  padd (pscale (hp_v_c_35 q) (hp_s_vec e)) (padd [hp_v_c_36 q] (padd (pscale (hp_v_c_37 q) ph)
  (padd (pscale (hp_v_c_38 q) (hp_w_vec e)) (padd (pscale (hp_v_c_39 q) (hp_u_vec e)) (padd (pscale (hp_v_c_40 q) (hp_y_vec e))
  (padd (pscale (hp_v_c_41 q) pw) (padd (pscale (hp_v_c_42 q) (hp_v_vec e)) (padd (pscale (hp_v_c_43 q) (hp_r_vec_tilde e))
  (padd (pscale (hp_v_c_44 q) (hp_t_vec e)) (padd (pscale (hp_v_c_45 q) ph2) (pscale (hp_v_c_46 q) ph3))))))))))).
Lemma hp_pg_value e q pw ph ph2 ph3 x : peval (hp_pg e q pw ph ph2 ph3) x =
  hp_v_c_35 q * peval (hp_s_vec e) x + hp_v_c_36 q + hp_v_c_37 q * peval ph x
   + hp_v_c_38 q * peval (hp_w_vec e) x + hp_v_c_39 q * peval (hp_u_vec e) x
   + hp_v_c_40 q * peval (hp_y_vec e) x + hp_v_c_41 q * peval pw x
   + hp_v_c_42 q * peval (hp_v_vec e) x + hp_v_c_43 q * peval (hp_r_vec_tilde e) x
   + hp_v_c_44 q * peval (hp_t_vec e) x + hp_v_c_45 q * peval ph2 x + hp_v_c_46 q * peval ph3 x.
Proof. unfold hp_pg. rewrite !peval_padd, !peval_pscale. cbn [peval]. ring. Qed.

Section Main.
Variable gamma : F.
Variables (d : nat) (cs : HPR F) (x : list F).
Let h := h_nrows cs.
Let k := h_ncols cs.
Let sa := length (h_arows cs).
Let sd := length (h_drows cs).
Let m := hp_claimed cs.
Let n := hp_nnz cs.
Let off := (m - n)%nat.
Let K := (3 * k + 1)%nat.
Hypothesis Hga : gamma <> 0.
Hypothesis Hdr : distinct_powers gamma h.
Hypothesis Hdc : distinct_powers gamma K.
Hypothesis HL : hp_lengths cs.
Hypothesis Hsh : hpr_shape cs.
Hypothesis Hh1 : (1 <= h)%nat.
Hypothesis Hk1 : (1 <= k)%nat.
Hypothesis Hhm : (h <= m)%nat.
Hypothesis Hnd : (n <= d + 1)%nat.
Hypothesis Hd : (5 * k + 2 * m + 2 <= d)%nat.

Notation hp_accepts_with := (hp_accepts_with (G1:=G1) (G2:=G2) (GT:=GT) gamma d cs x).
Definition hp_spub : hp_pub F :=
  mkHPPub (Z.of_nat h) (Z.of_nat k) (Z.of_nat sa) (Z.of_nat sa) (Z.of_nat sa) (Z.of_nat sd) (Z.of_nat (d + 1)) gamma x.
Let rows := fst (fst (hp_stack cs)).
Let cols := snd (fst (hp_stack cs)).
Let vals := snd (hp_stack cs).
Let uv0 := int_array_to_power_vector rows gamma.
Let wv0 := int_array_to_power_vector cols gamma.
Let yv0 := hadamard_vector uv0 wv0.
Let uv := repeat 0 off ++ uv0.
Let wv := repeat 0 off ++ wv0.
Let yv := repeat 0 off ++ yv0.
Let vs := repeat 0 off ++ vals.
Let M := entries_of (firstn m rows) (firstn m cols) (firstn m vals).
(** a run with the given vectors *)
Definition hp_se (pw ps ph pr pt : list F) mu nu beta alpha omega : hp_s6 F :=
  mkHPS6 (mkHPS5 (mkHPS4 (mkHPS3 (mkHPS2 (mkHPS1 hp_spub uv wv vs yv (pw ++ [0])) mu) ps nu) (ph ++ [0]) beta) pr alpha) pt omega.

Lemma hp_accepts_batch pw ps ph pr pt ph2 ph3 pW pW1 mu nu beta alpha omega z y y1 xi tau rnd :
  Forall (fun p => length p <= d + 1)%nat [pw; ps; ph; pr; pt; ph2; ph3; pW; pW1] ->
  hp_accepts_with pw ps ph pr pt ph2 ph3 pW pW1 mu nu beta alpha omega z y y1 xi tau rnd ->
  let q := mkHPCtx hp_spub mu nu beta alpha omega z y y1 in
  hp_divisors q = Ok tt /\ exists (g : G1) (h : G2) xi2, g <> v0 /\ h <> v0 /\
  batch_check (vk_for tau g h) (map (fun f => vscale (peval f tau) g) [ph; pw])
    [vscale (peval (hp_pg (hp_se pw ps ph pr pt mu nu beta alpha omega) q pw ph ph2 ph3) tau) g] (omega / z) z xi xi2 [y; y1] [0]
    (vscale (peval pW tau) g) (vscale (peval pW1 tau) g) rnd = true.
Proof.
  intros HLe [H [g [h0 [pp [pk [vk [cw [cs' [ch [cr [ct [ch2 [ch3 [cW [cW1 A]]]]]]]]]]]]]]].
  destruct A as [Hg [Hh [Hs [Hi [C1 [C2 [C3 [C4 [C5 [C6 [C7 [C8 [C9 [E1 [E2 [E3 [E4 [E5 [E6 [E7 V]]]]]]]]]]]]]]]]]]]].
  intros q. destruct (hp_index_inv _ _ _ _ _ _ _ _ _ Hs Hi) as
    [K1 K2 K3 K4 K5 KL K6 Ku Kw Kv Ky K8 K9 Cu Cw Cv Cy].
  fold rows in Ku. fold cols in Kw. fold vals in Kv. fold uv0 in Ku. fold wv0 in Kw. rewrite Ku, Kw in Ky. fold yv0 in Ky.
  rewrite Ku in Cu. rewrite Kw in Cw. rewrite Kv in Cv. rewrite Ky in Cy.
  fold m n off in Cu, Cw, Cv, Cy.
  assert (forall l : list F, fpow tau off * peval l tau = peval (repeat 0 off ++ l) tau) as Po by (intros; now rewrite peval_app, peval_repeat0, repeat_length; ring).
  rewrite Po in Cu, Cw, Cv, Cy. fold uv in Cu. fold wv in Cw. fold vs in Cv. fold yv in Cy.
  destruct (kzg_vk_setup d tau g h0 pp Hs) as [_ [Hp _]]. rewrite Hp in *.
  rewrite Forall_forall in HLe.
  apply poly_commit in C1, C2, C3, C4, C5, C6, C7, C8, C9; auto; try lia; try (apply HLe; cbn [In]; tauto).
  assert (hp_pub_of gamma vk x = hp_spub) as EP.
  { unfold hp_pub_of, hp_spub. rewrite K4, K5. reflexivity. }
  unfold hp_verify in V. cbn [hp_cm_w_vec_1 hp_cm_s_vec hp_cm_h_vec hp_cm_r_vec_tilde hp_cm_t_vec hp_cm_h_vec_2 hp_cm_h_vec_3 hp_pf_y hp_pf_y_1 hp_cap_w hp_cap_w_1] in V.
  rewrite EP, E1, E2, E3, E4, E5, E6 in V. fold q in V. apply obind_ok in V. destruct V as [[] [D V]]. split; [exact D|].
  rewrite EP in E7. fold q in E7. rewrite E7 in V.
  match type of V with (if ?b then _ else _) = _ => destruct b eqn:B; [clear V|discriminate] end.
  rewrite K3 in B. eexists g, h0, _. split; auto. split; auto. cbn [map].
  replace (vscale (peval (hp_pg (hp_se pw ps ph pr pt mu nu beta alpha omega) q pw ph ph2 ph3) tau) g) with (hp_v_cm_g vk q cw cs' ch cr ct ch2 ch3).
  { rewrite <- C1, <- C3, <- C8, <- C9. exact B. }
  rewrite hp_pg_value. unfold hp_v_cm_g. rewrite K3, Cu, Cw, Cv, Cy. cbn [vk_g vk_for].
  pose proof (lin_comb_vscale g (hp_v_c_36 q)
    [(peval ps tau, hp_v_c_35 q); (peval ph tau, hp_v_c_37 q); (peval wv tau, hp_v_c_38 q); (peval uv tau, hp_v_c_39 q);
     (peval yv tau, hp_v_c_40 q); (peval pw tau, hp_v_c_41 q); (peval vs tau, hp_v_c_42 q); (peval pr tau, hp_v_c_43 q);
     (peval pt tau, hp_v_c_44 q); (peval ph2 tau, hp_v_c_45 q); (peval ph3 tau, hp_v_c_46 q)]) as E. cbn [map fst snd] in E.
  rewrite <- C1, <- C2, <- C3, <- C4, <- C5, <- C6, <- C7 in E. rewrite E. f_equal.
  unfold hp_se. cbn [hp_s_vec hp_w_vec hp_u_vec hp_y_vec hp_v_vec hp_r_vec_tilde hp_t_vec hp_s2_s1 hp_s3_s2 hp_s4_s3 hp_s5_s4 hp_s6_s5]. cbn [fsum]. ring.
Qed.

Lemma hp_sound pw : (length pw <= d + 1)%nat ->
  most h (fun mu => forall ps, (length ps <= d + 1)%nat ->
  most K (fun nu => forall ph, (length ph <= d + 1)%nat ->
  most 1 (fun beta => forall pr, (length pr <= d + 1)%nat ->
  most (7 * (K + m)) (fun alpha => forall pt, (length pt <= d + 1)%nat ->
  most (d + 2 * k + m + length x + 3) (fun omega =>
  forall ph2 ph3, (length ph2 <= d + 1)%nat -> (length ph3 <= d + 1)%nat ->
  most (2 * (d + h + 3 * k + length x + 2)) (fun z => forall y y1, most 1 (fun xi =>
  forall pW pW1, (length pW <= d + 1)%nat -> (length pW1 <= d + 1)%nat -> most (2 * (d + 1)) (fun tau => most 1 (fun rnd =>
  hp_accepts_with pw ps ph pr pt ph2 ph3 pW pW1 mu nu beta alpha omega z y y1 xi tau rnd ->
  hp_enforced cs x pw))))))))).
Proof.
  intros Lu.
  destruct (hp_stack_len cs HL) as [LR [LC LV]]. fold rows in LR. fold cols in LC. fold vals in LV. fold n in LR, LC, LV.
  assert (m = sa + sa + sa + sd)%nat as EM by (unfold m, hp_claimed, sa, sd; lia).
  assert (off + Nat.min n m = m)%nat as EO by (unfold off; lia).
  pose proof (hp_stack_shape cs HL Hsh) as MS. fold rows cols vals h k K in MS. apply (in_shape_firstn m) in MS. fold M in MS.
  assert (length uv = Nat.max n m) as Luv by (unfold uv, uv0; rewrite app_length, repeat_length, power_vector_length; unfold off; lia).
  assert (length wv = Nat.max n m) as Lwv by (unfold wv, wv0; rewrite app_length, repeat_length, power_vector_length; unfold off; lia).
  assert (length yv = Nat.max n m) as Lyv by (unfold yv, yv0, uv0, wv0; rewrite app_length, repeat_length, hadamard_length, !power_vector_length; unfold off; lia).
  assert (length vs = Nat.max n m) as Lvs by (unfold vs; rewrite app_length, repeat_length; unfold off; lia).
  apply (most_intro _ (bad_frac (fpow gamma) (hp_dM M h k x pw) h)); [now apply cnt_bad_frac|apply dec_bad_frac|].
  intros mu Nmu ps Ls.
  apply (most_intro _ (bad_frac (fpow gamma) (hp_dC M h gamma mu ps) K)); [now apply cnt_bad_frac|apply dec_bad_frac|].
  intros nu Nnu ph Lph.
  apply (most_intro _ (fun beta => (hp_A h (K + m) x pw ps <> 0 \/ - hp_B h k vs ps ph (K + m) <> 0) /\
    hp_A h (K + m) x pw ps + beta * (- hp_B h k vs ps ph (K + m)) = 0)); [apply cnt_linear|apply dec_linear|].
  intros beta Nbe pr Lpr. set (e0 := hp_se pw ps ph pr [] mu nu beta 0 0).
  apply (most_intro _ (hp_bad_alpha (K + m) e0)).
  { replace (7 * (K + m))%nat with ((K + m) * 7)%nat by lia. apply cnt_hp_bad_alpha. }
  { apply dec_hp_bad_alpha. }
  intros alpha Na pt Lt. set (e1 := hp_se pw ps ph pr pt mu nu beta alpha 0).
  set (N := (d + 2 * k + m + length x + 3)%nat).
  apply (most_intro _ (fun om => om = 0 \/ (exists i, (i < N)%nat /\ hp_br e1 (1 + Z.of_nat i) <> 0) /\
    sumZ 1 N (fun i => fpowZ om (i - 1) * hp_br e1 i) = 0)).
  { replace N with (1 + (N - 1))%nat at 1 by lia. apply cnt_or; [intros om; destruct (feq_dec om 0); auto|apply cnt_eq|apply cnt_CT]. }
  { intros om. destruct (feq_dec om 0) as [|Q0]; [tauto|].
    destruct (dec_ex N (fun i => hp_br e1 (1 + Z.of_nat i) <> 0)) as [Q1|Q1].
    - intros i _. destruct (feq_dec (hp_br e1 (1 + Z.of_nat i)) 0); auto.
    - destruct (feq_dec (sumZ 1 N (fun i => fpowZ om (i - 1) * hp_br e1 i)) 0); tauto.
    - tauto. }
  intros om No ph2 ph3 L1 L2. set (e := hp_se pw ps ph pr pt mu nu beta alpha om).
  set (Mz := Z.of_nat (d + h + 3 * k + length x + 2)).
  set (f := fun K => hp_hK e K - (vidx ph2 (minus_i64 K (1 - Z.of_nat (d + 1))) + vidx ph3 (minus_i64 K 2))).
  apply (most_intro _ (fun z => z <> 0 /\ ~ lzero Mz f /\ lsum Mz f z = 0)).
  { replace (2 * (d + h + 3 * k + length x + 2))%nat with (Z.to_nat (2 * Mz)) by (unfold Mz; lia). apply cnt_laurent. unfold Mz. lia. }
  { intros z. destruct (feq_dec z 0), (lzero_dec Mz f), (feq_dec (lsum Mz f z) 0); tauto. }
  intros z Nzz y y1. set (q := mkHPCtx hp_spub mu nu beta alpha om z y y1).
  assert (Z.of_nat (length (pw ++ [0%F])) = Z.of_nat (length pw) + 1)%Z as Lu' by (rewrite app_length; cbn [length]; lia).
  assert (Z.of_nat (length (ph ++ [0%F])) = Z.of_nat (length ph) + 1)%Z as Lh' by (rewrite app_length; cbn [length]; lia).
  eapply most_weaken; [| |apply (kzg_batch_sound (d + 1) [ph; pw] [y; y1] (hp_pg e q pw ph ph2 ph3) (om / z) z)]; [cbn [length]; lia| |reflexivity| |].
  2:{ cbn [In]. intros p [<-|[<-|[]]]; lia. }
  2:{ unfold hp_pg. repeat (rewrite padd_length || rewrite pscale_length). unfold e, hp_se.
      cbn [hp_s_vec hp_w_vec hp_u_vec hp_y_vec hp_v_vec hp_r_vec_tilde hp_t_vec hp_s2_s1 hp_s3_s2 hp_s4_s3 hp_s5_s4 hp_s6_s5 length]. lia. }
  cbn beta. intros xi HX pW pW1 LW LW1. specialize (HX pW pW1 ltac:(lia) ltac:(lia)).
  revert HX. apply most_weaken; [lia|]. intros tau. apply most_weaken; [lia|]. intros rnd HX HA.
  assert (Forall (fun p : list F => (length p <= d + 1)%nat) [pw; ps; ph; pr; pt; ph2; ph3; pW; pW1]) as HLe by (repeat constructor; auto).
  destruct (hp_accepts_batch _ _ _ _ _ _ _ _ _ _ _ _ _ _ _ _ _ _ _ _ HLe HA) as [D [g [h0 [xi2 [Hg [Hh B]]]]]]. clear HA.
  fold e q in B, D. specialize (HX g h0 xi2 Hg Hh B). clear B. destruct HX as [Hy Hg0].
  pose proof (Hy 0%nat ltac:(cbn; lia)) as Hy0. pose proof (Hy 1%nat ltac:(cbn; lia)) as Hy1. cbn [nth] in Hy0, Hy1. clear Hy.
  change (coef [y; y1] 0) with y in Hy0. change (coef [y; y1] 1) with y1 in Hy1.
  destruct (hp_divisors_cases q) as [[_ [Hz [Hz1 [Hgo Hoz]]]]|[D1 _]]; [|rewrite D in D1; discriminate].
  change (hp_q_z q) with z in *. change (hp_q_omega q) with om in *. change (hp_gamma q) with gamma in *.
  destruct (feq_dec om 0) as [|Ho]; [exfalso; auto|].
  assert (hp_sizes e) as SZ.
  { split; unfold e, hp_se, hp_spub;
    cbn [hp_cap_h hp_cap_k hp_cap_s_a hp_cap_s_b hp_cap_s_c hp_cap_s_d hp_u_vec hp_w_vec hp_v_vec hp_y_vec hp_w_vec_1 hp_h_vec hp_s1_pub hp_s2_s1 hp_s3_s2 hp_s4_s3 hp_s5_s4 hp_s6_s5];
    try lia. }
  (* the combined polynomial vanishes at z, so the identity holds as one of polynomials *)
  assert (lsum Mz f z = 0) as LS.
  { assert (LP Mz (hp_hK e) z (hp_p_c_35 q * peval (hp_s_vec e) z + hp_p_c_36 q + hp_p_c_37 q * peval (hp_h_vec e) z
   + hp_p_c_38 q * peval (hp_w_vec e) z + hp_p_c_39 q * peval (hp_u_vec e) z
   + hp_p_c_40 q * peval (hp_y_vec e) z + hp_p_c_41 q * peval (hp_w_vec_1 e) z
   + hp_p_c_42 q * peval (hp_v_vec e) z + hp_p_c_43 q * peval (hp_r_vec_tilde e) z
   + hp_p_c_44 q * peval (hp_t_vec e) z)) as L.
    { apply hp_LP; auto; unfold Mz;
      change (hp_cap_h e) with (Z.of_nat h); change (hp_cap_k e) with (Z.of_nat k); change (hp_cap_s_a e) with (Z.of_nat sa);
      change (hp_cap_s_b e) with (Z.of_nat sa); change (hp_cap_s_c e) with (Z.of_nat sa); change (hp_cap_s_d e) with (Z.of_nat sd);
      change (hp_w_vec_1 e) with (pw ++ [0]); change (hp_h_vec e) with (ph ++ [0]); change (hp_s_vec e) with ps;
      change (hp_r_vec_tilde e) with pr; change (hp_t_vec e) with pt; change (hp_x_vec e) with x;
      change (hp_u_vec e) with uv; change (hp_w_vec e) with wv; change (hp_v_vec e) with vs; change (hp_y_vec e) with yv; try lia.
      - rewrite peval_snoc0. symmetry. exact Hy0.
      - rewrite peval_snoc0. symmetry. exact Hy1. }
    assert (LP Mz f z 0) as [_ LF]; [|exact LF].
    eapply LP_val; [|unfold f; apply LP_sub; [exact L|apply LP_add; apply LP_list; auto; unfold Mz; lia]].
    refine (eq_trans _ Hg0). rewrite hp_pg_value. change (hp_w_vec_1 e) with (pw ++ [0]). change (hp_h_vec e) with (ph ++ [0]). rewrite !peval_snoc0.
    change (hp_v_c_35 q) with (hp_p_c_35 q). change (hp_v_c_36 q) with (hp_p_c_36 q). change (hp_v_c_37 q) with (hp_p_c_37 q).
    change (hp_v_c_38 q) with (hp_p_c_38 q). change (hp_v_c_39 q) with (hp_p_c_39 q). change (hp_v_c_40 q) with (hp_p_c_40 q).
    change (hp_v_c_41 q) with (hp_p_c_41 q). change (hp_v_c_42 q) with (hp_p_c_42 q). change (hp_v_c_43 q) with (hp_p_c_43 q).
    change (hp_v_c_44 q) with (hp_p_c_44 q). change (hp_v_c_46 q) with (- z).
    assert (hp_v_c_45 q = - fpowZ z (1 - Z.of_nat (d + 1) - 1)) as ->.
    { change (hp_v_c_45 q) with (- power z (- Z.of_nat (d + 1))%Z). rewrite Laurent.pw by auto. do 2 f_equal. lia. }
    replace (fpowZ z (2 - 1)) with z by (change (2 - 1)%Z with 1%Z; now rewrite fpowZ_1). ring. }
  assert (lzero Mz f) as LZ by (destruct (lzero_dec Mz f); auto; exfalso; apply Nzz; auto).
  assert (hp_hK e 1 = 0) as H1.
  { pose proof (LZ 1%Z ltac:(unfold Mz; lia)) as Z1. unfold f in Z1. unfold minus_i64 in Z1.
    rewrite (vidx_coef ph2 _ (d + 1)), coef_over, (vidx_out ph3) in Z1 by lia.
    rewrite <- Z1. ring. }
  (* the constant term vanishes, so every position is fine *)
  assert (CT om N (hp_hK e 1) (hp_br e)) as HC.
  { replace N with (Z.to_nat (Z.of_nat N)) by lia. apply hp_CT; auto; unfold N;
      change (hp_cap_h e) with (Z.of_nat h); change (hp_cap_k e) with (Z.of_nat k); change (hp_cap_s_a e) with (Z.of_nat sa);
      change (hp_cap_s_b e) with (Z.of_nat sa); change (hp_cap_s_c e) with (Z.of_nat sa); change (hp_cap_s_d e) with (Z.of_nat sd);
      change (hp_w_vec_1 e) with (pw ++ [0]); change (hp_h_vec e) with (ph ++ [0]); change (hp_x_vec e) with x; unfold K; lia. }
  assert (forall i, (i < N)%nat -> hp_br e1 (1 + Z.of_nat i) = 0) as HB.
  { apply not_ex_0. intros X. apply No. right. split; auto. unfold CT in HC. rewrite H1 in HC. symmetry. exact HC. }
  (* every power of alpha *)
  assert (forall i, (i < K + m)%nat -> forall j, (j < 8)%nat -> hp_kk e0 (1 + Z.of_nat i) j = 0) as HK.
  { intros i Hi. apply not_ex_0. intros X. apply Na. exists i. split; auto. split; auto.
    specialize (HB i ltac:(unfold N, K in *; lia)). refine (eq_trans _ HB). unfold hp_br.
    change (hp_cap_k e1) with (Z.of_nat k). change (hp_cap_s_a e1) with (Z.of_nat sa).
    change (hp_cap_s_b e1) with (Z.of_nat sa). change (hp_cap_s_c e1) with (Z.of_nat sa). change (hp_cap_s_d e1) with (Z.of_nat sd).
    rewrite (range_out (3 * Z.of_nat k + Z.of_nat sa + Z.of_nat sa + Z.of_nat sa + Z.of_nat sd + 1 + 1)) by (unfold K in Hi; lia).
    change (hp_alpha e1) with alpha. cbn [sumn hp_kk].
    rewrite !pw_pos by lia. change (Pos.to_nat 2) with 2%nat. change (Pos.to_nat 4) with 4%nat. change (Pos.to_nat 5) with 5%nat.
    change (Pos.to_nat 6) with 6%nat. change (Pos.to_nat 7) with 7%nat.
    change (hp_k0 e1) with (hp_k0 e0). change (hp_k1 e1) with (hp_k1 e0). change (hp_k2 e1) with (hp_k2 e0).
    change (hp_k4 e1) with (hp_k4 e0). change (hp_k5 e1) with (hp_k5 e0).
    change (hp_k6 e1) with (hp_k6 e0). change (hp_k7 e1) with (hp_k7 e0).
    cbn [fpow]. ring. }
  assert (hp_sat e0) as GS.
  { split; intros i Hi;
      change (hp_cap_k e0) with (Z.of_nat k) in Hi; change (hp_cap_s_a e0) with (Z.of_nat sa) in Hi;
      change (hp_cap_s_b e0) with (Z.of_nat sa) in Hi; change (hp_cap_s_c e0) with (Z.of_nat sa) in Hi; change (hp_cap_s_d e0) with (Z.of_nat sd) in Hi;
      replace i with (1 + Z.of_nat (Z.to_nat (i - 1)))%Z by lia; specialize (HK (Z.to_nat (i - 1)) ltac:(unfold K; lia)).
    - exact (HK 0%nat ltac:(lia)).
    - exact (HK 1%nat ltac:(lia)).
    - exact (HK 2%nat ltac:(lia)).
    - exact (HK 4%nat ltac:(lia)).
    - exact (HK 5%nat ltac:(lia)).
    - exact (HK 6%nat ltac:(lia)).
    - exact (HK 7%nat ltac:(lia)). }
  apply hp_enforced_iff; auto. fold h k m rows cols vals M.
  destruct (hp_sat_holds e0 h k sa sa sa sd off n rows cols vals pw ps ph m) as [R1 R2]; auto; try lia.
Qed.
End Main.
End HPSoundB.

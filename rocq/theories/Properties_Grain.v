(** Properties_Grain.v: C82, the round constants of the Poseidon hash. *)
From Verif Require Import Base Tools Grain GrainSpec GrainProofs.

Lemma firstn_In_ {A} (x : A) n l : In x (firstn n l) -> In x l.
Proof. intros H. rewrite <- (firstn_skipn n l). apply in_or_app. left. exact H. Qed.

Section C82.
Context {F : Type} {po : PrimeFieldOps F}.
Implicit Types (b : nat -> bool) (e : nat -> nat).
(** ** C82: for every choice of parameters there is exactly one sequence of bits, and one list of its selected pairs *)
Theorem c82_sequence field sbox fs t rf rp :
  exists b e, (seeded b field sbox fs t rf rp /\ shift_register b /\ selected b e) /\
    forall b' e', seeded b' field sbox fs t rf rp -> shift_register b' -> selected b' e' -> (forall i, b' i = b i) /\ (forall i, e' i = e i).
Proof.
  pose (st := seed field sbox fs t rf rp). pose proof (seed_length field sbox fs t rf rp) as L. fold st in L.
  assert (seeded (bits_of st) field sbox fs t rf rp) as SD by (apply seeded_window, bits_window, L).
  pose proof (bits_register st L) as SR.
  assert (bits_of st 50 = true) as NZ by (apply SD; lia).
  exists (bits_of st), (selects (bits_of st)). pose proof (selects_ok (bits_of st) SR NZ) as SE. split; [split; [exact SD|split; [exact SR|exact SE]]|].
  intros b' e' SD' SR' SE'.
  assert (forall i, b' i = bits_of st i) as EB.
  { apply seeded_window in SD'. fold st in SD'. rewrite <- (bits_window st L) in SD'.
    intros i. induction i as [i IH] using (well_founded_induction lt_wf). destruct (Nat.lt_ge_cases i 80) as [Hi|G].
    - apply (f_equal (fun l => nth i l false)) in SD'. unfold window in SD'.
      rewrite (nth_indep _ false (b' 0%nat)) in SD' by (rewrite map_length, seq_length; exact Hi). rewrite map_nth, seq_nth in SD' by exact Hi. rewrite Nat.add_0_l in SD'. rewrite SD'.
      rewrite (nth_indep _ false (bits_of st 0%nat)) by (rewrite map_length, seq_length; exact Hi). rewrite map_nth, seq_nth by exact Hi. reflexivity.
    - replace i with (i - 80 + 80)%nat by lia. rewrite SR, SR'. rewrite !IH by lia. reflexivity. }
  split; [exact EB|].
  assert (forall k, first_of b' k = first_of (bits_of st) k) as EF by (intros k; apply EB).
  intros i. induction i as [i IH] using (well_founded_induction lt_wf).
  assert (pos e' i = pos (selects (bits_of st)) i) as EP by (destruct i as [|i]; [reflexivity|]; cbn [pos]; rewrite IH by lia; reflexivity).
  destruct (Nat.lt_trichotomy (e' i) (selects (bits_of st) i)) as [G|[G|G]]; [|exact G|]; exfalso.
  - pose proof (between _ _ SE i (e' i)) as Z0. destruct SE' as (T' & SE'). pose proof (pos_le b' e' (conj T' SE') i) as PL.
    rewrite EP in PL. rewrite <- EF, T' in Z0. discriminate Z0. lia.
  - pose proof (between b' e' SE' i (selects (bits_of st) i)) as Z0.
    destruct SE as (T & SE). pose proof (pos_le _ _ (conj T SE) i) as PL. rewrite EF, T, EP in Z0. discriminate Z0. lia.
Qed.

(** the conditions on the field and the parameters *)
Definition supported (field : Z) (fs t rf rp : nat) : Prop :=
  field = 1%Z /\ (249 <= size_in_bits (F := F) <= 256)%Z /\ (249 <= fs <= 256)%nat /\ (Z.of_nat (rf + rp) < 65536)%Z /\ (Z.of_nat ((rf + rp) * t) < 65536)%Z.
Theorem c82_generate b e turns field sbox fs t rf rp : supported field fs t rf rp ->
  seeded b field sbox fs t rf rp -> shift_register b -> selected b e ->
  let num := ((rf + rp) * t)%nat in
  let found := accepted (output b e) fs (size_in_bits (F := F)) (modulus (F := F)) turns in
  generate_constants (F := F) turns field sbox fs t rf rp = if (num <=? length found)%nat then Ok (map from_Z (firstn num found)) else Err Hang.
Proof.
  intros (-> & SB & FS & H1 & H2) SD SR SE num found. unfold generate_constants.
  assert ((size_in_bits (F := F) + 8 - 1) / 8 = 32)%Z as -> by (symmetry; apply Z.div_unique with (r := (size_in_bits (F := F) + 8 - 1 - 8 * 32)%Z); lia).
  assert ((fs + 7) / 8 = 32)%nat as -> by (symmetry; apply Nat.div_unique with (r := (fs + 7 - 8 * 32)%nat); lia).
  apply Z.ltb_lt in H1, H2. rewrite H1, H2. cbn [Z.eqb Pos.eqb Nat.eqb assert_ obind].
  change (append_bits (append_bits _ _ _) 30 (2 ^ 30 - 1)) with (seed 1 sbox fs t rf rp).
  pose proof SD as W. apply seeded_window in W. rewrite <- W. unfold new_grain.
  assert (length (window b 0) = 80)%nat as -> by (unfold window; rewrite map_length, seq_length; reflexivity).
  cbn [Nat.eqb assert_ obind]. rewrite (clock_window b SR). cbn [obind].
  assert (length (window b (0 + 160)) = 80)%nat as -> by (unfold window; rewrite map_length, seq_length; reflexivity). cbn [Nat.eqb assert_ obind].
  assert (b 50%nat = true) as NZ by (apply SD; lia).
  change (window b (0 + 160)) with (after b e (0 * fs)). fold num.
  destruct (Nat.leb_spec num (length found)) as [G|G].
  - rewrite (draw_ok b SR NZ e SE fs FS); [reflexivity|exact G].
  - apply (draw_hang b SR NZ e SE fs FS). exact G.
Qed.
Theorem c82_generate_only turns field sbox fs t rf rp : ~ supported field fs t rf rp -> generate_constants (F := F) turns field sbox fs t rf rp = Panic.
Proof.
  intros H. unfold generate_constants.
  destruct (Z.eqb_spec ((size_in_bits (F := F) + 8 - 1) / 8) 32) as [A|]; [|reflexivity]. cbn [assert_ obind].
  destruct (Nat.eqb_spec ((fs + 7) / 8) 32) as [B|]; [|reflexivity]. cbn [assert_ obind].
  destruct (Z.ltb_spec (Z.of_nat (rf + rp)) 65536) as [C|]; [|reflexivity]. cbn [assert_ obind].
  destruct (Z.ltb_spec (Z.of_nat ((rf + rp) * t)) 65536) as [D|]; [|reflexivity]. cbn [assert_ obind].
  change (append_bits (append_bits _ _ _) 30 (2 ^ 30 - 1)) with (seed field sbox fs t rf rp).
  destruct (c82_sequence field sbox fs t rf rp) as (b & e & (SD & SR & SE) & _).
  pose proof SD as W. apply seeded_window in W. rewrite <- W. unfold new_grain.
  assert (length (window b 0) = 80)%nat as -> by (unfold window; rewrite map_length, seq_length; reflexivity).
  cbn [Nat.eqb assert_ obind]. rewrite (clock_window b SR). cbn [obind].
  assert (length (window b (0 + 160)) = 80)%nat as -> by (unfold window; rewrite map_length, seq_length; reflexivity). cbn [Nat.eqb assert_ obind].
  destruct (Z.eqb_spec field 1) as [->|]; [exfalso|reflexivity]. apply H. split; [reflexivity|].
  assert (249 <= size_in_bits (F := F) <= 256)%Z.
  { pose proof (Z.div_mod (size_in_bits (F := F) + 8 - 1) 8 ltac:(lia)). pose proof (Z.mod_pos_bound (size_in_bits (F := F) + 8 - 1) 8 ltac:(lia)). lia. }
  assert (249 <= fs <= 256)%nat.
  { pose proof (Nat.div_mod (fs + 7) 8 ltac:(lia)). pose proof (Nat.mod_upper_bound (fs + 7) 8 ltac:(lia)). lia. }
  repeat split; (assumption || lia).
Qed.
(** The constants are as many as the rounds need, below the modulus, and do not depend on the number of turns allowed. *)
Theorem c82_constants turns sbox fs t rf rp rc : generate_constants (F := F) turns 1 sbox fs t rf rp = Ok rc ->
  length rc = ((rf + rp) * t)%nat /\ (exists l, rc = map from_Z l /\ forall v, In v l -> (0 <= v < modulus (F := F))%Z) /\
  forall turns', (turns <= turns')%nat -> generate_constants (F := F) turns' 1 sbox fs t rf rp = Ok rc.
Proof.
  intros H. assert (supported 1 fs t rf rp) as OK.
  { destruct (Z.le_gt_cases 249 (size_in_bits (F := F))); [|rewrite c82_generate_only in H by (unfold supported; lia); discriminate H].
    destruct (Z.le_gt_cases (size_in_bits (F := F)) 256); [|rewrite c82_generate_only in H by (unfold supported; lia); discriminate H].
    destruct (Nat.le_gt_cases 249 fs); [|rewrite c82_generate_only in H by (unfold supported; lia); discriminate H].
    destruct (Nat.le_gt_cases fs 256); [|rewrite c82_generate_only in H by (unfold supported; lia); discriminate H].
    destruct (Z.lt_ge_cases (Z.of_nat (rf + rp)) 65536); [|rewrite c82_generate_only in H by (unfold supported; lia); discriminate H].
    destruct (Z.lt_ge_cases (Z.of_nat ((rf + rp) * t)) 65536); [|rewrite c82_generate_only in H by (unfold supported; lia); discriminate H].
    unfold supported. auto. }
  destruct (c82_sequence 1 sbox fs t rf rp) as (b & e & (SD & SR & SE) & _).
  rewrite (c82_generate b e turns 1 sbox fs t rf rp OK SD SR SE) in H. cbv zeta in H.
  destruct (Nat.leb_spec ((rf + rp) * t) (length (accepted (output b e) fs (size_in_bits (F := F)) (modulus (F := F)) turns))) as [G|]; [|discriminate H].
  injection H as <-. split; [rewrite map_length, firstn_length; lia|]. split.
  - eexists. split; [reflexivity|]. intros v I. apply firstn_In_ in I. unfold accepted in I. apply filter_In in I as [I L]. apply Z.ltb_lt in L. split; [|exact L].
    apply in_map_iff in I as (j & <- & _). unfold candidate. apply Z.mod_pos_bound. destruct OK as (_ & B & _). apply Z.pow_pos_nonneg; lia.
  - intros turns' T. rewrite (c82_generate b e turns' 1 sbox fs t rf rp OK SD SR SE). cbv zeta.
    replace turns' with (turns + (turns' - turns))%nat by lia. unfold accepted. rewrite seq_app, map_app, filter_app. unfold accepted in G.
    rewrite app_length. match goal with |- context [(?n <=? ?a + ?c)%nat] => destruct (Nat.leb_spec n (a + c)); [|lia] end.
    rewrite firstn_app. match goal with |- context [firstn (?n - ?m) ?l] => replace (n - m)%nat with 0%nat by lia end. rewrite app_nil_r. reflexivity.
Qed.
(** Different parameters, each of a size that fits, start different sequences ... *)
Theorem c82_parameters b field sbox fs t rf rp field' sbox' fs' t' rf' rp' :
  seeded b field sbox fs t rf rp -> seeded b field' sbox' fs' t' rf' rp' ->
  (0 <= field < 4)%Z -> (0 <= field' < 4)%Z -> (0 <= sbox < 16)%Z -> (0 <= sbox' < 16)%Z -> (fs < 4096 /\ fs' < 4096 /\ t < 4096 /\ t' < 4096 /\ rf < 1024 /\ rf' < 1024 /\ rp < 1024 /\ rp' < 1024)%nat ->
  field = field' /\ sbox = sbox' /\ fs = fs' /\ t = t' /\ rf = rf' /\ rp = rp'.
Proof.
  intros (A & B & C & D & E & G & _) (A' & B' & C' & D' & E' & G' & _) Rf Rf' Rs Rs' R.
  assert (forall s n v v', digits_at b s (S n) v -> digits_at b s (S n) v' -> (0 <= v < 2 ^ Z.of_nat (S n))%Z -> (0 <= v' < 2 ^ Z.of_nat (S n))%Z -> v = v') as U.
  { intros s n v v' X X' V V'. apply Z.bits_inj'. intros i Hi. destruct (Z.lt_ge_cases i (Z.of_nat (S n))) as [L|L].
    - specialize (X (n - Z.to_nat i)%nat ltac:(lia)). specialize (X' (n - Z.to_nat i)%nat ltac:(lia)). rewrite X in X'.
      replace (Z.of_nat (S n - 1 - (n - Z.to_nat i)))%Z with i in X' by lia. exact X'.
    - rewrite <- (Z.mod_small v _ V), <- (Z.mod_small v' _ V'). rewrite !Z.mod_pow2_bits_high by lia. reflexivity. }
  split; [apply (U 0%nat 1%nat); assumption|]. split; [apply (U 2%nat 3%nat); assumption|].
  split; [apply Nat2Z.inj, (U 6%nat 11%nat); (assumption || (change (2 ^ Z.of_nat 12)%Z with 4096%Z; lia))|].
  split; [apply Nat2Z.inj, (U 18%nat 11%nat); (assumption || (change (2 ^ Z.of_nat 12)%Z with 4096%Z; lia))|].
  split; [apply Nat2Z.inj, (U 30%nat 9%nat); (assumption || (change (2 ^ Z.of_nat 10)%Z with 1024%Z; lia))|].
  apply Nat2Z.inj, (U 40%nat 9%nat); (assumption || (change (2 ^ Z.of_nat 10)%Z with 1024%Z; lia)).
Qed.
(** Finding: ... but a number that does not fit is cut silently, so that other parameters start the same sequence. *)
Theorem c82_cut_refuted b field sbox fs t rf rp : seeded b field sbox fs t rf rp -> seeded b field sbox fs t rf (rp + 1024).
Proof.
  intros (A & B & C & D & E & G & O). repeat (split; [assumption|]). split; [|exact O]. intros i Hi. rewrite (G i Hi).
  rewrite <- (Z.mod_pow2_bits_low (Z.of_nat rp) 10), <- (Z.mod_pow2_bits_low (Z.of_nat (rp + 1024)) 10) by lia.
  f_equal. rewrite Nat2Z.inj_add. change (Z.of_nat 1024) with (1 * 2 ^ 10)%Z. rewrite Z.mod_add by lia. reflexivity.
Qed.
End C82.

(** Example: the field of scalars of BLS12-381, a state of 3 elements, 8 full rounds and 2 partial ones. *)
#[local] Instance bls_ops : PrimeFieldOps Z := { modulus := 52435875175126190479447740508185965837690552500527637822603658699938581184513%Z; from_Z x := x; to_Z x := x }.
Example c82_example : supported (F := Z) 1 255 3 8 2 /\
  match generate_constants (F := Z) 100 1 1 255 3 8 2 with Ok rc => (length rc =? 30)%nat | _ => false end = true /\
  generate_constants (F := Z) 30 1 1 255 3 8 2 = Err Hang /\
  generate_constants (F := Z) 100 1 1 248 3 8 2 = Panic.
Proof.
  split; [split; [reflexivity|]; split; [vm_compute; split; discriminate|]; split; [lia|]; split; reflexivity|]. split; [vm_compute; reflexivity|]. split; vm_compute; reflexivity.
Qed.
(** The first of the constants published with the Poseidon paper for this field and a state of 3 elements (x5_255_3: 8 full
    rounds, 57 partial ones; the S-box is 0 there, and 1 in the calls of this code). *)
Example c82_published_example :
  (let! g := new_grain (seed 1 0 255 3 8 57) in draw (F := Z) 3 1 255 g) = Ok [0x6c4ffa723eaf1a7bf74905cc7dae4ca9ff4a2c3bc81d42e09540d1f250910880%Z].
Proof. vm_compute. reflexivity. Qed.

Print Assumptions c82_sequence.
Print Assumptions c82_generate.
Print Assumptions c82_generate_only.
Print Assumptions c82_constants.
Print Assumptions c82_parameters.
Print Assumptions c82_cut_refuted.
Print Assumptions c82_example.
Print Assumptions c82_published_example.

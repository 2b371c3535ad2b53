(** PoseidonProofs.v: the model of the Poseidon hash computes the permutation of PoseidonSpec.v, in any
    arithmetic that computes sums and products. *)
From Verif Require Import Base Tools KZG SnarkProofs Plonk Poseidon PoseidonSpec.
Local Open Scope F_scope.

Section Sim.
Context {F : Type} {fo : FieldOps F} {fl : FieldLaws F} {po : PrimeFieldOps F} {pl : PrimeFieldLaws F}.
Add Field Fpos : F_th.
Context {COM V Asg : Type}.
Variables (A : arith F COM V) (den : Asg -> V -> F) (good : COM -> Prop) (known : COM -> V -> Prop)
  (tot : COM -> COM -> (Asg -> Prop) -> Prop).
Hypothesis tot_refl : forall c, good c -> tot c c (fun _ => True).
Hypothesis tot_trans : forall c c1 c2 Q1 Q2, tot c c1 Q1 -> tot c1 c2 Q2 -> tot c c2 (fun a => Q1 a /\ Q2 a).
Hypothesis tot_weak : forall c c' (Q Q' : Asg -> Prop), tot c c' Q -> (forall a, Q a -> Q' a) -> tot c c' Q'.
Hypothesis tot_good : forall c c' Q, tot c c' Q -> good c'.
Hypothesis tot_known : forall c c' Q v, tot c c' Q -> known c v -> known c' v.
Hypothesis zero_ok : forall c, good c -> exists z c', o_zero A c = Ok (z, c') /\ tot c c' (fun a => den a z = 0) /\ known c' z.
Hypothesis add_ok : forall x y c, good c -> known c x -> known c y ->
  exists o c', o_add A x y c = Ok (o, c') /\ tot c c' (fun a => den a o = den a x + den a y) /\ known c' o.
Hypothesis addi_ok : forall x k c, good c -> known c x ->
  exists o c', o_addi A x k c = Ok (o, c') /\ tot c c' (fun a => den a o = den a x + k) /\ known c' o.
Hypothesis mul_ok : forall x y c, good c -> known c x -> known c y ->
  exists o c', o_mul A x y c = Ok (o, c') /\ tot c c' (fun a => den a o = den a x * den a y) /\ known c' o.
Hypothesis muli_ok : forall x k c, good c -> known c x ->
  exists o c', o_muli A x k c = Ok (o, c') /\ tot c c' (fun a => den a o = den a x * k) /\ known c' o.

Implicit Types (c : COM) (st : list V).
Notation knowns c st := (Forall (known c) st).
Lemma tot_knowns c c' Q st : tot c c' Q -> knowns c st -> knowns c' st.
Proof. intros T. apply Forall_impl. intros v. now apply (tot_known _ _ _ _ T). Qed.

Ltac step L E T K :=
  let o := fresh "o" in let c := fresh "c" in
  edestruct L as [o [c [E [T K]]]];
  [ eauto 2 | .. | rewrite E; cbn [obind] ].

Lemma power_ok x c : good c -> known c x ->
  exists o c', power_of_5 A x c = Ok (o, c') /\ tot c c' (fun a => den a o = fifth (den a x)) /\ known c' o.
Proof.
  intros G K. unfold power_of_5.
  destruct (mul_ok x x c G K K) as [x2 [c1 [-> [T1 K1]]]]. cbn [obind].
  destruct (mul_ok x2 x2 c1 (tot_good _ _ _ T1) K1 K1) as [x4 [c2 [-> [T2 K2]]]]. cbn [obind].
  destruct (mul_ok x4 x c2 (tot_good _ _ _ T2) K2 (tot_known _ _ _ _ T2 (tot_known _ _ _ _ T1 K))) as [o [c3 [-> [T3 K3]]]].
  exists o, c3. split; auto. split; auto.
  eapply tot_weak; [exact (tot_trans _ _ _ _ _ T1 (tot_trans _ _ _ _ _ T2 T3))|].
  intros a [E1 [E2 E3]]. rewrite E3, E2, E1. unfold fifth. ring.
Qed.
Lemma s_box_pre_ok x k c : good c -> known c x ->
  exists o c', quintic_s_box A x (Some k) None c = Ok (o, c') /\ tot c c' (fun a => den a o = fifth (den a x + k)) /\ known c' o.
Proof.
  intros G K. unfold quintic_s_box.
  destruct (addi_ok x k c G K) as [y [c1 [-> [T1 K1]]]]. cbn [obind].
  destruct (power_ok y c1 (tot_good _ _ _ T1) K1) as [o [c2 [-> [T2 K2]]]]. cbn [obind].
  exists o, c2. split; auto. split; auto.
  eapply tot_weak; [exact (tot_trans _ _ _ _ _ T1 T2)|]. intros a [E1 E2]. now rewrite E2, E1.
Qed.
Lemma s_box_ok x c : good c -> known c x ->
  exists o c', quintic_s_box A x None None c = Ok (o, c') /\ tot c c' (fun a => den a o = fifth (den a x)) /\ known c' o.
Proof.
  intros G K. unfold quintic_s_box. cbn [obind].
  destruct (power_ok x c G K) as [o [c2 [-> [T2 K2]]]]. cbn [obind]. eauto.
Qed.

(** the state st holds s under a *)
Definition holds (n : nat) (a : Asg) st (s : nat -> F) : Prop := map (den a) st = map s (seq 0 n).
Lemma holds_nth n a st s i d : holds n a st s -> (i < n)%nat -> den a (nth i st d) = s i.
Proof.
  intros H L. unfold holds in H. assert (length st = n) as N by (apply (f_equal (@length F)) in H; rewrite !map_length, seq_length in H; auto).
  transitivity (nth i (map (den a) st) (den a d)); [now rewrite map_nth|]. rewrite H.
  rewrite (nth_indep _ _ (s 0%nat)) by (rewrite map_length, seq_length; auto). rewrite map_nth, seq_nth; auto.
Qed.

Lemma s_boxes_ok k : forall keys st c, good c -> knowns c st -> (length st <= length keys)%nat ->
  exists st' c', s_boxes A st keys c = Ok (st', c') /\ length st' = length st /\ knowns c' st' /\
    tot c c' (fun a => forall s, map (den a) st = map s (seq k (length st)) ->
      map (den a) st' = map (fun i => fifth (s i + nth (i - k) keys 0)) (seq k (length st))).
Proof.
  revert k. intros k keys st. revert k keys.
  induction st as [|x st IH]; intros k keys c G K L.
  - exists [], c. cbn. repeat split; auto. eapply tot_weak; [apply tot_refl; auto|auto].
  - destruct keys as [|key keys]; [cbn in L; lia|]. cbn [s_boxes length] in *.
    inversion_clear K as [|? ? K0 K1].
    destruct (s_box_pre_ok x key c G K0) as [y [c1 [-> [T1 K2]]]]. cbn [obind].
    destruct (IH (S k) keys c1) as [ys [c2 [-> [N [K3 T2]]]]]; [exact (tot_good _ _ _ T1)|now apply (tot_knowns _ _ _ _ T1)|lia|].
    cbn [obind]. exists (y :: ys), c2. split; auto. split; [cbn; lia|]. split; [constructor; auto; now apply (tot_known _ _ _ _ T2)|].
    eapply tot_weak; [exact (tot_trans _ _ _ _ _ T1 T2)|]. intros a [E1 E2] s E. cbn [map seq] in *. injection E as E3 E4.
    f_equal.
    + rewrite E1, E3, Nat.sub_diag. reflexivity.
    + rewrite (E2 s E4). apply map_ext_in. intros i Hi. apply in_seq in Hi.
      replace (i - k)%nat with (S (i - S k)) by lia. reflexivity.
Qed.
Lemma add_keys_ok : forall st k keys c, good c -> knowns c st -> (length st <= length keys)%nat ->
  exists st' c', add_keys A st keys c = Ok (st', c') /\ length st' = length st /\ knowns c' st' /\
    tot c c' (fun a => forall s, map (den a) st = map s (seq k (length st)) ->
      map (den a) st' = map (fun i => s i + nth (i - k) keys 0) (seq k (length st))).
Proof.
  induction st as [|x st IH]; intros k keys c G K L.
  - exists [], c. cbn. repeat split; auto. eapply tot_weak; [apply tot_refl; auto|auto].
  - destruct keys as [|key keys]; [cbn in L; lia|]. cbn [add_keys length] in *.
    inversion_clear K as [|? ? K0 K1].
    destruct (addi_ok x key c G K0) as [y [c1 [-> [T1 K2]]]]. cbn [obind].
    destruct (IH (S k) keys c1) as [ys [c2 [-> [N [K3 T2]]]]]; [exact (tot_good _ _ _ T1)|now apply (tot_knowns _ _ _ _ T1)|lia|].
    cbn [obind]. exists (y :: ys), c2. split; auto. split; [cbn; lia|]. split; [constructor; auto; now apply (tot_known _ _ _ _ T2)|].
    eapply tot_weak; [exact (tot_trans _ _ _ _ _ T1 T2)|]. intros a [E1 E2] s E. cbn [map seq] in *. injection E as E3 E4.
    f_equal.
    + rewrite E1, E3, Nat.sub_diag. reflexivity.
    + rewrite (E2 s E4). apply map_ext_in. intros i Hi. apply in_seq in Hi.
      replace (i - k)%nat with (S (i - S k)) by lia. reflexivity.
Qed.

Lemma nth_knowns c st i : knowns c st -> (i < length st)%nat -> exists x, nth_error st i = Some x /\ known c x.
Proof.
  intros K L. destruct (nth_error st i) as [x|] eqn:E; [|apply nth_error_None in E; lia].
  exists x. split; auto. rewrite Forall_forall in K. apply K. now apply nth_error_In in E.
Qed.
Lemma holds_nth_error n a st s i x : holds n a st s -> nth_error st i = Some x -> den a x = s i.
Proof.
  intros H E. assert (length st = n) as N by (apply (f_equal (@length F)) in H; rewrite !map_length, seq_length in H; auto).
  assert (i < length st)%nat as L by (apply nth_error_Some; congruence).
  rewrite <- (holds_nth _ _ _ _ i x H) by lia. f_equal. symmetry. now apply nth_error_nth.
Qed.

Lemma mds_entry_ok st j : forall rows i val c, good c -> knowns c st -> known c val ->
  (i + length rows <= length st)%nat -> Forall (fun row => j < length row)%nat rows ->
  exists o c', mds_entry A st j i rows val c = Ok (o, c') /\ known c' o /\
    tot c c' (fun a => forall s, holds (length st) a st s ->
      den a o = den a val + sumn (length rows) (fun t => s (i + t)%nat * entry rows t j)).
Proof.
  induction rows as [|row rows IH]; intros i val c G K KV L R.
  - exists val, c. cbn. split; auto. split; auto. eapply tot_weak; [apply tot_refl; auto|]. intros a _ s _. ring.
  - cbn [mds_entry length] in *. inversion_clear R as [|? ? R0 R1].
    destruct (nth_knowns c st i K) as [x [E KX]]; [lia|]. rewrite E. cbn [unwrap_opt obind].
    destruct (nth_error row j) as [k|] eqn:EK; [|apply nth_error_None in EK; lia]. cbn [unwrap_opt obind].
    destruct (muli_ok x k c G KX) as [tmp [c1 [-> [T1 K1]]]]. cbn [obind].
    destruct (add_ok val tmp c1 (tot_good _ _ _ T1) (tot_known _ _ _ _ T1 KV) K1) as [val1 [c2 [-> [T2 K2]]]]. cbn [obind].
    destruct (IH (S i) val1 c2) as [o [c3 [-> [K3 T3]]]];
      [exact (tot_good _ _ _ T2)|apply (tot_knowns _ _ _ _ T2), (tot_knowns _ _ _ _ T1); auto|auto|lia|auto|].
    exists o, c3. split; auto. split; auto.
    eapply tot_weak; [exact (tot_trans _ _ _ _ _ T1 (tot_trans _ _ _ _ _ T2 T3))|].
    intros a [E1 [E2 E3]] s H. rewrite (E3 s H), E2, E1, sumn_shift, (holds_nth_error _ _ _ _ _ _ H E).
    rewrite (sumn_ext _ (fun t => s (S i + t)%nat * entry rows t j) (fun t => s (i + S t)%nat * entry (row :: rows) (S t) j)).
    2:{ intros t _. replace (i + S t)%nat with (S i + t)%nat by lia. reflexivity. }
    unfold entry at 2. cbn [nth]. rewrite (nth_error_nth _ _ 0 EK), Nat.add_0_r. ring.
Qed.
Lemma mds_entries_ok st rows zero : forall js c, good c -> knowns c st -> known c zero ->
  (length rows = length st)%nat -> Forall (fun row => length row = length st)%nat rows -> Forall (fun j => j < length st)%nat js ->
  exists st' c', mds_entries A st rows zero js c = Ok (st', c') /\ knowns c' st' /\ length st' = length js /\
    tot c c' (fun a => forall s, holds (length st) a st s -> den a zero = 0 -> map (den a) st' = map (mix (length st) (entry rows) s) js).
Proof.
  induction js as [|j js IH]; intros c G K KZ L R J.
  - exists [], c. cbn. repeat split; auto. eapply tot_weak; [apply tot_refl; auto|auto].
  - inversion_clear J as [|? ? J0 J1]. cbn [mds_entries].
    destruct (mds_entry_ok st j rows 0 zero c) as [y [c1 [-> [K1 T1]]]]; auto; [lia|eapply Forall_impl; [|exact R]; cbn; intros; lia|].
    cbn [obind].
    destruct (IH c1) as [ys [c2 [-> [K2 [N T2]]]]]; auto;
      [exact (tot_good _ _ _ T1)|now apply (tot_knowns _ _ _ _ T1)|now apply (tot_known _ _ _ _ T1)|].
    cbn [obind]. exists (y :: ys), c2. split; auto. split; [constructor; auto; now apply (tot_known _ _ _ _ T2)|]. split; [cbn; lia|].
    eapply tot_weak; [exact (tot_trans _ _ _ _ _ T1 T2)|]. intros a [E1 E2] s H Z. cbn [map]. f_equal; auto.
    rewrite (E1 s H), Z, L. unfold mix. cbn [Nat.add]. ring.
Qed.

Section Hash.
Variables (W : nat) (pc : constants F).
Hypothesis sq : square W (pc_m pc).
Notation K := (round_key W (pc_rc pc)).
Notation M := (entry (pc_m pc)).

Lemma product_ok st c : good c -> knowns c st -> length st = W ->
  exists st' c', product_mds A pc st c = Ok (st', c') /\ knowns c' st' /\ length st' = W /\
    tot c c' (fun a => forall s, holds W a st s -> holds W a st' (mix W M s)).
Proof.
  intros G KS L. unfold product_mds. destruct sq as [S1 S2].
  destruct (zero_ok c G) as [z [c1 [-> [T1 K1]]]]. cbn [obind].
  destruct (mds_entries_ok st (pc_m pc) z (seq 0 (length st)) c1) as [st' [c2 [-> [K2 [N T2]]]]]; auto.
  - exact (tot_good _ _ _ T1).
  - now apply (tot_knowns _ _ _ _ T1).
  - congruence.
  - now rewrite L.
  - apply Forall_forall. intros j Hj. apply in_seq in Hj. lia.
  - rewrite seq_length in N. exists st', c2. split; auto. split; auto. split; [congruence|].
    eapply tot_weak; [exact (tot_trans _ _ _ _ _ T1 T2)|]. intros a [E1 E2] s H. unfold holds. rewrite <- L. apply E2; auto. now rewrite L.
Qed.

Variables (half partial : nat).
Notation full r := (is_full half partial r).
Notation rnd r := (one_round W half partial M K r).
Lemma nth_skipn0 {B} n (l : list B) i d : nth i (skipn n l) d = nth (n + i) l d.
Proof. revert l. induction n as [|n IH]; intros l; [reflexivity|]. destruct l as [|x l]; [now destruct i|]. cbn [skipn]. rewrite IH. reflexivity. Qed.
Lemma skipn_key r i : nth i (skipn (r * W) (pc_rc pc)) 0 = K r i.
Proof. rewrite nth_skipn0. reflexivity. Qed.
Lemma full_round_ok r st c : good c -> knowns c st -> length st = W -> (S r * W <= length (pc_rc pc))%nat -> full r = true ->
  exists st' c', full_round A pc (r * W) st c = Ok ((S r * W)%nat, st', c') /\ knowns c' st' /\ length st' = W /\
    tot c c' (fun a => forall s, holds W a st s -> holds W a st' (rnd r s)).
Proof.
  intros G KS L HL HF. unfold full_round.
  destruct (s_boxes_ok 0 (skipn (r * W) (pc_rc pc)) st c) as [st1 [c1 [-> [N1 [K1 T1]]]]]; auto.
  { rewrite skipn_length. cbn in HL. lia. }
  cbn [obind]. destruct (product_ok st1 c1) as [st2 [c2 [-> [K2 [N2 T2]]]]]; auto; [exact (tot_good _ _ _ T1)|congruence|].
  cbn [obind]. exists st2, c2. split; [rewrite L; replace (r * W + W)%nat with (S r * W)%nat by (cbn; lia); reflexivity|]. split; auto. split; auto.
  eapply tot_weak; [exact (tot_trans _ _ _ _ _ T1 T2)|]. intros a [E1 E2] s H. unfold one_round. apply E2.
  unfold holds in *. rewrite L in E1. rewrite (E1 s H). apply map_ext_in. intros i Hi. unfold substitute. rewrite HF. cbn [orb].
  now rewrite Nat.sub_0_r, skipn_key.
Qed.
Lemma partial_round_ok r st c : good c -> knowns c st -> length st = W -> (1 <= W)%nat -> (S r * W <= length (pc_rc pc))%nat -> full r = false ->
  exists st' c', partial_round A pc (r * W) st c = Ok ((S r * W)%nat, st', c') /\ knowns c' st' /\ length st' = W /\
    tot c c' (fun a => forall s, holds W a st s -> holds W a st' (rnd r s)).
Proof.
  intros G KS L HW HL HF. unfold partial_round.
  destruct (add_keys_ok st 0 (skipn (r * W) (pc_rc pc)) c) as [st1 [c1 [-> [N1 [K1 T1]]]]]; auto.
  { rewrite skipn_length. cbn in HL. lia. }
  cbn [obind]. destruct st1 as [|x rest]; [cbn in N1; lia|]. inversion_clear K1 as [|? ? KX KR].
  destruct (s_box_ok x c1 (tot_good _ _ _ T1) KX) as [y [c2 [-> [T2 KY]]]]. cbn [obind].
  destruct (product_ok (y :: rest) c2) as [st2 [c3 [-> [K2 [N2 T3]]]]]; auto;
    [exact (tot_good _ _ _ T2)|constructor; auto; now apply (tot_knowns _ _ _ _ T2)|cbn in *; lia|].
  cbn [obind]. exists st2, c3. split; [rewrite L; replace (r * W + W)%nat with (S r * W)%nat by (cbn; lia); reflexivity|]. split; auto. split; auto.
  eapply tot_weak; [exact (tot_trans _ _ _ _ _ T1 (tot_trans _ _ _ _ _ T2 T3))|]. intros a [E1 [E2 E3]] s H. unfold one_round. apply E3.
  unfold holds in *. rewrite L in E1. specialize (E1 s H). assert (seq 0 W = 0%nat :: seq 1 (W - 1)) as EW by (destruct W as [|w]; [lia|]; cbn [seq Nat.sub]; now rewrite Nat.sub_0_r).
  rewrite EW in *. cbn [map] in *. injection E1 as E4 E5.
  f_equal.
  - rewrite E2, E4. unfold substitute. cbn [Nat.eqb]. rewrite Bool.orb_true_r. rewrite <- skipn_key. reflexivity.
  - rewrite E5. apply map_ext_in. intros i Hi. apply in_seq in Hi. unfold substitute. rewrite HF.
    replace (i =? 0)%nat with false by (symmetry; apply Nat.eqb_neq; lia). cbn [orb]. rewrite Nat.sub_0_r. now rewrite skipn_key.
Qed.

End Hash.

Lemma is_full_first h p r : (r < h)%nat -> is_full h p r = true.
Proof. intros H. unfold is_full. now apply Nat.ltb_lt in H as ->. Qed.
Lemma is_full_last h p r : (h + p <= r)%nat -> is_full h p r = true.
Proof. intros H. unfold is_full. apply Nat.leb_le in H as ->. apply Bool.orb_true_r. Qed.
Lemma is_full_mid h p r : (h <= r < h + p)%nat -> is_full h p r = false.
Proof. intros H. unfold is_full. rewrite (proj2 (Nat.ltb_ge _ _)), (proj2 (Nat.leb_gt _ _)) by lia. reflexivity. Qed.

(** Any rounds f and g that take the state r to the state r + 1, where P r tells how a state is stored. *)
Section Rounds.
Variables (W base : nat) (pc : constants F) (P : nat -> Asg -> list V -> (nat -> F) -> Prop) (rnd : nat -> (nat -> F) -> nat -> F).
Notation half := (pc_half pc).
Notation partial := (pc_partial pc).
Fixpoint iterate (n : nat) (s : nat -> F) : nat -> F := match n with O => s | S r => rnd r (iterate r s) end.
Notation aft := iterate.
Definition round_ok (f : round_fn (COM:=COM)) (r : nat) : Prop := forall st c, good c -> knowns c st -> length st = W ->
  exists st' c', f pc (base + r * W)%nat st c = Ok ((base + S r * W)%nat, st', c') /\ knowns c' st' /\ length st' = W /\
    tot c c' (fun a => forall s, P r a st s -> P (S r) a st' (rnd r s)).
Lemma rounds_ok f : forall n r st c, (forall r', (r <= r' < r + n)%nat -> round_ok f r') ->
  good c -> knowns c st -> length st = W ->
  exists st' c', rounds n f pc (base + r * W) st c = Ok ((base + (r + n) * W)%nat, st', c') /\ knowns c' st' /\ length st' = W /\
    tot c c' (fun a => forall s, P r a st (aft r s) -> P (r + n)%nat a st' (aft (r + n)%nat s)).
Proof.
  induction n as [|n IH]; intros r st c Hf G KS L.
  - exists st, c. cbn [rounds]. rewrite Nat.add_0_r. repeat split; auto. eapply tot_weak; [apply tot_refl; auto|auto].
  - cbn [rounds]. destruct (Hf r) with (st := st) (c := c) as [st1 [c1 [-> [K1 [N1 T1]]]]]; auto; [lia|]. cbn [obind].
    destruct (IH (S r) st1 c1) as [st2 [c2 [-> [K2 [N2 T2]]]]]; auto; [intros; apply Hf; auto; lia|exact (tot_good _ _ _ T1)|].
    exists st2, c2. replace (r + S n)%nat with (S r + n)%nat by lia. split; auto. split; auto. split; auto.
    eapply tot_weak; [exact (tot_trans _ _ _ _ _ T1 T2)|]. intros a [E1 E2] s H. apply E2. cbn [iterate]. now apply E1.
Qed.
Lemma output_hash_with_ok f g h c : h_constants h = pc -> (forall r, (r < 2 * half + partial)%nat -> is_full half partial r = true -> round_ok f r) ->
  (forall r, (r < 2 * half + partial)%nat -> is_full half partial r = false -> round_ok g r) ->
  good c -> knowns c (h_elements h) -> length (h_elements h) = W -> (2 <= W)%nat -> h_off h = base ->
  (1 <= half)%nat -> (1 <= partial)%nat ->
  exists y h' c', output_hash_with f g h c = Ok (y, h', c') /\ known c' y /\ knowns c' (h_elements h') /\
    h_off h' = (base + (2 * half + partial) * W)%nat /\ length (h_elements h') = W /\ h_pos h' = h_pos h /\ h_constants h' = pc /\
    nth_error (h_elements h') 1 = Some y /\
    tot c c' (fun a => forall s, P 0%nat a (h_elements h) s ->
      P (2 * half + partial)%nat a (h_elements h') (iterate (2 * half + partial) s)).
Proof.
  intros EP FR PR G KS L HW OFF HH HP. unfold output_hash_with. rewrite EP, OFF.
  destruct (FR 0%nat) with (st := h_elements h) (c := c) as [st1 [c1 [E0 [K1 [N1 T1]]]]]; auto; [lia|apply is_full_first; lia|]. rewrite Nat.mul_0_l, Nat.add_0_r in E0. rewrite E0. cbn [obind].
  destruct (rounds_ok f (half - 1) 1 st1 c1) as [st2 [c2 [-> [K2 [N2 T2]]]]]; auto;
    [intros r' Hr; apply FR; [lia|apply is_full_first; lia]|exact (tot_good _ _ _ T1)|]. cbn [obind].
  replace (1 + (half - 1))%nat with half in * by lia.
  destruct (PR half) with (st := st2) (c := c2) as [st3 [c3 [-> [K3 [N3 T3]]]]]; auto; [lia|apply is_full_mid; lia|exact (tot_good _ _ _ T2)|]. cbn [obind].
  destruct (rounds_ok g (partial - 1) (S half) st3 c3) as [st4 [c4 [-> [K4 [N4 T4]]]]]; auto;
    [intros r' Hr; apply PR; [lia|apply is_full_mid; lia]|exact (tot_good _ _ _ T3)|]. cbn [obind].
  replace (S half + (partial - 1))%nat with (half + partial)%nat in * by lia.
  destruct (rounds_ok f half (half + partial) st4 c4) as [st5 [c5 [-> [K5 [N5 T5]]]]]; auto;
    [intros r' Hr; apply FR; [lia|apply is_full_last; lia]|exact (tot_good _ _ _ T4)|]. cbn [obind].
  replace (half + partial + half)%nat with (2 * half + partial)%nat in * by lia.
  destruct (nth_knowns c5 st5 1 K5) as [y [E KY]]; [lia|]. rewrite E. cbn [unwrap_opt obind].
  eexists y, _, c5. split; [reflexivity|]. cbn [h_elements h_off h_pos h_constants]. repeat (split; [solve [auto]|]).
  eapply tot_weak; [exact (tot_trans _ _ _ _ _ T1 (tot_trans _ _ _ _ _ T2 (tot_trans _ _ _ _ _ T3 (tot_trans _ _ _ _ _ T4 T5))))|].
  intros a [E1 [E2 [E3 [E4 E5]]]] s H. apply E5, E4. cbn [iterate]. apply E3, E2. cbn [iterate]. now apply E1.
Qed.
End Rounds.

Lemma iterate_after W half partial M K n s : iterate (one_round W half partial M K) n s = after W half partial M K n s.
Proof. induction n as [|n IH]; [reflexivity|]. cbn [iterate after]. now rewrite IH. Qed.
Theorem output_hash_ok h c W : let pc := h_constants h in
  good c -> knowns c (h_elements h) -> length (h_elements h) = W -> (2 <= W)%nat -> square W (pc_m pc) -> h_off h = 0%nat ->
  (1 <= pc_half pc)%nat -> (1 <= pc_partial pc)%nat -> ((2 * pc_half pc + pc_partial pc) * W <= length (pc_rc pc))%nat ->
  exists y h' c', output_hash A h c = Ok (y, h', c') /\ known c' y /\ knowns c' (h_elements h') /\
    h_off h' = ((2 * pc_half pc + pc_partial pc) * W)%nat /\ length (h_elements h') = W /\ h_pos h' = h_pos h /\ h_constants h' = pc /\
    tot c c' (fun a => forall s, holds W a (h_elements h) s ->
      den a y = permutation W (pc_half pc) (pc_partial pc) (entry (pc_m pc)) (round_key W (pc_rc pc)) s 1).
Proof.
  intros pc G KS L HW SQ OFF HH HP HL.
  assert (forall r, (r < 2 * pc_half pc + pc_partial pc)%nat -> (S r * W <= length (pc_rc pc))%nat) as LR.
  { intros r Hr. apply Nat.le_trans with ((2 * pc_half pc + pc_partial pc) * W)%nat; auto. apply Nat.mul_le_mono_r. lia. }
  destruct (output_hash_with_ok W 0 pc (fun _ => holds W) (one_round W (pc_half pc) (pc_partial pc) (entry (pc_m pc)) (round_key W (pc_rc pc))) (full_round A) (partial_round A) h c) as [y [h' [c' [E [K1 [K2 [E1 [E2 [E3 [E4 [E5 T]]]]]]]]]]]; auto.
  - intros r Hr Fr st c0 G0 K0 L0. apply full_round_ok; auto.
  - intros r Hr Fr st c0 G0 K0 L0. apply partial_round_ok; auto. lia.
  - exists y, h', c'. repeat (split; [solve [auto]|]). eapply tot_weak; [exact T|]. intros a H s Hs.
    apply (holds_nth_error W a (h_elements h')) with (2 := E5). unfold permutation. rewrite <- iterate_after. now apply H.
Qed.
End Sim.

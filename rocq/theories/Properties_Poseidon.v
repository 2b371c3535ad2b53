(** Properties_Poseidon.v: the Poseidon hash, native and in circuits (C79). *)
From Verif Require Import Base Tools KZG SnarkProofs Plonk PlonkSpec PlonkProofs PlonkGadgets PlonkSelect PlonkBuilt Poseidon PoseidonSpec PoseidonProofs
  PoseidonPlonk PoseidonZZ PlonkRows Properties_Plonk.
Local Open Scope F_scope.

Section S.
Context {F : Type} {fo : FieldOps F} {fl : FieldLaws F} {po : PrimeFieldOps F} {pl : PrimeFieldLaws F}.
Add Field Fpropposeidon : F_th.

(** The constants are for width W, and there are enough of them. *)
Definition fits (W : nat) (pc : constants F) : Prop :=
  (2 <= W)%nat /\ square W (pc_m pc) /\ (1 <= pc_half pc)%nat /\ (1 <= pc_partial pc)%nat /\
  ((2 * pc_half pc + pc_partial pc) * W <= length (pc_rc pc))%nat.
(** the element 1 of the permutation of the state s *)
Definition digest (W : nat) (pc : constants F) (s : nat -> F) : F :=
  permutation W (pc_half pc) (pc_partial pc) (entry (pc_m pc)) (round_key W (pc_rc pc)) s 1.
(** inputs, one after another *)
Fixpoint inputs {V} (xs : list V) (h : hasher F V) : outcome poseidon_error (hasher F V) :=
  match xs with [] => Ok h | x :: xs' => let! (_, h1) := input x h in inputs xs' h1 end.

(** *** inputs *)
Lemma upd_nth {A} (l : list A) i x j d : (i < length l)%nat -> nth j (upd l i (fun _ => x)) d = if (j =? i)%nat then x else nth j l d.
Proof.
  revert i j. induction l as [|y l IH]; intros i j H; [cbn in H; lia|].
  destruct i as [|i], j as [|j]; try reflexivity. cbn [upd nth Nat.eqb]. cbn in H. apply IH. lia.
Qed.
Lemma input_ok {V} (x : V) (h : hasher F V) : (h_pos h < length (h_elements h))%nat ->
  input x h = Ok (h_pos h, mk_hasher (h_off h) (upd (h_elements h) (h_pos h) (fun _ => x)) (S (h_pos h)) (h_constants h)).
Proof. intros H. unfold input. now rewrite (proj2 (Nat.leb_gt _ _) H). Qed.
Lemma inputs_ok {V} (xs : list V) (h : hasher F V) (d : V) : (h_pos h + length xs <= length (h_elements h))%nat ->
  exists h1, inputs xs h = Ok h1 /\ h_off h1 = h_off h /\ h_pos h1 = (h_pos h + length xs)%nat /\ h_constants h1 = h_constants h /\
    length (h_elements h1) = length (h_elements h) /\
    (forall j, nth j (h_elements h1) d =
      if ((h_pos h <=? j) && (j <? h_pos h + length xs))%nat then nth (j - h_pos h) xs d else nth j (h_elements h) d).
Proof.
  revert h. induction xs as [|x xs IH]; intros h H.
  - exists h. cbn [inputs length]. repeat split; auto. intros j. rewrite Nat.add_0_r.
    destruct (Nat.leb_spec (h_pos h) j), (Nat.ltb_spec j (h_pos h)); try reflexivity; lia.
  - cbn [inputs length] in *. rewrite input_ok by lia. cbn [obind].
    set (h0 := mk_hasher (h_off h) (upd (h_elements h) (h_pos h) (fun _ => x)) (S (h_pos h)) (h_constants h)).
    destruct (IH h0) as [h1 [E [E1 [E2 [E3 [E4 E5]]]]]]; [unfold h0; cbn [h_pos h_elements]; rewrite upd_length; lia|].
    unfold h0 in E1, E2, E3, E4, E5. cbn [h_pos h_elements h_off h_constants] in *. rewrite upd_length in E4.
    exists h1. repeat (split; [solve [auto; lia]|]). intros j. rewrite E5, upd_nth by lia.
    destruct (Nat.leb_spec (S (h_pos h)) j), (Nat.ltb_spec j (S (h_pos h) + length xs)), (Nat.leb_spec (h_pos h) j),
      (Nat.ltb_spec j (h_pos h + S (length xs))), (Nat.eqb_spec j (h_pos h)); cbn [andb]; try lia; try reflexivity.
    + replace (j - h_pos h)%nat with (S (j - S (h_pos h))) by lia. reflexivity.
    + replace (j - h_pos h)%nat with 0%nat by lia. reflexivity.
Qed.

(** An input goes to the next free place, and changes no other; without one, an error is returned.
    (An error leaves the hash as it was: it returns no new one.) *)
Theorem c79_input {V} (x d : V) (h : hasher F V) :
  (h_pos h < length (h_elements h) ->
    exists h1, input x h = Ok (h_pos h, h1) /\ h_pos h1 = S (h_pos h) /\ h_off h1 = h_off h /\ h_constants h1 = h_constants h /\
      length (h_elements h1) = length (h_elements h) /\
      forall j, nth j (h_elements h1) d = if (j =? h_pos h)%nat then x else nth j (h_elements h) d)%nat /\
  (length (h_elements h) <= h_pos h -> input x h = Err FullBuffer)%nat.
Proof.
  split.
  - intros H. rewrite input_ok by auto. eexists. split; [reflexivity|]. cbn. rewrite upd_length. repeat split; auto. intros j. now apply upd_nth.
  - intros H. unfold input. now rewrite (proj2 (Nat.leb_le _ _) H).
Qed.

(** *** the native hash *)
Definition n_tot (_ _ : unit) (Q : unit -> Prop) : Prop := Q tt.
Lemma native_output (h : hasher F F) W : let pc := h_constants h in
  length (h_elements h) = W -> fits W pc -> h_off h = 0%nat ->
  exists y h2, output_hash native h tt = Ok (y, h2, tt) /\ h_off h2 = ((2 * pc_half pc + pc_partial pc) * W)%nat /\
    length (h_elements h2) = W /\ h_pos h2 = h_pos h /\ h_constants h2 = pc /\
    y = digest W pc (fun i => nth i (h_elements h) 0).
Proof.
  intros pc L [HW [SQ [HH [HP HL]]]] OFF.
  destruct (output_hash_ok native (fun (_ : unit) v => v) (fun _ : unit => True) (fun _ _ => True) n_tot) with (h := h) (c := tt) (W := W)
    as [y [h2 [[] [E [_ [_ [E1 [E2 [E3 [E4 T]]]]]]]]]]; auto.
  - intros c c1 c2 Q1 Q2 A B. split; auto.
  - intros c c' Q Q' A B. now apply B.
  - intros [] _. exists 0, tt. repeat split.
  - intros x y [] _ _ _. exists (x + y), tt. repeat split.
  - intros x y [] _ _. exists (x + y), tt. repeat split.
  - intros x y [] _ _ _. exists (x * y), tt. repeat split.
  - intros x y [] _ _. exists (x * y), tt. repeat split.
  - apply Forall_forall. auto.
  - exists y, h2. repeat (split; [solve [auto]|]). apply (T (fun i => nth i (h_elements h) 0)).
    unfold holds. rewrite map_id. apply list_eq_nth with (d := 0).
    + now rewrite map_length, seq_length.
    + intros i Hi. rewrite nth_map_seq by congruence. reflexivity.
Qed.
Lemma native_new W pc : (1 <= W)%nat -> new native W pc tt = Ok (mk_hasher 0 (pc_tag pc :: repeat 0 (W - 1)) 1 pc, tt).
Proof. intros H. destruct W as [|w]; [lia|]. unfold new. cbn. now rewrite Nat.sub_0_r. Qed.

(** A new hash, at most W - 1 inputs, and an output: the result is the element 1 of the permutation of the
    tag, the inputs, and zeros.  Nothing panics. *)
Theorem c79_native W pc xs : fits W pc -> (length xs <= W - 1)%nat ->
  exists h h1 y h2, new native W pc tt = Ok (h, tt) /\ inputs xs h = Ok h1 /\ output_hash native h1 tt = Ok (y, h2, tt) /\
    y = digest W pc (initial (pc_tag pc) xs).
Proof.
  intros FT HX. assert (2 <= W)%nat as HW by apply FT. rewrite native_new by lia.
  eexists. destruct (inputs_ok xs (mk_hasher 0 (pc_tag pc :: repeat 0 (W - 1)) 1 pc) 0) as [h1 [E [E1 [E2 [E3 [E4 E5]]]]]].
  { cbn [h_pos h_elements length]. rewrite repeat_length. lia. }
  cbn [h_pos h_elements h_off h_constants length] in *. rewrite repeat_length in E4.
  destruct (native_output h1 W) as [y [h2 [EO [_ [_ [_ [_ EY]]]]]]]; rewrite ?E3; auto; [lia|].
  exists h1, y, h2. repeat (split; [solve [auto]|]). rewrite EY, E3.
  assert (forall i, nth i (h_elements h1) 0 = initial (pc_tag pc) xs i) as EI.
  { intros i. rewrite E5. unfold initial. destruct i as [|i]; [reflexivity|]. cbn [Nat.leb nth andb Nat.sub].
    destruct (Nat.ltb_spec (S i) (1 + length xs)); cbn [nth].
    - now rewrite Nat.sub_0_r.
    - rewrite (nth_overflow xs) by lia. apply nth_repeat. }
  unfold digest, permutation.
  assert (forall n s s', (forall i, s i = s' i) -> forall i,
    after W (pc_half pc) (pc_partial pc) (entry (pc_m pc)) (round_key W (pc_rc pc)) n s i =
    after W (pc_half pc) (pc_partial pc) (entry (pc_m pc)) (round_key W (pc_rc pc)) n s' i) as EX.
  { induction n as [|n IH]; intros s s' H i; [apply H|]. cbn [after]. unfold one_round, mix. apply sumn_ext. intros j _. unfold substitute.
    now rewrite (IH s s' H j). }
  now apply EX.
Qed.
(** One input more than the arity is an error. *)
Theorem c79_arity {COM V} (A : arith F COM V) W pc c h c1 xs x : (1 <= W)%nat -> new A W pc c = Ok (h, c1) -> length xs = (W - 1)%nat ->
  exists h1, inputs xs h = Ok h1 /\ input x h1 = Err FullBuffer.
Proof.
  intros HW H L. unfold new in H. apply obind_ok in H. destruct H as [[z c2] [_ H]]. apply obind_ok in H. destruct H as [[t c3] [_ H]].
  destruct W as [|w]; [lia|]. cbn [repeat] in H. injection H as <- <-.
  destruct (inputs_ok xs (mk_hasher 0 (t :: repeat z w) 1 pc) t) as [h1 [E [_ [E2 [_ [E4 _]]]]]]; cbn [h_pos h_elements length] in *; rewrite repeat_length in *; [lia|].
  exists h1. split; auto. apply (proj2 (c79_input x x h1)). lia.
Qed.
(** Missing inputs count as zeros: the number of inputs is not hashed. *)
Theorem c79_padding_refuted W pc xs n : fits W pc -> (length xs + n <= W - 1)%nat ->
  exists h h1 h1' y h2 h2', new native W pc tt = Ok (h, tt) /\ inputs xs h = Ok h1 /\ inputs (xs ++ repeat 0 n) h = Ok h1' /\
    output_hash native h1 tt = Ok (y, h2, tt) /\ output_hash native h1' tt = Ok (y, h2', tt).
Proof.
  intros FT HX. assert (2 <= W)%nat as HW by apply FT. rewrite native_new by lia.
  destruct (inputs_ok xs (mk_hasher 0 (pc_tag pc :: repeat 0 (W - 1)) 1 pc) 0) as [h1 [E [E1 [E2 [E3 [E4 E5]]]]]].
  { cbn [h_pos h_elements length]. rewrite repeat_length. lia. }
  destruct (inputs_ok (xs ++ repeat 0 n) (mk_hasher 0 (pc_tag pc :: repeat 0 (W - 1)) 1 pc) 0) as [h1' [E' [E1' [E2' [E3' [E4' E5']]]]]].
  { cbn [h_pos h_elements length]. rewrite app_length, !repeat_length. lia. }
  cbn [h_pos h_elements h_off h_constants length] in *. rewrite repeat_length in E4, E4'.
  assert (h_elements h1 = h_elements h1') as EH.
  { apply list_eq_nth with (d := 0); [congruence|]. intros i _. rewrite E5, E5', app_length, repeat_length.
    destruct (Nat.leb_spec 1 i), (Nat.ltb_spec i (1 + length xs)), (Nat.ltb_spec i (1 + (length xs + n))); cbn [andb]; try lia; try reflexivity.
    - rewrite app_nth1 by lia. reflexivity.
    - rewrite app_nth2, nth_repeat by lia. destruct i as [|i]; [lia|]. cbn [nth]. apply nth_repeat. }
  destruct (native_output h1 W) as [y [h2 [EO [_ [_ [_ [_ EY]]]]]]]; rewrite ?E3; auto; [lia|].
  destruct (native_output h1' W) as [y' [h2' [EO' [_ [_ [_ [_ EY']]]]]]]; rewrite ?E3'; auto; [lia|].
  rewrite EH, E3 in EY. rewrite E3' in EY'. assert (y' = y) as -> by congruence.
  eexists _, h1, h1', y, h2, h2'. repeat (split; [solve [auto]|]). auto.
Qed.
(** After a reset the hash is a new one. *)
Theorem c79_reset (h : hasher F F) : (1 <= length (h_elements h))%nat ->
  reset native h tt = new native (length (h_elements h)) (h_constants h) tt.
Proof.
  intros H. rewrite native_new by auto. unfold reset. destruct (h_elements h) as [|x l]; [cbn in H; lia|].
  assert (zero_all native l tt = Ok (repeat 0 (length l), tt)) as ->.
  { clear. induction l as [|y l IH]; [reflexivity|]. cbn [zero_all native o_zero obind]. rewrite IH. reflexivity. }
  cbn. now rewrite Nat.sub_0_r.
Qed.

(** Without a reset, the second output is computed without keys, and its full rounds without S-boxes,
    if there are no more constants than one output needs. *)
Definition spent_round W (pc : constants F) (r : nat) (s : nat -> F) : nat -> F :=
  mix W (entry (pc_m pc)) (fun i => if negb (is_full (pc_half pc) (pc_partial pc) r) && (i =? 0)%nat then fifth (s i) else s i).
Theorem c79_second_output_refuted (h : hasher F F) W : let pc := h_constants h in
  length (h_elements h) = W -> fits W pc -> h_off h = length (pc_rc pc) ->
  exists y h2, output_hash native h tt = Ok (y, h2, tt) /\
    y = iterate (spent_round W pc) (2 * pc_half pc + pc_partial pc) (fun i => nth i (h_elements h) 0) 1.
Proof.
  intros pc L [HW [SQ [HH [HP HL]]]] OFF.
  assert (forall r, skipn (length (pc_rc pc) + r * W) (pc_rc pc) = []) as SK by (intros r; apply skipn_all2; lia).
  set (den := fun (_ : unit) (v : F) => v). set (good := fun _ : unit => True). set (known := fun (_ : unit) (_ : F) => True).
  assert (forall st, length st = W -> exists st', product_mds native pc st tt = Ok (st', tt) /\ length st' = W /\
    forall s, holds den W tt st s -> holds den W tt st' (mix W (entry (pc_m pc)) s)) as PR.
  { intros st Ls. destruct (product_ok native den good known n_tot) with (W := W) (pc := pc) (st := st) (c := tt) as [st' [[] [E [_ [E1 E2]]]]]; auto; try (intros; exact I).
    - intros c c1 c2 Q1 Q2 A B. split; auto.
    - intros c c' Q Q' A B. now apply B.
    - intros [] _. exists 0, tt. repeat split.
    - intros x y [] _ _ _. exists (x + y), tt. repeat split.
    - intros x y [] _ _. exists (x * y), tt. repeat split.
    - apply Forall_forall. intros; exact I.
    - exists st'. auto. }
  destruct (output_hash_with_ok (F:=F) good known n_tot) with (W := W) (base := length (pc_rc pc)) (pc := pc) (P := fun (_ : nat) => holds den W)
    (rnd := spent_round W pc) (f := full_round (native (F:=F))) (g := partial_round (native (F:=F))) (h := h) (c := tt)
    as [y [h2 [[] [E [_ [_ [_ [_ [_ [_ [E5 T]]]]]]]]]]]; auto; try (intros; exact I).
  - intros c c1 c2 Q1 Q2 A B. split; auto.
  - intros c c' Q Q' A B. now apply B.
  - intros r Hr Fr st [] _ _ Ls. unfold full_round. rewrite SK. assert (s_boxes native st [] tt = Ok (st, tt)) as -> by (destruct st; reflexivity). cbn [obind].
    destruct (PR st Ls) as [st' [-> [L' H]]]. cbn [obind]. exists st', tt. split; [rewrite Ls; f_equal; f_equal; f_equal; cbn; lia|].
    split; [apply Forall_forall; intros; exact I|]. split; auto. intros s Hs. unfold spent_round. rewrite Fr. cbn [negb andb]. now apply H.
  - intros r Hr Fr st [] _ _ Ls. unfold partial_round. rewrite SK. assert (add_keys native st [] tt = Ok (st, tt)) as -> by (destruct st; reflexivity). cbn [obind].
    destruct st as [|x rest]; [cbn in Ls; lia|]. cbn [quintic_s_box obind power_of_5 native o_mul].
    destruct (PR (x * x * (x * x) * x :: rest)) as [st' [E' [L' H]]]; [exact Ls|]. cbn [native] in E'. rewrite E'. cbn [obind]. exists st', tt. split; [rewrite Ls; f_equal; f_equal; f_equal; cbn; lia|].
    split; [apply Forall_forall; intros; exact I|]. split; auto. intros s Hs. unfold spent_round. rewrite Fr. cbn [negb andb]. apply H.
    unfold holds, den in *. rewrite map_id in *.
    assert (seq 0 W = 0%nat :: seq 1 (W - 1)) as EW by (clear - HW; destruct W as [|w]; [lia|]; cbn [seq Nat.sub]; now rewrite Nat.sub_0_r).
    rewrite EW in *. cbn [map] in *. injection Hs as H0 H1. cbn [Nat.eqb]. f_equal.
    + rewrite H0. unfold fifth. ring.
    + rewrite H1. apply map_ext_in. intros i Hi. apply in_seq in Hi. destruct (Nat.eqb_spec i 0); [lia|reflexivity].
  - apply Forall_forall. intros; exact I.
  - exists y, h2. split; auto. change y with (den tt y). apply holds_nth_error with (1 := T (fun i => nth i (h_elements h) 0) (ltac:(
      unfold holds, den; rewrite map_id; apply list_eq_nth with (d := 0); [now rewrite map_length, seq_length|intros i Hi; rewrite nth_map_seq by congruence; reflexivity]))) (2 := E5).
Qed.
End S.

Section C.
Context {F : Type} {fo : FieldOps F} {fl : FieldLaws F} {po : PrimeFieldOps F} {pl : PrimeFieldLaws F}.
Add Field Fpropposeidonc : F_th.
Variables (ca cd : F) (size : nat) (chk : F * F -> bool).
Implicit Types (c : composer F) (a : nat -> F).
Notation satisfies := (satisfies ca cd).
Notation outputs := (outputs ca cd).
Notation computes := (computes ca cd).
Notation built := (built ca cd size chk).
Notation grows := (grows ca cd size chk).
Notation odd_field := (2 < modulus (F:=F))%Z.

Lemma after_ext W half partial M (K : nat -> nat -> F) : forall n s s', (forall i, (i < W)%nat -> s i = s' i) -> forall i, (i < W)%nat ->
  after W half partial M K n s i = after W half partial M K n s' i.
Proof.
  induction n as [|n IH]; intros s s' H i Hi; [now apply H|]. cbn [after]. unfold one_round, mix. apply sumn_ext. intros j Hj. unfold substitute.
  now rewrite (IH s s' H j Hj).
Qed.
Lemma digest_ext W pc (s s' : nat -> F) : (2 <= W)%nat -> (forall i, (i < W)%nat -> s i = s' i) -> digest W pc s = digest W pc s'.
Proof. intros HW H. unfold digest, permutation. apply after_ext; auto. Qed.
Lemma holds_read W a (l : list nat) : length l = W -> holds rd W a l (fun i => a (nth i l 0%nat)).
Proof.
  intros L. unfold holds. apply list_eq_nth with (d := 0); [now rewrite !map_length, seq_length|].
  intros i Hi. rewrite map_length in Hi. rewrite nth_map_seq by lia. rewrite (nth_indep _ 0 (rd a 0%nat)) by (now rewrite map_length). rewrite map_nth. reflexivity.
Qed.
Lemma nth_exists c (l : list nat) i : Forall (exists_in c) l -> (i < length l)%nat -> (nth i l 0 < nvars c)%nat.
Proof. intros H Hi. rewrite Forall_forall in H. apply H. now apply nth_In. Qed.

(** The hash in a circuit, from any state of existing variables: building it does not panic, the new variable is
    forced to be the element 1 of the permutation of the values of the state, nothing else is restricted,
    and the witness of the prover remains good. *)
Theorem c79_circuit (h : hasher F nat) c W : odd_field -> built c -> let pc := h_constants h in
  Forall (fun v => v < nvars c)%nat (h_elements h) -> length (h_elements h) = W -> fits W pc -> h_off h = 0%nat ->
  exists y h' c', output_hash plonk h c = Ok (y, h', c') /\ built c' /\
    outputs c c' y (fun a v => v = digest W pc (fun i => a (nth i (h_elements h) 0%nat))).
Proof.
  intros OD B pc KN L [HW [SQ [HH [HP HL]]]] OFF. pose proof (bwf ca cd size chk c OD B) as Wf.
  destruct (plonk_hash_ok ca cd size chk OD h c W B KN L HW SQ OFF HH HP HL) as [y [h' [c' [E [_ [_ [_ [_ [_ [_ [T B']]]]]]]]]]].
  exists y, h', c'. split; auto. split; auto.
  eapply outputs_of; [exact Wf|exact T| |].
  - intros a _ Q v. unfold rd in Q. specialize (Q _ (holds_read W a _ L)). cbv beta in Q.
    change (a y) with (rd a y). unfold rd in *. unfold digest. rewrite Q. reflexivity.
  - intros a a' v S1. rewrite (digest_ext W pc (fun i => a (nth i (h_elements h) 0%nat)) (fun i => a' (nth i (h_elements h) 0%nat)) HW); [tauto|].
    intros i Hi. symmetry. apply S1. apply nth_exists; auto. lia.
Qed.

(** the circuit made of a new hash, inputs, and an output *)
Definition hash_circuit (W : nat) (pc : constants F) (xs : list nat) c : outcome error (nat * composer F) :=
  let! (h, c1) := new plonk W pc c in
  let! h1 := unwrap (inputs xs h) in
  let! (y, _, c2) := output_hash plonk h1 c1 in Ok (y, c2).

(** But the variable of the tag is not constrained: the circuit proves that the output is the hash of the
    inputs for some tag. *)
Theorem c79_tag_refuted W pc xs c : odd_field -> built c -> fits W pc -> (length xs <= W - 1)%nat -> Forall (fun v => v < nvars c)%nat xs ->
  exists y c', hash_circuit W pc xs c = Ok (y, c') /\ built c' /\
    computes c c' y (fun a v => exists t, v = digest W pc (initial t (map a xs))).
Proof.
  intros OD B FT LX KX. assert (2 <= W)%nat as HW by apply FT. pose proof (bwf ca cd size chk c OD B) as Wf.
  unfold hash_circuit, new. cbn [plonk o_zero o_alloc obind]. destruct W as [|w]; [lia|]. cbn [repeat].
  set (c1 := snd (add_input (pc_tag pc) c)). change (add_input (pc_tag pc) c) with (nvars c, c1). cbv iota beta. cbn [obind].
  pose proof (built_input _ _ _ _ (pc_tag pc) c B) as B1. fold c1 in B1. pose proof (bwf ca cd size chk c1 OD B1) as Wf1.
  pose proof (add_input_nvars (pc_tag pc) c) as N1. fold c1 in N1.
  destruct (inputs_ok xs (mk_hasher 0 (nvars c :: repeat (c_zero c) w) 1 pc) 0%nat) as [h1 [E [E1 [E2 [E3 [E4 E5]]]]]].
  { cbn [h_pos h_elements length]. rewrite repeat_length. lia. }
  cbn [h_pos h_elements h_off h_constants length] in *. rewrite repeat_length in E4. rewrite E. cbn [unwrap obind].
  assert (nth 0 (h_elements h1) 0%nat = nvars c) as Z0 by (now rewrite E5).
  assert (forall i, (i < w)%nat -> nth (S i) (h_elements h1) 0%nat = nth i xs (c_zero c)) as ZS.
  { intros i Hi. rewrite E5. cbn [Nat.leb andb nth Nat.sub]. destruct (Nat.ltb_spec (S i) (1 + length xs)).
    - rewrite Nat.sub_0_r. apply nth_indep. lia.
    - rewrite (nth_overflow xs) by lia. rewrite (nth_indep _ 0%nat (c_zero c)) by (now rewrite repeat_length). apply nth_repeat. }
  assert (forall i, (i < w)%nat -> (nth (S i) (h_elements h1) 0%nat < nvars c)%nat) as LS.
  { intros i Hi. rewrite (ZS i Hi). destruct (Nat.lt_ge_cases i (length xs)) as [J|J].
    - rewrite Forall_forall in KX. apply KX. now apply nth_In.
    - rewrite nth_overflow by lia. apply (wf_zero _ Wf). }
  assert (Forall (fun v => v < nvars c1)%nat (h_elements h1)) as K1.
  { apply Forall_forall. intros v Hv. apply (In_nth _ _ 0%nat) in Hv. destruct Hv as [i [Hi <-]]. rewrite N1. destruct i as [|i]; [rewrite Z0; lia|].
    specialize (LS i). lia. }
  pose proof FT as [_ [SQ [HH [HP HL]]]]. rewrite <- E3 in SQ, HH, HP, HL.
  destruct (plonk_hash_ok ca cd size chk OD h1 c1 (S w) B1 K1 E4 HW SQ E1 HH HP HL) as [y [h' [c' [EO [_ [_ [_ [_ [_ [_ [T B']]]]]]]]]]].
  rewrite E3 in T. rewrite EO. cbn [obind]. exists y, c'. split; auto. split; auto.
  assert (forall a, satisfies c a -> forall t, a (nvars c) = t -> digest (S w) pc (fun i => a (nth i (h_elements h1) 0%nat)) = digest (S w) pc (initial t (map a xs))) as DG.
  { intros a Ha t Et. apply digest_ext; [lia|]. intros i Hi. unfold initial. destruct i as [|i]; [cbn [nth]; now rewrite Z0|].
    cbn [nth]. rewrite (ZS i) by lia. rewrite <- (satisfies_zero ca cd c a Wf Ha). now rewrite map_nth. }
  intros a v. split.
  - intros [a' [S1 [<- H]]]. destruct (t_sound _ _ _ _ _ T _ H) as [H1 Q].
    assert (satisfies c a') as H2 by exact (proj1 (proj1 (ext_sat _ _ _ _ _ (ext_input ca cd (pc_tag pc) c Wf) a') H1)).
    split; [now apply (satisfies_same ca cd c a a' Wf S1)|]. exists (a' (nvars c)).
    assert (map a xs = map a' xs) as -> by (apply map_ext_in; intros x Hx; symmetry; apply S1; rewrite Forall_forall in KX; auto).
    rewrite <- (DG a' H2 _ eq_refl). unfold rd in Q. apply (Q _ (holds_read (S w) a' _ E4)).
  - intros [H [t ->]]. set (a1 := fun i => if (i =? nvars c)%nat then t else a i).
    assert (same_upto (nvars c) a a1) as S1 by (intros i Hi; unfold a1; destruct (Nat.eqb_spec i (nvars c)); [lia|reflexivity]).
    assert (satisfies c a1) as H1 by (now apply (satisfies_same ca cd c a a1 Wf S1)).
    assert (satisfies c1 a1) as H2 by exact (proj2 (ext_sat _ _ _ _ _ (ext_input ca cd (pc_tag pc) c Wf) a1) (conj H1 I)).
    destruct (t_complete _ _ _ _ _ T _ H2) as [a' [S2 H3]]. exists a'. split; [|split; auto].
    + intros i Hi. rewrite S2 by lia. now apply S1.
    + destruct (t_sound _ _ _ _ _ T _ H3) as [H4 Q]. unfold rd in Q. rewrite (Q _ (holds_read (S w) a' _ E4)).
      change (digest (S w) pc (fun i => a' (nth i (h_elements h1) 0%nat)) = digest (S w) pc (initial t (map a xs))).
      assert (satisfies c a') as H5 by exact (proj1 (proj1 (ext_sat _ _ _ _ _ (ext_input ca cd (pc_tag pc) c Wf) a') H4)).
      assert (map a xs = map a' xs) as ->.
      { apply map_ext_in. intros x Hx. rewrite Forall_forall in KX. specialize (KX x Hx). rewrite S2 by lia. symmetry. now apply S1. }
      apply DG; auto. rewrite S2 by lia. unfold a1. now rewrite Nat.eqb_refl.
Qed.

(** *** the hash of width 3 with affine gates *)
Lemma zz_output (h : hasher F nat) c (OD : odd_field) : built c -> let pc := h_constants h in let R := (2 * pc_half pc + pc_partial pc)%nat in
  Forall (fun v => v < nvars c)%nat (h_elements h) -> length (h_elements h) = 3%nat -> fits 3 pc -> h_off h = 0%nat ->
  (forall i j, (i < 3)%nat -> (j < 3)%nat -> entry (pc_m pc) i j = entry (pc_m pc) j i) ->
  (length (pc_rc pc) = R * 3 \/ R * 3 + 3 <= length (pc_rc pc))%nat ->
  exists y h' c', output_hash_zz h c = Ok (y, h', c') /\ built c' /\
    outputs c c' y (fun a v => v = digest 3 pc (fun i => a (nth i (h_elements h) 0%nat)) + early pc R 1).
Proof.
  intros B pc R KN L [_ [SQ [HH [HP HL]]]] OFF SY LR. pose proof (bwf ca cd size chk c OD B) as Wf.
  destruct (output_hash_with_ok (F:=F) built exists_in grows (grows_refl ca cd size chk OD) (grows_trans ca cd size chk) (grows_weak ca cd size chk)
    (grows_built ca cd size chk) 3 0 pc (holds_zz pc) (one_round 3 (pc_half pc) (pc_partial pc) (entry (pc_m pc)) (round_key 3 (pc_rc pc)))
    full_round_zz partial_round_zz h c) as [y [h' [c' [E [_ [_ [_ [_ [_ [_ [E5 [T B']]]]]]]]]]]]; auto.
  - intros r Hr Fr. apply full_zz_ok with (half := pc_half pc) (partial := pc_partial pc); auto. fold R in Hr. lia.
  - intros r Hr Fr. assert (pc_half pc <= r < pc_half pc + pc_partial pc)%nat as J.
    { unfold is_full in Fr. apply Bool.orb_false_iff in Fr. destruct Fr as [F1 F2]. apply Nat.ltb_ge in F1. apply Nat.leb_gt in F2. lia. }
    apply partial_zz_ok with (half := pc_half pc) (partial := pc_partial pc); auto; unfold R in LR; lia.
  - exists y, h', c'. split; auto. split; auto. eapply outputs_of; [exact Wf|exact T| |].
    + intros a _ Q v.
      assert (a y = digest 3 pc (fun i => a (nth i (h_elements h) 0%nat)) + early pc R 1) as ->; [|tauto].
      change (a y) with (rd a y).
      assert (holds_zz pc 0 a (h_elements h) (fun i => a (nth i (h_elements h) 0%nat))) as H0.
      { unfold holds_zz, early. cbn [Nat.eqb orb]. unfold holds. rewrite (holds_read 3 a _ L). apply map_ext. intros i. ring. }
      pose proof (Q _ H0) as H1. unfold holds_zz in H1. rewrite (holds_nth_error rd 3 a (h_elements h') _ 1 y H1 E5).
      unfold digest, permutation. rewrite iterate_after. reflexivity.
    + intros a a' v S1. rewrite (digest_ext 3 pc (fun i => a (nth i (h_elements h) 0%nat)) (fun i => a' (nth i (h_elements h) 0%nat))); [tauto|lia|].
      intros i Hi. symmetry. apply S1. apply nth_exists; auto. lia.
Qed.
(** It computes the same permutation, if the matrix is symmetric and there are exactly as many constants as needed. *)
Theorem c79_zz (h : hasher F nat) c : odd_field -> built c -> let pc := h_constants h in
  Forall (fun v => v < nvars c)%nat (h_elements h) -> length (h_elements h) = 3%nat -> fits 3 pc -> h_off h = 0%nat ->
  (forall i j, (i < 3)%nat -> (j < 3)%nat -> entry (pc_m pc) i j = entry (pc_m pc) j i) ->
  length (pc_rc pc) = ((2 * pc_half pc + pc_partial pc) * 3)%nat ->
  exists y h' c', output_hash_zz h c = Ok (y, h', c') /\ built c' /\
    outputs c c' y (fun a v => v = digest 3 pc (fun i => a (nth i (h_elements h) 0%nat))).
Proof.
  intros OD B pc KN L FT OFF SY LR.
  destruct (zz_output h c OD B KN L FT OFF SY (or_introl LR)) as [y [h' [c' [E [B' O]]]]]. exists y, h', c'. split; auto. split; auto.
  destruct O as [O1 O2]. split; auto. intros a v. rewrite (O1 a v). fold pc. unfold early. rewrite <- LR, Nat.eqb_refl, Bool.orb_true_r.
  match goal with |- _ /\ v = ?x + 0 <-> _ => assert (x + 0 = x) as -> by ring end. tauto.
Qed.
(** With the constants of one more round, which [generate] would accept, it adds the next key to the result. *)
Theorem c79_zz_keys_refuted (h : hasher F nat) c : odd_field -> built c -> let pc := h_constants h in let R := (2 * pc_half pc + pc_partial pc)%nat in
  Forall (fun v => v < nvars c)%nat (h_elements h) -> length (h_elements h) = 3%nat -> fits 3 pc -> h_off h = 0%nat ->
  (forall i j, (i < 3)%nat -> (j < 3)%nat -> entry (pc_m pc) i j = entry (pc_m pc) j i) ->
  (R * 3 + 3 <= length (pc_rc pc))%nat ->
  exists y h' c', output_hash_zz h c = Ok (y, h', c') /\ built c' /\
    outputs c c' y (fun a v => v = digest 3 pc (fun i => a (nth i (h_elements h) 0%nat)) + nth (R * 3 + 1) (pc_rc pc) 0).
Proof.
  intros OD B pc R KN L FT OFF SY LR.
  destruct (zz_output h c OD B KN L FT OFF SY (or_intror LR)) as [y [h' [c' [E [B' O]]]]]. exists y, h', c'. split; auto. split; auto.
  destruct O as [O1 O2]. split; auto. intros a v. rewrite (O1 a v). fold pc. fold R. unfold early, round_key.
  assert ((R =? 0)%nat = false) as -> by (apply Nat.eqb_neq; unfold R; destruct FT as [_ [_ [H _]]]; fold pc in H; lia).
  assert ((R * 3 =? length (pc_rc pc))%nat = false) as -> by (apply Nat.eqb_neq; lia). reflexivity.
Qed.
End C.

(** *** a concrete case *)
From Verif Require Import Properties_PlonkQuot.
Definition pc79 : constants F193 := mk_constants [[f193 3; f193 4]; [f193 4; f193 6]] (map f193 [1; 2; 3; 4; 5; 6]%Z) (f193 1) 1 1.
Definition pc79_3 : constants F193 :=
  mk_constants [[f193 3; f193 4; f193 7]; [f193 4; f193 6; f193 11]; [f193 7; f193 11; f193 8]] (map f193 [1; 2; 3; 4; 5; 6; 7; 8; 9]%Z) (f193 3) 1 1.
Definition c79 : outcome error (nat * composer F193) :=
  let! c := new_composer zero4 zero4 in Ok (add_input (f193 9) c).
(** the arity 1: the hash is defined; the element 1 of the state is not the input alone; and with a tag of
    the choice of the prover, the circuit accepts another value.  The width 3, with affine gates. *)
Definition run79 : bool :=
  negb (feqb (digest 2 pc79 (initial (f193 1) [f193 9])) (digest 2 pc79 (initial (f193 2) [f193 9]))) &&
  negb (feqb (digest 2 pc79 (initial (f193 1) [f193 9])) (digest 2 pc79 (initial (f193 1) [f193 8]))) &&
  match c79 with Ok (x, c) => (x <? nvars c)%nat && (nvars c =? 10)%nat &&
    match hash_circuit 2 pc79 [x] c with Ok (y, c') => feqb (nth y (c_vals c') 0) (digest 2 pc79 (initial (f193 1) [f193 9])) | _ => false end &&
    match output_hash_zz (mk_hasher 0 [x; 0%nat; x] 1 pc79_3) c with Ok (y, _, c') => feqb (nth y (c_vals c') 0) (digest 3 pc79_3 (initial (f193 9) [0; f193 9])) | _ => false end
  | _ => false end.
Lemma run79_ok : run79 = true.
Proof. run. Qed.
Lemma neq79 : digest 2 pc79 (initial (f193 2) [f193 9]) <> digest 2 pc79 (initial (pc_tag pc79) [f193 9]).
Proof. apply neq193. vm_cast_no_check (@eq_refl bool false). Qed.
Lemma ok79 : match c79 with Ok (x, c) => (x <? nvars c)%nat | _ => false end = true.
Proof. run. Qed.
Lemma fits79 : fits 2 pc79 /\ fits 3 pc79_3.
Proof. split; repeat split; cbn; auto; try lia; repeat constructor. Qed.
Lemma input79 (c0 : composer F193) : built (f193 1) (f193 2) 7 any193 c0 -> honest (f193 1) (f193 2) c0 ->
  built (f193 1) (f193 2) 7 any193 (snd (add_input (f193 9) c0)) /\ (nvars c0 < nvars (snd (add_input (f193 9) c0)))%nat /\
  exists a, satisfies (f193 1) (f193 2) (snd (add_input (f193 9) c0)) a /\ a (nvars c0) = f193 9.
Proof.
  intros B0 H0. assert (odd : (2 < modulus (F:=F193))%Z) by reflexivity. pose proof (bwf (f193 1) (f193 2) 7 any193 c0 odd B0) as W0.
  split; [exact (built_input _ _ _ _ _ _ B0)|]. split; [rewrite add_input_nvars; apply Nat.lt_succ_diag_r|].
  exists (values (snd (add_input (f193 9) c0))). split.
  - exact (proj2 (honest_ext (f193 1) (f193 2) _ _ _ W0 (ext_input (f193 1) (f193 2) (f193 9) c0 W0)) (conj H0 I)).
  - change (nth (nvars c0) (c_vals c0 ++ [f193 9]) 0 = f193 9).
    rewrite <- (wf_vals _ W0). rewrite app_nth2, Nat.sub_diag by apply le_n. exact (eq_refl (f193 9)).
Qed.
Lemma new79 (c0 : composer F193) : new_composer zero4 zero4 = Ok c0 -> built (f193 1) (f193 2) 7 any193 c0 /\ honest (f193 1) (f193 2) c0.
Proof.
  intros E0. destruct (new_wf (f193 1) (f193 2) zero4 zero4 _ E0) as [W0 [A0 [_ V0]]].
  split; [exact (built_new (f193 1) (f193 2) 7 any193 _ _ _ E0)|]. exact (proj2 (A0 _) V0).
Qed.
Lemma some79 : exists c0 : composer F193, new_composer zero4 zero4 = Ok c0.
Proof.
  pose proof ok79 as R. unfold c79 in R. destruct (new_composer zero4 zero4) as [c0| |] eqn:E; [|discriminate R|discriminate R].
  exists c0. reflexivity.
Qed.
(** the two assignments, for any two tags *)
Lemma tags79 (c0 : composer F193) : built (f193 1) (f193 2) 7 any193 c0 -> honest (f193 1) (f193 2) c0 -> forall pc : constants F193, fits 2 pc ->
  exists y c', hash_circuit 2 pc [nvars c0] (snd (add_input (f193 9) c0)) = Ok (y, c') /\
  forall t, exists a, satisfies (f193 1) (f193 2) c' a /\ a (nvars c0) = f193 9 /\ a y = digest 2 pc (initial t [f193 9]).
Proof.
  intros B0 H0 pc FT. assert (odd : (2 < modulus (F:=F193))%Z) by reflexivity.
  destruct (input79 c0 B0 H0) as [B [R [a [Ha Hx]]]].
  destruct (c79_tag_refuted (f193 1) (f193 2) 7 any193 2 pc [nvars c0] _ odd B FT (le_n 1)) as [y [c' [E [_ K]]]].
  { constructor; [exact R|constructor]. }
  exists y, c'. split; [exact E|]. intros t.
  destruct (proj2 (K a (digest 2 pc (initial t [f193 9])))) as [a' [S1 [E1 H1]]].
  { split; [exact Ha|]. exists t. cbn [map]. rewrite Hx. exact eq_refl. }
  exists a'. split; [exact H1|]. split; [rewrite (S1 _ R); exact Hx|exact E1].
Qed.
Lemma choose79 (c0 : composer F193) (pc : constants F193) t : fits 2 pc -> built (f193 1) (f193 2) 7 any193 c0 -> honest (f193 1) (f193 2) c0 ->
  digest 2 pc (initial t [f193 9]) <> digest 2 pc (initial (pc_tag pc) [f193 9]) ->
  exists c x y c', built (f193 1) (f193 2) 7 any193 c /\ hash_circuit 2 pc [x] c = Ok (y, c') /\
  (exists a, satisfies (f193 1) (f193 2) c' a /\ a x = f193 9 /\ a y = digest 2 pc (initial (pc_tag pc) [a x])) /\
  (exists a, satisfies (f193 1) (f193 2) c' a /\ a x = f193 9 /\ a y <> digest 2 pc (initial (pc_tag pc) [a x])).
Proof.
  intros FT B0 H0 N. destruct (tags79 c0 B0 H0 pc FT) as [y [c' [E HT]]].
  exists (snd (add_input (f193 9) c0)), (nvars c0), y, c'. split; [exact (proj1 (input79 c0 B0 H0))|]. split; [exact E|]. split.
  - destruct (HT (pc_tag pc)) as [a [H1 [H2 H3]]]. exists a. split; [exact H1|]. split; [exact H2|]. rewrite H2. exact H3.
  - destruct (HT t) as [a [H1 [H2 H3]]]. exists a. split; [exact H1|]. split; [exact H2|]. rewrite H2, H3. exact N.
Qed.
(** A circuit in which the hash of the input 9 is built: it is satisfied by an assignment in which the output
    is the digest, and by another one with the same input, in which it is not. *)
Example c79_example : exists c x y c', built (f193 1) (f193 2) 7 any193 c /\ hash_circuit 2 pc79 [x] c = Ok (y, c') /\
  (exists a, satisfies (f193 1) (f193 2) c' a /\ a x = f193 9 /\ a y = digest 2 pc79 (initial (pc_tag pc79) [a x])) /\
  (exists a, satisfies (f193 1) (f193 2) c' a /\ a x = f193 9 /\ a y <> digest 2 pc79 (initial (pc_tag pc79) [a x])).
Proof.
  destruct some79 as [c0 E0]. destruct (new79 c0 E0) as [B0 H0]. exact (choose79 c0 pc79 (f193 2) (proj1 fits79) B0 H0 neq79).
Qed.

Print Assumptions c79_input.
Print Assumptions c79_native.
Print Assumptions c79_arity.
Print Assumptions c79_padding_refuted.
Print Assumptions c79_reset.
Print Assumptions c79_second_output_refuted.
Print Assumptions c79_circuit.
Print Assumptions c79_tag_refuted.
Print Assumptions c79_zz.
Print Assumptions c79_zz_keys_refuted.
Print Assumptions c79_example.

(** CSProofs.v: proofs about the satisfaction checks. *)
From Verif Require Import Base Spec Tools ToolsProofs MatProofs CS.
From Coq Require Import ZifyBool.
Local Open Scope F_scope.

Section CP.
Context {F : Type} {fo : FieldOps F} {fl : FieldLaws F}.
Add Field Ffield_cp : F_th.

Lemma combine_nth2 {A B} (l1 : list A) (l2 : list B) i d1 d2 :
  (i < length l1)%nat -> (i < length l2)%nat -> nth i (combine l1 l2) (d1, d2) = (nth i l1 d1, nth i l2 d2).
Proof.
  revert l2 i; induction l1 as [|x l1 IH]; intros [|y l2] [|i] H1 H2; simpl in *; try lia; auto.
  apply IH; lia.
Qed.

Lemma forallb3 (P : F -> F -> F -> bool) (a b c : list F) n :
  length a = n -> length b = n -> length c = n ->
  forallb (fun abc => let '(a, b, c) := abc in P a b c) (combine (combine a b) c) = true <->
  (forall i, (i < n)%nat -> P (coef a i) (coef b i) (coef c i) = true).
Proof.
  unfold coef. intros Ha Hb Hc. rewrite forallb_forall. split.
  - intros H i Hi. specialize (H (nth i a 0, nth i b 0, nth i c 0)). apply H.
    assert (nth i (combine (combine a b) c) ((0, 0), 0) = (nth i a 0, nth i b 0, nth i c 0)) as <-.
    { rewrite combine_nth2 by (rewrite ?combine_length; lia). now rewrite combine_nth2 by lia. }
    apply nth_In. rewrite !combine_length. lia.
  - intros H [[x y] z] Hin. apply (In_nth _ _ ((0,0),0)) in Hin. destruct Hin as [i [Hi E]].
    rewrite !combine_length in Hi. rewrite combine_nth2 in E by (rewrite ?combine_length; lia).
    rewrite combine_nth2 in E by lia. injection E as <- <- <-. apply H. lia.
Qed.

(** total description of the unwrapped product *)
Lemma sparse_mvp_ok {E} h k rows cols vals right :
  (0 < h)%nat -> (0 < k)%nat -> length right = k -> in_shape (entries_of rows cols vals) h k ->
  sparse_mvp (E:=E) (Z.of_nat h) (Z.of_nat k) rows cols vals right
  = Ok (map (mat_vec (F:=F) (entries_of rows cols vals) k right) (seq 0 h)).
Proof.
  intros Hh Hk Hr Hs. apply sparse_mvp_iff. rewrite !Nat2Z.id. repeat split; auto; try lia; eapply Hs; eassumption.
Qed.
Lemma sparse_mvp_not_ok {E} h k rows cols vals right :
  ~ ((0 < h)%nat /\ (0 < k)%nat /\ length right = k /\ in_shape (entries_of rows cols vals) h k) ->
  sparse_mvp (F:=F) (E:=E) (Z.of_nat h) (Z.of_nat k) rows cols vals right = Panic.
Proof.
  intros H. destruct (sparse_mvp _ _ _ _ _ _) as [res|e|] eqn:E1; auto.
  - exfalso. apply H. apply sparse_mvp_iff in E1. rewrite !Nat2Z.id in E1.
    destruct E1 as [A [B [C [D _]]]]. repeat split; auto; try lia; eapply D; eassumption.
  - exfalso. revert E1. apply sparse_mvp_no_err.
Qed.
Lemma map_seq_coef (f : nat -> F) n i : (i < n)%nat -> coef (map f (seq 0 n)) i = f i.
Proof. intros H. unfold coef. now rewrite nth_map_seq. Qed.
Lemma map_seq_length {A} (f : nat -> A) n : length (map f (seq 0 n)) = n.
Proof. now rewrite map_length, seq_length. Qed.

(** decidability of in_shape *)
Lemma in_shape_dec (m : entries (F:=F)) h k : in_shape m h k \/ ~ in_shape m h k.
Proof.
  induction m as [|[[r c] x] m IH].
  - left. intros r c x [].
  - destruct IH as [IH|IH].
    + destruct (Nat.lt_ge_cases r h); [destruct (Nat.lt_ge_cases c k)|].
      * left. intros a b y [E|Hin]; [injection E; intros; subst; auto|apply (IH a b y Hin)].
      * right. intros H1. destruct (H1 r c x); [now left|lia].
      * right. intros H1. destruct (H1 r c x); [now left|lia].
    + right. intros H1. apply IH. intros a b y Hin. apply (H1 a b y). now right.
Qed.

Definition r1cs_shape (s : R1CS F) : Prop :=
  in_shape (entries_of (r_arows s) (r_acols s) (r_avals s)) (r_nrows s) (r_ncols s) /\
  in_shape (entries_of (r_brows s) (r_bcols s) (r_bvals s)) (r_nrows s) (r_ncols s) /\
  in_shape (entries_of (r_crows s) (r_ccols s) (r_cvals s)) (r_nrows s) (r_ncols s).

Lemma r1cs_satisfy_ok {E} s ins wit :
  (0 < r_nrows s)%nat -> (1 + length ins + length wit = r_ncols s)%nat -> r1cs_shape s ->
  exists b, r1cs_satisfy (E:=E) s ins wit = Ok b /\
   (b = true <->
    r1cs_holds (entries_of (r_arows s) (r_acols s) (r_avals s))
               (entries_of (r_brows s) (r_bcols s) (r_bvals s))
               (entries_of (r_crows s) (r_ccols s) (r_cvals s))
               (r_nrows s) (r_ncols s) (1 :: ins ++ wit)).
Proof.
  intros Hr Hl [SA [SB SC]]. unfold r1cs_satisfy.
  assert (length (1 :: ins ++ wit) = r_ncols s) as HL by (simpl; rewrite app_length; lia).
  change ([1] ++ ins ++ wit) with (1 :: ins ++ wit).
  rewrite !sparse_mvp_ok by (auto; lia). cbn [unwrap obind].
  eexists. split; [reflexivity|].
  rewrite (forallb3 (fun a b c => feqb (a * b) c)) by apply map_seq_length.
  unfold r1cs_holds. split.
  - intros H r Hlt. specialize (H r Hlt). rewrite feqb_eq in H. now rewrite !map_seq_coef in H by auto.
  - intros H r Hlt. rewrite !map_seq_coef by auto. apply feqb_eq. auto.
Qed.

Lemma r1cs_satisfy_panic {E} s ins wit :
  ~ ((0 < r_nrows s)%nat /\ (1 + length ins + length wit = r_ncols s)%nat /\ r1cs_shape s) ->
  r1cs_satisfy (E:=E) s ins wit = Panic.
Proof.
  intros H. unfold r1cs_satisfy. change ([1] ++ ins ++ wit) with (1 :: ins ++ wit).
  destruct (Nat.lt_ge_cases 0 (r_nrows s)) as [Hr|Hr].
  2:{ rewrite sparse_mvp_not_ok; [reflexivity|intros [? _]; lia]. }
  destruct (Nat.eq_dec (1 + length ins + length wit) (r_ncols s)) as [Hl|Hl].
  2:{ rewrite sparse_mvp_not_ok; [reflexivity|]. intros [_ [_ [HL _]]]. simpl in HL. rewrite app_length in HL. lia. }
  assert (length (1 :: ins ++ wit) = r_ncols s) as HL by (simpl; rewrite app_length; lia).
  destruct (in_shape_dec (entries_of (r_arows s) (r_acols s) (r_avals s)) (r_nrows s) (r_ncols s)) as [SA|SA].
  2:{ rewrite sparse_mvp_not_ok; [reflexivity|tauto]. }
  rewrite sparse_mvp_ok by (auto; lia). cbn [unwrap obind].
  destruct (in_shape_dec (entries_of (r_brows s) (r_bcols s) (r_bvals s)) (r_nrows s) (r_ncols s)) as [SB|SB].
  2:{ rewrite sparse_mvp_not_ok; [reflexivity|tauto]. }
  rewrite sparse_mvp_ok by (auto; lia). cbn [unwrap obind].
  destruct (in_shape_dec (entries_of (r_crows s) (r_ccols s) (r_cvals s)) (r_nrows s) (r_ncols s)) as [SC|SC].
  2:{ rewrite sparse_mvp_not_ok; [reflexivity|tauto]. }
  exfalso. apply H. unfold r1cs_shape. auto.
Qed.

(** *** HPR *)
Lemma fold_add_at {E} (l : list (nat * F)) (y : list F) :
  (forall i a, In (i, a) l -> (i < length y)%nat) ->
  exists y', fold_left (add_at (E:=E)) l (Ok y) = Ok y' /\ length y' = length y /\
    forall r, (r < length y)%nat ->
      coef y' r = coef y r + fsum (map (fun iv => if (fst iv =? r)%nat then snd iv else 0) l).
Proof.
  revert y; induction l as [|[i a] l IH]; intros y H.
  - exists y. repeat split; auto. intros. simpl. ring.
  - assert (i < length y)%nat as Hi by (apply (H i a); now left).
    cbn [fold_left]. unfold add_at at 2. cbn [obind fst snd].
    destruct (Nat.ltb_spec i (length y)); [|lia].
    destruct (IH (upd y i (fun x => x + a))) as [y' [E1 [E2 E3]]].
    { intros j b Hin. rewrite upd_length. apply (H j b). now right. }
    rewrite upd_length in *. exists y'. repeat split; auto. intros r Hr. rewrite E3 by auto.
    cbn [map fsum fst snd]. unfold coef at 1. rewrite nth_upd. rewrite (Nat.eqb_sym i r).
    destruct (Nat.eqb_spec r i); cbn [andb].
    + destruct (Nat.ltb_spec i (length y)); [|lia]. unfold coef. ring.
    + unfold coef. ring.
Qed.
Lemma fold_sub_at {E} (l : list F) s (y : list F) :
  (s + length l <= length y)%nat ->
  exists y', fold_left (sub_at (E:=E)) (combine (seq s (length l)) l) (Ok y) = Ok y' /\ length y' = length y /\
    forall r, (r < length y)%nat ->
      coef y' r = coef y r - (if (s <=? r)%nat then coef l (r - s) else 0).
Proof.
  revert s y; induction l as [|a l IH]; intros s y H.
  - exists y. repeat split; auto. intros. unfold coef. destruct (s <=? r)%nat; [|ring].
    destruct (r - s)%nat; simpl; ring.
  - simpl in H. cbn [length seq combine fold_left]. unfold sub_at at 2. cbn [obind fst snd].
    destruct (Nat.ltb_spec s (length y)); [|lia].
    destruct (IH (S s) (upd y s (fun x => x - a))) as [y' [E1 [E2 E3]]]; [rewrite upd_length; lia|].
    rewrite upd_length in *. exists y'. repeat split; auto. intros r Hr. rewrite E3 by auto.
    unfold coef at 1. rewrite nth_upd.
    destruct (Nat.eqb_spec r s) as [->|Hne]; cbn [andb].
    + destruct (Nat.ltb_spec s (length y)); [|lia]. destruct (Nat.leb_spec (S s) s); [lia|].
      destruct (Nat.leb_spec s s); [|lia]. rewrite Nat.sub_diag. unfold coef. simpl. ring.
    + destruct (Nat.leb_spec (S s) r); destruct (Nat.leb_spec s r); try lia.
      * replace (r - s)%nat with (S (r - S s)) by lia. reflexivity.
      * reflexivity.
Qed.
Lemma fold_sub_panic {E} l : fold_left (sub_at (F:=F) (E:=E)) l Panic = Panic.
Proof. induction l; auto. Qed.
Lemma fold_sub_at_over {E} (l : list F) s (y : list F) :
  (length y < s + length l)%nat -> (s <= length y)%nat ->
  fold_left (sub_at (E:=E)) (combine (seq s (length l)) l) (Ok y) = Panic.
Proof.
  revert s y; induction l as [|a l IH]; intros s y H Hs; simpl in H; [lia|].
  cbn [length seq combine fold_left]. unfold sub_at at 2. cbn [obind fst snd].
  destruct (Nat.ltb_spec s (length y)).
  - apply IH; rewrite upd_length; lia.
  - apply fold_sub_panic.
Qed.

Definition hpr_shape (s : HPR F) : Prop :=
  in_shape (entries_of (h_arows s) (h_acols s) (h_avals s)) (h_nrows s) (h_ncols s) /\
  in_shape (entries_of (h_brows s) (h_bcols s) (h_bvals s)) (h_nrows s) (h_ncols s) /\
  in_shape (entries_of (h_crows s) (h_ccols s) (h_cvals s)) (h_nrows s) (h_ncols s) /\
  (forall i a, In (i, a) (combine (h_drows s) (h_dvals s)) -> (i < h_nrows s)%nat).

Lemma map3_coef (f : F -> F -> F -> F) (a b c : list F) n i :
  length a = n -> length b = n -> length c = n -> (i < n)%nat ->
  coef (map (fun abc => let '(a, b, c) := abc in f a b c) (combine (combine a b) c)) i
  = f (coef a i) (coef b i) (coef c i).
Proof.
  intros Ha Hb Hc Hi. unfold coef.
  set (g := fun abc : F * F * F => let '(a, b, c) := abc in f a b c).
  rewrite nth_indep with (d' := g ((0, 0), 0)) by (rewrite map_length, !combine_length; lia).
  rewrite (map_nth g).
  rewrite combine_nth2 by (rewrite ?combine_length; lia). now rewrite combine_nth2 by lia.
Qed.

Lemma forallb_coef (P : F -> bool) (l : list F) :
  forallb P l = true <-> forall i, (i < length l)%nat -> P (coef l i) = true.
Proof.
  rewrite forallb_forall. split.
  - intros H i Hi. apply H. now apply nth_In.
  - intros H x Hin. apply (In_nth _ _ 0) in Hin. destruct Hin as [i [Hi <-]]. now apply H.
Qed.

Lemma hpr_satisfy_ok {E} s x w1 w2 w3 :
  (0 < h_nrows s)%nat -> (0 < h_ncols s)%nat -> hpr_shape s ->
  length w1 = h_ncols s -> length w2 = h_ncols s -> length w3 = h_ncols s ->
  (length x <= h_nrows s)%nat ->
  exists b, hpr_satisfy (E:=E) s x w1 w2 w3 = Ok b /\
   (b = true <->
    hpr_holds (entries_of (h_arows s) (h_acols s) (h_avals s))
              (entries_of (h_brows s) (h_bcols s) (h_bvals s))
              (entries_of (h_crows s) (h_ccols s) (h_cvals s))
              (sparse_at (h_drows s) (h_dvals s)) (h_nrows s) (h_ncols s) x w1 w2 w3).
Proof.
  intros Hr Hk [SA [SB [SC SD]]] L1 L2 L3 Lx. unfold hpr_satisfy.
  pose proof (forallb3 (fun a b c => feqb (a * b) c) w1 w2 w3 _ L1 L2 L3) as Hhad.
  destruct (forallb _ (combine (combine w1 w2) w3)) eqn:Eh.
  - cbn [negb]. rewrite !sparse_mvp_ok by (auto; lia). cbn [unwrap obind].
    set (y := map _ (combine (combine _ _) _)).
    assert (length y = h_nrows s) as Ly.
    { unfold y. rewrite map_length, !combine_length, !map_length, !seq_length. lia. }
    destruct (fold_add_at (E:=E) (combine (h_drows s) (h_dvals s)) y) as [y' [E1 [E2 E3]]].
    { rewrite Ly. auto. }
    rewrite E1. cbn [obind].
    destruct (fold_sub_at (E:=E) x 0 y') as [y'' [E4 [E5 E6]]]; [lia|].
    rewrite E4. cbn [obind]. eexists. split; [reflexivity|].
    rewrite forallb_coef. rewrite E5, E2, Ly. unfold hpr_holds.
    assert (forall r, (r < h_nrows s)%nat ->
       coef y'' r = mat_vec (entries_of (h_arows s) (h_acols s) (h_avals s)) (h_ncols s) w1 r
          + mat_vec (entries_of (h_brows s) (h_bcols s) (h_bvals s)) (h_ncols s) w2 r
          + mat_vec (entries_of (h_crows s) (h_ccols s) (h_cvals s)) (h_ncols s) w3 r
          + sparse_at (h_drows s) (h_dvals s) r - coef x r) as Ey.
    { intros r Hlt. rewrite E6, E3 by lia. cbn [Nat.leb]. rewrite Nat.sub_0_r.
      unfold y. rewrite (map3_coef (fun a b c => a + b + c)) with (n := h_nrows s)
        by (rewrite ?map_seq_length; auto).
      rewrite !map_seq_coef by auto. reflexivity. }
    split.
    + intros H. split.
      * intros i Hi. apply feqb_eq. apply (proj1 Hhad eq_refl). auto.
      * intros r Hlt. specialize (H r Hlt). destruct (is_zero_spec (coef y'' r)) as [Hz|]; [|discriminate].
        rewrite Ey in Hz by auto. now apply fsub_0_eq.
    + intros [_ H] r Hlt. specialize (H r Hlt).
      destruct (is_zero_spec (coef y'' r)) as [|Hz]; auto. exfalso. apply Hz. rewrite Ey by auto.
      rewrite H. ring.
  - cbn [negb]. exists false. split; auto. split; [discriminate|]. intros [H _].
    apply Hhad. intros i Hi. apply feqb_eq. auto.
Qed.

(** *** random HPR instances *)
Lemma entries_of_In rows cols (vals : list F) r c x :
  In (r, c, x) (entries_of rows cols vals) -> In r rows /\ In c cols.
Proof.
  intros H. apply in_combine_l in H. split; [eapply in_combine_l|eapply in_combine_r]; eassumption.
Qed.
Lemma shape_mods (f g : nat -> nat) h k d (vals : list F) : (0 < h)%nat -> (0 < k)%nat ->
  in_shape (entries_of (map (fun i => (f i mod h)%nat) (seq 0 d)) (map (fun i => (g i mod k)%nat) (seq 0 d)) vals) h k.
Proof.
  intros Hh Hk r c x Hin. apply entries_of_In in Hin. destruct Hin as [H1 H2].
  apply in_map_iff in H1, H2. destruct H1 as [i [<- _]], H2 as [j [<- _]].
  split; apply Nat.mod_upper_bound; lia.
Qed.

Lemma sparse_at_filter (dv : list F) s r :
  sparse_at (map fst (filter (fun ia => negb (is_zero (snd ia))) (combine (seq s (length dv)) dv)))
            (map snd (filter (fun ia => negb (is_zero (snd ia))) (combine (seq s (length dv)) dv))) r
  = if (s <=? r)%nat then coef dv (r - s) else 0.
Proof.
  unfold sparse_at. revert s; induction dv as [|a dv IH]; intros s.
  - simpl. unfold coef. destruct (s <=? r)%nat; auto. now destruct (r - s)%nat.
  - cbn [length seq combine filter].
    assert (coef (a :: dv) (r - s) = if (r =? s)%nat then a else if (s <=? r)%nat then coef dv (r - S s) else a) as Hc.
    { destruct (Nat.eqb_spec r s) as [->|]; [now rewrite Nat.sub_diag|].
      destruct (Nat.leb_spec s r).
      - replace (r - s)%nat with (S (r - S s)) by lia. reflexivity.
      - replace (r - s)%nat with 0%nat by lia. reflexivity. }
    rewrite Hc. cbn [snd].
    destruct (is_zero_spec a) as [->|Ha]; cbn [negb].
    + rewrite IH. destruct (Nat.leb_spec (S s) r), (Nat.leb_spec s r), (Nat.eqb_spec r s); try lia; auto.
    + cbn [map combine fst snd fsum]. rewrite IH. rewrite (Nat.eqb_sym s r).
      destruct (Nat.leb_spec (S s) r), (Nat.leb_spec s r), (Nat.eqb_spec r s); try lia; ring.
Qed.

Lemma generate_random_hpr_ok {E} nrows ncols input_size d :
  (0 < nrows)%nat -> (0 < ncols)%nat ->
  exists s x w1 w2 w3,
    generate_random_hpr (E:=E) nrows ncols input_size d = Ok (s, x, (w1, w2, w3)) /\
    length x = input_size /\
    ((input_size <= nrows)%nat -> hpr_satisfy (E:=E) s x w1 w2 w3 = Ok true) /\
    ((nrows < input_size)%nat -> hpr_satisfy (E:=E) s x w1 w2 w3 = Panic) /\
    h_nrows s = nrows /\ h_ncols s = ncols /\ h_input_size s = input_size /\
    length w1 = ncols /\ length w2 = ncols /\ length w3 = ncols.
Proof.
  intros Hr Hk. unfold generate_random_hpr.
  destruct (Nat.eqb_spec nrows 0); [lia|]. destruct (Nat.eqb_spec ncols 0); [lia|]. cbn [orb].
  set (den := ((nrows + ncols) * 2)%nat).
  set (arows := map (fun i => (dr_ar d i mod nrows)%nat) (seq 0 den)).
  set (brows := map (fun i => (dr_br d i mod nrows)%nat) (seq 0 den)).
  set (crows := map (fun i => (dr_cr d i mod nrows)%nat) (seq 0 den)).
  set (acols := map (fun i => (dr_ac d i mod ncols)%nat) (seq 0 den)).
  set (bcols := map (fun i => (dr_bc d i mod ncols)%nat) (seq 0 den)).
  set (ccols := map (fun i => (dr_cc d i mod ncols)%nat) (seq 0 den)).
  set (avals := map (dr_av d) (seq 0 den)). set (bvals := map (dr_bv d) (seq 0 den)).
  set (cvals := map (dr_cv d) (seq 0 den)). set (x := map (dr_x d) (seq 0 input_size)).
  set (w1 := map (dr_w1 d) (seq 0 ncols)). set (w2 := map (dr_w2 d) (seq 0 ncols)).
  assert (length w1 = ncols) as L1 by apply map_seq_length.
  assert (length w2 = ncols) as L2 by apply map_seq_length.
  assert (length (hadamard_vector w1 w2) = ncols) as L3.
  { unfold hadamard_vector. rewrite map_length, combine_length. lia. }
  assert (in_shape (entries_of arows acols avals) nrows ncols) as SA by (apply shape_mods; auto).
  assert (in_shape (entries_of brows bcols bvals) nrows ncols) as SB by (apply shape_mods; auto).
  assert (in_shape (entries_of crows ccols cvals) nrows ncols) as SC by (apply shape_mods; auto).
  rewrite !sparse_mvp_ok by auto. cbn [unwrap obind].
  set (y1 := map (mat_vec (entries_of arows acols avals) ncols w1) (seq 0 nrows)).
  set (y2 := map (mat_vec (entries_of brows bcols bvals) ncols w2) (seq 0 nrows)).
  set (y3 := map (mat_vec (entries_of crows ccols cvals) ncols (hadamard_vector w1 w2)) (seq 0 nrows)).
  set (yy := combine (combine y1 y2) y3).
  assert (length yy = nrows) as Lyy.
  { unfold yy, y1, y2, y3. rewrite !combine_length, !map_seq_length. lia. }
  set (dv := map _ (combine (seq 0 (length yy)) yy)).
  assert (length dv = nrows) as Ldv.
  { unfold dv. rewrite map_length, combine_length, seq_length. lia. }
  set (nz := filter _ _).
  set (s := mkHPR _ _ _ _ _ _ _ _ _ _ _ _ _ _).
  exists s, x, w1, w2, (hadamard_vector w1 w2).
  assert (hpr_shape s) as Hshape.
  { unfold hpr_shape, s; cbn. repeat split; auto; try (eapply SA; eassumption); try (eapply SB; eassumption); try (eapply SC; eassumption).
    intros i a Hin. apply in_combine_l in Hin. apply in_map_iff in Hin. destruct Hin as [[j b] [<- Hin]].
    unfold nz in Hin. apply filter_In in Hin. destruct Hin as [Hin _]. apply in_combine_l in Hin.
    apply in_seq in Hin. rewrite Ldv in Hin. simpl in *. lia. }
  assert (length x = input_size) as Lx by apply map_seq_length.
  split; [reflexivity|]. split; [exact Lx|]. split; [|split].
  - intros Hin.
    destruct (hpr_satisfy_ok (E:=E) s x w1 w2 (hadamard_vector w1 w2)) as [b [Eb Hb]]; auto.
    { simpl. lia. }
    rewrite Eb. f_equal. apply Hb. split.
    + intros i Hi. unfold hadamard_vector, coef.
      symmetry. cbn in Hi. set (g := fun ab : F * F => fst ab * snd ab).
      rewrite nth_indep with (d' := g (0, 0)) by (rewrite map_length, combine_length; lia).
      rewrite (map_nth g), combine_nth2 by lia. reflexivity.
    + cbn [s h_nrows h_ncols h_drows h_dvals h_arows h_acols h_avals h_brows h_bcols h_bvals h_crows h_ccols h_cvals].
      intros r Hlt. unfold nz. rewrite sparse_at_filter. cbn [Nat.leb]. rewrite Nat.sub_0_r.
      unfold dv, coef at 1.
      set (g := fun iabc : nat * (F * F * F) => let '(i, (a, b0, c)) := iabc in
                 if (i <? length x)%nat then - a - b0 - c + nth i x 0 else - a - b0 - c).
      rewrite nth_indep with (d' := g (0%nat, ((0, 0), 0))) by (rewrite map_length, combine_length, seq_length; lia).
      rewrite (map_nth g), combine_nth2 by (rewrite ?seq_length; lia). rewrite seq_nth by lia.
      unfold yy. rewrite combine_nth2 by (rewrite ?combine_length; unfold y1, y2, y3; rewrite !map_seq_length; lia).
      rewrite combine_nth2 by (unfold y1, y2; rewrite !map_seq_length; lia).
      fold (coef y1 r) (coef y2 r) (coef y3 r). unfold y1, y2, y3. rewrite !map_seq_coef by auto.
      unfold g. rewrite Nat.add_0_l. destruct (Nat.ltb_spec r (length x)).
      * unfold coef. ring.
      * rewrite (coef_over x) by auto. ring.
  - intros Hin. unfold hpr_satisfy. rewrite (proj2 (forallb3 (fun a b c => feqb (a * b) c) w1 w2 (hadamard_vector w1 w2) ncols L1 L2 L3)).
    + cbn [negb s h_nrows h_ncols h_drows h_dvals h_arows h_acols h_avals h_brows h_bcols h_bvals h_crows h_ccols h_cvals].
      rewrite !sparse_mvp_ok by auto. cbn [unwrap obind].
      fold y1 y2 y3. fold yy.
      destruct (fold_add_at (E:=E) (combine (map fst nz) (map snd nz)) (map (fun abc => let '(a, b, c) := abc in a + b + c) yy)) as [y' [E1 [E2 _]]].
      { rewrite map_length, Lyy. destruct Hshape as [_ [_ [_ HD]]]. exact HD. }
      rewrite E1. cbn [obind]. rewrite fold_sub_at_over; [reflexivity| |lia].
      rewrite E2, map_length, Lyy, Lx. simpl. lia.
    + intros i Hi. apply feqb_eq. unfold hadamard_vector, coef.
      symmetry. set (g := fun ab : F * F => fst ab * snd ab).
      rewrite nth_indep with (d' := g (0, 0)) by (rewrite map_length, combine_length; lia).
      rewrite (map_nth g), combine_nth2 by lia. reflexivity.
  - cbn. repeat split; auto.
Qed.
End CP.

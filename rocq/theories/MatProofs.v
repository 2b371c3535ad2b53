(** MatProofs.v: sparse matrices, the power iterator, integer conversions. *)
From Verif Require Import Base Spec Tools ToolsProofs.
From Coq Require Import ZifyBool.
Local Open Scope F_scope.

Section MP.
Context {F : Type} {fo : FieldOps F} {fl : FieldLaws F}.
Add Field Ffield_mp : F_th.

Definition row_sum (m : entries) (v : list F) (r : nat) : F :=
  fsum (map (fun e => let '(r', c, x) := e in if (r' =? r)%nat then coef v c * x else 0) m).

Lemma mat_vec_nil k v r : mat_vec (F:=F) [] k v r = 0.
Proof. apply sumn_0. intros; cbn; ring. Qed.

Lemma mat_at_cons r' c' x m r c :
  mat_at ((r', c', x) :: m) r c = (if (r' =? r)%nat && (c' =? c)%nat then x else 0) + mat_at (F:=F) m r c.
Proof. reflexivity. Qed.
Lemma mat_at_app m1 m2 r c : mat_at (m1 ++ m2) r c = mat_at m1 r c + mat_at (F:=F) m2 r c.
Proof. unfold mat_at. now rewrite map_app, fsum_app. Qed.
Lemma mat_vec_app m1 m2 k v r : mat_vec (m1 ++ m2) k v r = mat_vec m1 k v r + mat_vec (F:=F) m2 k v r.
Proof. unfold mat_vec. rewrite <- sumn_add. apply sumn_ext. intros c _. rewrite mat_at_app. ring. Qed.

Lemma mat_vec_cons r' c' x m k v r : (c' < k)%nat ->
  mat_vec ((r', c', x) :: m) k v r = (if (r' =? r)%nat then coef v c' * x else 0) + mat_vec (F:=F) m k v r.
Proof.
  intros Hc. unfold mat_vec.
  rewrite (sumn_ext k _ (fun c => (if (r' =? r)%nat && (c' =? c)%nat then x else 0) * coef v c + mat_at m r c * coef v c)).
  2:{ intros c _. rewrite mat_at_cons. ring. }
  rewrite sumn_add. f_equal. rewrite (sumn_single k c' _ Hc).
  - rewrite Nat.eqb_refl, andb_true_r. destruct (r' =? r)%nat; ring.
  - intros c _ Hne. destruct (Nat.eqb_spec c' c); [congruence|]. rewrite andb_false_r. ring.
Qed.

Lemma row_sum_mat_vec m h k v r : in_shape m h k -> row_sum m v r = mat_vec m k v r.
Proof.
  induction m as [|[[r' c'] x] m IH]; intros Hs.
  - now rewrite mat_vec_nil.
  - rewrite mat_vec_cons.
    + rewrite <- IH; [reflexivity|]. intros a b y Hin. apply (Hs a b y). now right.
    + apply (Hs r' c' x). now left.
Qed.

Lemma mvp_fold_panic {E} right m : fold_left (mvp_step (E:=E) right) m Panic = Panic.
Proof. induction m as [|e m IH]; auto. Qed.

Lemma mvp_fold_ok {E} right m res :
  in_shape m (length res) (length right) ->
  exists res', fold_left (mvp_step (E:=E) right) m (Ok res) = Ok res' /\ length res' = length res /\
    forall r, (r < length res)%nat -> nth r res' 0 = nth r res 0 + row_sum m right r.
Proof.
  revert res; induction m as [|[[r c] x] m IH]; intros res Hs.
  - exists res. repeat split; auto. intros. cbn. ring.
  - destruct (Hs r c x) as [Hr Hc]; [now left|].
    cbn [fold_left mvp_step obind].
    rewrite (nth_error_nth' _ _ _ 0) by auto. destruct (Nat.ltb_spec r (length res)); [|lia].
    destruct (IH (upd res r (fun y => y + nth c right 0 * x))) as [res' [E1 [E2 E3]]].
    { rewrite upd_length. intros a b y Hin. apply (Hs a b y). now right. }
    exists res'. rewrite upd_length in *. repeat split; auto. intros i Hi. rewrite E3 by auto.
    rewrite nth_upd. unfold row_sum. cbn [map fsum]. unfold coef at 2. rewrite (Nat.eqb_sym r i).
    destruct (Nat.eqb_spec i r); cbn [andb].
    + destruct (Nat.ltb_spec r (length res)); [|lia]. ring.
    + ring.
Qed.

Lemma mvp_fold_inv {E} right m res res' :
  fold_left (mvp_step (E:=E) right) m (Ok res) = Ok res' -> in_shape m (length res) (length right).
Proof.
  revert res; induction m as [|[[r c] x] m IH]; intros res H a b y Hin; [destruct Hin|].
  cbn [fold_left mvp_step obind] in H.
  destruct (nth_error right c) as [z|] eqn:En; [|rewrite mvp_fold_panic in H; discriminate].
  destruct (Nat.ltb_spec r (length res)); [|rewrite mvp_fold_panic in H; discriminate].
  assert (c < length right)%nat by (apply nth_error_Some; congruence).
  destruct Hin as [E1|Hin].
  - injection E1; intros; subst; auto.
  - apply IH in H. specialize (H a b y Hin). now rewrite upd_length in H.
Qed.

Lemma mvp_fold_no_err {E} right m res e :
  fold_left (mvp_step (E:=E) right) m (Ok res) <> Err e.
Proof.
  revert res; induction m as [|[[r c] x] m IH]; intros res; [discriminate|].
  cbn [fold_left mvp_step obind]. destruct (nth_error right c); [|rewrite mvp_fold_panic; discriminate].
  destruct (r <? length res)%nat; [apply IH|rewrite mvp_fold_panic; discriminate].
Qed.

Lemma sparse_mvp_iff {E} h k rows cols vals right res :
  sparse_mvp (E:=E) h k rows cols vals right = Ok res <->
  (0 < h)%Z /\ (0 < k)%Z /\ Z.of_nat (length right) = k /\
  in_shape (entries_of rows cols vals) (Z.to_nat h) (Z.to_nat k) /\
  res = map (mat_vec (entries_of rows cols vals) (Z.to_nat k) right) (seq 0 (Z.to_nat h)).
Proof.
  unfold sparse_mvp. destruct (Z.leb_spec h 0) as [Hh|Hh]; [split; [discriminate|intros [? _]; lia]|].
  destruct (Z.leb_spec k 0) as [Hk|Hk]; [split; [discriminate|intros [_ [? _]]; lia]|].
  destruct (Z.eqb_spec (Z.of_nat (length right)) k) as [El|El]; cbn [negb];
    [|split; [discriminate|intros [_ [_ [? _]]]; lia]].
  assert (Z.to_nat k = length right) as Ek by lia.
  fold (entries_of rows cols vals).
  split.
  - intros H. pose proof (mvp_fold_inv _ _ _ _ H) as Hs. rewrite repeat_length in Hs.
    split; [lia|]. split; [lia|]. split; [auto|]. split; [now rewrite Ek|].
    destruct (mvp_fold_ok (E:=E) right (entries_of rows cols vals) (repeat 0 (Z.to_nat h))) as [res' [E1 [E2 E3]]].
      { rewrite repeat_length. auto. }
      rewrite H in E1. injection E1 as ->. rewrite repeat_length in *.
      apply list_eq_nth with (d := 0); [now rewrite map_length, seq_length|].
      intros i Hi. rewrite E2 in Hi. rewrite E3, nth_map_seq by auto.
      rewrite nth_repeat_any. rewrite (row_sum_mat_vec _ (Z.to_nat h) (length right)) by auto.
      rewrite Ek. simpl. ring.
  - intros [_ [_ [_ [Hs ->]]]]. rewrite Ek in *.
    destruct (mvp_fold_ok (E:=E) right (entries_of rows cols vals) (repeat 0 (Z.to_nat h))) as [res' [E1 [E2 E3]]].
    { rewrite repeat_length. auto. }
    rewrite E1. f_equal. rewrite repeat_length in *.
    apply list_eq_nth with (d := 0); [now rewrite map_length, seq_length|].
    intros i Hi. rewrite E2 in Hi. rewrite E3, nth_map_seq by auto.
    rewrite nth_repeat_any. rewrite (row_sum_mat_vec _ (Z.to_nat h) (length right)) by auto.
    simpl. ring.
Qed.

Lemma sparse_mvp_no_err {E} h k rows cols vals right e :
  sparse_mvp (E:=E) h k rows cols vals right <> Err e.
Proof.
  unfold sparse_mvp. destruct (h <=? 0)%Z; [discriminate|]. destruct (k <=? 0)%Z; [discriminate|].
  destruct (negb _); [discriminate|]. apply mvp_fold_no_err.
Qed.

Lemma entries_of_transpose rows cols vals :
  entries_of (F:=F) cols rows vals = transpose (entries_of rows cols vals).
Proof.
  unfold entries_of, transpose. revert cols vals; induction rows as [|r rows IH]; intros [|c cols] [|x vals]; simpl; auto.
  f_equal. apply IH.
Qed.
Lemma mat_at_transpose m r c : mat_at (transpose m) r c = mat_at (F:=F) m c r.
Proof.
  unfold mat_at, transpose. rewrite map_map. f_equal. apply map_ext. intros [[a b] x]. now rewrite andb_comm.
Qed.

(** u . (M v) = (M^T u) . v *)
Lemma mat_vec_adjoint (m : entries) h k (u v : list F) :
  sumn h (fun r => coef u r * mat_vec m k v r) = sumn k (fun c => coef v c * mat_vec (transpose m) h u c).
Proof.
  unfold mat_vec.
  rewrite (sumn_ext h _ (fun r => sumn k (fun c => coef u r * (mat_at m r c * coef v c)))).
  2:{ intros. now rewrite sumn_mul_l. }
  rewrite sumn_swap. apply sumn_ext. intros c _. rewrite <- sumn_mul_l. apply sumn_ext. intros r _.
  rewrite mat_at_transpose. ring.
Qed.

(** *** stacking *)
Lemma entries_of_app rows1 rows2 cols1 cols2 (vals1 vals2 : list F) :
  length rows1 = length vals1 -> length cols1 = length vals1 ->
  entries_of (rows1 ++ rows2) (cols1 ++ cols2) (vals1 ++ vals2)
  = entries_of rows1 cols1 vals1 ++ entries_of rows2 cols2 vals2.
Proof.
  unfold entries_of. revert cols1 vals1; induction rows1 as [|r rows1 IH]; intros [|c cols1] [|x vals1] H1 H2;
    simpl in *; try discriminate; auto. f_equal. apply IH; lia.
Qed.
Lemma entries_of_map_rows f rows cols (vals : list F) :
  entries_of (map f rows) cols vals = map (fun e => let '(r, c, x) := e in (f r, c, x)) (entries_of rows cols vals).
Proof.
  unfold entries_of. revert cols vals; induction rows as [|r rows IH]; intros [|c cols] [|x vals]; simpl; auto.
  f_equal. apply IH.
Qed.
Lemma entries_of_map_cols f rows cols (vals : list F) :
  entries_of rows (map f cols) vals = map (fun e => let '(r, c, x) := e in (r, f c, x)) (entries_of rows cols vals).
Proof.
  unfold entries_of. revert cols vals; induction rows as [|r rows IH]; intros [|c cols] [|x vals]; simpl; auto.
  f_equal. apply IH.
Qed.
Lemma mat_at_shift_rows s (m : entries (F:=F)) r c :
  mat_at (map (fun e => let '(r, c, x) := e in ((r + s)%nat, c, x)) m) r c
  = if (r <? s)%nat then 0 else mat_at m (r - s) c.
Proof.
  induction m as [|[[a b] x] m IH]; cbn [map].
  - unfold mat_at. simpl. now destruct (r <? s)%nat.
  - rewrite !mat_at_cons, IH. destruct (Nat.ltb_spec r s).
    + destruct (Nat.eqb_spec (a + s) r); [lia|]. cbn [andb]. ring.
    + destruct (Nat.eqb_spec (a + s) r); destruct (Nat.eqb_spec a (r - s)); try lia; reflexivity.
Qed.
Lemma mat_at_shift_cols s (m : entries (F:=F)) r c :
  mat_at (map (fun e => let '(r, c, x) := e in (r, (c + s)%nat, x)) m) r c
  = if (c <? s)%nat then 0 else mat_at m r (c - s).
Proof.
  induction m as [|[[a b] x] m IH]; cbn [map].
  - unfold mat_at. simpl. now destruct (c <? s)%nat.
  - rewrite !mat_at_cons, IH. destruct (Nat.ltb_spec c s).
    + destruct (Nat.eqb_spec (b + s) c); [lia|]. rewrite andb_false_r. ring.
    + destruct (Nat.eqb_spec (b + s) c); destruct (Nat.eqb_spec b (c - s)); try lia; reflexivity.
Qed.
Lemma mat_at_out (m : entries (F:=F)) h k r c : in_shape m h k -> (h <= r \/ k <= c)%nat -> mat_at m r c = 0.
Proof.
  induction m as [|[[a b] x] m IH]; intros Hs Hrc; auto.
  rewrite mat_at_cons, IH; auto.
  - destruct (Hs a b x) as [Ha Hb]; [now left|].
    destruct (Nat.eqb_spec a r); destruct (Nat.eqb_spec b c); cbn [andb]; try ring. lia.
  - intros a' b' y Hin. apply (Hs a' b' y). now right.
Qed.

Lemma vertical_at h k arows brows crows acols bcols ccols avals bvals cvals r c :
  length arows = length avals -> length acols = length avals ->
  length brows = length bvals -> length bcols = length bvals ->
  length crows = length cvals -> length ccols = length cvals ->
  in_shape (entries_of arows acols avals) h k ->
  in_shape (entries_of brows bcols bvals) h k ->
  in_shape (entries_of crows ccols cvals) h k ->
  let '(rows, cols, vals) :=
    concat_matrix_vertically h arows brows crows acols bcols ccols avals bvals cvals in
  mat_at (entries_of rows cols vals) r c =
    if (r <? h)%nat then mat_at (entries_of arows acols avals) r c
    else if (r <? 2 * h)%nat then mat_at (entries_of brows bcols bvals) (r - h) c
    else mat_at (F:=F) (entries_of crows ccols cvals) (r - 2 * h) c.
Proof.
  intros A1 A2 B1 B2 C1 C2 SA SB SC. unfold concat_matrix_vertically.
  rewrite !entries_of_app by (rewrite ?map_length; auto).
  rewrite !entries_of_map_rows, !mat_at_app, !mat_at_shift_rows.
  replace (h * 2)%nat with (2 * h)%nat by lia.
  destruct (Nat.ltb_spec r h); destruct (Nat.ltb_spec r (2 * h)); try lia.
  - ring.
  - rewrite (mat_at_out _ h k) by (auto; lia). ring.
  - rewrite (mat_at_out (entries_of arows acols avals) h k), (mat_at_out (entries_of brows bcols bvals) h k) by (auto; lia). ring.
Qed.

Lemma horizontal_at h k arows brows crows acols bcols ccols avals bvals cvals drows dvals r c :
  length arows = length avals -> length acols = length avals ->
  length brows = length bvals -> length bcols = length bvals ->
  length crows = length cvals -> length ccols = length cvals ->
  length drows = length dvals ->
  in_shape (entries_of arows acols avals) h k ->
  in_shape (entries_of brows bcols bvals) h k ->
  in_shape (entries_of crows ccols cvals) h k ->
  let '(rows, cols, vals) :=
    concat_matrix_horizontally k arows brows crows acols bcols ccols avals bvals cvals drows dvals in
  mat_at (entries_of rows cols vals) r c =
    if (c <? 1)%nat then mat_at (entries_of drows (map (fun _ => 0%nat) drows) dvals) r 0
    else if (c <? 1 + k)%nat then mat_at (entries_of arows acols avals) r (c - 1)
    else if (c <? 1 + 2 * k)%nat then mat_at (entries_of brows bcols bvals) r (c - 1 - k)
    else mat_at (F:=F) (entries_of crows ccols cvals) r (c - 1 - 2 * k).
Proof.
  intros A1 A2 B1 B2 C1 C2 D1 SA SB SC. unfold concat_matrix_horizontally.
  set (D := mat_at (entries_of drows (map (fun _ => 0%nat) drows) dvals) r 0).
  rewrite (map_ext (fun i => (i + k + 1)%nat) (fun i => (i + (k + 1))%nat)) by (intros; lia).
  rewrite (map_ext (fun i => (i + k * 2 + 1)%nat) (fun i => (i + (2 * k + 1))%nat)) by (intros; lia).
  rewrite !entries_of_app by (rewrite ?map_length, ?seq_length; auto).
  rewrite !entries_of_map_cols, !mat_at_app, !mat_at_shift_cols.
  assert (forall c', mat_at (map (fun e => let '(r, _, x) := e in (r, 0%nat, x)) (entries_of drows (seq 0 (length dvals)) dvals)) r c'
            = if (c' =? 0)%nat then D else 0) as HD.
  { intros c'. unfold D. rewrite <- (entries_of_map_cols (fun _ => 0%nat)).
    assert (map (fun _ : nat => 0%nat) (seq 0 (length dvals)) = map (fun _ => 0%nat) drows) as ->.
    { rewrite <- D1. clear. generalize 0%nat at 2 as s. induction drows as [|d ds IH]; intros s; simpl; auto. f_equal. apply IH. }
    destruct (Nat.eqb_spec c' 0) as [->|Hc]; auto.
    clear -Hc fl. revert dvals; induction drows as [|d ds IH]; intros [|y dvals]; cbn; auto.
    unfold mat_at, entries_of in IH. rewrite IH. destruct c'; [congruence|]. rewrite andb_false_r. ring. }
  rewrite HD.
  destruct (Nat.ltb_spec c 1).
  - assert (c = 0)%nat as -> by lia. destruct (Nat.ltb_spec 0 (k + 1)); [|lia].
    destruct (Nat.ltb_spec 0 (2 * k + 1)); [|lia]. cbn [Nat.eqb]. ring.
  - destruct (Nat.eqb_spec c 0); [lia|].
    destruct (Nat.ltb_spec c (1 + k)).
    + destruct (Nat.ltb_spec c (k + 1)); [|lia]. destruct (Nat.ltb_spec c (2 * k + 1)); [|lia]. ring.
    + destruct (Nat.ltb_spec c (k + 1)); [lia|].
      rewrite (mat_at_out (entries_of arows acols avals) h k) by (auto; lia).
      destruct (Nat.ltb_spec c (1 + 2 * k)).
      * destruct (Nat.ltb_spec c (2 * k + 1)); [|lia]. replace (c - (k + 1))%nat with (c - 1 - k)%nat by lia. ring.
      * destruct (Nat.ltb_spec c (2 * k + 1)); [lia|].
        rewrite (mat_at_out (entries_of brows bcols bvals) h k) by (auto; lia).
        replace (c - (2 * k + 1))%nat with (c - 1 - 2 * k)%nat by lia. ring.
Qed.

(** *** power iterator *)
Lemma pi_collect_S (s : power_iterator (F:=F)) k :
  pi_collect (S k) s = match pi_next s with
           | (None, _) => Some []
           | (Some x, s') => match pi_collect k s' with Some l => Some (x :: l) | None => None end
           end.
Proof. reflexivity. Qed.
Lemma pi_collect_spec alpha start end_ len sh : alpha <> 0 ->
  forall n i c, (start <= i)%nat -> (i <= end_)%nat -> n = (end_ - i)%nat -> (start < end_)%nat ->
  match c with
  | None => (i <= sh)%nat \/ i = start \/ (len + sh <= i)%nat
  | Some x => (sh <= i)%nat /\ x = fpow alpha (i - sh)
  end ->
  pi_collect (S n) (mkPI start end_ alpha len sh i c)
  = Some (map (fun j => if (sh <=? j)%nat && (j <? sh + len)%nat then fpow alpha (j - sh) else 0) (seq i n)).
Proof.
  intros Ha. induction n as [|n IH]; intros i c Hi He Hn Hse Hc.
  - cbn [pi_collect]. unfold pi_next. cbn.
    destruct (Nat.leb_spec end_ start); [lia|]. destruct (Nat.leb_spec end_ i); [|lia]. reflexivity.
  - rewrite pi_collect_S. cbn [seq map]. unfold pi_next.
    cbn [pi_end pi_start pi_i pi_shifted pi_length pi_curr pi_alpha].
    destruct (Nat.leb_spec end_ start); [lia|]. destruct (Nat.leb_spec end_ i); [lia|]. cbn [orb].
    destruct (Nat.ltb_spec i sh) as [H1|H1]; cbn [orb].
    + destruct (Nat.leb_spec sh i); [lia|]. cbn [andb].
      destruct c as [x|]; [lia|]. rewrite IH; auto; lia.
    + destruct (Nat.leb_spec sh i); [|lia]. cbn [andb].
      destruct (Nat.leb_spec (len + sh) i) as [HH2|HH2].
      * destruct (Nat.ltb_spec i (sh + len)); [lia|].
        rewrite IH; auto; try lia. destruct c as [x|]; [|lia].
        destruct Hc as [_ ->]. split; [lia|]. replace (S i - sh)%nat with (S (i - sh)) by lia. simpl. ring.
      * destruct (Nat.ltb_spec i (sh + len)); [|lia].
        destruct c as [x|].
        -- destruct Hc as [_ ->]. rewrite IH; auto; try lia. split; [lia|].
           replace (S i - sh)%nat with (S (i - sh)) by lia. simpl. ring.
        -- rewrite power_nat by auto. rewrite IH; auto; try lia. split; [lia|].
           replace (S i - sh)%nat with (S (i - sh)) by lia. simpl. ring.
Qed.
End MP.

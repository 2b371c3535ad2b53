(** PCompressProofs.v: with the precomputed constants, the optimised form of the permutation is the permutation. *)
From Verif Require Import Base Spec Tools ToolsProofs KZG SnarkProofs PoseidonSpec PMatrix PMatrixSpec PMatrixProofs PMatrixMds PSparse PCompress POptSpec.
Local Open Scope F_scope.

Section Lists.
Context {A : Type}.
Lemma concat_nth (w : nat) (ls : list (list A)) d : (forall l, In l ls -> length l = w) -> forall r i, (i < w)%nat -> (r < length ls)%nat ->
  nth (r * w + i) (concat ls) d = nth i (nth r ls []) d.
Proof.
  induction ls as [|l ls IH]; intros H r i Hi Hr; cbn [length] in Hr; [lia|]. cbn [concat].
  pose proof (H l (or_introl eq_refl)) as L. destruct r as [|r]; cbn [nth].
  - rewrite Nat.mul_0_l, Nat.add_0_l, app_nth1 by lia. reflexivity.
  - rewrite app_nth2 by lia. replace (S r * w + i - length l)%nat with (r * w + i)%nat by lia. apply IH; [|exact Hi|lia]. intros; apply H; now right.
Qed.
Lemma concat_length (w : nat) (ls : list (list A)) : (forall l, In l ls -> length l = w) -> length (concat ls) = (length ls * w)%nat.
Proof.
  induction ls as [|l ls IH]; intros H; cbn [concat length]; [reflexivity|]. rewrite app_length, IH by (intros; apply H; now right).
  rewrite (H l) by now left. lia.
Qed.
Lemma nth_skip (l : list A) : forall m i d, nth i (skipn m l) d = nth (m + i) l d.
Proof. induction l as [|a l IH]; intros [|m] i d; cbn; try reflexivity; [destruct i; reflexivity|]. apply IH. Qed.
Lemma f2_length {B} (R : A -> B -> Prop) l l' : Forall2 R l l' -> length l = length l'.
Proof. induction 1; cbn; congruence. Qed.
End Lists.

Section C.
Context {F : Type} {fo : FieldOps F} {fl : FieldLaws F} {po : PrimeFieldOps F} {pl : PrimeFieldLaws F}.
Add Field Fpcp : F_th.
Implicit Types s : nat -> F.
Variables (n half partial : nat) (rc : list F) (mi : list (list F)).
Notation W := (S n).
Hypothesis SI : shape W W mi.
Hypothesis H1 : (1 <= half)%nat.
Hypothesis LR : ((2 * half + partial) * W <= length rc)%nat.
Notation key := (round_key W rc).
Definition inv_ (k : nat -> F) : nat -> F := mix W (at_ mi) k.
Definition final : nat := (half + partial)%nat.
(** the keys of the partial rounds, taken back to the round [final - t] *)
Fixpoint back (t : nat) : nat -> F :=
  match t with O => key final | S t' => fun i => key (final - t) i + (if (i =? 0)%nat then 0 else inv_ (back t') i) end.
Definition list_of (g : nat -> F) : list F := map g (seq 0 W).
Lemma list_of_nth g i : (i < W)%nat -> nth i (list_of g) 0 = g i.
Proof. intros H. unfold list_of. rewrite (nth_map_seq _ g 0 W i 0) by exact H. reflexivity. Qed.
Lemma list_of_length g : length (list_of g) = W. Proof. unfold list_of. now rewrite map_length, seq_length. Qed.
Lemma list_of_same g g' : same W g g' -> list_of g = list_of g'.
Proof. intros H. apply map_ext_in. intros i Hi. apply in_seq in Hi. apply H. lia. Qed.
Lemma list_of_eq l g : length l = W -> (forall i, (i < W)%nat -> nth i l 0 = g i) -> l = list_of g.
Proof.
  intros L H. apply (list_eq_nth _ _ _ 0); [now rewrite list_of_length|]. intros i Hi. rewrite list_of_nth by lia. apply H. lia.
Qed.
Lemma keys_ok r : (r < 2 * half + partial)%nat -> round_keys W rc r = Ok (list_of (key r)).
Proof.
  intros Hr. unfold round_keys. assert ((r + 1) * W <= length rc)%nat as B by (apply (Nat.le_trans _ ((2 * half + partial) * W)); [apply Nat.mul_le_mono_r; lia|exact LR]).
  destruct (Nat.leb_spec ((r + 1) * W) (length rc)) as [_|]; [|lia]. cbn [assert_ obind]. f_equal. apply list_of_eq.
  - rewrite firstn_length, skipn_length. lia.
  - intros i Hi. rewrite nth_firstn_lt, nth_skip by exact Hi. reflexivity.
Qed.
Lemma inv_ok g : right_apply mi (list_of g) = Ok (list_of (inv_ g)).
Proof.
  rewrite (right_ok W mi (list_of g) SI (list_of_length g)). unfold list_of at 2. f_equal. apply map_ext_in. intros j Hj.
  unfold inv_, mix. apply sumn_ext. intros i Hi. now rewrite list_of_nth.
Qed.
Lemma push_ok t : forall k pushed, (t + k <= partial)%nat ->
  push_back W rc mi (final - k) t (list_of (back k)) pushed
  = Ok (list_of (back (k + t)), map (fun j => inv_ (back (k + t - 1 - j)) 0) (seq 0 t) ++ pushed).
Proof.
  induction t as [|t IH]; intros k pushed Hk; cbn [push_back].
  - cbn [seq map app]. now rewrite Nat.add_0_r.
  - rewrite keys_ok by (unfold final; lia). cbn [obind]. rewrite inv_ok. cbn [obind]. rewrite (get_ok _ 0 0) by (rewrite list_of_length; lia). cbn [obind].
    rewrite list_of_nth by lia.
    replace (vec_add _ _) with (list_of (back (S k))).
    2:{ symmetry. apply list_of_eq.
        - unfold vec_add. rewrite zip_with_length; [apply list_of_length|]. rewrite upd_length, !list_of_length. reflexivity.
        - intros i Hi. unfold vec_add. rewrite nth_zip_with by (rewrite ?upd_length, ?list_of_length; lia). rewrite list_of_nth by exact Hi.
          cbn [back]. replace (final - k - 1)%nat with (final - S k)%nat by lia. f_equal. destruct (Nat.eqb_spec i 0) as [->|NE].
          + rewrite nth_upd_same by (rewrite list_of_length; lia). reflexivity.
          + rewrite nth_upd_diff by exact NE. now apply list_of_nth. }
    replace (final - k - 1)%nat with (final - S k)%nat by lia. rewrite IH by lia. f_equal. f_equal; [do 2 f_equal; lia|].
    rewrite seq_S, map_app, <- app_assoc. cbn [map app Nat.add]. f_equal.
    + apply map_ext. intros j. do 2 f_equal. lia.
    + do 3 f_equal. lia.
Qed.

(** the compressed constants *)
Definition compressed (c : list F) : Prop :=
  length c = (2 * half * W + partial)%nat /\
  (forall i, (i < W)%nat -> nth i c 0 = key 0 i) /\
  (forall r i, (r < half - 1)%nat -> (i < W)%nat -> nth ((r + 1) * W + i) c 0 = inv_ (key (r + 1)) i) /\
  (forall i, (i < W)%nat -> nth (half * W + i) c 0 = inv_ (back partial) i) /\
  (forall j, (j < partial)%nat -> nth ((half + 1) * W + j) c 0 = inv_ (back (partial - 1 - j)) 0) /\
  (forall r i, (r < half - 1)%nat -> (i < W)%nat -> nth ((half + 1) * W + partial + r * W + i) c 0 = inv_ (key (final + 1 + r)) i).
Lemma compress_ok full d : (full / 2 = half)%nat -> m_inv d = mi ->
  exists c, compress_round_constants W full partial rc d = Ok c /\ compressed c.
Proof.
  intros Hf Hd. unfold compress_round_constants. rewrite Hf, Hd. rewrite keys_ok by lia. cbn [obind].
  destruct (Nat.leb_spec 1 half) as [_|]; [|lia]. cbn [assert_ obind].
  rewrite (collect_ok _ (fun i => list_of (inv_ (key (i + 1))))).
  2:{ intros i Hi. apply in_seq in Hi. rewrite keys_ok by lia. cbn [obind]. apply inv_ok. }
  cbn [obind]. fold final. rewrite keys_ok by (unfold final; lia). cbn [obind].
  pose proof (push_ok partial 0 [] ltac:(lia)) as P. rewrite Nat.sub_0_r in P. cbn [Nat.add back] in P. rewrite P. clear P. cbn [obind].
  rewrite inv_ok. cbn [obind].
  rewrite (collect_ok _ (fun i => list_of (inv_ (key (i + final))))).
  2:{ intros i Hi. apply in_seq in Hi. rewrite keys_ok by (unfold final; lia). cbn [obind]. apply inv_ok. }
  cbn [obind]. rewrite app_nil_r. eexists. split; [reflexivity|].
  set (k0 := list_of (key 0)). set (A := concat _). set (B := list_of (inv_ (back partial))). set (P := map _ (seq 0 partial)). set (C := concat _).
  assert (forall (g : nat -> nat -> F) (a m : nat) l, In l (map (fun i => list_of (g i)) (seq a m)) -> length l = W) as LL.
  { intros g a m l I. apply in_map_iff in I. destruct I as (i & <- & _). apply list_of_length. }
  assert (length k0 = W) as L0 by apply list_of_length.
  assert (length A = ((half - 1) * W)%nat) as LA.
  { unfold A. rewrite (concat_length W); [now rewrite map_length, seq_length|]. apply (LL (fun i => inv_ (key (i + 1)))). }
  assert (length B = W) as LB by apply list_of_length.
  assert (length P = partial) as LP by (unfold P; now rewrite map_length, seq_length).
  assert (length C = ((half - 1) * W)%nat) as LC.
  { unfold C. rewrite (concat_length W); [now rewrite map_length, seq_length|]. apply (LL (fun i => inv_ (key (i + final)))). }
  assert (half * W = (half - 1) * W + W)%nat as EH by (replace half with (S (half - 1)) at 1 by lia; lia).
  unfold compressed. split; [|split; [|split; [|split; [|split]]]].
  - rewrite !app_length. lia.
  - intros i Hi. rewrite app_nth1 by lia. now apply list_of_nth.
  - intros r i Hr Hi. assert (r * W + W <= (half - 1) * W)%nat as Br by (replace (r * W + W)%nat with ((r + 1) * W)%nat by lia; apply Nat.mul_le_mono_r; lia).
    rewrite app_nth2 by lia. rewrite app_nth1 by lia. replace ((r + 1) * W + i - length k0)%nat with (r * W + i)%nat by lia.
    unfold A. rewrite (concat_nth W) by (try apply (LL (fun i => inv_ (key (i + 1)))); rewrite ?map_length, ?seq_length; lia).
    rewrite (nth_map_seq _ (fun i => list_of (inv_ (key (i + 1)))) 0 (half - 1) r []) by exact Hr. now apply list_of_nth.
  - intros i Hi. rewrite app_nth2 by lia. rewrite app_nth2 by lia. rewrite app_nth1 by lia.
    replace (half * W + i - length k0 - length A)%nat with i by lia. now apply list_of_nth.
  - intros j Hj. rewrite app_nth2 by lia. rewrite app_nth2 by lia. rewrite app_nth2 by lia. rewrite app_nth1 by lia.
    replace ((half + 1) * W + j - length k0 - length A - length B)%nat with j by lia. unfold P.
    rewrite (nth_map_seq _ _ 0 partial j 0) by exact Hj. reflexivity.
  - intros r i Hr Hi. assert (r * W + W <= (half - 1) * W)%nat as Br by (replace (r * W + W)%nat with ((r + 1) * W)%nat by lia; apply Nat.mul_le_mono_r; lia).
    rewrite app_nth2 by lia. rewrite app_nth2 by lia. rewrite app_nth2 by lia. rewrite app_nth2 by lia.
    replace (_ - length k0 - length A - length B - length P)%nat with (r * W + i)%nat by lia.
    unfold C. rewrite (concat_nth W) by (try apply (LL (fun i => inv_ (key (i + final)))); rewrite ?map_length, ?seq_length; lia).
    rewrite (nth_map_seq _ (fun i => list_of (inv_ (key (i + final)))) 1 (half - 1) r []) by exact Hr. rewrite list_of_nth by exact Hi.
    do 2 f_equal. lia.
Qed.

(** ** The permutation *)
Variables (M : list (list F)) (pre : list (list F)) (sp : list (@sparse F)) (c : list F).
Hypothesis MI : product_is_identity W mi M.
Hypothesis CC : compressed c.
Notation st := (after W half partial (at_ M) key).
Lemma inv_mix k j : (j < W)%nat -> mix W (at_ M) (inv_ k) j = k j.
Proof.
  intros Hj. unfold mix, inv_, mix.
  transitivity (sumn W (fun i => sumn W (fun l => k l * at_ mi l i * at_ M i j))); [apply sumn_ext; intros i _; now rewrite <- sumn_mul_r|].
  rewrite sumn_swap. transitivity (sumn W (fun l => delta j l * k l)); [|now apply dot_delta].
  apply sumn_ext. intros l Hl. transitivity (k l * sumn W (fun i => at_ mi l i * at_ M i j)).
  - rewrite <- sumn_mul_l. apply sumn_ext. intros i _. ring.
  - rewrite MI by assumption. unfold delta. destruct (Nat.eq_dec l j), (Nat.eq_dec j l); try lia; ring.
Qed.
Lemma mix_add y k j : mix W (at_ M) (fun i => y i + k i) j = mix W (at_ M) y j + mix W (at_ M) k j.
Proof. unfold mix. rewrite <- sumn_add. apply sumn_ext. intros i _. ring. Qed.
Lemma mix_key y k j : (j < W)%nat -> mix W (at_ M) (fun i => y i + inv_ k i) j = mix W (at_ M) y j + k j.
Proof. intros Hj. rewrite mix_add, inv_mix by exact Hj. reflexivity. Qed.

(** full rounds in the new form *)
Lemma full_rounds (k0 r0 m : nat) s s0 : (forall r i, (r < m)%nat -> (i < W)%nat -> nth (k0 + r * W + i) c 0 = inv_ (key (r0 + 1 + r)) i) ->
  (forall r, (r < m)%nat -> is_full half partial (r0 + r) = true) ->
  same W s0 (fun i => st r0 s i + key r0 i) ->
  same W (steps m (fun r => full_step W (fun k => nth k c 0) (at_ M) (k0 + r * W)) s0) (fun i => st (r0 + m) s i + key (r0 + m) i).
Proof.
  induction m as [|m IH]; intros HK HF HS; cbn [steps].
  - rewrite Nat.add_0_r. exact HS.
  - intros j Hj. unfold full_step.
    assert (same W (steps m (fun r => full_step W (fun k => nth k c 0) (at_ M) (k0 + r * W)) s0) (fun i => st (r0 + m) s i + key (r0 + m) i)) as I
      by (apply IH; [intros; apply HK; lia|intros; apply HF; lia|exact HS]).
    rewrite (mix_same W (at_ M) _ (fun i => fifth (st (r0 + m) s i + key (r0 + m) i) + inv_ (key (r0 + 1 + m)) i)).
    2:{ intros i Hi. rewrite (HK m i) by lia. f_equal. f_equal. exact (I i Hi). }
    rewrite mix_key by exact Hj. replace (r0 + S m)%nat with (S (r0 + m)) by lia. replace (r0 + 1 + m)%nat with (S (r0 + m)) by lia.
    f_equal. cbn [after]. unfold one_round. apply mix_same. intros i Hi. unfold substitute. rewrite HF by lia. reflexivity.
Qed.

Hypothesis Hn : (0 < n)%nat.
Definition pkey (j : nat) : F := inv_ (back (partial - 1 - j)) 0%nat.
(** [f] of the partial rounds, counted from 1 *)
Definition pf (k : nat) (e : F) : F := fifth e + pkey (k - 1).
Lemma partial_plain s y : same W y (fun i => fifth (st (half - 1) s i + key (half - 1) i) + inv_ (back partial) i) -> forall k, (k <= partial)%nat ->
  same W (plain n pf (at_ M) k y) (fun i => st (half + k) s i + back (partial - k) i).
Proof.
  intros HY. induction k as [|k IH]; intros Hk j Hj; cbn [plain].
  - rewrite (mix_same W (at_ M) _ _ HY), mix_key by exact Hj. rewrite Nat.sub_0_r, Nat.add_0_r. f_equal.
    transitivity (st (S (half - 1)) s j); [cbn [after]; unfold one_round|now replace (S (half - 1)) with half by lia]. apply mix_same. intros i Hi. unfold substitute.
    replace (is_full half partial (half - 1)) with true; [reflexivity|]. unfold is_full. destruct (Nat.ltb_spec (half - 1) half); [reflexivity|lia].
  - specialize (IH ltac:(lia)).
    rewrite (mix_same W (at_ M) _ (fun i => substitute half partial key (half + k) (st (half + k) s) i + inv_ (back (partial - S k)) i)).
    + rewrite mix_key by exact Hj. replace (half + S k)%nat with (S (half + k)) by lia. reflexivity.
    + intros i Hi. unfold on_first, substitute.
      assert (is_full half partial (half + k) = false) as ->.
      { unfold is_full. destruct (Nat.ltb_spec (half + k) half); [lia|]. destruct (Nat.leb_spec (half + partial) (half + k)); [lia|reflexivity]. }
      cbn [orb]. replace (partial - k)%nat with (S (partial - S k)) in IH by lia. cbn [back] in IH.
      replace (final - S (partial - S k))%nat with (half + k)%nat in IH by (unfold final; lia).
      destruct (Nat.eqb_spec i 0) as [->|NE].
      * rewrite (IH 0%nat) by lia. cbn [Nat.eqb]. unfold pf, pkey. replace (partial - 1 - (S k - 1))%nat with (partial - S k)%nat by lia.
        f_equal. f_equal. ring.
      * rewrite (IH i Hi). destruct (Nat.eqb_spec i 0); [contradiction|]. ring.
Qed.
Definition col_ (l : list (@sparse F)) (j i : nat) : F := nth i (w_hat (nth j l (mk_sparse [] []))) 0.
Definition row_ (l : list (@sparse F)) (j i : nat) : F := nth i (v_rest (nth j l (mk_sparse [] []))) 0.
(** the sparse rounds: [ms] are the matrices, the last one first *)
Lemma sparse_rounds (ms : list (list (list F))) : forall l (s0 : nat -> F) y, Forall2 (compact n) (rev ms) l -> (length ms <= partial)%nat ->
  same W s0 (mix W (at_ pre) y) ->
  same W (steps (length ms) (partial_step W half (col_ l) (row_ l) (fun k => nth k c 0)) s0) (factored n pf (at_ pre) ms y).
Proof.
  induction ms as [|q ms IH]; intros l s0 y CL Hl HS; cbn [length steps factored].
  - exact HS.
  - cbn [rev] in CL. apply Forall2_app_inv_l in CL. destruct CL as (l1 & l2 & CL & C2 & ->). inversion C2 as [|q' sp0 ? ? CQ C3]; subst. inversion C3; subst. clear C2 C3.
    assert (length l1 = length ms) as L1 by (rewrite <- (f2_length _ _ _ CL), rev_length; reflexivity).
    cbn [length] in Hl.
    assert (same W (steps (length ms) (partial_step W half (col_ (l1 ++ [sp0])) (row_ (l1 ++ [sp0])) (fun k => nth k c 0)) s0) (factored n pf (at_ pre) ms y)) as I.
    { intros i Hi. rewrite <- (IH l1 s0 y CL ltac:(lia) HS i Hi).
      assert (forall m, (m <= length ms)%nat -> forall i, steps m (partial_step W half (col_ (l1 ++ [sp0])) (row_ (l1 ++ [sp0])) (fun k => nth k c 0)) s0 i
        = steps m (partial_step W half (col_ l1) (row_ l1) (fun k => nth k c 0)) s0 i) as ST; [|now apply ST].
      induction m as [|m IHm]; intros Hm i1; cbn [steps]; [reflexivity|]. specialize (IHm ltac:(lia)).
      unfold partial_step, sparse_mix, col_, row_. rewrite !app_nth1 by lia.
      destruct i1 as [|i1].
      - apply sumn_ext. intros k _. f_equal. destruct (k =? 0)%nat; [f_equal; f_equal; apply IHm|apply IHm].
      - cbn [Nat.eqb]. f_equal; [f_equal; f_equal; f_equal; apply IHm|apply IHm]. }
    destruct CQ as (_ & _ & CQ). intros j Hj.
    rewrite (CQ (on_first (pf (S (length ms))) (factored n pf (at_ pre) ms y)) j Hj).
    destruct CC as (_ & _ & _ & _ & CP & _).
    unfold partial_step at 1, sparse_mix, col_, row_. rewrite app_nth2, L1, Nat.sub_diag by lia. cbn [nth].
    assert (forall i, (i < W)%nat -> (if (i =? 0)%nat then fifth (steps (length ms) (partial_step W half (col_ (l1 ++ [sp0])) (row_ (l1 ++ [sp0])) (fun k => nth k c 0)) s0 0%nat)
        + nth ((half + 1) * W + length ms) c 0 else steps (length ms) (partial_step W half (col_ (l1 ++ [sp0])) (row_ (l1 ++ [sp0])) (fun k => nth k c 0)) s0 i)
        = on_first (pf (S (length ms))) (factored n pf (at_ pre) ms y) i) as E.
    { intros i Hi. unfold on_first. destruct (Nat.eqb_spec i 0) as [->|NE]; [|exact (I i Hi)]. unfold pf, pkey.
      rewrite CP by lia. replace (S (length ms) - 1)%nat with (length ms) by lia. f_equal. f_equal. apply I. lia. }
    destruct j as [|j].
    + apply sumn_ext. intros k Hk. f_equal. apply E. exact Hk.
    + f_equal; [f_equal; apply (E 0%nat); lia|]. apply E. exact Hj.
Qed.

Theorem optimised_ok (ms : list (list (list F))) s : length ms = partial -> Forall2 (compact n) (rev ms) sp ->
  (forall y, same W (factored n pf (at_ pre) ms y) (plain_to n pf (at_ M) (at_ M) partial y)) ->
  same W (optimised W half partial (at_ M) (at_ pre) (col_ sp) (row_ sp) (fun k => nth k c 0) s) (permutation W half partial (at_ M) key s).
Proof.
  intros LM CL FP j Hj. unfold optimised, permutation.
  destruct CC as (_ & C0 & C1 & C2 & C3 & C4).
  set (s0 := fun i => s i + nth i c 0).
  set (s1 := steps (half - 1) _ s0).
  assert (same W s1 (fun i => st (half - 1) s i + key (half - 1) i)) as E1.
  { intros i Hi. pose proof (full_rounds W 0 (half - 1) s s0) as R. rewrite Nat.add_0_l in R.
    unfold s1. rewrite <- R; [|  | | |exact Hi].
    - clear - Hi. assert (forall m i, steps m (fun r => full_step W (fun k => nth k c 0) (at_ M) ((r + 1) * W)) s0 i
        = steps m (fun r => full_step W (fun k => nth k c 0) (at_ M) (W + r * W)) s0 i) as ST; [|apply ST].
      induction m as [|m IHm]; intros i1; cbn [steps]; [reflexivity|]. unfold full_step. replace ((m + 1) * W)%nat with (W + m * W)%nat by lia.
      apply mix_same. intros k _. f_equal. f_equal. apply IHm.
    - intros r k Hr Hk. transitivity (nth ((r + 1) * W + k) c 0); [f_equal; lia|]. rewrite C1 by assumption.
      now replace (r + 1)%nat with (1 + r)%nat by lia.
    - intros r Hr. unfold is_full. rewrite Nat.add_0_l. destruct (Nat.ltb_spec r half); [reflexivity|lia].
    - intros k Hk. cbn [after]. unfold s0. now rewrite C0. }
  set (s2 := full_step _ _ _ _ s1).
  set (y := fun i => fifth (s1 i) + nth (half * W + i) c 0).
  assert (same W y (fun i => fifth (st (half - 1) s i + key (half - 1) i) + inv_ (back partial) i)) as EY.
  { intros i Hi. unfold y. rewrite C2 by exact Hi. f_equal. f_equal. now apply E1. }
  set (s3 := steps partial _ s2).
  assert (same W s3 (fun i => st final s i + key final i)) as E3.
  { intros i Hi. unfold s3. rewrite <- LM at 1. rewrite (sparse_rounds ms sp s2 y CL); [|lia| |exact Hi].
    2:{ intros k Hk. reflexivity. }
    rewrite FP by exact Hi.
    transitivity (plain n pf (at_ M) partial y i).
    { destruct partial; reflexivity. }
    rewrite (partial_plain s y EY partial (le_n _)) by exact Hi. rewrite Nat.sub_diag. reflexivity. }
  set (s4 := steps (half - 1) _ s3).
  assert (same W s4 (fun i => st (final + (half - 1)) s i + key (final + (half - 1)) i)) as E4.
  { apply full_rounds; [exact C4| |exact E3]. intros r Hr. unfold is_full, final.
    replace (half + partial <=? half + partial + r)%nat with true by (symmetry; apply Nat.leb_le; lia). now rewrite Bool.orb_true_r. }
  replace (2 * half + partial)%nat with (S (final + (half - 1))) by (unfold final; lia). cbn [after]. unfold one_round.
  apply mix_same. intros i Hi. unfold substitute.
  replace (is_full half partial (final + (half - 1))) with true.
  2:{ unfold is_full, final. replace (half + partial <=? half + partial + (half - 1))%nat with true by (symmetry; apply Nat.leb_le; lia). now rewrite Bool.orb_true_r. }
  cbn [orb]. f_equal. now apply E4.
Qed.
End C.

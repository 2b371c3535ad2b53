(** Properties_PCompress.v: the precomputed constants of the Poseidon hash (C81). *)
From Verif Require Import Base Spec Tools ToolsProofs KZG SnarkProofs IntProofs Poseidon PoseidonSpec Properties_Poseidon PMatrix PMatrixSpec PMatrixProofs PMatrixMds
  PMatrixCauchy PSparse PCompress POptSpec PCompressProofs Properties_PMatrix.
Local Open Scope F_scope.

Section S.
Context {F : Type} {fo : FieldOps F} {fl : FieldLaws F} {po : PrimeFieldOps F} {pl : PrimeFieldLaws F}.
Add Field Fpropcompress : F_th.
Implicit Types (s : nat -> F) (l : list (@sparse F)).

(** column and row of the matrix j of a list of sparse matrices *)
Definition first_column l (j i : nat) : F := nth i (w_hat (nth j l (mk_sparse [] []))) 0.
Definition first_row l (j i : nat) : F := nth i (v_rest (nth j l (mk_sparse [] []))) 0.
(** a function of the element 0 only *)
Definition at_first (g : F -> F) s (i : nat) : F := if (i =? 0)%nat then g (s 0%nat) else s i.

Lemma steps_ext k (g g' : nat -> (nat -> F) -> (nat -> F)) s s' m : (forall r t t', (r < k)%nat -> same m t t' -> same m (g r t) (g' r t')) -> same m s s' ->
  same m (steps k g s) (steps k g' s').
Proof.
  induction k as [|k IH]; intros H HS; cbn [steps]; [exact HS|]. apply H; [lia|]. apply IH; [|exact HS]. intros. apply H; [lia|assumption].
Qed.
Lemma sparse_mix_same W l j s s' : same W s s' -> same W (sparse_mix W (first_column l) (first_row l) j s) (sparse_mix W (first_column l) (first_row l) j s').
Proof.
  intros H i Hi. unfold sparse_mix. destruct i as [|i].
  - apply sumn_ext. intros k Hk. now rewrite H.
  - rewrite (H 0%nat) by lia. now rewrite (H (S i)).
Qed.
Lemma general_rounds n (g : nat -> F -> F) (pre : list (list F)) (ms : list (list (list F))) : forall l s, Forall2 (compact n) (rev ms) l ->
  same (S n) (steps (length ms) (fun j t => sparse_mix (S n) (first_column l) (first_row l) j (at_first (g j) t)) (mix (S n) (at_ pre) s))
    (factored n (fun k => g (k - 1)%nat) (at_ pre) ms s).
Proof.
  induction ms as [|q ms IH]; intros l s CL; cbn [length steps factored]; [now intros i _|].
  cbn [rev] in CL. apply Forall2_app_inv_l in CL. destruct CL as (l1 & l2 & CL & C2 & ->). inversion C2 as [|q' sp0 ? ? CQ C3]; subst. inversion C3; subst. clear C2 C3.
  assert (length l1 = length ms) as L1 by (rewrite <- (f2_length _ _ _ CL), rev_length; reflexivity).
  destruct CQ as (_ & _ & CQ). intros j Hj. rewrite CQ by exact Hj.
  set (T := steps (length ms) _ _).
  assert (same (S n) T (factored n (fun k => g (k - 1)%nat) (at_ pre) ms s)) as I.
  { intros i Hi. rewrite <- (IH l1 s CL i Hi). unfold T. apply (steps_ext _ _ _ _ _ (S n)); [|now intros k _|exact Hi].
    intros r t t' Hr HT k Hk. unfold sparse_mix, first_column, first_row. rewrite !app_nth1 by lia.
    destruct k as [|k]; unfold at_first.
    - apply sumn_ext. intros e He. f_equal. destruct (e =? 0)%nat; [f_equal; apply HT; lia|now apply HT].
    - cbn [Nat.eqb]. rewrite (HT 0%nat) by lia. now rewrite (HT (S k)). }
  assert (same (S n) (at_first (g (length ms)) T) (on_first (g (S (length ms) - 1)%nat) (factored n (fun k => g (k - 1)%nat) (at_ pre) ms s))) as E.
  { intros i Hi. unfold at_first, on_first. replace (S (length ms) - 1)%nat with (length ms) by lia. destruct (i =? 0)%nat; [f_equal; apply I; lia|now apply I]. }
  unfold sparse_mix at 1, first_column at 1, first_row at 1. rewrite !app_nth2, L1, Nat.sub_diag by lia. cbn [nth].
  destruct j as [|j].
  - apply sumn_ext. intros k Hk. f_equal. now apply E.
  - rewrite (E 0%nat) by lia. now rewrite (E (S j)).
Qed.
Lemma plain_steps n (g : nat -> F -> F) (M : nat -> nat -> F) k s : 
  same (S n) (steps k (fun j t => mix (S n) M (at_first (g j) t)) (mix (S n) M s)) (plain n (fun k => g (k - 1)%nat) M k s).
Proof.
  induction k as [|k IH]; cbn [steps plain]; [now intros i _|]. intros j Hj. apply mix_same. intros i Hi. unfold at_first, on_first.
  replace (S k - 1)%nat with k by lia. destruct (i =? 0)%nat; [f_equal; apply IH; lia|now apply IH].
Qed.
Lemma fine_base n (base : matrix F) : shape (S n) (S n) base -> ~ singular (S n) base -> (forall h, is_minor (S n) base h -> ~ singular n h /\ symmetric n h) ->
  fine n base base.
Proof.
  intros SB NS MN. destruct (minor_ok n base SB) as (h & _ & MH). destruct (MN h MH) as [NH SY]. destruct MH as [SH MH].
  rewrite Nat.sub_succ, Nat.sub_0_r in SH, MH.
  split; [exact SB|]. split; [now apply nonsingular_iff|]. split; [|split].
  - intros x K. apply (nonsingular_iff n h NH). intros i Hi. rewrite <- (K i Hi). apply sumn_ext. intros j Hj. unfold inner. now rewrite MH.
  - intros i j Hi Hj. rewrite <- !MH by assumption. now apply SY.
  - intros i j Hi Hj. apply sumn_ext. intros k Hk. ring.
Qed.

(** The sparse matrices of k rounds. For a matrix that is invertible, whose minor is invertible and symmetric,
    they exist, and computing with them is the same, whatever functions are applied to the element 0 in the
    rounds. *)
Theorem c81_sparse n k (base : matrix F) : (2 <= n)%nat -> shape n n base -> ~ singular n base ->
  (forall h, is_minor n base h -> ~ singular (n - 1) h /\ symmetric (n - 1) h) ->
  exists pre l, factor_to_sparse_matrixes base k = Ok (pre, l) /\ shape n n pre /\ length l = k /\
    (forall sp, In sp l -> length (w_hat sp) = n /\ length (v_rest sp) = (n - 1)%nat) /\
    forall (g : nat -> F -> F) s i, (i < n)%nat ->
      steps k (fun j t => sparse_mix n (first_column l) (first_row l) j (at_first (g j) t)) (mix n (at_ pre) s) i
      = steps k (fun j t => mix n (at_ base) (at_first (g j) t)) (mix n (at_ base) s) i.
Proof.
  intros Hn SB NS MN. destruct n as [|n]; [lia|]. cbn [Nat.sub] in *. rewrite Nat.sub_0_r in *.
  pose proof (fine_base n base SB NS MN) as FB. unfold factor_to_sparse_matrixes.
  destruct (factor_spec n (fun _ e => e) base FB ltac:(lia) k base FB) as (pre & ms & E & SP & L & O & _). rewrite E. cbn [obind].
  destruct (sparse_list n (rev ms)) as (l & -> & CL).
  { intros q I. apply O. now apply in_rev. }
  cbn [obind]. exists pre, l. split; [reflexivity|]. split; [exact SP|]. split; [rewrite <- (f2_length _ _ _ CL), rev_length; exact L|]. split.
  { intros sp I. clear - CL I. induction CL as [|q sp' qs l C CL IH]; [destruct I|]. destruct I as [->|I]; [|auto].
    destruct C as (A & B & _). split; assumption. }
  intros g s i Hi. destruct (factor_spec n (fun k => g (k - 1)%nat) base FB ltac:(lia) k base FB) as (pre' & ms' & E' & _ & _ & _ & R).
  rewrite E in E'. injection E' as <- <-.
  rewrite (plain_steps n g (at_ base) k s i Hi). change (@length (matrix F) ms) with (@length (list (list F)) ms) in L. rewrite <- L at 1.
  rewrite (general_rounds n g pre ms l s CL i Hi), (R s i Hi). destruct k; reflexivity.
Qed.

(** With the constants generated (for the given numbers of rounds and round constants), the optimised form of
    the permutation computes the Poseidon permutation. *)
Notation key w := (round_key w).
Theorem c81_optimised W full partial rc k : generate W full partial rc = Ok k ->
  k_rc k = rc /\ k_full k = full /\ k_partial k = partial /\ full = (2 * k_half k)%nat /\ new_mds W = Ok (k_mds k) /\
  k_tag k = from_Z (2 ^ (Z.of_nat W - 1) - 1) /\
  length (k_compressed k) = (full * W + partial)%nat /\ length (k_sparse k) = partial /\
  forall s i, (i < W)%nat ->
    optimised W (k_half k) partial (at_ (m_ (k_mds k))) (at_ (k_pre_sparse k)) (first_column (k_sparse k)) (first_row (k_sparse k)) (fun j => nth j (k_compressed k) 0) s i
    = permutation W (k_half k) partial (entry (m_ (k_mds k))) (round_key W rc) s i.
Proof.
  unfold generate. intros H. destruct (Nat.leb_spec 1 W) as [H1|]; [|discriminate H]. cbn [assert_ obind] in H.
  destruct (new_mds W) as [d| |] eqn:ED; [|discriminate H|discriminate H]. cbn [obind] in H.
  destruct (Nat.eqb_spec (full mod 2) 0) as [EV|]; [|discriminate H]. cbn [assert_ obind] in H.
  destruct (Nat.leb_spec (W - 1) 30) as [LA|]; [|discriminate H]. cbn [assert_ obind] in H.
  assert (2 <= W)%nat as H2.
  { destruct (Nat.eq_dec W 1) as [->|]; [|lia]. rewrite c80_width_one_refuted in ED. discriminate ED. }
  assert (3 * Z.of_nat W - 2 < modulus (F := F))%Z as Big.
  { destruct (Z.lt_ge_cases (3 * Z.of_nat W - 2) (modulus (F := F))) as [B|B]; [exact B|]. unfold new_mds in ED.
    rewrite (c80_small_field_refuted W (or_intror B)) in ED. discriminate ED. }
  destruct (compress_round_constants W full partial rc d) as [c| |] eqn:EC; [|discriminate H|discriminate H]. cbn [obind] in H.
  assert (1 <= full / 2)%nat as HH.
  { unfold compress_round_constants in EC. destruct (round_keys W rc 0) as [k0| |]; [|discriminate EC|discriminate EC]. cbn [obind] in EC.
    destruct (Nat.leb_spec 1 (full / 2)) as [B|]; [exact B|discriminate EC]. }
  destruct (factor_to_sparse_matrixes (m_ d) partial) as [[pre l]| |] eqn:EF; [|discriminate H|discriminate H]. cbn [obind] in H.
  destruct (Nat.leb_spec (W * (full + partial)) (length rc)) as [LR|]; [|discriminate H]. cbn [assert_ obind] in H.
  assert (full = 2 * (full / 2))%nat as EH by (pose proof (Nat.div_mod_eq full 2); lia).
  remember (full / 2)%nat as half eqn:Ehalf. injection H as <-.
  cbn [k_rc k_full k_partial k_half k_mds k_tag k_compressed k_sparse k_pre_sparse].
  destruct (c80_new W H2 Big) as (d' & ED' & EG & EDD & _ & MI). rewrite ED in ED'. injection ED' as <-.
  rewrite (generate_ok W H1 Big) in EG. injection EG as EM. rewrite <- EM in *.
  destruct (c80_derive W (cauchy W) (cauchy_shape W) H2) as [_ [_ DD]]. destruct (DD d EDD) as (_ & SI & _).
  subst full.
  destruct W as [|n]; [lia|].
  assert (fine n (cauchy (S n)) (cauchy (S n))) as FB.
  { apply fine_base; [apply cauchy_shape|apply (all_nonsingular (S n) H1), (cauchy_mds (S n) H1 Big)|]. intros h MH. split.
    - pose proof (minor_nonsingular (S n) H1 _ h (cauchy_mds (S n) H1 Big) MH) as K. cbn [Nat.sub] in K. now rewrite Nat.sub_0_r in K.
    - destruct MH as [_ MH]. rewrite Nat.sub_succ, Nat.sub_0_r in MH. intros i j Hi Hj. rewrite !MH by assumption. apply cauchy_symmetric; lia. }
  assert (((2 * half + partial) * S n <= length rc)%nat) as LR' by lia.
  pose proof (eq_sym Ehalf) as EHH.
  destruct (compress_ok n half partial rc (m_inv d) SI HH LR' (2 * half) d EHH eq_refl) as (c' & EC' & CC). rewrite EC in EC'. injection EC' as <-.
  assert (0 < n)%nat as Hn by lia.
  set (pf0 := pf n half partial rc (m_inv d)).
  destruct (factor_spec n pf0 (cauchy (S n)) FB Hn partial (cauchy (S n)) FB) as (pre' & ms & E & SP & L & O & R).
  unfold factor_to_sparse_matrixes in EF. rewrite E in EF. cbn [obind] in EF.
  destruct (sparse_list n (rev ms)) as (l' & EL & CL).
  { intros q I. apply O. now apply in_rev. }
  rewrite EL in EF. cbn [obind] in EF. injection EF as <- <-.
  split; [reflexivity|]. split; [reflexivity|]. split; [reflexivity|]. split; [reflexivity|]. split; [reflexivity|].
  split; [do 3 f_equal; lia|]. split; [destruct CC as [LC _]; rewrite LC; lia|].
  split; [rewrite <- (f2_length _ _ _ CL), rev_length; exact L|].
  intros s i Hi. apply (optimised_ok n half partial rc (m_inv d) HH LR' (cauchy (S n)) pre' l' c MI CC Hn ms s L CL R i Hi).
Qed.
(** ** When they are generated *)
Definition safe {A} (x : outcome error A) : Prop := x = Panic \/ exists a, x = Ok a.
Lemma safe_bind {A B} (x : outcome error A) (g : A -> outcome error B) : safe x -> (forall a, safe (g a)) -> safe (obind x g).
Proof. intros [->|[a ->]] H; [now left|apply H]. Qed.
Lemma safe_assert b : safe (@assert_ error b). Proof. destruct b; [right; now exists tt|now left]. Qed.
Lemma safe_get {A} (l : list A) i : safe (get_ l i).
Proof. unfold get_, safe. destruct (nth_error l i); cbn; [right; eexists; reflexivity|now left]. Qed.
Lemma safe_ok {A} (a : A) : safe (Ok a : outcome error A). Proof. right. now exists a. Qed.
Lemma safe_collect {A B} (g : A -> outcome error B) (l : list A) : (forall a, safe (g a)) -> safe (collect g l).
Proof. intros H. induction l as [|a l IH]; cbn [collect]; [apply safe_ok|]. apply safe_bind; [apply H|]. intros b. apply safe_bind; [exact IH|]. intros; apply safe_ok. Qed.
Lemma safe_square (m : matrix F) : safe (is_square m).
Proof.
  unfold is_square, num_columns. destruct m; [apply safe_ok|].
  apply safe_bind; [|intros; apply safe_ok]. apply safe_bind; [apply safe_assert|]. intros; apply safe_ok.
Qed.
Lemma safe_right (m : matrix F) v : safe (right_apply m v).
Proof.
  unfold right_apply. apply safe_bind; [apply safe_square|]. intros b. apply safe_bind; [apply safe_assert|]. intros _.
  apply safe_bind; [apply safe_assert|]. intros _. apply safe_collect. intros j. apply safe_bind; [|intros; apply safe_ok].
  apply safe_collect. intros row. apply safe_get.
Qed.
Lemma safe_keys w (rc : list F) r : safe (round_keys w rc r).
Proof. unfold round_keys. apply safe_bind; [apply safe_assert|]. intros; apply safe_ok. Qed.
Lemma safe_push w (rc : list F) m t : forall fr acc p, safe (push_back w rc m fr t acc p).
Proof.
  induction t as [|t IH]; intros fr acc p; cbn [push_back]; [apply safe_ok|]. apply safe_bind; [apply safe_keys|]. intros a.
  apply safe_bind; [apply safe_right|]. intros b. apply safe_bind; [apply safe_get|]. intros x. apply IH.
Qed.
Lemma safe_compress w full partial rc d : safe (compress_round_constants w full partial rc d).
Proof.
  unfold compress_round_constants. apply safe_bind; [apply safe_keys|]. intros k0. apply safe_bind; [apply safe_assert|]. intros _.
  apply safe_bind; [apply safe_collect; intros i; apply safe_bind; [apply safe_keys|intros; apply safe_right]|]. intros f.
  apply safe_bind; [apply safe_keys|]. intros k1. apply safe_bind; [apply safe_push|]. intros [acc ps].
  apply safe_bind; [apply safe_right|]. intros mid.
  apply safe_bind; [apply safe_collect; intros i; apply safe_bind; [apply safe_keys|intros; apply safe_right]|]. intros; apply safe_ok.
Qed.
Lemma new_panics W : ~ ((2 <= W)%nat /\ (3 * Z.of_nat W - 2 < modulus (F := F))%Z) -> new_mds W = Panic.
Proof.
  intros H. destruct (Z.lt_ge_cases (3 * Z.of_nat W - 2) (modulus (F := F))) as [B|B].
  - destruct W as [|[|W]]; [reflexivity|apply c80_width_one_refuted|]. exfalso. apply H. split; [lia|exact B].
  - unfold new_mds. now rewrite (c80_small_field_refuted W (or_intror B)).
Qed.
(** The constants are generated exactly for widths from 2 to 31 that the field has room for, an even number of
    full rounds other than 0, and enough round constants; otherwise there is a panic. *)
Theorem c81_generate W full partial rc :
  (2 <= W <= 31)%nat /\ (3 * Z.of_nat W - 2 < modulus (F := F))%Z /\ (2 <= full)%nat /\ (full mod 2 = 0)%nat /\ (W * (full + partial) <= length rc)%nat ->
  exists k, generate W full partial rc = Ok k.
Proof.
  intros ([H2 H31] & Big & Hf & EV & LR). assert (1 <= W)%nat as H1 by lia. unfold generate.
  destruct (Nat.leb_spec 1 W) as [_|]; [|lia]. cbn [assert_ obind].
  destruct (c80_new W H2 Big) as (d & -> & EG & EDD & _ & MI). cbn [obind]. rewrite EV. cbn [Nat.eqb assert_ obind].
  destruct (Nat.leb_spec (W - 1) 30) as [_|]; [|lia]. cbn [assert_ obind].
  rewrite (generate_ok W H1 Big) in EG. injection EG as EM. rewrite <- EM in *.
  destruct (c80_derive W (cauchy W) (cauchy_shape W) H2) as [_ [_ DD]]. destruct (DD d EDD) as (_ & SI & _).
  assert (full = 2 * (full / 2))%nat as EH by (pose proof (Nat.div_mod_eq full 2); lia).
  destruct W as [|n]; [lia|].
  destruct (compress_ok n (full / 2) partial rc (m_inv d) SI ltac:(lia) ltac:(lia) full d eq_refl eq_refl) as (c & -> & _). cbn [obind].
  destruct (c81_sparse (S n) partial (cauchy (S n)) H2 (cauchy_shape (S n))) as (pre & l & -> & _).
  - apply (all_nonsingular (S n) H1), (cauchy_mds (S n) H1 Big).
  - intros h MH. split; [exact (minor_nonsingular (S n) H1 _ h (cauchy_mds (S n) H1 Big) MH)|].
    destruct MH as [_ MH]. intros i j Hi Hj. rewrite !MH by assumption. apply cauchy_symmetric; lia.
  - cbn [obind]. destruct (Nat.leb_spec (S n * (full + partial)) (length rc)) as [_|]; [|lia]. cbn [assert_ obind]. eexists. reflexivity.
Qed.
Theorem c81_generate_only W full partial rc :
  ~ ((2 <= W <= 31)%nat /\ (3 * Z.of_nat W - 2 < modulus (F := F))%Z /\ (2 <= full)%nat /\ (full mod 2 = 0)%nat /\ (W * (full + partial) <= length rc)%nat) ->
  generate W full partial rc = Panic.
Proof.
  intros H. unfold generate. destruct (Nat.leb_spec 1 W) as [H1|]; [|reflexivity]. cbn [assert_ obind].
  destruct (Nat.le_gt_cases 2 W) as [H2|]; [|rewrite new_panics by lia; reflexivity].
  destruct (Z.lt_ge_cases (3 * Z.of_nat W - 2) (modulus (F := F))) as [Big|]; [|rewrite new_panics by lia; reflexivity].
  destruct (c80_new W H2 Big) as (d & -> & EG & EDD & _ & MI). cbn [obind].
  destruct (Nat.eqb_spec (full mod 2) 0) as [EV|]; [|reflexivity]. cbn [assert_ obind].
  destruct (Nat.leb_spec (W - 1) 30) as [LA|]; [|reflexivity]. cbn [assert_ obind].
  destruct (Nat.le_gt_cases 2 full) as [Hf|Hf].
  - destruct (safe_compress W full partial rc d) as [->|[c ->]]; [reflexivity|]. cbn [obind].
    rewrite (generate_ok W H1 Big) in EG. injection EG as EM. rewrite <- EM in *.
    destruct (c81_sparse W partial (cauchy W) H2 (cauchy_shape W)) as (pre & l & -> & _).
    + apply (all_nonsingular W H1), (cauchy_mds W H1 Big).
    + intros h MH. split; [exact (minor_nonsingular W H1 _ h (cauchy_mds W H1 Big) MH)|].
      destruct MH as [_ MH]. intros i j Hi Hj. rewrite !MH by assumption. apply cauchy_symmetric; lia.
    + cbn [obind]. destruct (Nat.leb_spec (W * (full + partial)) (length rc)) as [LR|]; [|reflexivity].
      exfalso. apply H. split; [lia|]. split; [exact Big|]. split; [exact Hf|]. split; [exact EV|exact LR].
  - assert (full = 0)%nat as -> by (destruct full as [|[|f]]; [reflexivity|discriminate EV|lia]).
    unfold compress_round_constants. destruct (safe_keys W rc 0) as [->|[k ->]]; reflexivity.
Qed.
(** The constants generated are such as C79 supposes. *)
Theorem c81_fits W full partial rc k : generate W full partial rc = Ok k -> (1 <= partial)%nat ->
  fits W (mk_constants (m_ (k_mds k)) (k_rc k) (k_tag k) (k_half k) (k_partial k)).
Proof.
  intros E Hp. destruct (c81_optimised W full partial rc k E) as (ER & EF & EP & EH & ED & _).
  assert (~ generate W full partial rc = Panic) as NP by (rewrite E; discriminate).
  destruct (Nat.le_gt_cases 2 W) as [H2|B]; [|exfalso; apply NP, c81_generate_only; lia].
  destruct (Nat.le_gt_cases 2 full) as [Hf|B]; [|exfalso; apply NP, c81_generate_only; lia].
  destruct (Nat.le_gt_cases (W * (full + partial)) (length rc)) as [LR|B]; [|exfalso; apply NP, c81_generate_only; lia].
  destruct (Z.lt_ge_cases (3 * Z.of_nat W - 2) (modulus (F := F))) as [Big|B]; [|exfalso; apply NP, c81_generate_only; lia].
  assert (1 <= W)%nat as H1 by lia.
  destruct (c80_new W H2 Big) as (d & ED' & EG & _). rewrite ED in ED'. injection ED' as ->.
  rewrite (generate_ok W H1 Big) in EG. injection EG as EM.
  unfold fits. cbn [pc_m pc_rc pc_half pc_partial]. rewrite <- EM, ER, EP. split; [exact H2|]. split; [|split; [|split]].
  - destruct (cauchy_shape (F := F) W) as [L C]. split; [exact L|]. apply Forall_forall. exact C.
  - lia.
  - exact Hp.
  - lia.
Qed.
End S.
(** Finding: no constants can be generated for width 32 or more (a panic with debug assertions), because the
    domain tag is computed with 32 bits. *)
Theorem c81_wide_refuted {F} {fo : FieldOps F} {fl : FieldLaws F} {po : PrimeFieldOps F} {pl : PrimeFieldLaws F} W full partial (rc : list F) :
  (32 <= W)%nat -> generate W full partial rc = Panic.
Proof. intros H. apply c81_generate_only. lia. Qed.

(** Constants for width 3, 4 full and 2 partial rounds over the field of 101 elements. *)
Definition rc81 : list F101 := map (fun i => f101 (7 * Z.of_nat i * Z.of_nat i + 3)) (seq 0 18).
Definition s81 (i : nat) : F101 := f101 (5 + 2 * Z.of_nat i).
Definition agree81 : bool :=
  match generate 3 4 2 rc81 with
  | Ok k => forallb (fun i => feqb
      (optimised 3 2 2 (at_ (m_ (k_mds k))) (at_ (k_pre_sparse k)) (first_column (k_sparse k)) (first_row (k_sparse k)) (fun j => nth j (k_compressed k) 0) s81 i)
      (permutation 3 2 2 (entry (m_ (k_mds k))) (round_key 3 rc81) s81 i)) (seq 0 3)
      && negb (forallb (fun '(x, y) => feqb x y) (combine (k_compressed k) rc81)) && (length (k_compressed k) =? 14)%nat
  | _ => false
  end.
Example c81_example : (exists k, generate 3 4 2 rc81 = Ok k) /\ agree81 = true.
Proof.
  split; [|vm_compute; reflexivity]. apply c81_generate. split; [lia|]. split; [reflexivity|]. split; [lia|]. split; [reflexivity|]. vm_compute. lia.
Qed.
(** Finding: for a matrix whose minor is not symmetric the sparse matrices compute something else. *)
Definition differ81 : bool :=
  match factor_to_sparse_matrixes (m80 6) 1 with
  | Ok (pre, l) => negb (feqb (steps 1 (fun j t => sparse_mix 3 (first_column l) (first_row l) j (at_first (fun x => x * x) t)) (mix 3 (at_ pre) s81) 0%nat)
      (steps 1 (fun j t => mix 3 (at_ (m80 6)) (at_first (fun x => x * x) t)) (mix 3 (at_ (m80 6)) s81) 0%nat))
  | _ => false
  end.
Lemma differs81 : differ81 = true. Proof. vm_compute. reflexivity. Qed.
Theorem c81_sparse_refuted : exists (base : matrix F101) pre l (s : nat -> F101) i, shape 3 3 base /\ (i < 3)%nat /\ factor_to_sparse_matrixes base 1 = Ok (pre, l) /\
  steps 1 (fun j t => sparse_mix 3 (first_column l) (first_row l) j (at_first (fun x => x * x) t)) (mix 3 (at_ pre) s) i
  <> steps 1 (fun j t => mix 3 (at_ base) (at_first (fun x => x * x) t)) (mix 3 (at_ base) s) i.
Proof.
  pose proof differs81 as R. unfold differ81 in R. destruct (factor_to_sparse_matrixes (m80 6) 1) as [[pre l]| |] eqn:E; [|discriminate R|discriminate R].
  exists (m80 6), pre, l, s81, 0%nat. split; [split; [reflexivity|]; intros row [<-|[<-|[<-|[]]]]; reflexivity|]. split; [lia|]. split; [exact E|].
  intros H. rewrite H in R. rewrite feqb_refl in R. discriminate R.
Qed.

Print Assumptions c81_sparse.
Print Assumptions c81_optimised.
Print Assumptions c81_generate.
Print Assumptions c81_generate_only.
Print Assumptions c81_fits.
Print Assumptions c81_wide_refuted.
Print Assumptions c81_sparse_refuted.
Print Assumptions c81_example.

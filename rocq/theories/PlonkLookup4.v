(** PlonkLookup4.v: the compressed table and the compressed queries of plonk-core. *)
From Verif Require Import Base Spec Tools KZG IntProofs SnarkProofs SoundSpec Sound ProdPoly Plonk PlonkSpec PlonkPI PlonkSigmaSpec PlonkSigma PlonkProver PlonkGPSpec PlonkGP PlonkLookupSpec PlonkLookup PlonkLookup2 PlonkLookup3.
From Coq Require Import Permutation.
Local Open Scope F_scope.

Section PlonkLookup4.
Context {F : Type} {fo : FieldOps F} {fl : FieldLaws F} {po : PrimeFieldOps F}.
Add Field Fplonklookup4 : F_th.
Notation row := (F * F * F * F)%type.
Implicit Types (t : list row) (r : row).

Definition col4_of (k : nat) r : F := let '(a, b, c, d) := r in nth k [a; b; c; d] 0.
Lemma columns_eq t : table_columns t = map (fun k => map (col4_of k) t) [0; 1; 2; 3]%nat.
Proof. unfold table_columns. cbn [map]. f_equal; [|f_equal; [|f_equal; [|f_equal]]]; apply map_ext; intros [[[a b] c] d]; reflexivity. Qed.
Lemma pad_column n k t : is_power_of_two n = true -> (k < 4)%nat -> pad_set n (map (col4_of k) t) = Ok (map (col4_of k) (padded_table n t)).
Proof.
  intros P Hk. unfold pad_set. rewrite P. cbn [assert_ obind]. f_equal. unfold padded_table.
  set (r := match t with [] => [(0, 0, 0, 0)] | _ => t end).
  assert (match map (col4_of k) t with [] => [0] | _ => map (col4_of k) t end = map (col4_of k) r) as E.
  { unfold r. destruct t; cbn [map]; auto. unfold col4_of. destruct k as [|[|[|[|k]]]]; try reflexivity. lia. }
  rewrite E, map_length. assert (nth 0 (map (col4_of k) r) 0 = col4_of k (hd (0, 0, 0, 0) r)) as E0.
  { assert (r <> []) by (unfold r; now destruct t). destruct r; [congruence|reflexivity]. }
  destruct (Nat.ltb_spec (length r) n) as [L|L].
  - rewrite map_app, E0. f_equal. clear. induction (n - length r)%nat as [|j IH]; cbn; [reflexivity|]. now rewrite IH.
  - replace (n - length r)%nat with 0%nat by lia. cbn [repeat]. now rewrite app_nil_r.
Qed.
Lemma map_out_cols n t : is_power_of_two n = true -> map_out (pad_set n) (table_columns t) = Ok (table_columns (padded_table n t)).
Proof. intros P. rewrite !columns_eq. cbn [map map_out]. rewrite !pad_column by (auto; lia). reflexivity. Qed.
Lemma lc4 a b c d zeta : zeta <> 0 -> zeta <> 1 -> lc [a; b; c; d] zeta = Ok (combined zeta (a, b, c, d)).
Proof.
  intros N0 N1. unfold lc. destruct (feqb zeta 0) eqn:E0; [apply feqb_eq in E0; contradiction|]. destruct (feqb zeta 1) eqn:E1; [apply feqb_eq in E1; contradiction|].
  cbn [negb assert_ obind rev app fold_left]. f_equal. unfold combined. cbn [fpow]. ring.
Qed.
Lemma lc4_panic l zeta : zeta = 0 \/ zeta = 1 -> lc l zeta = Panic.
Proof.
  intros H. unfold lc. destruct H as [-> | ->].
  - now rewrite (proj2 (feqb_eq 0 0) eq_refl).
  - rewrite (proj2 (feqb_eq 1 1) eq_refl). destruct (feqb 1 0); reflexivity.
Qed.
Lemma compress_rows t zeta : zeta <> 0 -> zeta <> 1 -> compress (table_columns t) zeta = Ok (map (combined zeta) t).
Proof.
  intros N0 N1. unfold compress, table_columns. cbn [forallb]. rewrite !map_length, !Nat.eqb_refl. cbn [andb assert_ obind].
  destruct (feqb zeta 0) eqn:E0; [apply feqb_eq in E0; contradiction|]. destruct (feqb zeta 1) eqn:E1; [apply feqb_eq in E1; contradiction|]. cbn [negb assert_ obind map].
  apply (map_out_seq _ _ _ 0). split; [apply map_length|]. intros i Hi. rewrite lc4 by auto. f_equal.
  rewrite !(nth_indep (map _ t) 0 ((fun r => fst (fst (fst r))) (0, 0, 0, 0)) (n := i)) by (now rewrite map_length) || idtac.
  destruct (nth_error t i) as [[[[a b] c] d]|] eqn:E; [|apply nth_error_None in E; lia].
  assert (forall (B : Type) (g : row -> B) e, nth i (map g t) e = g (a, b, c, d)) as X.
  { intros B g e. apply nth_error_nth. now rewrite nth_error_map, E. }
  rewrite !X. reflexivity.
Qed.
Lemma compress_panic t zeta : zeta = 0 \/ zeta = 1 -> compress (table_columns t) zeta = Panic.
Proof.
  intros H. unfold compress, table_columns. cbn [forallb]. rewrite !map_length, !Nat.eqb_refl. cbn [andb assert_ obind]. destruct H as [-> | ->].
  - now rewrite (proj2 (feqb_eq 0 0) eq_refl).
  - rewrite (proj2 (feqb_eq 1 1) eq_refl). destruct (feqb 1 0); reflexivity.
Qed.
Lemma table_ok n t zeta : is_power_of_two n = true -> zeta <> 0 -> zeta <> 1 -> compressed_table n t zeta = Ok (map (combined zeta) (padded_table n t)).
Proof. intros P N0 N1. unfold compressed_table. rewrite map_out_cols by auto. cbn [obind]. now apply compress_rows. Qed.
(** the queries *)
Definition query_rows (u0 : F) (n : nat) (qs : list F) (ws : column -> list F) : list row :=
  map (fun i => if feqb (nth i qs 0) 0 then (u0, 0, 0, 0) else (nth i (ws Left) 0, nth i (ws Right) 0, nth i (ws Output) 0, nth i (ws Fourth) 0)) (seq 0 n).
Lemma query_cols_eq u0 n qs ws : length qs = n -> (forall col, length (ws col) = n) -> query_columns u0 qs ws = table_columns (query_rows u0 n qs ws).
Proof.
  intros L1 L2. unfold query_columns, table_columns, query_rows. cbn [columns map]. rewrite !L2, L1. cbn [fold_left]. rewrite !Nat.min_id, !map_map.
  f_equal; [|f_equal; [|f_equal; [|f_equal]]]; apply map_ext; intros i; now destruct (feqb (nth i qs 0) 0).
Qed.
Definition query zeta (u0 : F) (qs : list F) (ws : column -> list F) (i : nat) : F :=
  if feqb (nth i qs 0) 0 then u0 else combined zeta (nth i (ws Left) 0, nth i (ws Right) 0, nth i (ws Output) 0, nth i (ws Fourth) 0).
Lemma queries_ok u0 n qs ws zeta : length qs = n -> (forall col, length (ws col) = n) -> zeta <> 0 -> zeta <> 1 ->
  compress (query_columns u0 qs ws) zeta = Ok (map (query zeta u0 qs ws) (seq 0 n)).
Proof.
  intros L1 L2 N0 N1. rewrite (query_cols_eq u0 n) by auto. rewrite compress_rows by auto. f_equal. unfold query_rows. rewrite map_map. apply map_ext. intros i. unfold query.
  destruct (feqb (nth i qs 0) 0); auto. unfold combined. ring.
Qed.
Lemma padded_nonempty n t : padded_table n t <> [].
Proof. unfold padded_table. destruct t; discriminate. Qed.
Lemma padded_in n t r : In r (padded_table n t) <-> In r t \/ t = [] /\ r = (0, 0, 0, 0).
Proof.
  unfold padded_table. rewrite in_app_iff. destruct t as [|r0 t]; cbn [hd].
  - split; [intros [[<-|[]]|H]; auto; apply repeat_spec in H; auto|]. intros [[]|[_ ->]]. left. now left.
  - split; [intros [H|H]; auto; apply repeat_spec in H; subst; left; now left|]. intros [H|[H _]]; [auto|discriminate H].
Qed.
Lemma padded_length n t : (1 <= n)%nat -> (length t <= n)%nat -> length (padded_table n t) = n.
Proof. intros H1 H2. unfold padded_table. rewrite app_length, repeat_length. destruct t; cbn [length] in *; lia. Qed.
(** different rows have different combinations *)
Lemma combined_cnt r r' : r <> r' -> cnt 3 (fun zeta => combined zeta r = combined zeta r').
Proof.
  destruct r as [[[a b] c] d], r' as [[[a' b'] c'] d']. intros N.
  apply (cnt_weaken 3 _ (fun x => (exists i, coef [a - a'; b - b'; c - c'; d - d'] i <> 0) /\ peval [a - a'; b - b'; c - c'; d - d'] x = 0)); auto; [|now apply cnt_roots].
  intros x E. split.
  - destruct (nonzero_dec [a - a'; b - b'; c - c'; d - d']) as [H|H]; auto. exfalso. apply N.
    pose proof (H 0%nat) as H0. pose proof (H 1%nat) as H1. pose proof (H 2%nat) as H2. pose proof (H 3%nat) as H3. cbn in H0, H1, H2, H3.
    apply fsub_0_eq in H0, H1, H2, H3. congruence.
  - unfold combined in E. cbn [fpow] in E. cbn [peval]. transitivity (a + x * b + x * (x * 1) * c + x * (x * (x * 1)) * d - (a' + x * b' + x * (x * 1) * c' + x * (x * (x * 1)) * d')); [ring|]. rewrite E. ring.
Qed.
Lemma combined_in r t : ~ In r t -> cnt (3 * length t) (fun zeta => In (combined zeta r) (map (combined zeta) t)).
Proof.
  induction t as [|r' t IH]; intros H; [apply cnt_false; intros x []|].
  apply (cnt_weaken (3 + 3 * length t) _ (fun zeta => combined zeta r = combined zeta r' \/ In (combined zeta r) (map (combined zeta) t))); [cbn [length]; lia| |].
  - cbn [map In]. intros x [E|E]; auto.
  - apply cnt_or; [intros x; destruct (feq_dec (combined x r) (combined x r')); auto| |apply IH; intros A; apply H; now right]. apply combined_cnt. intros ->. apply H. now left.
Qed.
Lemma combined_in_most r t : ~ In r t -> most (3 * length t) (fun zeta => ~ In (combined zeta r) (map (combined zeta) t)).
Proof.
  intros H. apply (most_intro _ _ _ (combined_in r t H)); [|auto]. intros x. destruct (in_dec feq_dec (combined x r) (map (combined x) t)); auto.
Qed.
(** the rows stay different *)
Lemma combined_nodup t : NoDup t -> cnt (3 * (length t * length t)) (fun zeta => ~ NoDup (map (combined zeta) t)).
Proof.
  induction 1 as [|r t Hr N IH]; [apply cnt_false; intros x H; apply H; constructor|].
  apply (cnt_weaken (3 * length t + 3 * (length t * length t)) _ (fun zeta => In (combined zeta r) (map (combined zeta) t) \/ ~ NoDup (map (combined zeta) t))); [cbn [length]; nia| |].
  - cbn [map]. intros x H. destruct (in_dec feq_dec (combined x r) (map (combined x) t)) as [I|I]; auto. right. intros ND. apply H. now constructor.
  - apply cnt_or; [intros x; destruct (in_dec feq_dec (combined x r) (map (combined x) t)); auto|now apply combined_in|exact IH].
Qed.
Lemma nodup_dec (l : list F) : NoDup l \/ ~ NoDup l.
Proof.
  induction l as [|x l [IH|IH]]; [left; constructor| |right; intros H; inversion H; auto].
  destruct (in_dec feq_dec x l); [right; intros H; inversion H; auto|left; now constructor].
Qed.
Lemma combined_nodup_most t : NoDup t -> most (3 * (length t * length t)) (fun zeta => NoDup (map (combined zeta) t)).
Proof.
  intros H. apply (most_intro _ _ _ (combined_nodup t H)); intros x; destruct (nodup_dec (map (combined x) t)); tauto.
Qed.
End PlonkLookup4.

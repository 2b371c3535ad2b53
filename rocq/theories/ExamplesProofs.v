(** ExamplesProofs.v: proofs about the example programs (Examples.v). *)
From Verif Require Import Base Spec Tools CS CSProofs CSExtra POVProofs SnarkSpec KZG KZGProofs Snark
  Fib FibTop RC RCSoundSpec RCSound RCComplete R1 R1Complete R1Top HP HPComplete HPTop IntProofs Properties_RC Examples.
Local Open Scope F_scope.

(** ** The circuit *)
Section Circuit.
Context {F : Type} {fo : FieldOps F} {fl : FieldLaws F}.
Add Field Fex1 : F_th.

Definition ex_wit_con (i : nat) : ark_lc (F:=F) * ark_lc (F:=F) * ark_lc (F:=F) :=
  ([(1, AInst 1); (1, AInst 2)], [(1, AOne)], [(1, AInst 2); (1, AWit i)]).
Definition ex_mul_con : ark_lc (F:=F) * ark_lc (F:=F) * ark_lc (F:=F) :=
  ([(1, AInst 1)], [(1, AInst 2)], [(1, AInst 3)]).

Lemma ex_wit_loop_ok x n : forall s,
  ex_wit_loop n (Some x) (AInst 1) (AInst 2) s =
  Ok (mkSystem (as_inst s) (as_wit s ++ repeat x n) (as_cons s ++ map ex_wit_con (seq (length (as_wit s)) n))).
Proof.
  induction n as [|n IH]; intros [i w c]; cbn [ex_wit_loop as_inst as_wit as_cons].
  - cbn. now rewrite !app_nil_r.
  - cbn [ok_or obind ark_witness as_inst as_wit as_cons]. rewrite IH. unfold ark_enforce. cbn [as_inst as_wit as_cons].
    rewrite app_length. cbn [length repeat]. rewrite Nat.add_1_r. cbn [seq map]. rewrite <- !app_assoc. reflexivity.
Qed.
Lemma ex_mul_loop_ok n : forall s,
  ex_mul_loop n (AInst 1) (AInst 2) (AInst 3) s = mkSystem (as_inst s) (as_wit s) (as_cons s ++ repeat ex_mul_con n).
Proof.
  induction n as [|n IH]; intros [i w c]; cbn [ex_mul_loop as_inst as_wit as_cons].
  - cbn. now rewrite !app_nil_r.
  - rewrite IH. unfold ark_enforce. cbn [as_inst as_wit as_cons repeat]. rewrite <- !app_assoc. reflexivity.
Qed.
Definition ex_cons (k n : nat) := map ex_wit_con (seq 0 k) ++ repeat ex_mul_con n ++ [([], [], [])].
Lemma ex_generate_ok a b nv nc :
  ex_generate (Some a) (Some b) nv nc ark_new =
  if (3 <=? nv)%nat && (1 <=? nc)%nat
  then Ok (mkSystem [1; a; b; a * b] (repeat a (nv - 3)) (ex_cons (nv - 3) (nc - 1))) else Panic.
Proof.
  unfold ex_generate, ark_new, ark_input. cbn [ok_or obind as_inst as_wit as_cons app length].
  destruct (Nat.ltb_spec nv 3); destruct (Nat.leb_spec 3 nv); try lia; cbn [andb]; auto.
  rewrite ex_wit_loop_ok. cbn [obind as_inst as_wit as_cons app length].
  destruct (Nat.ltb_spec nc 1); destruct (Nat.leb_spec 1 nc); try lia; auto.
  rewrite ex_mul_loop_ok. unfold ark_enforce, ex_cons. cbn [as_inst as_wit as_cons app]. rewrite <- !app_assoc. reflexivity.
Qed.

Lemma is_zero_1 : is_zero (1 : F) = false.
Proof. destruct (is_zero_spec (1 : F)) as [E|]; auto. destruct (f1_neq_0 E). Qed.

Definition ex_rows_a (k n : nat) : list (list (F * nat)) :=
  repeat [(1, 1%nat); (1, 2%nat)] k ++ repeat [(1, 1%nat)] n ++ [[]].
Definition ex_rows_b (k n : nat) : list (list (F * nat)) :=
  repeat [(1, 0%nat)] k ++ repeat [(1, 2%nat)] n ++ [[]].
Definition ex_rows_c (k n : nat) : list (list (F * nat)) :=
  map (fun i => [(1, 2%nat); (1, (4 + i)%nat)]) (seq 0 k) ++ repeat [(1, 3%nat)] n ++ [[]].
Lemma map_const_seq {A B} (f : A -> B) y l : (forall x, f x = y) -> map f l = repeat y (length l).
Proof. intros E. induction l; simpl; f_equal; auto. Qed.
Lemma map_repeat' {A B} (f : A -> B) x n : map f (repeat x n) = repeat (f x) n.
Proof. induction n; simpl; f_equal; auto. Qed.
Lemma ex_cons_length k n : length (ex_cons k n) = (k + n + 1)%nat.
Proof. unfold ex_cons. rewrite !app_length, map_length, seq_length, repeat_length. cbn. lia. Qed.
Lemma ex_matrices a b c w k n :
  ark_to_matrices (mkSystem [1; a; b; c] w (ex_cons k n)) =
  mkArk 4 (length w) (k + n + 1) (ex_rows_a k n) (ex_rows_b k n) (ex_rows_c k n).
Proof.
  unfold ark_to_matrices. cbn [as_inst as_wit as_cons length]. rewrite ex_cons_length.
  unfold ex_cons. rewrite !map_app, !map_map, !map_repeat'. unfold ex_rows_a, ex_rows_b, ex_rows_c, ark_row, ex_wit_con, ex_mul_con.
  cbn [map fst snd filter]. rewrite !is_zero_1. cbn [negb map fst snd ark_column].
  rewrite (map_const_seq _ [(1 : F, 1%nat); (1, 2%nat)]) by reflexivity.
  rewrite (map_const_seq _ [(1 : F, 0%nat)]) by reflexivity.
  rewrite !seq_length. reflexivity.
Qed.

(** *** flattened matrices *)
Lemma ark_flatten_length (m : list (list (F * nat))) : length (ark_flatten m) = fold_right (fun r acc => (length r + acc)%nat) 0%nat m.
Proof.
  unfold ark_flatten. generalize 0%nat at 1. induction m as [|r m IH]; intros s; auto.
  cbn [length seq combine flat_map fold_right]. rewrite app_length, map_length, IH. reflexivity.
Qed.
Lemma ark_flatten_in (m : list (list (F * nat))) r c x :
  In (r, c, x) (ark_flatten m) -> (r < length m)%nat /\ exists row, In row m /\ In (x, c) row.
Proof.
  unfold ark_flatten. intros Hin. apply in_flat_map in Hin. destruct Hin as [[i row] [Hi Hr]].
  cbn [fst snd] in Hr. apply in_map_iff in Hr. destruct Hr as [[y d] [E Hy]]. cbn in E. injection E as -> -> ->.
  split.
  - apply in_combine_l in Hi. apply in_seq in Hi. lia.
  - exists row. split; auto. eapply in_combine_r; eauto.
Qed.
Lemma rows_sum_app (m1 m2 : list (list (F * nat))) :
  fold_right (fun r acc => (length r + acc)%nat) 0%nat (m1 ++ m2) =
  (fold_right (fun r acc => (length r + acc)%nat) 0%nat m1 + fold_right (fun r acc => (length r + acc)%nat) 0%nat m2)%nat.
Proof. induction m1; simpl; lia. Qed.
Lemma rows_sum_repeat (r : list (F * nat)) n :
  fold_right (fun r acc => (length r + acc)%nat) 0%nat (repeat r n) = (n * length r)%nat.
Proof. induction n; simpl; lia. Qed.
Lemma rows_sum_map {A} (f : A -> list (F * nat)) k (l : list A) : (forall x, length (f x) = k) ->
  fold_right (fun r acc => (length r + acc)%nat) 0%nat (map f l) = (length l * k)%nat.
Proof. intros E. induction l; simpl; rewrite ?E; lia. Qed.
Lemma ex_nnz k n :
  length (ark_flatten (ex_rows_a k n)) = (2 * k + n)%nat /\ length (ark_flatten (ex_rows_b k n)) = (k + n)%nat /\
  length (ark_flatten (ex_rows_c k n)) = (2 * k + n)%nat.
Proof.
  rewrite !ark_flatten_length. unfold ex_rows_a, ex_rows_b, ex_rows_c.
  rewrite !rows_sum_app, !rows_sum_repeat, (rows_sum_map _ 2) by reflexivity. rewrite seq_length. cbn. lia.
Qed.
Lemma ex_in_a k n row : In row (ex_rows_a k n) -> forall x c, In (x, c) row -> (c < 4)%nat.
Proof.
  unfold ex_rows_a. intros Hin x c Hc.
  apply in_app_or in Hin. destruct Hin as [Hin|Hin]; [|apply in_app_or in Hin; destruct Hin as [Hin|[<-|[]]]; [|destruct Hc]].
  - apply repeat_spec in Hin. subst row. destruct Hc as [E|[E|[]]]; injection E as _ <-; lia.
  - apply repeat_spec in Hin. subst row. destruct Hc as [E|[]]; injection E as _ <-; lia.
Qed.
Lemma ex_in_b k n row : In row (ex_rows_b k n) -> forall x c, In (x, c) row -> (c < 4)%nat.
Proof.
  unfold ex_rows_b. intros Hin x c Hc.
  apply in_app_or in Hin. destruct Hin as [Hin|Hin]; [|apply in_app_or in Hin; destruct Hin as [Hin|[<-|[]]]; [|destruct Hc]].
  - apply repeat_spec in Hin. subst row. destruct Hc as [E|[]]; injection E as _ <-; lia.
  - apply repeat_spec in Hin. subst row. destruct Hc as [E|[]]; injection E as _ <-; lia.
Qed.
Lemma ex_in_c k n row : In row (ex_rows_c k n) -> forall x c, In (x, c) row -> (c < 4 + k)%nat.
Proof.
  unfold ex_rows_c. intros Hin x c Hc.
  apply in_app_or in Hin. destruct Hin as [Hin|Hin]; [|apply in_app_or in Hin; destruct Hin as [Hin|[<-|[]]]; [|destruct Hc]].
  - apply in_map_iff in Hin. destruct Hin as [i [<- Hi]]. apply in_seq in Hi.
    destruct Hc as [E|[E|[]]]; injection E as _ <-; lia.
  - apply repeat_spec in Hin. subst row. destruct Hc as [E|[]]; injection E as _ <-; lia.
Qed.

(** a row times a vector *)
Lemma row_value (z : nat -> F) k (row : list (F * nat)) : (forall x c, In (x, c) row -> (c < k)%nat) ->
  sumn k (fun c => fsum (map (fun xc => if (snd xc =? c)%nat then fst xc else 0) row) * z c)
  = fsum (map (fun xc => fst xc * z (snd xc)) row).
Proof.
  induction row as [|[x c] row IH]; intros Hk; cbn [map fsum].
  - apply sumn_0. intros. ring.
  - rewrite <- IH by (intros; eapply Hk; right; eauto).
    erewrite sumn_ext; [|intros i Hi; cbn [fst snd]; instantiate (1 := fun i => (if (c =? i)%nat then x else 0) * z i
       + fsum (map (fun xc => if (snd xc =? i)%nat then fst xc else 0) row) * z i); cbn beta; ring].
    rewrite sumn_add. f_equal. rewrite (sumn_single _ c).
    + rewrite Nat.eqb_refl. reflexivity.
    + eapply Hk. left. reflexivity.
    + intros i Hi Hn. destruct (Nat.eqb_spec c i); [congruence|ring].
Qed.
Lemma mat_vec_ark (m : list (list (F * nat))) k z r : (forall row, In row m -> forall x c, In (x, c) row -> (c < k)%nat) ->
  mat_vec (ark_flatten m) k z r = fsum (map (fun xc => fst xc * coef z (snd xc)) (nth r m [])).
Proof.
  intros Hk. unfold mat_vec.
  erewrite sumn_ext; [|intros c Hc; rewrite ark_flatten_at; unfold ark_at; reflexivity].
  apply (row_value (coef z)). destruct (Nat.ltb_spec r (length m)) as [Hr|Hr].
  - apply Hk. apply nth_In; auto.
  - rewrite nth_overflow by auto. intros x c [].
Qed.

(** *** the system *)
Definition ex_sys (k n : nat) : R1CS F :=
  let rows (l : list (nat * nat * F)) := map (fun e => fst (fst e)) l in
  let cols (l : list (nat * nat * F)) := map (fun e => snd (fst e)) l in
  let a := ark_flatten (ex_rows_a k n) in
  let b := ark_flatten (ex_rows_b k n) in
  let c := ark_flatten (ex_rows_c k n) in
  mkR1CS (rows a) (cols a) (map snd a) (rows b) (cols b) (map snd b) (rows c) (cols c) (map snd c)
         (k + n + 1) (4 + k) 3.
Lemma ex_r1cs_ok {E} a b nv nc :
  ex_r1cs (E:=E) a b nv nc = if (3 <=? nv)%nat && (1 <=? nc)%nat then Ok (ex_sys (nv - 3) (nc - 1)) else Panic.
Proof.
  unfold ex_r1cs. rewrite ex_generate_ok. destruct ((3 <=? nv)%nat && (1 <=? nc)%nat); [|reflexivity].
  cbn [unwrap obind]. rewrite ex_matrices, repeat_length. reflexivity.
Qed.
Lemma ex_sys_entries k n :
  entries_of (r_arows (ex_sys k n)) (r_acols (ex_sys k n)) (r_avals (ex_sys k n)) = ark_flatten (ex_rows_a k n) /\
  entries_of (r_brows (ex_sys k n)) (r_bcols (ex_sys k n)) (r_bvals (ex_sys k n)) = ark_flatten (ex_rows_b k n) /\
  entries_of (r_crows (ex_sys k n)) (r_ccols (ex_sys k n)) (r_cvals (ex_sys k n)) = ark_flatten (ex_rows_c k n).
Proof.
  unfold ex_sys. cbn [r_arows r_acols r_avals r_brows r_bcols r_bvals r_crows r_ccols r_cvals].
  rewrite !entries_of_split. auto.
Qed.
Lemma ex_rows_length k n : length (ex_rows_a k n) = (k + n + 1)%nat /\ length (ex_rows_b k n) = (k + n + 1)%nat /\
  length (ex_rows_c k n) = (k + n + 1)%nat.
Proof. unfold ex_rows_a, ex_rows_b, ex_rows_c. rewrite !app_length, !repeat_length, map_length, seq_length. cbn. lia. Qed.
Lemma ex_sys_shape k n : r1cs_shape (ex_sys k n).
Proof.
  unfold r1cs_shape. destruct (ex_sys_entries k n) as [-> [-> ->]]. destruct (ex_rows_length k n) as [LA [LB LC]].
  cbn [ex_sys r_nrows r_ncols].
  repeat split; (match goal with H : In _ _ |- _ => apply ark_flatten_in in H; destruct H as [H1 [row [H2 H3]]] end).
  - lia.
  - apply (ex_in_a _ _ _ H2) in H3. lia.
  - lia.
  - apply (ex_in_b _ _ _ H2) in H3. lia.
  - lia.
  - apply (ex_in_c _ _ _ H2) in H3. lia.
Qed.
Lemma ex_sys_nnz k n : length (r_arows (ex_sys k n)) = (2 * k + n)%nat /\ length (r_brows (ex_sys k n)) = (k + n)%nat /\
  length (r_crows (ex_sys k n)) = (2 * k + n)%nat.
Proof. unfold ex_sys. cbn [r_arows r_brows r_crows]. rewrite !map_length. apply ex_nnz. Qed.
Lemma ex_sys_lengths k n : r1_lengths (ex_sys k n).
Proof. unfold r1_lengths, ex_sys. cbn [r_arows r_acols r_avals r_brows r_bcols r_bvals r_crows r_ccols r_cvals]. rewrite !map_length. repeat split; auto. Qed.

Lemma nth_rows {A} (r1 : nat -> A) r2 r3 d k n i :
  nth i (map r1 (seq 0 k) ++ repeat r2 n ++ [r3]) d =
  if (i <? k)%nat then r1 i else if (i <? k + n)%nat then r2 else if (i =? k + n)%nat then r3 else d.
Proof.
  destruct (Nat.ltb_spec i k).
  - rewrite app_nth1 by (rewrite map_length, seq_length; auto). rewrite nth_map_seq by auto. reflexivity.
  - rewrite app_nth2 by (rewrite map_length, seq_length; auto). rewrite map_length, seq_length.
    destruct (Nat.ltb_spec i (k + n)).
    + rewrite app_nth1 by (rewrite repeat_length; lia). rewrite nth_indep with (d' := r2) by (rewrite repeat_length; lia). apply nth_repeat.
    + rewrite app_nth2 by (rewrite repeat_length; lia). rewrite repeat_length.
      destruct (Nat.eqb_spec i (k + n)) as [->|].
      * replace (k + n - k - n)%nat with 0%nat by lia. reflexivity.
      * rewrite nth_overflow by (cbn; lia). reflexivity.
Qed.
Lemma nth_rows_r {A} (r1 : A) r2 r3 d k n i :
  nth i (repeat r1 k ++ repeat r2 n ++ [r3]) d =
  if (i <? k)%nat then r1 else if (i <? k + n)%nat then r2 else if (i =? k + n)%nat then r3 else d.
Proof.
  replace (repeat r1 k) with (map (fun _ => r1) (seq 0 k)).
  - apply (nth_rows (fun _ => r1)).
  - rewrite (map_const_seq _ r1) by auto. now rewrite seq_length.
Qed.

Lemma ex_holds k n (a b c : F) w : length w = k ->
  let cs := ex_sys k n in
  r1cs_holds (entries_of (r_arows cs) (r_acols cs) (r_avals cs)) (entries_of (r_brows cs) (r_bcols cs) (r_bvals cs))
             (entries_of (r_crows cs) (r_ccols cs) (r_cvals cs)) (r_nrows cs) (r_ncols cs) (1 :: [a; b; c] ++ w)
  <-> (forall v, In v w -> v = a) /\ ((1 <= n)%nat -> a * b = c).
Proof.
  intros L. cbv zeta. destruct (ex_sys_entries k n) as [-> [-> ->]]. cbn [ex_sys r_nrows r_ncols].
  set (z := 1 :: [a; b; c] ++ w).
  assert (forall r, mat_vec (ark_flatten (ex_rows_a k n)) (4 + k) z r * mat_vec (ark_flatten (ex_rows_b k n)) (4 + k) z r
            = mat_vec (ark_flatten (ex_rows_c k n)) (4 + k) z r <->
          (if (r <? k)%nat then coef w r = a else if (r <? k + n)%nat then a * b = c else True)) as X.
  { intros r. rewrite !mat_vec_ark.
    - unfold ex_rows_a, ex_rows_b, ex_rows_c. rewrite !nth_rows_r.
      rewrite (nth_rows (fun i => [(1, 2%nat); (1, (4 + i)%nat)])).
      destruct (Nat.ltb_spec r k).
      + cbn [map fst snd fsum]. unfold z, coef. cbn [nth app Nat.add]. split; intros X.
        * transitivity ((1 * a + (1 * b + 0)) * (1 * 1 + 0) - b).
          -- rewrite X. ring.
          -- ring.
        * rewrite X. ring.
      + destruct (Nat.ltb_spec r (k + n)).
        * cbn [map fst snd fsum]. unfold z, coef. cbn [nth app]. split; intros X.
          -- transitivity ((1 * a + 0) * (1 * b + 0)); [ring|]. rewrite X. ring.
          -- rewrite <- X. ring.
        * destruct (r =? k + n)%nat; cbn [map fsum]; split; auto; intros; ring.
    - intros row Hr x y Hy. eapply ex_in_c; eauto.
    - intros row Hr x y Hy. apply (ex_in_b _ _ _ Hr) in Hy. lia.
    - intros row Hr x y Hy. apply (ex_in_a _ _ _ Hr) in Hy. lia. }
  unfold r1cs_holds. split.
  - intros Hh. split.
    + intros v Hv. apply In_nth with (d := 0) in Hv. destruct Hv as [i [Hi <-]].
      specialize (Hh i ltac:(lia)). apply X in Hh. destruct (Nat.ltb_spec i k); [exact Hh|lia].
    + intros Hn. specialize (Hh k ltac:(lia)). apply X in Hh.
      destruct (Nat.ltb_spec k k); [lia|]. destruct (Nat.ltb_spec k (k + n)); [exact Hh|lia].
  - intros [Hw Hm] r Hr. apply X. destruct (Nat.ltb_spec r k).
    + apply Hw. apply nth_In. lia.
    + destruct (Nat.ltb_spec r (k + n)); auto. apply Hm. lia.
Qed.
End Circuit.

(** ** The runs *)
Section Runs.
Context {F G1 G2 GT : Type} {fo : FieldOps F} {fl : FieldLaws F} {pfo : PrimeFieldOps F} {pfl : PrimeFieldLaws F}
        {po : PairingOps F G1 G2 GT} {pl : PairingLaws F G1 G2 GT}.
Add Field Fex2 : F_th.
Variable H : list (item F G1) -> F.
Variable gamma : F.

(** *** R1CS *)
Lemma ex_r1_size (k n : nat) : r1cs_get_size (E:=error) (ex_sys (F:=F) k n) = Ok (r1_size_of (ex_sys k n)) /\
  r1_get_max_degree (r1_size_of (ex_sys (F:=F) k n)) = if (Z.of_nat (n + k) * 5 <? 0)%Z then None else Some (11 * k + 5 * n + 7)%nat.
Proof.
  split; [apply r1_get_size_ok; apply ex_sys_lengths|].
  unfold r1_get_max_degree, r1_size_of. cbn [rs_nrows rs_ncols rs_adensity rs_bdensity rs_cdensity].
  destruct (ex_sys_nnz (F:=F) k n) as [-> [-> ->]]. cbn [ex_sys r_nrows r_ncols].
  destruct (Z.ltb_spec (Z.of_nat (n + k) * 5) 0); [lia|].
  match goal with |- context[(?a <? 0)%Z] => destruct (Z.ltb_spec a 0); [lia|] end. f_equal. lia.
Qed.
Lemma ex_r1_max k n : r1_get_max_degree (r1_size_of (ex_sys (F:=F) k n)) = Some (11 * k + 5 * n + 7)%nat.
Proof. rewrite (proj2 (ex_r1_size k n)). destruct (Z.ltb_spec (Z.of_nat (n + k) * 5) 0); [lia|reflexivity]. Qed.
Lemma ex_r1_sat (a b : F) k n : r1cs_satisfy (E:=error) (ex_sys k n) [a; b; a * b] (repeat a k) = Ok true /\
  r1cs_holds (entries_of (r_arows (ex_sys k n)) (r_acols (ex_sys k n)) (r_avals (ex_sys k n)))
     (entries_of (r_brows (ex_sys k n)) (r_bcols (ex_sys k n)) (r_bvals (ex_sys k n)))
     (entries_of (r_crows (ex_sys k n)) (r_ccols (ex_sys k n)) (r_cvals (ex_sys k n)))
     (r_nrows (ex_sys (F:=F) k n)) (r_ncols (ex_sys (F:=F) k n)) (1 :: [a; b; a * b] ++ repeat a k).
Proof.
  pose proof (proj2 (ex_holds k n a b (a * b) (repeat a k) (repeat_length _ _))
    (conj (fun v Hv => repeat_spec _ _ _ Hv) (fun _ => eq_refl))) as X. cbv zeta in X.
  split; [|exact X].
  destruct (r1cs_satisfy_ok (E:=error) (ex_sys k n) [a; b; a * b] (repeat a k)) as [v [E Hv]].
  - cbn [ex_sys r_nrows]. lia.
  - rewrite repeat_length. cbn [ex_sys r_ncols length]. lia.
  - apply ex_sys_shape.
  - rewrite E. f_equal. apply Hv. exact X.
Qed.

Lemma run_r1cs_ok (a b : F) nv nc dr :
  ex_g dr <> v0 -> ex_h dr <> v0 -> gamma <> 0 -> (5 <= nv)%nat -> (1 <= nc <= 2 * nv - 4)%nat ->
  run_r1cs_example (GT:=GT) H gamma a b nv nc dr = Ok tt \/
  exists cs pp pk vk, ex_r1cs (E:=error) a b nv nc = Ok cs /\
    setup (11 * (nv - 3) + 5 * (nc - 1) + 17) (ex_beta dr) (ex_g dr) (ex_h dr) = Ok pp /\
    r1_index gamma pp cs = Ok (pk, vk) /\
    r1_unlucky H gamma pk [a; b; a * b] (repeat a (nv - 3)) (ex_d dr 0) (ex_d dr 1) (ex_d dr 2).
Proof.
  intros Hg Hh Hga Hv Hc. set (k := (nv - 3)%nat). set (n := (nc - 1)%nat).
  assert (Ex : ex_r1cs (E:=error) a b nv nc = Ok (ex_sys k n)).
  { rewrite ex_r1cs_ok. destruct (Nat.leb_spec 3 nv); [|lia]. destruct (Nat.leb_spec 1 nc); [|lia]. reflexivity. }
  destruct (setup (G1:=G1) (G2:=G2) (11 * k + 5 * n + 17) (ex_beta dr) (ex_g dr) (ex_h dr)) as [pp| |] eqn:Es.
  2, 3: rewrite setup_ok in Es by lia; discriminate.
  destruct (ex_sys_nnz (F:=F) k n) as [NA [NB NC]].
  assert (Nz : r1_nnz (ex_sys (F:=F) k n) = (5 * k + 3 * n)%nat) by (unfold r1_nnz; lia).
  destruct (r1_index_ok gamma _ _ _ _ pp (ex_sys k n) Es) as [pk [vk Ei]].
  - apply ex_sys_lengths.
  - rewrite Nz. unfold k. lia.
  - rewrite Nz. cbn [ex_sys r_nrows r_ncols]. lia.
  - rewrite Nz. cbn [ex_sys r_nrows r_ncols]. lia.
  - rewrite Nz. lia.
  - destruct (r1_complete H gamma _ _ _ _ pp (ex_sys k n) pk vk [a; b; a * b] (repeat a k) (ex_d dr 0) (ex_d dr 1) (ex_d dr 2) Hg Hh Hga Es Ei)
      as [[pf [Ep Ev]]|Hu]; auto.
    all: try (cbn [ex_sys r_nrows r_ncols r_input_size length]; rewrite ?repeat_length, ?Nz; unfold k, n; lia).
    + apply ex_sys_shape.
    + apply ex_r1_sat.
    + left. unfold run_r1cs_example. rewrite Ex. cbn [obind]. fold k.
      rewrite (proj1 (ex_r1_sat a b k n)). cbn [obind]. rewrite (proj1 (ex_r1_size k n)). cbn [obind].
      rewrite ex_r1_max. cbn [unwrap_opt obind]. unfold r1_setup.
      replace (11 * k + 5 * n + 7 + 10)%nat with (11 * k + 5 * n + 17)%nat by lia.
      rewrite Es. cbn [unwrap obind]. rewrite Ei. cbn [unwrap obind]. rewrite Ep. cbn [obind]. apply Ev.
    + right. exists (ex_sys k n), pp, pk, vk. auto.
Qed.

Lemma run_r1cs_small (a b : F) nv nc dr : (nv <= 4)%nat \/ (nc < 1)%nat -> run_r1cs_example (GT:=GT) H gamma a b nv nc dr = Panic.
Proof.
  intros Hs. unfold run_r1cs_example. rewrite ex_r1cs_ok.
  destruct (Nat.leb_spec 3 nv); [|reflexivity]. destruct (Nat.leb_spec 1 nc); [|reflexivity]. cbn [andb obind].
  set (k := (nv - 3)%nat). set (n := (nc - 1)%nat).
  rewrite (proj1 (ex_r1_sat a b k n)). cbn [obind]. rewrite (proj1 (ex_r1_size k n)). cbn [obind].
  rewrite ex_r1_max. cbn [unwrap_opt obind]. unfold r1_setup.
  destruct (setup (G1:=G1) (G2:=G2) _ (ex_beta dr) (ex_g dr) (ex_h dr)) as [pp| |] eqn:Es; cbn [unwrap obind]; auto.
  destruct (r1_index gamma pp (ex_sys k n)) as [[pk vk]| |] eqn:Ei; cbn [unwrap obind]; auto.
  rewrite (r1_sparse_panic H gamma _ _ _ _ _ _ _ _ _ _ _ _ _ Es Ei); auto.
  destruct (ex_sys_nnz (F:=F) k n) as [NA [NB NC]]. unfold r1_nnz. rewrite NA, NB, NC. cbn [ex_sys r_nrows]. unfold k. lia.
Qed.

(** *** Fibonacci *)
Lemma ex_fields_ok {E} n : forall s, (Z.of_nat (s + n) <= modulus (F := F))%Z ->
  ex_fields (E:=E) s n = Ok (map (fun i => from_Z (Z.of_nat i)) (seq s n)).
Proof.
  induction n as [|n IH]; intros s Hm; auto. cbn [ex_fields seq map]. unfold to_field.
  destruct (Z.ltb_spec (Z.of_nat s) (modulus (F := F))); [|lia]. cbn [obind]. rewrite IH by lia. reflexivity.
Qed.
Lemma ex_fib_loop_ok (t : list F) : forall w p q, ex_fib_loop t (w ++ [p; q]) = (w ++ [p; q]) ++ fib_walk p q t.
Proof.
  induction t as [|ti t IH]; intros w p q; cbn [ex_fib_loop fib_walk].
  - now rewrite app_nil_r.
  - rewrite app_length. cbn [length].
    rewrite !app_nth2 by lia. replace (length w + 2 - 2 - length w)%nat with 0%nat by lia.
    replace (length w + 2 - 1 - length w)%nat with 1%nat by lia. cbn [nth].
    replace ((w ++ [p; q]) ++ [p + q * ti]) with ((w ++ [p]) ++ [q; p + q * ti]) by (rewrite <- !app_assoc; reflexivity).
    rewrite IH, <- !app_assoc. reflexivity.
Qed.
Lemma fib_walk_length (t : list F) : forall a b, length (fib_walk a b t) = length t.
Proof. induction t; intros; cbn; auto. Qed.
Definition ex_ts (n : nat) : list F := map (fun i => from_Z (Z.of_nat i)) (seq 0 n).
Lemma run_fibonacci_ok n dr :
  ex_g dr <> v0 -> ex_h dr <> v0 -> (2 <= n)%nat -> (Z.of_nat n <= modulus (F := F))%Z ->
  let ts := ex_ts n in let walk := fib_walk 1 1 ts in let x := mkFibIns 1 1 (last walk 0) in
  run_fibonacci_example (GT:=GT) H n dr = Ok tt \/
  exists pp pk vk, setup (n + 2) (ex_beta dr) (ex_g dr) (ex_h dr) = Ok pp /\ fb_index pp (mkFibCS n ts) = Ok (pk, vk) /\
    ((fb_prove H pk x walk (ex_d dr 0) (ex_d dr 1) (ex_d dr 2) = Panic /\
      fb_unlucky H pk x walk (ex_d dr 0) (ex_d dr 1) (ex_d dr 2)) \/
     fb_omega_zero H pk x walk (ex_d dr 0) (ex_d dr 1) (ex_d dr 2)).
Proof.
  intros Hg Hh Hn Hm. cbv zeta. set (ts := ex_ts n). set (walk := fib_walk 1 1 ts). set (x := mkFibIns 1 1 (last walk 0)).
  assert (Lt : length ts = n) by (unfold ts, ex_ts; now rewrite map_length, seq_length).
  assert (Lw : length walk = n) by (unfold walk; now rewrite fib_walk_length).
  destruct (setup (G1:=G1) (G2:=G2) (n + 2) (ex_beta dr) (ex_g dr) (ex_h dr)) as [pp| |] eqn:Es.
  2, 3: rewrite setup_ok in Es by lia; discriminate.
  destruct (fb_index_ok _ _ _ _ pp (mkFibCS n ts) Es) as [pk [vk Ei]]; cbn [fib_n fib_t]; auto; try lia.
  destruct (fb_complete H _ _ _ _ pp (mkFibCS n ts) pk vk 1 1 (last walk 0) walk (ex_d dr 0) (ex_d dr 1) (ex_d dr 2) Hg Hh Es Ei)
    as [[pf [Ep Ev]]|Hu]; cbn [fib_n fib_t]; auto; try lia.
  - split; reflexivity.
  - left. unfold run_fibonacci_example.
    replace (to_field (E:=error) 1) with (Ok (E:=error) (1 : F)).
    2: { unfold to_field. pose proof (modulus_gt1 (F := F)). destruct (Z.ltb_spec 1 (modulus (F := F))); [|lia]. now rewrite from_Z_1. }
    cbn [obind]. rewrite ex_fields_ok by (cbn; lia). cbn [obind]. fold (ex_ts n). fold ts.
    pose proof (ex_fib_loop_ok ts [] 1 1) as Ew. cbn [app] in Ew. rewrite Ew. cbn [skipn]. fold walk.
    replace (last (1 :: 1 :: walk) 0) with (last walk 0) by (destruct walk; [cbn in Lw; lia|reflexivity]).
    fold x. unfold fb_setup, fb_get_max_degree. rewrite Es. cbn [obind]. rewrite Ei. cbn [obind].
    fold x in Ep, Ev. rewrite Ep. cbn [obind]. apply Ev.
  - right. exists pp, pk, vk. auto.
Qed.

(** *** Range check *)
Lemma run_range_fails n range w dr : (1 <= n)%nat -> ex_d dr 4 <> 0 -> (forall l, H l <> 0) ->
  run_range_check_example (GT:=GT) H n range w dr <> Ok tt.
Proof.
  intros Hn Hd HH. unfold run_range_check_example, rc_setup.
  destruct (setup (G1:=G1) (G2:=G2) _ (ex_beta dr) (ex_g dr) (ex_h dr)) as [pp| |] eqn:Es; cbn [obind]; try discriminate.
  destruct (rc_index pp (mkRCCS n range)) as [[pk vk]| |] eqn:Ei; cbn [obind]; try discriminate.
  destruct (rc_prove H pk w (ex_d dr 0) (ex_d dr 1) (ex_d dr 2) (ex_d dr 3) (ex_d dr 4) (ex_d dr 5)) as [pf| |] eqn:Ep; cbn [obind]; try discriminate.
  intros _. exact (c58_completeness_refuted H _ _ _ _ _ _ _ _ w _ _ _ _ _ _ Es Ei Hn Hd HH pf Ep).
Qed.

(** *** HPR *)
Lemma filter_length_le' {A} (f : A -> bool) l : (length (filter f l) <= length l)%nat.
Proof. induction l as [|y l IH]; simpl; [lia|]. destruct (f y); simpl; lia. Qed.
Lemma generate_facts {E} nr nc is sys cs x w :
  generate_random_hpr (E:=E) nr nc is sys = Ok (cs, x, w) -> (0 < nr)%nat -> (0 < nc)%nat ->
  hp_lengths cs /\ hpr_shape cs /\ length (h_arows cs) = ((nr + nc) * 2)%nat /\
  length (h_brows cs) = ((nr + nc) * 2)%nat /\ length (h_crows cs) = ((nr + nc) * 2)%nat.
Proof.
  intros Hgen Hr Hk. unfold generate_random_hpr in Hgen.
  destruct (Nat.eqb_spec nr 0); [lia|]. destruct (Nat.eqb_spec nc 0); [lia|]. cbn [orb] in Hgen.
  set (den := ((nr + nc) * 2)%nat) in *.
  assert (in_shape (entries_of (map (fun i => (dr_ar sys i mod nr)%nat) (seq 0 den)) (map (fun i => (dr_ac sys i mod nc)%nat) (seq 0 den)) (map (dr_av sys) (seq 0 den))) nr nc) as SA by (apply shape_mods; auto).
  assert (in_shape (entries_of (map (fun i => (dr_br sys i mod nr)%nat) (seq 0 den)) (map (fun i => (dr_bc sys i mod nc)%nat) (seq 0 den)) (map (dr_bv sys) (seq 0 den))) nr nc) as SB by (apply shape_mods; auto).
  assert (in_shape (entries_of (map (fun i => (dr_cr sys i mod nr)%nat) (seq 0 den)) (map (fun i => (dr_cc sys i mod nc)%nat) (seq 0 den)) (map (dr_cv sys) (seq 0 den))) nr nc) as SC by (apply shape_mods; auto).
  rewrite !sparse_mvp_ok in Hgen; auto.
  all: try (unfold hadamard_vector; rewrite ?map_length, ?combine_length, ?map_length, ?seq_length; lia).
  cbn [unwrap obind] in Hgen.
  match type of Hgen with context[filter _ (combine (seq 0 (length ?D)) ?D)] => set (dv := D) in * end.
  set (nz := filter _ _) in Hgen.
  assert (length dv = nr) as Ldv.
  { unfold dv. rewrite map_length, !combine_length, !seq_length, ?combine_length, ?map_length, ?seq_length. lia. }
  assert (length nz <= nr)%nat as Lnz.
  { unfold nz. etransitivity; [apply filter_length_le'|]. rewrite combine_length, seq_length. lia. }
  assert (Hnz : forall i a, In (i, a) nz -> (i < nr)%nat).
  { intros i a Hin. unfold nz in Hin. apply filter_In in Hin. destruct Hin as [Hin _]. apply in_combine_l in Hin.
    apply in_seq in Hin. lia. }
  injection Hgen as <- _ _. unfold hp_lengths, hpr_shape.
  cbn [h_nrows h_ncols h_drows h_dvals h_arows h_acols h_avals h_brows h_bcols h_bvals h_crows h_ccols h_cvals].
  rewrite !map_length, !seq_length.
  repeat split; auto; try (eapply SA; eassumption); try (eapply SB; eassumption); try (eapply SC; eassumption).
  intros i a Hin. apply in_combine_l in Hin. apply in_map_iff in Hin. destruct Hin as [[j b] [<- Hin]]. eapply Hnz; eauto.
Qed.
Lemma run_hpr_ok scale sys dr :
  ex_g dr <> v0 -> ex_h dr <> v0 -> gamma <> 0 -> (1 <= scale)%nat -> ex_d dr 0 <> 0 ->
  run_hpr_example (GT:=GT) H gamma scale sys dr = Ok tt \/
  exists cs x w size pp pk vk, generate_random_hpr (E:=error) scale scale (scale / 5) sys = Ok (cs, x, w) /\
    hpr_get_size (E:=error) cs = Ok size /\ setup (hp_get_max_degree size + 10) (ex_beta dr) (ex_g dr) (ex_h dr) = Ok pp /\
    hp_index gamma pp cs = Ok (pk, vk) /\
    hp_unlucky H gamma pk x w (ex_d dr 0) (ex_d dr 1) (ex_d dr 2).
Proof.
  intros Hg Hh Hga Hs Hd.
  destruct (generate_random_hpr_ok (E:=error) scale scale (scale / 5) sys) as [cs [x [wa [wb [wc [Egen [Lx [Hsat [_ [Nr [Nc [Ni [La [Lb Lc]]]]]]]]]]]]]]; [lia|lia|].
  assert (Hdiv : (scale / 5 <= scale)%nat) by (apply Nat.div_le_upper_bound; lia).
  specialize (Hsat Hdiv).
  destruct (generate_facts _ _ _ _ _ _ _ Egen) as [Hl [Hshape [NA [NB NC]]]]; [lia|lia|].
  pose proof (hp_get_size_ok (E:=error) cs Hl) as Esz.
  destruct (setup (G1:=G1) (G2:=G2) (hp_get_max_degree (hp_size_of cs) + 10) (ex_beta dr) (ex_g dr) (ex_h dr)) as [pp| |] eqn:Es.
  2, 3: rewrite setup_ok in Es by lia; discriminate.
  assert (Ld : (length (h_drows cs) <= scale)%nat) by (destruct Hl as [_ [_ [_ [_ [_ [_ [_ Hl]]]]]]]; lia).
  assert (Nz : hp_nnz cs = (12 * scale + length (h_drows cs))%nat) by (unfold hp_nnz; lia).
  assert (Ncl : hp_claimed cs = (12 * scale + length (h_drows cs))%nat) by (unfold hp_claimed; lia).
  assert (Hmax : hp_get_max_degree (hp_size_of cs) = (5 * h_ncols cs + 2 * hp_claimed cs + 2)%nat).
  { unfold hp_get_max_degree, hp_size_of, hp_claimed. cbn [hs_ncols hs_adensity hs_bdensity hs_cdensity hs_ddensity]. lia. }
  destruct (hp_index_ok gamma _ _ _ _ pp cs Es Hl) as [pk [vk Ei]]; [lia|lia|].
  destruct (hp_complete H gamma _ _ _ _ pp cs pk vk x wa wb wc (ex_d dr 0) (ex_d dr 1) (ex_d dr 2) Hg Hh Hga Es Ei)
    as [[pf [Ep Ev]]|Hu]; auto; try lia.
  - destruct (hpr_satisfy_ok (E:=error) cs x wa wb wc) as [v [Ev Hv]]; auto; try lia.
    rewrite Hsat in Ev. injection Ev as <-. apply Hv. reflexivity.
  - left. unfold run_hpr_example. rewrite Egen. cbn [obind fst snd]. rewrite Hsat. cbn [obind]. rewrite Esz. cbn [obind].
    unfold hp_setup. rewrite Es. cbn [unwrap obind]. rewrite Ei. cbn [unwrap obind]. rewrite Ep. cbn [obind]. apply Ev.
  - right. exists cs, x, (wa, wb, wc), (hp_size_of cs), pp, pk, vk. auto 10.
Qed.
Lemma run_hpr_zero sys dr : run_hpr_example (GT:=GT) H gamma 0 sys dr = Panic.
Proof. reflexivity. Qed.

(** *** main *)
Lemma main_fails wit sys dr1 dr2 dr3 dr4 : ex_d dr1 4 <> 0 -> (forall l, H l <> 0) ->
  let r := ex_main (GT:=GT) H gamma wit sys dr1 dr2 dr3 dr4 in snd r = 0%nat /\ fst r <> Finished.
Proof.
  intros Hd HH. cbv zeta. unfold ex_main.
  pose proof (run_range_fails 5 10 wit dr1 ltac:(lia) Hd HH) as X.
  destruct (run_range_check_example H 5 10 wit dr1) as [[]|e|]; cbn [fst snd]; split; auto; try congruence; try discriminate.
Qed.
End Runs.

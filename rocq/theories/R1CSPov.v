(** R1CSPov.v: R1CS -> POV pairs and triples. *)
From Verif Require Import Base Spec ProgSpec Tools MatProofs CS CSProofs POVProofs Circuit CircuitProofs Build CircuitPOV CircuitTop R1CSCirc R1CSCircProofs R1CSCircTop.
From Coq Require Import Permutation.
Local Open Scope F_scope.

Section RV.
Context {F : Type} {fo : FieldOps F} {fl : FieldLaws F}.
Add Field Frv : F_th.
Implicit Types (c : circ F) (s : R1CS F).

(** *** no variable has a value before evaluation *)
Definition unset c := forall v, In v (c_vars c) -> v_val v = None.
Definition keeps {A} (m : M (F:=F) A) := forall c, unset c -> unset (fst (m c)).
Lemma keeps_bind {A B} (m : M (F:=F) A) (f : A -> M (F:=F) B) : keeps m -> (forall a, keeps (f a)) -> keeps (bind m f).
Proof. intros Hm Hf c Hc. unfold bind. specialize (Hm c Hc). destruct (m c) as [c' [a|e|]]; cbn in *; auto. now apply Hf. Qed.
Lemma keeps_unwrap {A} (m : M (F:=F) A) : keeps m -> keeps (unwrapM m).
Proof. intros Hm c Hc. unfold unwrapM. specialize (Hm c Hc). destruct (m c) as [c' [a|e|]]; cbn in *; auto. Qed.
Lemma keeps_ret {A} (a : A) : keeps (ret a). Proof. intros c H. exact H. Qed.
Lemma keeps_panic {A} : keeps (@panic F A). Proof. intros c H. exact H. Qed.
Lemma keeps_gets {A} (f : circ F -> A) : keeps (gets f). Proof. intros c H. exact H. Qed.
Lemma keeps_query {A} (f : circ F -> outcome cerr A) : keeps (query f). Proof. intros c H. exact H. Qed.
Lemma keeps_modify f : (forall c, c_vars (f c) = c_vars c) -> keeps (modify f).
Proof. intros Hf c H v. cbn. rewrite Hf. apply H. Qed.
Lemma keeps_newvar : keeps add_new_variable.
Proof. intros c H v. cbn. rewrite in_app_iff. intros [Hv|[<-|[]]]; auto. Qed.
Lemma In_upd {A} (l : list A) i f x : In x (upd l i f) -> In x l \/ exists y, In y l /\ x = f y.
Proof.
  revert i; induction l as [|y l IH]; intros [|i]; cbn; auto.
  - intros [<-|H]; eauto.
  - intros [<-|H]; auto. destruct (IH i H) as [?|[z [? ?]]]; eauto.
Qed.
Lemma keeps_with i f : (forall v, v_val v = None -> v_val (fst (f v)) = None) -> keeps (with_var i f).
Proof.
  intros Hf c Hc. unfold with_var. destruct (nth_error (c_vars c) i) as [v|] eqn:E; [|exact Hc].
  pose proof (Hf v) as Hv. destruct (f v) as [v' r]. cbn in *. intros u Hu. cbn in Hu. apply In_upd in Hu. destruct Hu as [Hu|[y [_ ->]]]; auto.
  apply Hv. apply Hc. now apply nth_error_In in E.
Qed.
Lemma keeps_push i w : keeps (with_var i (v_push_in w)).
Proof. apply keeps_with. auto. Qed.
Lemma keeps_setout i w : keeps (with_var i (v_set_out w)).
Proof. apply keeps_with. intros v. unfold v_set_out. destruct (v_out v); auto. Qed.
Lemma keeps_fold {A B} (f : B -> A -> M (F:=F) B) l : (forall b a, keeps (f b a)) -> forall b, keeps (foldM f l b).
Proof. intros H. induction l as [|x l IH]; intros b; cbn; [apply keeps_ret|]. apply keeps_bind; auto. Qed.
Lemma keeps_map {A B} (f : A -> M (F:=F) B) l : (forall a, keeps (f a)) -> keeps (mapM f l).
Proof.
  intros H. induction l as [|x l IH]; cbn; [apply keeps_ret|]. apply keeps_bind; auto. intros a. apply keeps_bind; auto. intros; apply keeps_ret.
Qed.
Lemma keeps_if {A} (b : bool) (m m' : M (F:=F) A) : keeps m -> keeps m' -> keeps (if b then m else m').
Proof. destruct b; auto. Qed.
Lemma keeps_input : keeps add_global_input_variable.
Proof.
  apply keeps_bind; [apply keeps_gets|]. intros []; [|intros c H; exact H]. apply keeps_bind; [apply keeps_newvar|]. intros r.
  apply keeps_bind; [now apply keeps_modify|]. intros; apply keeps_ret.
Qed.
Lemma keeps_add a b : keeps (add_vars a b).
Proof.
  unfold add_vars. destruct (sort2 a b) as [x y]. apply keeps_bind; [apply keeps_gets|]. intros [v|]; [apply keeps_ret|].
  apply keeps_bind; [apply keeps_newvar|]. intros r. apply keeps_bind.
  - apply keeps_unwrap. apply keeps_bind; [now apply keeps_modify|]. intros _. apply keeps_bind; [apply keeps_gets|]. intros k.
    apply keeps_bind; [apply keeps_push|]. intros _. apply keeps_bind; [apply keeps_push|]. intros _. apply keeps_setout.
  - intros _. apply keeps_bind; [now apply keeps_modify|]. intros; apply keeps_ret.
Qed.
Lemma keeps_mul a b : keeps (mul_vars a b).
Proof.
  unfold mul_vars. destruct (sort2 a b) as [x y]. apply keeps_bind; [apply keeps_gets|]. intros [v|]; [apply keeps_ret|].
  apply keeps_bind; [apply keeps_newvar|]. intros r. apply keeps_bind.
  - apply keeps_unwrap. apply keeps_bind; [now apply keeps_modify|]. intros _. apply keeps_bind; [apply keeps_gets|]. intros k.
    apply keeps_bind; [apply keeps_push|]. intros _. apply keeps_bind; [apply keeps_push|]. intros _. apply keeps_setout.
  - intros _. apply keeps_bind; [now apply keeps_modify|]. intros; apply keeps_ret.
Qed.
Lemma keeps_const x : keeps (const_var x).
Proof.
  unfold const_var. apply keeps_bind; [apply keeps_gets|]. intros [v|]; [apply keeps_ret|].
  apply keeps_bind; [apply keeps_newvar|]. intros r. apply keeps_bind.
  - apply keeps_unwrap. apply keeps_bind; [now apply keeps_modify|]. intros _. apply keeps_bind; [apply keeps_gets|]. intros k. apply keeps_setout.
  - intros _. apply keeps_bind; [now apply keeps_modify|]. intros; apply keeps_ret.
Qed.
Lemma keeps_complete : keeps mark_as_complete.
Proof.
  intros c H. unfold mark_as_complete. destruct (c_nin c =? 0)%nat; auto. destruct (scan_vars 0 (c_vars c) (c_outs c)) as [outs [[]|e|]]; auto.
  destruct (is_complete (set_outs c outs)); auto.
Qed.
Lemma keeps_pub i : keeps (mark_variable_as_public i).
Proof.
  apply keeps_bind; [apply keeps_query|]. intros v. destruct (v_out v); [now apply keeps_modify|]. destruct (first_in v); [now apply keeps_modify|apply keeps_panic].
Qed.
Lemma keeps_eq a b : keeps (assert_equal a b).
Proof. unfold assert_equal. destruct (a =? b)%nat; [intros c H; exact H|now apply keeps_modify]. Qed.
Lemma keeps_conv ord s : keeps (r1cs_to_circuit ord s).
Proof.
  unfold r1cs_to_circuit. destruct (r_ncols s =? 0)%nat; [apply keeps_panic|].
  apply keeps_bind; [apply keeps_map; intros; apply keeps_unwrap, keeps_input|]. intros inputs.
  apply keeps_bind; [apply keeps_const|]. intros zero.
  apply keeps_bind; [apply keeps_map; intros; apply keeps_const|]. intros cv.
  apply keeps_bind.
  { apply keeps_fold. intros rows g. unfold mul_group. apply keeps_bind; [|intros; apply keeps_ret]. apply keeps_fold.
    intros [cache rws] [[r ci] t]. unfold mul_item. apply keeps_bind.
    - destruct (is_zero (fst (fst g))); [apply keeps_ret|]. destruct (0 <? ci)%nat; [|apply keeps_ret].
      destruct (is_one (fst (fst g))); [apply keeps_bind; [apply keeps_query|intros; apply keeps_ret]|].
      destruct (assoc_nat (ci - 1) cache); [apply keeps_ret|]. apply keeps_bind; [apply keeps_query|]. intros x.
      apply keeps_bind; [apply keeps_mul|intros; apply keeps_ret].
    - intros cv'. apply keeps_bind; [|intros; apply keeps_ret]. destruct rws as [[a b] d]. unfold push_row.
      match goal with |- keeps (if ?b then _ else _) => destruct b end; [apply keeps_ret|apply keeps_panic]. }
  intros [[ra rb] rc].
  assert (forall l, keeps (mapM (sum_row (F:=F) zero) l)) as HS.
  { intros l. apply keeps_map. intros [|x row]; [apply keeps_ret|]. apply keeps_fold. intros; apply keeps_add. }
  apply keeps_bind; [apply HS|]. intros sa. apply keeps_bind; [apply HS|]. intros sb. apply keeps_bind; [apply HS|]. intros sc.
  apply keeps_bind.
  { apply keeps_map. intros [[a b] d]. apply keeps_bind; [apply keeps_mul|]. intros m. apply keeps_bind; [apply keeps_add|]. intros x.
    apply keeps_unwrap, keeps_eq. }
  intros _. apply keeps_bind; [apply keeps_unwrap, keeps_complete|]. intros _.
  apply keeps_bind; [apply keeps_map; intros; apply keeps_unwrap, keeps_pub|]. intros; apply keeps_ret.
Qed.

(** *** assigning the public values *)
Lemma assign_pubs ws : forall c (k : nat) (xs : list F), length xs = length ws ->
  map (var_of_wire c) ws = map Some (seq k (length ws)) -> (k + length ws <= nv c)%nat ->
  (forall i v, (k <= i < k + length ws)%nat -> nth_error (c_vars c) i = Some v -> v_val v = None) ->
  exists vs, assign_wires (combine xs ws) c = (set_vars c vs, Ok tt) /\ same_shape (c_vars c) vs /\
    (forall i v, (i < k)%nat -> nth_error (c_vars c) i = Some v -> nth_error vs i = Some v) /\
    (forall i, (i < length ws)%nat -> exists v, nth_error vs (k + i) = Some v /\ v_val v = Some (coef xs i)).
Proof.
  induction ws as [|w ws IH]; intros c k xs HL HM HN HU.
  - destruct xs; [|discriminate]. exists (c_vars c). rewrite set_vars_id. split; [reflexivity|]. split; [reflexivity|]. split; auto. cbn. intros; lia.
  - destruct xs as [|x xs]; [discriminate|]. cbn [length seq map] in *. injection HM as Hw HM.
    cbn [combine assign_wires]. unfold bind at 1, query. rewrite Hw. cbn [unwrap_opt].
    destruct (nth_error_ex _ (c_vars c) k) as [v Hv]; [unfold nv in HN; lia|].
    pose proof (HU k v ltac:(lia) Hv) as Hnone.
    set (v' := mkVar (v_in v) (v_out v) (Some x)). set (c1 := set_vars c (upd (c_vars c) k (fun _ => v'))).
    assert (with_var k (v_assign_no_overwrite x) c = (c1, Ok tt)) as E.
    { unfold with_var. rewrite Hv. unfold v_assign_no_overwrite. rewrite Hnone. reflexivity. }
    rewrite (bind_eq _ _ _ _ _ E).
    assert (S1 : same_shape (c_vars c) (c_vars c1)) by (red; cbn; now apply (skel_upd _ _ _ v)).
    destruct (IH c1 (S k) xs ltac:(lia)) as [vs [E2 [S2 [B2 V2]]]].
    + rewrite <- HM. apply map_ext. intros w'. apply var_of_wire_vals.
    + unfold nv in *. cbn. rewrite upd_length. lia.
    + intros i u Hi Hu. cbn in Hu. rewrite nth_error_upd in Hu. destruct (Nat.eqb_spec i k); [lia|]. apply (HU i); auto. lia.
    + exists vs. split; [exact E2|]. split; [now apply (same_shape_trans _ (c_vars c1))|]. split.
      * intros i u Hi Hu. apply B2; [lia|]. cbn. rewrite nth_error_upd. destruct (Nat.eqb_spec i k); [lia|auto].
      * intros [|i] Hi.
        -- exists v'. split; auto. rewrite Nat.add_0_r. apply B2; [lia|]. cbn. rewrite nth_error_upd, Nat.eqb_refl, Hv. reflexivity.
        -- replace (k + S i)%nat with (S k + i)%nat by lia. apply V2. lia.
Qed.

Lemma firstn_seq m n : firstn m (seq 0 n) = seq 0 (Nat.min m n).
Proof.
  generalize 0%nat as b. revert n. induction m as [|m IH]; intros [|n] b; cbn; auto. now rewrite IH.
Qed.

Definition pub_count s := Nat.min (r_input_size s) (r_ncols s - 1).
Lemma conv_pub s c : converted s c -> map (var_of_wire c) (c_pub c) = map Some (seq 0 (pub_count s)) /\ length (c_pub c) = pub_count s.
Proof.
  intros H. pose proof (cv_pub _ _ H) as E. rewrite firstn_seq in E. split; auto.
  apply (f_equal (@length _)) in E. now rewrite !map_length, seq_length in E.
Qed.
Lemma pub_vals s c (val : nat -> F) : converted s c ->
  map (fun w => match var_of_wire c w with Some i => val i | None => 0 end) (c_pub c) = map val (seq 0 (pub_count s)).
Proof.
  intros H. transitivity (map (fun o => match o with Some i => val i | None => 0 end) (map (var_of_wire c) (c_pub c))); [now rewrite map_map|].
  rewrite (proj1 (conv_pub s c H)), map_map. reflexivity.
Qed.
Lemma map_seq_firstn (l : list F) n : (n <= length l)%nat -> map (fun i => coef l i) (seq 0 n) = firstn n l.
Proof.
  revert n. induction l as [|x l IH]; intros [|n] H; cbn in *; auto; try lia. f_equal. rewrite <- seq_shift, map_map. apply IH. lia.
Qed.

Definition pov_of c := mkPOV (get_consts c) (wires_of c) (mul_num c) (add_num c).
Definition pos_of c := map (wire_index c) (c_pub c).

Lemma triple_ok ord s c ins wit : r1cs_to_circuit ord s new_circ = (c, Ok tt) -> converted s c ->
  (length ins + length wit = r_ncols s - 1)%nat ->
  exists a b d, pov_triple ord s ins wit = Ok (pov_of c, (pos_of c, firstn (r_input_size s) (ins ++ wit)), (a, b, d)) /\
    exists r, pov_satisfy (E:=cerr) (pov_of c) (pos_of c, firstn (r_input_size s) (ins ++ wit)) (a, b, d) = Ok r /\
     (r = true <-> r1cs_holds (entA s) (entB s) (entC s) (r_nrows s) (r_ncols s) (1 :: ins ++ wit)).
Proof.
  intros E0 HC HL. pose proof (cv_inv _ _ HC) as I. pose proof (cv_wir _ _ HC) as W.
  assert (length (ins ++ wit) = c_nin c) as HLn by (rewrite app_length, (cv_nin _ _ HC); lia).
  destruct (evaluate_ok c (ins ++ wit) I (cv_com _ _ HC) HLn) as [vs [val [E [SS [V Con]]]]].
  assert (Inv (set_vars c vs)) as I1 by now apply inv_vals.
  assert (values (set_vars c vs) val) as V1.
  { intros i Hi. apply V. unfold nv in *. cbn in Hi. rewrite <- (map_length skel vs), SS, map_length in Hi. exact Hi. }
  pose proof (get_instance_ok _ val I1 V1) as EI. cbn [c_pub set_vars] in EI.
  rewrite (map_ext _ (fun w => match var_of_wire c w with Some i => val i | None => 0 end)) in EI
    by (intros w; now rewrite var_of_wire_vals).
  rewrite (pub_vals s c val HC) in EI.
  assert (Epub : map val (seq 0 (pub_count s)) = firstn (r_input_size s) (ins ++ wit)).
  { transitivity (firstn (pub_count s) (ins ++ wit)).
    - rewrite <- (map_seq_firstn (ins ++ wit)) by (unfold pub_count; rewrite HLn, (cv_nin _ _ HC); lia).
      apply map_ext_in. intros i Hi. apply in_seq in Hi. apply (con_in _ _ _ Con). rewrite (cv_nin _ _ HC). unfold pub_count in Hi. lia.
    - unfold pub_count. rewrite <- (cv_nin _ _ HC), <- HLn. destruct (Nat.le_ge_cases (r_input_size s) (length (ins ++ wit))).
      + f_equal. lia.
      + rewrite Nat.min_r by lia. now rewrite firstn_all, firstn_all2. }
  rewrite Epub in EI.
  pose proof (get_witness_ok _ val I1 V1) as EW.
  pose proof (honest_pov c (ins ++ wit) val I W Con) as HH. pose proof (wit_lengths c val) as WL.
  change (wit_of (set_vars c vs) val) with (wit_of c val) in *.
  destruct (wit_of c val) as [[a b] d]. destruct WL as [La [Lb Ld]].
  exists a, b, d. split.
  - unfold pov_triple. rewrite E0. cbn [obind]. unfold unwrapM. rewrite E. cbn [obind]. rewrite EI. cbn [unwrap obind]. rewrite EW. cbn [unwrap obind].
    rewrite (pov_from_vals c vs I W (cv_com _ _ HC) SS), (pov_from_ok c I W (cv_com _ _ HC)). reflexivity.
  - destruct (pov_satisfy_spec (E:=cerr) (pov_of c) (pos_of c) (firstn (r_input_size s) (ins ++ wit)) a b d) as [r [E1 E2]].
    1,2,3: cbn; unfold get_consts; rewrite map_length; unfold gate_num, const_num in *; lia.
    exists r. split; [exact E1|]. rewrite E2. rewrite (pub_vals s c val HC), Epub in HH. unfold pov_of, pos_of. cbn. rewrite HH.
    apply (cv_eqs _ _ HC (ins ++ wit) val Con).
Qed.

Lemma triple_panic ord s c ins wit : r1cs_to_circuit ord s new_circ = (c, Ok tt) -> converted s c ->
  (length ins + length wit <> r_ncols s - 1)%nat -> pov_triple ord s ins wit = Panic.
Proof.
  intros E0 HC HL. unfold pov_triple. rewrite E0. cbn [obind]. unfold unwrapM, evaluate, assign_global_inputs, bind, query, get_input_size, assert_complete.
  rewrite (cv_com _ _ HC). cbn [obind]. unfold assert_size. rewrite app_length, (cv_nin _ _ HC).
  destruct (Nat.eqb_spec (r_ncols s - 1) (length ins + length wit)); [lia|reflexivity].
Qed.

Lemma pair_ok ord s c ins : r1cs_to_circuit ord s new_circ = (c, Ok tt) -> converted s c ->
  length ins = pub_count s -> pov_pair ord s ins = Ok (pov_of c, (pos_of c, ins)).
Proof.
  intros E0 HC HL. pose proof (cv_inv _ _ HC) as I. pose proof (cv_wir _ _ HC) as W. destruct (conv_pub s c HC) as [EP LP].
  assert (Hun : unset c).
  { pose proof (keeps_conv ord s new_circ) as HK. rewrite E0 in HK. apply HK. intros v []. }
  destruct (assign_pubs (c_pub c) c 0 ins) as [vs [E [SS [_ V]]]].
  - lia.
  - rewrite EP, LP. reflexivity.
  - pose proof (inv_nin c I) as HN. rewrite (cv_nin _ _ HC) in HN. rewrite LP. unfold pub_count. lia.
  - intros i v _ Hv. apply Hun. now apply nth_error_In in Hv.
  - unfold pov_pair. rewrite E0. cbn [obind]. unfold unwrapM, assign_public_io, bind, query, get_io_size, assert_complete.
    rewrite (cv_com _ _ HC). cbn [obind]. unfold assert_size. rewrite HL, LP, Nat.eqb_refl. cbn [gets].
    unfold gets. rewrite E. cbn [obind].
    assert (get_instance (set_vars c vs) = Ok (pos_of c, ins)) as ->.
    { unfold get_instance. cbn [c_pub set_vars].
      rewrite (collect_map _ (fun w => match var_of_wire c w with Some i => coef ins i | None => 0 end)).
      - cbn [obind]. f_equal. f_equal. rewrite (pub_vals s c (fun i => coef ins i) HC). rewrite <- HL. rewrite map_seq_firstn by lia. apply firstn_all.
      - intros w Hw. unfold get_wire_value. rewrite var_of_wire_vals.
        assert (In (var_of_wire c w) (map (var_of_wire c) (c_pub c))) as Hin by (apply in_map; exact Hw).
        rewrite EP in Hin. apply in_map_iff in Hin. destruct Hin as [i [Ei Hi]]. rewrite <- Ei. cbn [unwrap_opt obind].
        apply in_seq in Hi. destruct (V i) as [v [Hv Hx]]; [lia|]. unfold get_var_value, get_var. cbn [c_vars set_vars].
        cbn in Hv. rewrite Hv. cbn [obind]. now rewrite Hx. }
    cbn [unwrap obind]. rewrite (pov_from_vals c vs I W (cv_com _ _ HC) SS), (pov_from_ok c I W (cv_com _ _ HC)). reflexivity.
Qed.

Lemma conv_pov_sound s c ins (a b d : list F) : converted s c -> length ins = pub_count s ->
  let n := (p_nmul (pov_of c) + p_nadd (pov_of c) + length (p_consts (pov_of c)))%nat in
  length a = n -> length b = n -> length d = n ->
  pov_satisfy (E:=cerr) (pov_of c) (pos_of c, ins) (a, b, d) = Ok true ->
  exists wit, (length ins + length wit = r_ncols s - 1)%nat /\
    r1cs_holds (entA s) (entB s) (entC s) (r_nrows s) (r_ncols s) (1 :: ins ++ wit).
Proof.
  intros HC HL n La Lb Ld HS. pose proof (cv_inv _ _ HC) as I. pose proof (cv_wir _ _ HC) as W. destruct (conv_pub s c HC) as [EP LP].
  assert (length (get_consts c) = const_num c) as LC by (unfold get_consts; now rewrite map_length).
  unfold n in *. clear n. destruct (pov_satisfy_spec (E:=cerr) (pov_of c) (pos_of c) ins a b d La Lb Ld) as [r [E1 E2]].
  rewrite HS in E1. injection E1 as <-. destruct E2 as [E2 _]. specialize (E2 eq_refl). cbn in *. rewrite LC in *.
  destruct (pov_sound c ins a b d I W) as [Con [HE HV]]; auto; try (unfold gate_num; lia).
  set (val := fun i => coef (a ++ b ++ d) (wire_index c (rep c i))) in *. rewrite (cv_nin _ _ HC) in Con.
  set (inp := map val (seq 0 (r_ncols s - 1))) in *.
  change (ins = map (fun w => match var_of_wire c w with Some i => val i | None => 0 end) (c_pub c)) in HV.
  rewrite (pub_vals s c val HC) in HV.
  assert (ins = firstn (pub_count s) inp) as Eins.
  { unfold inp. rewrite firstn_map, firstn_seq. rewrite HV. f_equal. f_equal. unfold pub_count. lia. }
  assert (Linp : length inp = (r_ncols s - 1)%nat) by (unfold inp; now rewrite map_length, seq_length).
  exists (skipn (pub_count s) inp). split.
  - rewrite skipn_length. unfold pub_count in *. lia.
  - rewrite Eins, firstn_skipn. apply (cv_eqs _ _ HC inp val Con). exact HE.
Qed.

Lemma conv_pre_dec s : conv_pre s \/ ~ conv_pre s.
Proof.
  destruct (Nat.le_gt_cases 2 (r_ncols s)) as [A|A]; [|right; intros [X _]; lia].
  assert (forall (l : entries (F:=F)) h k, nonzero_in_shape l h k \/ ~ nonzero_in_shape l h k) as D1.
  { intros l h k. induction l as [|[[r c0] x] l IH]; [left; intros ? ? ? []|].
    destruct (is_zero_spec x) as [->|Hx].
    - destruct IH as [IH|IH]; [left; intros r' c' x' [Hin|Hin] Hz; [injection Hin as <- <- <-; contradiction|eauto]|right; intros X; apply IH; intros r' c' x' Hin; apply X; now right].
    - destruct (lt_dec r h), (lt_dec c0 k); try (right; intros X; destruct (X r c0 x (or_introl eq_refl) Hx); lia).
      destruct IH as [IH|IH]; [left; intros r' c' x' [Hin|Hin] Hz; [injection Hin as <- <- <-; auto|eauto]|right; intros X; apply IH; intros r' c' x' Hin; apply X; now right]. }
  assert (forall (l : entries (F:=F)) j, column_used l j \/ ~ column_used l j) as D2.
  { intros l j. induction l as [|[[r c0] x] l IH]; [right; intros [? [? [[] _]]]|].
    destruct IH as [[r' [x' [Hin Hz]]]|IH]; [left; exists r', x'; split; auto; now right|].
    destruct (Nat.eq_dec c0 j) as [->|Hne].
    - destruct (is_zero_spec x) as [->|Hx]; [|left; exists r, x; split; auto; now left].
      right; intros [r' [x' [[Hin|Hin] Hz]]]; [injection Hin as <- <-; contradiction|apply IH; exists r', x'; auto].
    - right; intros [r' [x' [[Hin|Hin] Hz]]]; [injection Hin as <- E <-; contradiction|apply IH; exists r', x'; auto]. }
  destruct (D1 (ents s) (r_nrows s) (r_ncols s)) as [B|B]; [|right; intros [_ [X _]]; auto].
  assert (forall m, (m <= r_ncols s)%nat -> (forall j, (1 <= j < m)%nat -> column_used (ents s) j) \/ exists j, (1 <= j < m)%nat /\ ~ column_used (ents s) j) as D3.
  { induction m as [|m IH]; intros Hm; [left; intros; lia|]. destruct IH as [IH|[j [Hj Hu]]]; [lia| |right; exists j; split; auto; lia].
    destruct (Nat.eq_dec m 0) as [->|]; [left; intros; lia|].
    destruct (D2 (ents s) m) as [Y|Y]; [left; intros j Hj; destruct (Nat.eq_dec j m) as [->|]; auto; apply IH; lia|right; exists m; split; auto; lia]. }
  destruct (D3 (r_ncols s) ltac:(lia)) as [Y|[j [Hj Hu]]]; [left; split; auto|right; intros [_ [_ X]]; apply Hu; auto].
Qed.

(** finite checks for concrete examples *)
Lemma distinct_powers_check (g : F) n :
  forallb (fun i => forallb (fun j => implb (feqb (fpow g i) (fpow g j)) (i =? j)%nat) (seq 0 n)) (seq 0 n) = true -> distinct_powers g n.
Proof.
  intros H i j Hi Hj E. rewrite forallb_forall in H. specialize (H i). rewrite forallb_forall in H.
  specialize (H ltac:(apply in_seq; lia) j ltac:(apply in_seq; lia)). cbv beta in H. destruct (feqb_spec (fpow g i) (fpow g j)); [|contradiction].
  now apply Nat.eqb_eq.
Qed.
Lemma perm_invariant_check (g : F) n sigma w :
  forallb (fun i => forallb (fun j => implb (feqb (coef sigma i) (fpow g j)) (feqb (coef w i) (coef w j))) (seq 0 n)) (seq 0 n) = true ->
  perm_invariant g n sigma w.
Proof.
  intros H i j Hi Hj E. rewrite forallb_forall in H. specialize (H i). rewrite forallb_forall in H.
  specialize (H ltac:(apply in_seq; lia) j ltac:(apply in_seq; lia)). cbv beta in H. destruct (feqb_spec (coef sigma i) (fpow g j)); [|contradiction].
  cbn in H. now destruct (feqb_spec (coef w i) (coef w j)).
Qed.
End RV.

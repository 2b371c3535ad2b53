(** SnarkProofs.v: facts shared by the proofs about the arguments of voproof/src/snarks. *)
From Verif Require Import Base Spec Tools ToolsProofs ToolsProofs2 KZG KZGProofs Properties_KZG Snark Laurent.
Local Open Scope F_scope.

Lemma obind_ok {E A B} (x : outcome E A) (f : A -> outcome E B) b :
  obind x f = Ok b -> exists a, x = Ok a /\ f a = Ok b.
Proof. destruct x as [a| |]; cbn; intros H; try discriminate. now exists a. Qed.
Ltac oinv H :=
  let a := fresh "a" in let E := fresh "E" in
  apply obind_ok in H; destruct H as [a [E H]].

Section SnarkProofs.
Context {F G1 G2 GT : Type} {fo : FieldOps F} {fl : FieldLaws F}
        {po : PairingOps F G1 G2 GT} {pl : PairingLaws F G1 G2 GT}.
Add Field Fsp : F_th.

(** *** Commitments to vectors *)
Definition voffset (v : list F) (deg : Z) : nat :=
  if (Z.to_nat deg <? length v)%nat then 0%nat else (Z.to_nat deg - length v)%nat.

Lemma voffset_0 (v : list F) deg : (deg <= Z.of_nat (length v))%Z -> voffset v deg = 0%nat.
Proof. intros H. unfold voffset. destruct (Nat.ltb_spec (Z.to_nat deg) (length v)); [auto|lia]. Qed.
Lemma commit_vector_inv0_aux (b x : F) (g : G1) : vscale (fpow b 0 * x) g = vscale x g.
Proof. f_equal. cbn [fpow]. ring. Qed.
Lemma commit_vector_ok n beta (g : G1) (v : list F) deg : (0 <= deg)%Z -> (1 <= length v)%nat ->
  (voffset v deg + length v <= n)%nat ->
  commit_vector (srs n beta g) v deg = Ok (vscale (fpow beta (voffset v deg) * peval v beta) g).
Proof.
  intros H0 Hv Hn. unfold commit_vector. destruct (Z.ltb_spec deg 0); [lia|].
  rewrite vector_to_commitment_ok; [|destruct v; cbn in Hv; [lia|congruence]|exact Hn].
  now rewrite <- peval_poly_value.
Qed.
Lemma check_degree_inv d n : check_degree_is_too_large d n = Ok tt -> (d + 1 <= n)%nat.
Proof.
  intros H. destruct (Nat.le_gt_cases (d + 1) n) as [|C]; auto.
  rewrite check_degree_err in H by lia. discriminate.
Qed.
Lemma commit_vector_inv n beta (g : G1) (v : list F) deg c : commit_vector (srs n beta g) v deg = Ok c ->
  (0 <= deg)%Z /\ (1 <= length v)%nat /\ (voffset v deg + length v <= n)%nat /\
  c = vscale (fpow beta (voffset v deg) * peval v beta) g.
Proof.
  intros H.
  assert ((0 <= deg)%Z /\ (1 <= length v)%nat /\ (voffset v deg + length v <= n)%nat) as [H1 [H2 H3]].
  { unfold commit_vector in H. destruct (Z.ltb_spec deg 0); [discriminate|]. split; auto.
    unfold vector_to_commitment in H. fold (voffset v deg) in H. rewrite srs_length in H.
    destruct (Nat.ltb_spec n (voffset v deg)); [discriminate|].
    unfold commit_with_coefficients in H. destruct (Nat.eqb_spec (length v) 0); [discriminate|].
    split; [lia|]. rewrite skipn_length, srs_length in H.
    destruct (check_degree_is_too_large (length v - 1) (n - voffset v deg)) as [[]| |] eqn:E; try discriminate.
    apply check_degree_inv in E. lia. }
  repeat split; auto. rewrite commit_vector_ok in H by auto. now injection H as <-.
Qed.

Lemma commit_vector_inv0 n beta (g : G1) (v : list F) deg c : commit_vector (srs n beta g) v deg = Ok c ->
  (deg <= Z.of_nat (length v))%Z -> (1 <= length v)%nat /\ (length v <= n)%nat /\ c = vscale (peval v beta) g.
Proof.
  intros H Hd. apply commit_vector_inv in H. rewrite voffset_0 in H by auto.
  destruct H as [_ [H1 [H2 ->]]]. split; auto. split; auto. apply commit_vector_inv0_aux.
Qed.
Lemma commit_vector_ok0 n beta (g : G1) (v : list F) deg : (0 <= deg)%Z -> (1 <= length v)%nat ->
  (length v <= n)%nat -> (deg <= Z.of_nat (length v))%Z ->
  commit_vector (srs n beta g) v deg = Ok (vscale (peval v beta) g).
Proof.
  intros H0 H1 H2 H3. rewrite commit_vector_ok by (auto; rewrite voffset_0 by auto; auto).
  rewrite voffset_0 by auto. f_equal. apply commit_vector_inv0_aux.
Qed.

(** *** Batch openings *)
Lemma check_degrees_inv (fs : list (list F)) n : check_degrees fs n = Ok tt ->
  forall f, In f fs -> (length f - 1 + 1 <= n)%nat.
Proof.
  induction fs as [|f fs IH]; cbn [check_degrees]; intros H k Hk; [destruct Hk|].
  oinv H. destruct a. destruct Hk as [<-|Hk].
  - apply check_degree_inv in E. unfold degree in E. lia.
  - now apply IH.
Qed.
Lemma combine_witness_inv (fs : list (list F)) z xi xp acc w : combine_witness fs z xi xp acc = Ok w ->
  forall f, In f fs -> (2 <= length f)%nat.
Proof.
  revert xp acc. induction fs as [|f fs IH]; cbn [combine_witness]; intros xp acc H k Hk; [destruct Hk|].
  oinv H. destruct Hk as [<-|Hk].
  - destruct (Nat.le_gt_cases 2 (length f)); auto. rewrite compute_witness_panic in E by lia. discriminate.
  - eapply IH; eauto.
Qed.
Lemma batch_open_inv n beta (g : G1) (fs gs : list (list F)) z zz xi xi2 w :
  batch_open (srs n beta g) fs gs z zz xi xi2 = Ok w ->
  forall f, In f (fs ++ gs) -> (2 <= length f <= n)%nat.
Proof.
  unfold batch_open. rewrite srs_length. intros H f Hf. oinv H. destruct a. oinv H. oinv H.
  pose proof (check_degrees_inv _ _ E f Hf).
  apply in_app_or in Hf. destruct Hf as [Hf|Hf];
    [pose proof (combine_witness_inv _ _ _ _ _ _ E0 f Hf)|pose proof (combine_witness_inv _ _ _ _ _ _ E1 f Hf)]; lia.
Qed.
Lemma combine_witness_panic (fs : list (list F)) z xi xp acc :
  (exists f, In f fs /\ (length f <= 1)%nat) -> combine_witness fs z xi xp acc = Panic.
Proof.
  revert xp acc. induction fs as [|k fs IH]; intros xp acc [f [Hf L]]; [destruct Hf|]. cbn [combine_witness].
  destruct (Nat.le_gt_cases 2 (length k)) as [H2|H2].
  - destruct (compute_witness_ok k z H2) as [w [-> _]]. cbn [obind]. apply IH.
    destruct Hf as [<-|Hf]; [lia|]. now exists f.
  - rewrite compute_witness_panic by lia. reflexivity.
Qed.
Lemma combine_witness_total (fs : list (list F)) z xi xp acc :
  (forall f, In f fs -> (2 <= length f)%nat) -> exists w, combine_witness fs z xi xp acc = Ok w.
Proof.
  revert xp acc. induction fs as [|k fs IH]; intros xp acc H; cbn [combine_witness]; [eauto|].
  destruct (compute_witness_ok k z (H k (or_introl eq_refl))) as [w [-> _]]. cbn [obind]. apply IH.
  intros f Hf. apply H. now right.
Qed.
(** opening a batch with a constant polynomial panics *)
Lemma batch_open_panic n beta (g : G1) (fs gs : list (list F)) z zz xi xi2 : (1 <= n)%nat ->
  (forall f, In f (fs ++ gs) -> (length f <= n)%nat) -> (exists f, In f (fs ++ gs) /\ (length f <= 1)%nat) ->
  batch_open (srs n beta g) fs gs z zz xi xi2 = Panic.
Proof.
  intros Hn Hl [f [Hf L]]. unfold batch_open. rewrite srs_length.
  assert (check_degrees (fs ++ gs) n = Ok tt) as ->.
  { clear Hf. induction (fs ++ gs) as [|k l IH]; auto. cbn [check_degrees].
    rewrite check_degree_ok by (unfold degree; specialize (Hl k (or_introl eq_refl)); lia).
    cbn [obind]. apply IH. intros; apply Hl; now right. }
  cbn [obind]. destruct (Forall_Exists_dec (fun k : list F => (2 <= length k)%nat) (fun k => le_dec 2 (length k)) fs) as [D|D].
  - rewrite Forall_forall in D. destruct (combine_witness_total fs z xi 1 [] D) as [w ->]. cbn [obind].
    rewrite combine_witness_panic; auto. exists f. split; auto.
    apply in_app_or in Hf. destruct Hf as [Hf|]; auto. apply D in Hf. lia.
  - apply Exists_exists in D. destruct D as [k [Hk Lk]].
    rewrite combine_witness_panic; auto. exists k. split; auto. lia.
Qed.
Lemma batch_verifies n beta (g : G1) (h : G2) (fs gs : list (list F)) z zz xi xi2 w1 w2 r : g <> v0 -> h <> v0 ->
  batch_open (srs n beta g) fs gs z zz xi xi2 = Ok (w1, w2) -> (1 <= n)%nat ->
  batch_check (vk_for beta g h) (map (fun f => vscale (peval f beta) g) fs)
      (map (fun f => vscale (peval f beta) g) gs) z zz xi xi2
      (map (fun f => peval f z) fs) (map (fun f => peval f zz) gs) w1 w2 r = true.
Proof.
  intros Hg Hh H Hn.
  destruct (batch_complete n beta g h fs gs z zz xi xi2 r Hn Hg Hh (batch_open_inv _ _ _ _ _ _ _ _ _ _ H))
    as [u1 [u2 [E1 E2]]].
  rewrite E1 in H. injection H as <- <-.
  rewrite <- E2. f_equal; apply map_ext; intros f; now rewrite peval_poly_value.
Qed.

(** *** The combined polynomial *)
Definition EV (N : Z) (x : F) (f : Z -> F) (val : F) : Prop := eval_vector_expression x f N = val.
Lemma EV_add N x f k a b : EV N x f a -> EV N x k b -> EV N x (fun i => f i + k i) (a + b).
Proof.
  unfold EV. intros <- <-. rewrite !eval_vector_expression_sum, <- sumn_add. apply sumn_ext. intros; ring.
Qed.
Lemma EV_scale N x f a c : EV N x f a -> EV N x (fun i => c * f i) (c * a).
Proof.
  unfold EV. intros <-. rewrite !eval_vector_expression_sum, <- sumn_mul_l. apply sumn_ext. intros; ring.
Qed.
Lemma EV_list N x l : (Z.of_nat (length l) <= N)%Z -> EV N x (fun i => vidx l i) (peval l x).
Proof. apply eval_vidx. Qed.
Lemma EV_shift N x l (o : nat) E : (Z.of_nat o + Z.of_nat (length l) <= N)%Z -> (forall i, E i = i - Z.of_nat o)%Z ->
  EV N x (fun i => vidx l (E i)) (fpow x o * peval l x).
Proof.
  intros H HE. unfold EV. rewrite eval_vector_expression_sum.
  replace (Z.to_nat N) with (o + (Z.to_nat N - o))%nat by lia. rewrite sumn_split.
  rewrite (sumn_0 o) by (intros i Hi; rewrite HE, vidx_out by lia; ring).
  rewrite (peval_sumn l x (Z.to_nat N - o)) by lia. rewrite <- sumn_mul_l.
  match goal with |- 0 + ?a = ?b => transitivity a; [ring|] end.
  apply sumn_ext. intros i _. rewrite HE.
  replace (Z.of_nat (S (o + i)) - Z.of_nat o)%Z with (Z.of_nat (S i)) by lia.
  rewrite vidx_S, fpow_add. ring.
Qed.
Lemma add_first_ok (f : Z -> F) N c : (1 <= N)%Z ->
  exists r, add_to_first_item (expression_vector f N) c = Ok r /\ length r = Z.to_nat N /\
    (forall x, peval r x = eval_vector_expression x f N + c).
Proof.
  intros HN. pose proof (expression_vector_length f N) as L.
  pose proof (peval_expression_vector f N) as P.
  destruct (expression_vector f N) as [|a l]; cbn [length] in L; [lia|].
  exists (a + c :: l). split; [reflexivity|]. split; [exact L|]. intros x. rewrite <- P. cbn [peval]. ring.
Qed.
Lemma add_first_inv (f : Z -> F) N c r : add_to_first_item (expression_vector f N) c = Ok r ->
  (1 <= N)%Z /\ length r = Z.to_nat N /\ (forall x, peval r x = eval_vector_expression x f N + c).
Proof.
  intros H. destruct (Z_le_gt_dec 1 N) as [HN|HN].
  - destruct (add_first_ok f N c HN) as [r' [E [H1 H2]]]. rewrite E in H. injection H as <-. auto.
  - unfold expression_vector, zrange in H. replace (Z.to_nat N) with 0%nat in H by lia. discriminate.
Qed.
Lemma lin_comb_vscale (g : G1) one (l : list (F * F)) :
  commitment_linear_combination g one (map (fun ac => (vscale (fst ac) g, snd ac)) l)
  = vscale (fsum (map (fun ac => snd ac * fst ac) l) + one) g.
Proof.
  unfold commitment_linear_combination. rewrite map_map. cbn [fst snd].
  rewrite <- vs_sum. f_equal. induction l as [|[a c] l IH]; cbn [map fold_right fsum fst snd].
  - symmetry. apply vscale_0_l.
  - rewrite IH, vs_mul, vs_sum. reflexivity.
Qed.
Lemma nonzero_inv (a : F) : nonzero a = Ok tt -> a <> 0.
Proof. unfold nonzero. destruct (is_zero_spec a); [discriminate|auto]. Qed.
Lemma nonzero_ok (a : F) : a <> 0 -> nonzero a = Ok tt.
Proof. unfold nonzero. destruct (is_zero_spec a); [contradiction|auto]. Qed.
Lemma nonzero_panic : nonzero (0 : F) = Panic.
Proof. unfold nonzero. destruct (is_zero_spec (0 : F)); [auto|congruence]. Qed.
Lemma check_poly_eval_inv (p : list F) z y : check_poly_eval p z y = Ok tt -> peval p z = y.
Proof. unfold check_poly_eval. destruct (feqb (peval p z) y) eqn:E; [|discriminate]. intros _. now apply feqb_eq. Qed.
Lemma check_poly_eval_ok (p : list F) z y : peval p z = y -> check_poly_eval p z y = Ok tt.
Proof. intros E. unfold check_poly_eval. now rewrite E, feqb_refl. Qed.
(** *** Constant polynomials *)
Lemma strip_last (l : list F) : strip l <> [] -> coef (strip l) (length (strip l) - 1) <> 0.
Proof.
  induction l as [|x l IH]; cbn [strip]; [congruence|]. destruct (strip l) as [|y t] eqn:E.
  - destruct (is_zero_spec x); [congruence|]. intros _. exact n.
  - intros _. cbn [length]. replace (S (S (length t)) - 1)%nat with (S (length (y :: t) - 1)) by (cbn [length]; lia).
    change (coef (x :: y :: t) (S (length (y :: t) - 1))) with (coef (y :: t) (length (y :: t) - 1)). apply IH. congruence.
Qed.
Lemma strip_const (l : list F) : (length (strip l) <= 1)%nat <-> forall i, (1 <= i)%nat -> coef l i = 0.
Proof.
  split.
  - intros H i Hi. rewrite <- coef_strip. apply coef_over. lia.
  - intros H. destruct (Nat.le_gt_cases (length (strip l)) 1) as [|C]; auto. exfalso.
    apply (strip_last l); [destruct (strip l); cbn [length] in C; [lia|congruence]|]. rewrite coef_strip. apply H. lia.
Qed.
Lemma strip_const_root (l : list F) z : (length (strip l) <= 1)%nat -> peval l z = 0 -> forall i, coef l i = 0.
Proof.
  intros H Hz i. rewrite <- peval_strip in Hz. rewrite <- coef_strip.
  destruct (strip l) as [|x [|y t]]; cbn [length] in H; [now destruct i| |lia].
  cbn [peval] in Hz. assert (x = 0) as -> by (rewrite <- Hz; ring). destruct i as [|[|i]]; reflexivity.
Qed.

End SnarkProofs.

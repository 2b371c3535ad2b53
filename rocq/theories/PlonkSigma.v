(** PlonkSigma.v: the permutation made from the registered wires. *)
From Verif Require Import Base Tools KZG SnarkProofs Plonk PlonkSpec PlonkProofs PlonkRange PlonkBuilt PlonkPI PlonkSigmaSpec PlonkWires PlonkWires2.
From Coq Require Import Permutation.
Local Open Scope F_scope.

Section Lists.
Definition dw : wire := (Left, 0%nat).
Definition succ_of (ws : list wire) (j : nat) : nat := if (j =? length ws - 1)%nat then 0%nat else (j + 1)%nat.
Definition in_range (n : nat) (ws : list wire) : Prop := Forall (fun p => snd p < n)%nat ws.
Definition lens (n : nat) (s : sigmas) : Prop := forall col, length (s col) = n.

Lemma column_eqb_eq x y : column_eqb x y = true <-> x = y.
Proof. destruct x, y; cbn; intuition discriminate. Qed.
Lemma wire_eq_dec (p q : wire) : {p = q} + {p <> q}.
Proof. decide equality; [apply Nat.eq_dec|apply column_eq_dec]. Defined.
Lemma set_ok n (w next : wire) s : lens n s -> (snd w < n)%nat -> exists s', sigma_set w next s = Ok s' /\ lens n s' /\
  sigma_at s' w = next /\ forall p, p <> w -> sigma_at s' p = sigma_at s p.
Proof.
  intros L H. unfold sigma_set, assert_. rewrite (proj2 (Nat.ltb_lt _ _)) by (rewrite L; exact H). cbn [obind]. eexists. split; [reflexivity|]. split; [|split].
  - intros col. destruct (column_eqb (fst w) col); rewrite ?upd_length; apply L.
  - unfold sigma_at. rewrite (proj2 (column_eqb_eq _ _) eq_refl), nth_upd, Nat.eqb_refl, (proj2 (Nat.ltb_lt _ _)) by (rewrite L; exact H). reflexivity.
  - intros [col i] NE. unfold sigma_at. cbn [fst snd]. destruct (column_eqb (fst w) col) eqn:E; [|reflexivity]. apply column_eqb_eq in E.
    rewrite nth_upd. destruct (Nat.eqb_spec i (snd w)) as [E'|E']; [|reflexivity]. exfalso. apply NE. destruct w. cbn in *. congruence.
Qed.
Lemma wires_ok n ws : NoDup ws -> in_range n ws -> forall m k s, (k + m <= length ws)%nat -> lens n s ->
  exists s', sigma_wires ws (seq k m) s = Ok s' /\ lens n s' /\
    (forall j, (k <= j < k + m)%nat -> sigma_at s' (nth j ws dw) = nth (succ_of ws j) ws dw) /\
    (forall p, (forall j, (k <= j < k + m)%nat -> nth j ws dw <> p) -> sigma_at s' p = sigma_at s p).
Proof.
  intros ND RG. induction m as [|m IH]; intros k s Hk L; cbn [seq sigma_wires].
  - exists s. repeat split; auto. intros j Hj. lia.
  - rewrite (nth_error_nth' _ ws k dw) by lia. cbn [unwrap_opt obind]. fold (succ_of ws k).
    assert (succ_of ws k < length ws)%nat as SL by (unfold succ_of; destruct (Nat.eqb_spec k (length ws - 1)); lia).
    rewrite (nth_error_nth' _ ws _ dw SL). cbn [unwrap_opt obind].
    assert (snd (nth k ws dw) < n)%nat as HK by (apply (proj1 (Forall_forall _ _) RG), nth_In; lia).
    destruct (set_ok n (nth k ws dw) (nth (succ_of ws k) ws dw) s L HK) as [s1 [E1 [L1 [A1 B1]]]]. rewrite E1. cbn [obind].
    destruct (IH (S k) s1 ltac:(lia) L1) as [s' [E2 [L2 [A2 B2]]]]. exists s'. split; auto. split; auto. split.
    + intros j Hj. destruct (Nat.eq_dec j k) as [->|N]; [|apply A2; lia]. rewrite B2; [exact A1|].
      intros j Hj' E. apply (proj1 (NoDup_nth ws dw) ND) in E; lia.
    + intros p Hp. rewrite B2 by (intros j Hj; apply Hp; lia). apply B1. intros ->. apply (Hp k); [lia|auto].
Qed.
Lemma in_concat_iff {A} (x : A) l : In x (concat l) <-> exists y, In y l /\ In x y.
Proof. rewrite in_concat. tauto. Qed.
Lemma nodup_app_inv {A} (l l' : list A) : NoDup (l ++ l') -> NoDup l /\ NoDup l' /\ forall x, In x l -> ~ In x l'.
Proof.
  induction l as [|x l IH]; cbn; intros H.
  - repeat split; auto. constructor.
  - apply NoDup_cons_iff in H. destruct H as [H1 H2]. apply IH in H2. destruct H2 as [H2 [H3 H4]]. rewrite in_app_iff in H1.
    split; [constructor; tauto|]. split; auto. intros y [->|Hy]; [tauto|auto].
Qed.
Lemma vars_ok n : forall maps s, NoDup (concat maps) -> in_range n (concat maps) -> lens n s ->
  exists s', sigma_vars maps s = Ok s' /\ lens n s' /\
    (forall ws j, In ws maps -> (j < length ws)%nat -> sigma_at s' (nth j ws dw) = nth (succ_of ws j) ws dw) /\
    (forall p, ~ In p (concat maps) -> sigma_at s' p = sigma_at s p).
Proof.
  induction maps as [|ws maps IH]; intros s ND RG L; cbn [sigma_vars].
  - exists s. repeat split; auto. intros ws j [].
  - cbn [concat] in ND, RG. apply nodup_app_inv in ND. destruct ND as [N1 [N2 N3]]. apply Forall_app in RG. destruct RG as [R1 R2].
    destruct (wires_ok n ws N1 R1 (length ws) 0 s ltac:(lia) L) as [s1 [E1 [L1 [A1 B1]]]]. rewrite E1. cbn [obind].
    destruct (IH s1 N2 R2 L1) as [s' [E2 [L2 [A2 B2]]]]. exists s'. split; auto. split; auto. split.
    + intros ws' j [<-|H] Hj; [|auto]. rewrite B2; [apply A1; lia|]. apply N3. now apply nth_In.
    + intros p Hp. cbn [concat] in Hp. rewrite in_app_iff in Hp. rewrite B2 by tauto. apply B1. intros j Hj <-. apply Hp. left. apply nth_In. lia.
Qed.
Lemma id_lens n : lens n (sigma_id n).
Proof. intros col. unfold sigma_id. now rewrite map_length, seq_length. Qed.
Lemma id_at n p : sigma_at (sigma_id n) p = p.
Proof.
  destruct p as [col i]. unfold sigma_at, sigma_id. cbn [fst snd]. destruct (Nat.ltb_spec i n) as [L|L].
  - rewrite (nth_indep _ _ (col, 0)%nat) by (now rewrite map_length, seq_length). rewrite (map_nth (fun i => (col, i)) (seq 0 n) 0%nat), seq_nth by auto. reflexivity.
  - apply nth_overflow. rewrite map_length, seq_length. lia.
Qed.
Lemma in_positions n p : In p (positions n) <-> (snd p < n)%nat.
Proof.
  destruct p as [col i]. unfold positions. rewrite in_flat_map. cbn [snd]. split.
  - intros [col' [_ H]]. apply in_map_iff in H. destruct H as [j [E H]]. apply in_seq in H. injection E as <- <-. lia.
  - intros H. exists col. split; [destruct col; cbn; auto|]. apply in_map_iff. exists i. split; auto. apply in_seq. lia.
Qed.
Lemma positions_nodup n : NoDup (positions n).
Proof.
  assert (forall col, NoDup (map (fun i => (col, i) : wire) (seq 0 n))) as N by (intros col; apply FinFun.Injective_map_NoDup; [intros x y [=]; auto|apply seq_NoDup]).
  assert (forall col x, In x (map (fun i => (col, i) : wire) (seq 0 n)) -> fst x = col) as FC by (intros col x H; apply in_map_iff in H; destruct H as [i [<- _]]; reflexivity).
  unfold positions. cbn [flat_map]. repeat (apply nodup_app; [apply N| |]); try constructor;
    intros x H H'; rewrite ?in_app_iff in H'; apply FC in H; repeat (destruct H' as [H'|H']; [apply FC in H'; congruence|]); try exact H'; destruct H'.
Qed.

(** *** the permutation of disjoint lists of wires *)
Definition is_sigma (maps : list (list wire)) (s : sigmas) : Prop :=
  (forall ws j, In ws maps -> (j < length ws)%nat -> sigma_at s (nth j ws dw) = nth (succ_of ws j) ws dw) /\
  (forall p, ~ In p (concat maps) -> sigma_at s p = p).
Lemma sigma_ok maps n : NoDup (concat maps) -> in_range n (concat maps) -> exists s, compute_sigma_permutations maps n = Ok s /\ lens n s /\ is_sigma maps s.
Proof.
  intros ND RG. destruct (vars_ok n maps (sigma_id n) ND RG (id_lens n)) as [s [E [L [A B]]]]. exists s. split; [exact E|]. split; [exact L|]. split; [exact A|].
  intros p Hp. rewrite B by auto. apply id_at.
Qed.
Lemma sigma_permutes maps n s : in_range n (concat maps) -> is_sigma maps s -> Permutation (map (sigma_at s) (positions n)) (positions n).
Proof.
  intros RG [A B]. symmetry. apply NoDup_Permutation_bis; [apply positions_nodup|now rewrite map_length|].
  intros p Hp. apply in_map_iff. destruct (in_dec wire_eq_dec p (concat maps)) as [HI|HI]; [|exists p; auto].
  apply in_concat_iff in HI. destruct HI as [ws [H1 H2]]. apply (In_nth _ _ dw) in H2. destruct H2 as [j [Hj <-]].
  set (j' := if (j =? 0)%nat then (length ws - 1)%nat else (j - 1)%nat). assert (j' < length ws)%nat as Hj' by (unfold j'; destruct (Nat.eqb_spec j 0); lia).
  exists (nth j' ws dw). split.
  - rewrite A by auto. f_equal. unfold succ_of, j'. destruct (Nat.eqb_spec j 0) as [->|].
    + now rewrite Nat.eqb_refl.
    + destruct (Nat.eqb_spec (j - 1) (length ws - 1)); lia.
  - apply in_positions. apply (proj1 (Forall_forall _ _) RG). apply in_concat_iff. exists ws. split; auto. now apply nth_In.
Qed.
End Lists.

Section Copies.
Context {F : Type} {fo : FieldOps F} {fl : FieldLaws F} {po : PrimeFieldOps F} {pl : PrimeFieldLaws F}.
Implicit Types (w : column -> nat -> F).
Notation at_ w p := (w (fst p) (snd p)).
Lemma copies_iff maps n s w : in_range n (concat maps) -> is_sigma maps s ->
  copies s n w <-> forall ws p q, In ws maps -> In p ws -> In q ws -> at_ w p = at_ w q.
Proof.
  intros RG [A B]. split.
  - intros H. assert (forall ws j, In ws maps -> (j < length ws)%nat -> at_ w (nth j ws dw) = at_ w (nth 0 ws dw)) as E.
    { intros ws j Hw. induction j as [|j IH]; intros Hj; [reflexivity|]. rewrite <- IH by lia. 
      assert (In (nth j ws dw) (positions n)) as HP.
      { apply in_positions, (proj1 (Forall_forall _ _) RG), in_concat_iff. exists ws. split; auto. apply nth_In. lia. }
      apply H in HP. rewrite A in HP by (auto; lia). unfold succ_of in HP. destruct (Nat.eqb_spec j (length ws - 1)); [lia|]. now rewrite Nat.add_1_r in HP. }
    intros ws p q Hw Hp Hq. apply (In_nth _ _ dw) in Hp, Hq. destruct Hp as [j [Hj <-]], Hq as [k [Hk <-]]. rewrite (E ws j), (E ws k) by auto. reflexivity.
  - intros H p Hp. destruct (in_dec wire_eq_dec p (concat maps)) as [HI|HI]; [|now rewrite B].
    apply in_concat_iff in HI. destruct HI as [ws [H1 H2]]. pose proof H2 as H3. apply (In_nth _ _ dw) in H2. destruct H2 as [j [Hj <-]].
    apply (H ws); auto. rewrite A by auto. apply nth_In. unfold succ_of. destruct (Nat.eqb_spec j (length ws - 1)); lia.
Qed.
Lemma nodup_concat (l : list (list wire)) : (forall v, NoDup (nth v l [])) -> (forall v v' x, In x (nth v l []) -> In x (nth v' l []) -> v = v') -> NoDup (concat l).
Proof.
  induction l as [|x l IH]; intros H1 H2; cbn; [constructor|]. apply nodup_app.
  - apply (H1 0%nat).
  - apply IH.
    + intros v. apply (H1 (S v)).
    + intros v v' y Hv Hv'. apply Nat.succ_inj. apply (H2 (S v) (S v') y); auto.
  - intros y Hy Hy'. apply in_concat_iff in Hy'. destruct Hy' as [ws [Hw Hy']]. apply (In_nth _ _ []) in Hw. destruct Hw as [v [Hv E]].
    assert (0%nat = S v) as X; [|discriminate]. apply (H2 0%nat (S v) y); [exact Hy|]. cbn [nth]. rewrite E. exact Hy'.
Qed.
Lemma perm_concat {A} (l l' : list (list A)) : Permutation l l' -> Permutation (concat l) (concat l').
Proof.
  induction 1; cbn; auto.
  - now apply Permutation_app_head.
  - rewrite !app_assoc. apply Permutation_app_tail, Permutation_app_comm.
  - etransitivity; eauto.
Qed.
Lemma reg_nodup K (c : composer F) : reg K c -> NoDup (concat (c_map c)).
Proof.
  intros [A1 A2 A3]. apply nodup_concat; [apply A2|]. intros v v' [col i] H H'. apply A1 in H, H'. destruct H, H'. congruence.
Qed.
Lemma reg_range K (c : composer F) n : reg K c -> (forall col, length (wires c col) <= n)%nat -> in_range n (concat (c_map c)).
Proof.
  intros [A1 A2 A3] L. apply Forall_forall. intros [col i] H. apply in_concat_iff in H. destruct H as [ws [Hw Hi]]. apply (In_nth _ _ []) in Hw. destruct Hw as [v [Hv E]].
  assert (In (col, i) (mapat c v)) as HI by (rewrite <- E in Hi; exact Hi). apply A1 in HI. destruct HI as [HI _].
  assert (nth_error (wires c col) i <> None) as HN by congruence. apply nth_error_Some in HN. specialize (L col). cbn. lia.
Qed.

Variables ca cd : F.
Add Field Fsg : F_th.
Lemma row_no_sel table pi x y z t x' y' t' u1 u2 u3 u4 v1 v2 v3 : row_ok ca cd table no_sel pi x y z t x' y' t' -> row_ok ca cd table no_sel pi u1 u2 u3 u4 v1 v2 v3.
Proof.
  rewrite !row_ok_no_next by apply no_sel_no_next. unfold row1_ok. cbn. intros [H _]. split; [|congruence].
  refine (eq_trans _ H). ring.
Qed.
Lemma row_range_next table pi x y z t x' y' t' x'' y'' : row_ok ca cd table range_sel pi x y z t x' y' t' -> row_ok ca cd table range_sel pi x y z t x'' y'' t'.
Proof. rewrite !range_row. auto. Qed.
End Copies.

(** PlonkPIProofs.v: the public inputs. *)
From Verif Require Import Base Tools KZG SnarkProofs Plonk PlonkSpec PlonkProofs PlonkPI PlonkSigmaSpec.
From Coq Require Import Sorted.
Local Open Scope F_scope.

Section PlonkPIProofs.
Context {F : Type} {fo : FieldOps F} {fl : FieldLaws F}.
Implicit Types (m : list (nat * F)).

Lemma wf_nil : pi_wf [].
Proof. split; constructor. Qed.
Lemma wf_cons k v m : pi_wf ((k, v) :: m) <-> v <> 0 /\ Forall (fun p => k < fst p)%nat m /\ pi_wf m.
Proof.
  unfold pi_wf. cbn [map fst]. split.
  - intros [H1 H2]. apply StronglySorted_inv in H1. destruct H1 as [H1 H1']. apply Forall_cons_iff in H2. destruct H2 as [H2 H3]. cbn in H2.
    rewrite Forall_map in H1'. tauto.
  - intros [H1 [H2 [H3 H4]]]. split; constructor; auto. now rewrite Forall_map.
Qed.
Lemma get_above k m : Forall (fun p => k < fst p)%nat m -> pi_get m k = 0.
Proof.
  intros H. apply pi_get_notin. intros v Hv. apply (proj1 (Forall_forall _ _) H) in Hv. cbn in Hv. lia.
Qed.
Lemma get_in m k v : pi_wf m -> In (k, v) m <-> v <> 0 /\ pi_get m k = v.
Proof.
  induction m as [|[k' v'] m IH]; intros W.
  - cbn. split; [tauto|]. intros [H E]. congruence.
  - apply wf_cons in W. destruct W as [H1 [H2 W]]. specialize (IH W). cbn [In pi_get]. destruct (Nat.eqb_spec k' k) as [->|N].
    + split.
      * intros [E|H]; [injection E as <-; auto|]. exfalso. apply (proj1 (Forall_forall _ _) H2) in H. cbn in H. lia.
      * intros [_ ->]. auto.
    + rewrite <- IH. split; [intros [E|H]; [congruence|auto]|auto].
Qed.
Lemma exists_get m pos : pi_wf m -> existsb (fun p => (fst p =? pos)%nat) m = true <-> pi_get m pos <> 0.
Proof.
  intros W. rewrite existsb_exists. split.
  - intros [[k v] [H E]]. cbn in E. apply Nat.eqb_eq in E. subst k. apply get_in in H; auto. destruct H as [H ->]. auto.
  - intros H. exists (pos, pi_get m pos). split; [|cbn; apply Nat.eqb_refl]. apply get_in; auto.
Qed.
Lemma put_wf pos v m : pi_wf m -> v <> 0 -> (forall u, ~ In (pos, u) m) -> pi_wf (pi_put pos v m).
Proof.
  intros W NZ. induction m as [|[k u] m IH]; intros NI; cbn [pi_put].
  - apply wf_cons. auto using wf_nil.
  - pose proof W as W0. apply wf_cons in W0. destruct W0 as [H1 [H2 W1]]. destruct (Nat.ltb_spec pos k) as [L|L].
    + apply wf_cons. split; auto. split; auto. constructor; [exact L|]. eapply Forall_impl; [|exact H2]. cbn. intros; lia.
    + assert (k <> pos) as NE by (intros ->; apply (NI u); now left). apply wf_cons. split; auto. split.
      * apply Forall_forall. intros [k' u'] H. apply pi_put_in in H. destruct H as [H| ->]; [|cbn; lia].
        now apply (proj1 (Forall_forall _ _) H2).
      * apply IH; auto. intros x Hx. apply (NI x). now right.
Qed.
Lemma insert_spec pos v m : pi_wf m ->
  (pi_get m pos = 0 -> exists m', pi_insert1 pos v m = Ok m' /\ pi_wf m' /\ forall i, pi_get m' i = if (i =? pos)%nat then v else pi_get m i) /\
  (pi_get m pos <> 0 -> pi_insert1 pos v m = Panic).
Proof.
  intros W. unfold pi_insert1, pi_insert. pose proof (exists_get m pos W) as X. destruct (existsb _ m) eqn:EX.
  - split; [|auto]. intros H. exfalso. apply X in H; auto.
  - split; [|intros H; apply X in H; discriminate]. intros E. destruct (feqb v 0) eqn:E0.
    + apply feqb_eq in E0. subst v. exists m. split; auto. split; auto. intros i. now destruct (Nat.eqb_spec i pos) as [->|].
    + exists (pi_put pos v m). split; auto. split.
      * apply put_wf; auto.
        -- intros ->. assert (feqb (F:=F) 0 0 = true) by (now apply feqb_eq). congruence.
        -- intros u Hu. apply get_in in Hu; auto. destruct Hu as [H1 H2]. congruence.
      * intros i. rewrite pi_put_get, EX. reflexivity.
Qed.
Lemma wf_unique m m' : pi_wf m -> pi_wf m' -> (forall i, pi_get m i = pi_get m' i) -> m = m'.
Proof.
  revert m'. induction m as [|[k v] m IH]; intros [|[k' v'] m'] W W' E.
  - reflexivity.
  - exfalso. apply wf_cons in W'. specialize (E k'). cbn in E. rewrite Nat.eqb_refl in E. destruct W' as [H _]. congruence.
  - exfalso. apply wf_cons in W. specialize (E k). cbn in E. rewrite Nat.eqb_refl in E. destruct W as [H _]. congruence.
  - apply wf_cons in W, W'. destruct W as [H1 [H2 W]], W' as [H1' [H2' W']].
    assert (k = k') as ->.
    { destruct (Nat.lt_trichotomy k k') as [L|[L|L]]; auto; exfalso.
      - pose proof (E k) as Ek. cbn [pi_get] in Ek. rewrite Nat.eqb_refl in Ek. destruct (Nat.eqb_spec k' k); [lia|]. rewrite get_above in Ek; [congruence|].
        eapply Forall_impl; [|exact H2']. cbn. intros; lia.
      - pose proof (E k') as Ek. cbn [pi_get] in Ek. rewrite Nat.eqb_refl in Ek. destruct (Nat.eqb_spec k k'); [lia|]. rewrite get_above in Ek; [congruence|].
        eapply Forall_impl; [|exact H2]. cbn. intros; lia. }
    pose proof (E k') as Ek. cbn [pi_get] in Ek. rewrite Nat.eqb_refl in Ek. subst v'. f_equal. apply IH; auto.
    intros i. destruct (Nat.eq_dec i k') as [->|N]; [now rewrite !get_above by auto|].
    specialize (E i). cbn [pi_get] in E. destruct (Nat.eqb_spec k' i); [congruence|exact E].
Qed.

(** *** lists of insertions *)
Fixpoint pi_many (l : list (nat * F)) m : outcome pi_error (list (nat * F)) :=
  match l with [] => Ok m | (p, v) :: l' => let! m1 := pi_insert1 p v m in pi_many l' m1 end.
Lemma many_app l l' m : pi_many (l ++ l') m = let! m1 := pi_many l m in pi_many l' m1.
Proof. revert m. induction l as [|[p v] l IH]; intros m; cbn; auto. destruct (pi_insert1 p v m) as [m1| |]; cbn; auto. Qed.
Lemma inserts_many vs : forall p m, pi_inserts p vs m = pi_many (item_at p vs) m.
Proof.
  induction vs as [|v vs IH]; intros p m; cbn; auto. destruct (pi_insert1 p v m) as [m1| |]; cbn; auto.
  rewrite IH. unfold item_at. now rewrite Nat.add_1_r.
Qed.
Lemma zip_ok vals : forall pos m m', pi_zip pos vals m = Ok m' <->
  exists vs, vals = map Some vs /\ length pos = length vs /\ pi_many (flat pos vs) m = Ok m'.
Proof.
  induction vals as [|x vals IH]; intros [|p pos] m m'; cbn [pi_zip].
  - split.
    + intros H. exists []. auto.
    + intros [[|v vs] [E [L H]]]; [exact H|discriminate].
  - split; [discriminate|]. intros [[|v vs] [E [L H]]]; discriminate.
  - split; [discriminate|]. intros [[|v vs] [E [L H]]]; discriminate.
  - destruct x as [x|]; cbn [pi_add_input obind].
    2:{ split; [discriminate|]. intros [[|v vs] [E _]]; discriminate. }
    rewrite inserts_many. split.
    + intros H. apply obind_ok in H. destruct H as [[k m1] [E H]]. apply obind_ok in E. destruct E as [m2 [E E']]. injection E' as <- <-. cbv beta iota in H.
      apply IH in H. destruct H as [vs [-> [L H]]]. exists (x :: vs). split; [reflexivity|]. split; [cbn; now rewrite L|].
      unfold flat. cbn [combine map concat fst snd]. rewrite many_app, E. exact H.
    + intros [[|v vs] [E [L H]]]; [discriminate|]. injection E as -> ->. cbn in L. injection L as L.
      unfold flat in H. cbn [combine map concat fst snd] in H. rewrite many_app in H. apply obind_ok in H. destruct H as [m1 [E H]]. rewrite E. cbn [obind].
      apply IH. exists vs. auto.
Qed.
Lemma many_ok l : forall m m', pi_wf m -> pi_many l m = Ok m' <->
  no_clash l /\ (forall p v, In (p, v) l -> pi_get m p = 0) /\ pi_wf m' /\
  forall i v, v <> 0 -> pi_get m' i = v <-> pi_get m i = v \/ In (i, v) l.
Proof.
  induction l as [|[p v] l IH]; intros m m' W; cbn [pi_many].
  - split.
    + intros [= <-]. split; [constructor|]. split; [intros ? ? []|]. split; auto. intros i u Hu. cbn. tauto.
    + intros [_ [_ [W' H]]]. f_equal. apply wf_unique; auto. intros i. destruct (feq_dec (pi_get m i) 0) as [E|E].
      * destruct (feq_dec (pi_get m' i) 0) as [E'|E']; [congruence|]. pose proof (proj1 (H i _ E') eq_refl) as [HH|[]]. congruence.
      * symmetry. apply (H i _ E). auto.
  - destruct (insert_spec p v m W) as [I1 I2]. split.
    + intros H. apply obind_ok in H. destruct H as [m1 [E H]]. destruct (feq_dec (pi_get m p) 0) as [E0|E0]; [|rewrite I2 in E by auto; discriminate].
      destruct (I1 E0) as [m1' [E1 [W1 G1]]]. rewrite E1 in E. injection E as ->. apply IH in H; auto. destruct H as [H1 [H2 [H3 H4]]].
      assert (forall u, In (p, u) l -> v = 0) as V0 by (intros u Hu; apply H2 in Hu; rewrite G1, Nat.eqb_refl in Hu; auto).
      split; [|split; [|split; auto]].
      * constructor; [|exact H1]. apply Forall_forall. intros [q u] Hq. cbn. intros <-. eauto.
      * intros q u [[= <- <-]|Hq]; auto. pose proof (H2 _ _ Hq) as E2. rewrite G1 in E2. destruct (Nat.eqb_spec q p) as [->|]; auto.
      * intros i u Hu. rewrite H4, G1 by auto. cbn [In]. destruct (Nat.eqb_spec i p) as [->|N].
        -- rewrite E0. split; [intros [->|H]; auto|]. intros [H|[[= ->]|H]]; [congruence|auto|auto].
        -- split; [intros [H|H]; auto|]. intros [H|[[= <- <-]|H]]; auto. congruence.
    + intros [H1 [H2 [H3 H4]]]. assert (pi_get m p = 0) as E0 by (apply (H2 p v); now left). destruct (I1 E0) as [m1 [E1 [W1 G1]]]. rewrite E1. cbn [obind].
      apply IH; auto. inversion H1 as [|x l' HA HB]; subst. split; [exact HB|]. split; [|split; auto].
      * intros q u Hq. rewrite G1. destruct (Nat.eqb_spec q p) as [->|]; [|apply (H2 q u); now right].
        exact (proj1 (Forall_forall _ _) HA _ Hq eq_refl).
      * intros i u Hu. rewrite H4, G1 by auto. cbn [In]. destruct (Nat.eqb_spec i p) as [->|N].
        -- rewrite E0. split; [intros [H|[[= ->]|H]]; [congruence|auto|auto]|intros [->|H]; auto].
        -- split; [intros [H|[[= <- <-]|H]]; auto; congruence|intros [H|H]; auto].
Qed.

(** *** evaluations *)
Lemma evals_put_ok m : forall l l', pi_wf m -> evals_put m l = Ok l' <->
  Forall (fun p => fst p < length l)%nat m /\ length l' = length l /\ forall i, (i < length l)%nat -> nth i l' 0 = if feqb (pi_get m i) 0 then nth i l 0 else pi_get m i.
Proof.
  induction m as [|[k v] m IH]; intros l l' W; cbn [evals_put].
  - assert (feqb (F:=F) 0 0 = true) as E0 by (now apply feqb_eq). split.
    + intros [= <-]. split; [constructor|]. split; auto. intros i Hi. cbn. now rewrite E0.
    + intros [_ [L H]]. f_equal. apply (list_eq_nth _ _ _ 0); [auto|]. intros i Hi. cbn in H. rewrite E0 in H. symmetry. auto.
  - apply wf_cons in W. destruct W as [NZ [AB W]]. unfold assert_. rewrite Forall_cons_iff. cbn [fst]. destruct (Nat.ltb_spec k (length l)) as [L|L]; cbn [obind].
    2:{ split; [discriminate|]. intros [[H _] _]. lia. }
    rewrite IH, upd_length by auto.
    assert (feqb v 0 = false) as EV by (destruct (feqb v 0) eqn:E; auto; apply feqb_eq in E; congruence).
    assert (feqb (F:=F) 0 0 = true) as E0 by (now apply feqb_eq).
    assert (forall i, (i < length l)%nat -> (if feqb (pi_get m i) 0 then nth i (upd l k (fun _ => v)) 0 else pi_get m i) =
      (if feqb (pi_get ((k, v) :: m) i) 0 then nth i l 0 else pi_get ((k, v) :: m) i)) as EQ.
    { intros i Hi. cbn [pi_get]. rewrite nth_upd, (Nat.eqb_sym i k). destruct (Nat.eqb_spec k i) as [<-|N].
      - rewrite EV. rewrite (proj2 (Nat.ltb_lt k (length l)) L). rewrite (get_above k m AB), E0. reflexivity.
      - reflexivity. }
    split; intros [H1 [H2 H3]].
    + split; [auto|]. split; [auto|]. intros i Hi. rewrite <- EQ by auto. auto.
    + split; [tauto|]. split; [auto|]. intros i Hi. rewrite EQ by auto. auto.
Qed.
Lemma is_pow2 n : is_power_of_two n = true <-> exists k, n = (2 ^ k)%nat.
Proof.
  unfold is_power_of_two. rewrite andb_true_iff, Nat.ltb_lt, Nat.eqb_eq. split.
  - intros [_ <-]. eauto.
  - intros [k ->]. split; [apply Nat.neq_0_lt_0, Nat.pow_nonzero; lia|]. now rewrite Nat.log2_pow2 by lia.
Qed.
Lemma pi_evals_ok m n l : pi_wf m -> pi_evals m n = Ok l <->
  (exists k, n = (2 ^ k)%nat) /\ Forall (fun p => fst p < n)%nat m /\ l = map (pi_get m) (seq 0 n).
Proof.
  intros W. unfold pi_evals, assert_. rewrite <- is_pow2. destruct (is_power_of_two n); cbn [obind]; [|split; [discriminate|intros [H _]; discriminate]].
  rewrite evals_put_ok by auto. rewrite repeat_length.
  assert (forall i, (i < n)%nat -> (if feqb (pi_get m i) 0 then nth i (repeat 0 n) 0 else pi_get m i) = pi_get m i) as EQ.
  { intros i Hi. destruct (feqb (pi_get m i) 0) eqn:E; auto. apply feqb_eq in E. now rewrite E, nth_repeat. }
  split.
  - intros [H1 [H2 H3]]. split; auto. split; auto. apply (list_eq_nth _ _ _ 0); [now rewrite map_length, seq_length|].
    intros i Hi. rewrite H2 in Hi. rewrite H3, EQ by auto. now rewrite nth_map_seq.
  - intros [_ [H1 ->]]. split; auto. rewrite map_length, seq_length. split; auto. intros i Hi. rewrite EQ by auto. now rewrite nth_map_seq.
Qed.
End PlonkPIProofs.

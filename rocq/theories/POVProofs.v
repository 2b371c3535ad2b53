(** POVProofs.v: POV satisfaction and the arkworks conversion. *)
From Verif Require Import Base Spec Tools ToolsProofs MatProofs CS CSProofs.
From Coq Require Import ZifyBool.
Local Open Scope F_scope.

Section PO.
Context {F : Type} {fo : FieldOps F} {fl : FieldLaws F}.
Add Field Ffield_po : F_th.

Lemma get_value_at_spec (a b c : list F) i :
  get_value_at (a, b, c) i = nth_error (a ++ b ++ c) i.
Proof.
  unfold get_value_at. destruct (Nat.ltb_spec i (length a)) as [H1|H1].
  - now rewrite nth_error_app1.
  - rewrite nth_error_app2 by auto. destruct (Nat.ltb_spec i (length a + length b)) as [H2|H2].
    + rewrite nth_error_app1 by lia. reflexivity.
    + rewrite nth_error_app2 by lia. destruct (Nat.ltb_spec i (length a + length b + length c)) as [H3|H3]; auto.
      symmetry. apply nth_error_None. lia.
Qed.

Lemma nth_error_coef (w : list F) i x : nth_error w i = Some x <-> (i < length w)%nat /\ coef w i = x.
Proof.
  split.
  - intros H. split; [apply nth_error_Some; congruence|]. unfold coef. now apply nth_error_nth.
  - intros [H <-]. now apply nth_error_nth'.
Qed.

Lemma wiring_spec (p : POV F) (a b c : list F) :
  satisfy_wiring p (a, b, c) = true <->
  (forall x y, In (x, y) (p_wires p) ->
     (x < length (a ++ b ++ c))%nat /\ (y < length (a ++ b ++ c))%nat /\ coef (a ++ b ++ c) x = coef (a ++ b ++ c) y).
Proof.
  unfold satisfy_wiring. rewrite forallb_forall. split.
  - intros H x y Hin. specialize (H (x, y) Hin). cbn [fst snd] in H. rewrite !get_value_at_spec in H.
    destruct (nth_error _ x) as [u|] eqn:E1; [|discriminate].
    destruct (nth_error _ y) as [v|] eqn:E2; [|discriminate].
    apply nth_error_coef in E1, E2. destruct E1 as [L1 E1], E2 as [L2 E2]. apply feqb_eq in H.
    repeat split; auto. congruence.
  - intros H [x y] Hin. destruct (H x y Hin) as [L1 [L2 E]]. cbn [fst snd]. rewrite !get_value_at_spec.
    rewrite !(nth_error_nth' _ _ _ 0) by auto. apply feqb_eq. exact E.
Qed.

Lemma instance_spec (a b c : list F) (pos : list nat) (vals : list F) :
  satisfy_instance (a, b, c) (pos, vals) = true <->
  (forall i, (i < length pos)%nat -> (i < length vals)%nat ->
     (nth i pos 0%nat < length (a ++ b ++ c))%nat /\ coef (a ++ b ++ c) (nth i pos 0%nat) = coef vals i).
Proof.
  unfold satisfy_instance. rewrite forallb_forall. cbn [fst snd]. split.
  - intros H i Hi Hv. specialize (H (nth i pos 0%nat, nth i vals 0)).
    assert (In (nth i pos 0%nat, nth i vals 0) (combine pos vals)) as Hin.
    { rewrite <- combine_nth2 by auto. apply nth_In. rewrite combine_length. lia. }
    specialize (H Hin). cbn [fst snd] in H. rewrite get_value_at_spec in H.
    destruct (nth_error _ (nth i pos 0%nat)) as [u|] eqn:E1; [|discriminate].
    apply nth_error_coef in E1. destruct E1 as [L1 E1]. apply feqb_eq in H. split; auto. unfold coef in *. congruence.
  - intros H [x v] Hin. apply (In_nth _ _ (0%nat, 0)) in Hin. destruct Hin as [i [Hi E]].
    rewrite combine_length in Hi. rewrite combine_nth2 in E by lia. injection E as <- <-.
    destruct (H i) as [L E]; try lia. cbn [fst snd]. rewrite get_value_at_spec, (nth_error_nth' _ _ _ 0) by auto.
    apply feqb_eq. exact E.
Qed.

Definition gate_ok (p : POV F) (i : nat) (a b c : F) : Prop :=
  if (i <? p_nmul p)%nat then c = a * b
  else if (i <? p_nmul p + p_nadd p)%nat then c = a + b
  else c = coef (p_consts p) (i - (p_nmul p + p_nadd p)).

Lemma gate_logics_spec {E} p (l : list (F * F * F)) s :
  (s + length l <= p_nmul p + p_nadd p + length (p_consts p))%nat ->
  exists b, gate_logics (E:=E) p (combine (seq s (length l)) l) = Ok b /\
   (b = true <-> forall i, (i < length l)%nat ->
      let '(x, y, z) := nth i l (0, 0, 0) in gate_ok p (s + i) x y z).
Proof.
  revert s; induction l as [|[[a b] c] l IH]; intros s Hs.
  - exists true. split; auto. split; auto. intros _ i Hi. simpl in Hi. lia.
  - simpl in Hs. destruct (IH (S s)) as [r [Er Hr]]; [lia|].
    assert (forall P : bool, (P = true <-> gate_ok p s a b c) ->
      exists b0, (if P then gate_logics (E:=E) p (combine (seq (S s) (length l)) l) else Ok false) = Ok b0 /\
       (b0 = true <-> forall i, (i < S (length l))%nat ->
          let '(x, y, z) := nth i ((a, b, c) :: l) (0, 0, 0) in gate_ok p (s + i) x y z)) as Hstep.
    { intros P HP. destruct P.
      - exists r. split; auto. rewrite Hr. split.
        + intros H i Hi. destruct i as [|i].
          * simpl. rewrite Nat.add_0_r. now apply HP.
          * cbn [nth]. specialize (H i ltac:(lia)). replace (s + S i)%nat with (S s + i)%nat by lia. exact H.
        + intros H i Hi. specialize (H (S i) ltac:(lia)). cbn [nth] in H.
          replace (s + S i)%nat with (S s + i)%nat in H by lia. exact H.
      - exists false. split; auto. split; [discriminate|]. intros H. specialize (H 0%nat ltac:(lia)).
        simpl in H. rewrite Nat.add_0_r in H. now apply HP in H. }
    cbn [length seq combine gate_logics].
    unfold gate_ok in Hstep at 1.
    destruct (Nat.ltb_spec s (p_nmul p)); [|destruct (Nat.ltb_spec s (p_nmul p + p_nadd p))].
    + apply Hstep. apply feqb_eq.
    + apply Hstep. apply feqb_eq.
    + rewrite (nth_error_nth' _ _ _ 0) by lia. apply Hstep. apply feqb_eq.
Qed.

Lemma gates_spec {E} p (a b c : list F) :
  let n := (p_nmul p + p_nadd p + length (p_consts p))%nat in
  length a = n -> length b = n -> length c = n ->
  exists r, satisfy_gate_logics (E:=E) p (a, b, c) = Ok r /\
   (r = true <->
    (forall i, (i < p_nmul p)%nat -> coef c i = coef a i * coef b i) /\
    (forall i, (p_nmul p <= i < p_nmul p + p_nadd p)%nat -> coef c i = coef a i + coef b i) /\
    (forall i, (i < length (p_consts p))%nat -> coef c (p_nmul p + p_nadd p + i) = coef (p_consts p) i)).
Proof.
  intros n La Lb Lc. unfold satisfy_gate_logics.
  assert (length (combine (combine a b) c) = n) as Lz by (rewrite !combine_length; lia).
  destruct (gate_logics_spec (E:=E) p (combine (combine a b) c) 0) as [r [Er Hr]]; [unfold n in *; lia|].
  exists r. split; auto. rewrite Hr, Lz.
  assert (forall i, (i < n)%nat -> nth i (combine (combine a b) c) (0, 0, 0) = (coef a i, coef b i, coef c i)) as Hn.
  { intros i Hi. rewrite combine_nth2 by (rewrite ?combine_length; lia). now rewrite combine_nth2 by lia. }
  split.
  - intros H. split; [|split]; intros i Hi.
    + specialize (H i ltac:(unfold n; lia)). rewrite Hn in H by (unfold n; lia).
      unfold gate_ok in H. destruct (Nat.ltb_spec (0 + i) (p_nmul p)); [auto|lia].
    + specialize (H i ltac:(unfold n; lia)). rewrite Hn in H by (unfold n; lia).
      unfold gate_ok in H. destruct (Nat.ltb_spec (0 + i) (p_nmul p)); [lia|].
      destruct (Nat.ltb_spec (0 + i) (p_nmul p + p_nadd p)); [auto|lia].
    + specialize (H (p_nmul p + p_nadd p + i)%nat ltac:(unfold n; lia)). rewrite Hn in H by (unfold n; lia).
      unfold gate_ok in H.
      destruct (Nat.ltb_spec (0 + (p_nmul p + p_nadd p + i)) (p_nmul p)); [lia|].
      destruct (Nat.ltb_spec (0 + (p_nmul p + p_nadd p + i)) (p_nmul p + p_nadd p)); [lia|].
      rewrite H. f_equal. lia.
  - intros [H1 [H2 H3]] i Hi. rewrite Hn by auto. unfold gate_ok. rewrite Nat.add_0_l.
    destruct (Nat.ltb_spec i (p_nmul p)); auto.
    destruct (Nat.ltb_spec i (p_nmul p + p_nadd p)); [apply H2; lia|].
    rewrite <- H3 by (unfold n in Hi; lia). f_equal. lia.
Qed.

Lemma pov_satisfy_spec {E} p pos vals (a b c : list F) :
  let n := (p_nmul p + p_nadd p + length (p_consts p))%nat in
  length a = n -> length b = n -> length c = n ->
  exists r, pov_satisfy (E:=E) p (pos, vals) (a, b, c) = Ok r /\
   (r = true <-> pov_holds (p_consts p) (p_wires p) (p_nmul p) (p_nadd p) pos vals a b c).
Proof.
  intros n La Lb Lc. destruct (gates_spec (E:=E) p a b c La Lb Lc) as [g [Eg Hg]].
  unfold pov_satisfy. rewrite Eg. cbn [obind]. eexists. split; [reflexivity|].
  rewrite !andb_true_iff, wiring_spec, instance_spec, Hg. unfold pov_holds. tauto.
Qed.

(** *** arkworks matrices *)
Lemma entries_of_split (l : entries (F:=F)) :
  entries_of (map (fun e => fst (fst e)) l) (map (fun e => snd (fst e)) l) (map snd l) = l.
Proof. unfold entries_of. induction l as [|[[r c] x] l IH]; simpl; auto. now rewrite IH. Qed.


Lemma ark_flatten_at_gen (m : list (list (F * nat))) s r c :
  mat_at (flat_map (fun ir => map (fun cc => (fst ir, snd cc, fst cc)) (snd ir))
           (combine (seq s (length m)) m)) r c
  = if (s <=? r)%nat then ark_at m (r - s) c else 0.
Proof.
  revert s; induction m as [|row m IH]; intros s.
  - simpl. unfold mat_at, ark_at. destruct (s <=? r)%nat; auto. now destruct (r - s)%nat.
  - cbn [length seq combine flat_map fst snd]. rewrite mat_at_app, IH.
    assert (mat_at (map (fun cc : F * nat => (s, snd cc, fst cc)) row) r c
            = if (s =? r)%nat then fsum (map (fun xc => if (snd xc =? c)%nat then fst xc else 0) row) else 0) as ->.
    { unfold mat_at. rewrite map_map. destruct (Nat.eqb_spec s r) as [->|Hne].
      - apply (f_equal fsum). apply map_ext. intros [x cc]. reflexivity.
      - induction row as [|[x cc] row IHr]; auto. cbn [map fsum fst snd andb] in *. rewrite IHr. ring. }
    unfold ark_at. destruct (Nat.eqb_spec s r) as [->|Hne].
    + destruct (Nat.leb_spec (S r) r); [lia|]. destruct (Nat.leb_spec r r); [|lia].
      rewrite Nat.sub_diag. cbn [nth]. ring.
    + destruct (Nat.leb_spec (S s) r); destruct (Nat.leb_spec s r); try lia.
      * replace (r - s)%nat with (S (r - S s)) by lia. cbn [nth]. ring.
      * ring.
Qed.
Lemma ark_flatten_at (m : list (list (F * nat))) r c : mat_at (ark_flatten m) r c = ark_at m r c.
Proof. unfold ark_flatten. rewrite ark_flatten_at_gen. cbn [Nat.leb]. now rewrite Nat.sub_0_r. Qed.
End PO.

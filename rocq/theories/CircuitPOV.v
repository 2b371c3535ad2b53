(** CircuitPOV.v: wire layout, witness extraction and the derived POV. *)
From Verif Require Import Base Spec ProgSpec Tools CS POVProofs Circuit CircuitProofs Build.
Local Open Scope F_scope.

Section CPV.
Context {F : Type} {fo : FieldOps F} {fl : FieldLaws F}.
Add Field Fcpv : F_th.
Implicit Types (c : circ F) (p : program F).

(** *** layout *)
Lemma wire_index_lt c w i : var_of_wire c w = Some i -> (wire_index c w < 3 * gate_num c)%nat.
Proof.
  unfold gate_num, add_num, mul_num, const_num.
  destruct w as [[k []|k []]|[k|k|k]]; cbn; unfold gate_num, add_num, mul_num, const_num;
  match goal with |- context[nth_error ?l k] => destruct (nth_error l k) eqn:E; [|discriminate]; apply nth_error_lt in E end;
  intros; lia.
Qed.
Lemma wire_index_inj c w w' i i' : var_of_wire c w = Some i -> var_of_wire c w' = Some i' ->
  wire_index c w = wire_index c w' -> w = w'.
Proof.
  unfold gate_num, add_num, mul_num, const_num.
  destruct w as [[k []|k []]|[k|k|k]]; destruct w' as [[k' []|k' []]|[k'|k'|k']]; cbn; unfold gate_num, add_num, mul_num, const_num;
  (match goal with |- option_map _ (nth_error ?l k) = _ -> option_map _ (nth_error ?l' k') = _ -> _ =>
    destruct (nth_error l k) eqn:E; [|discriminate]; apply nth_error_lt in E;
    destruct (nth_error l' k') eqn:E'; [|discriminate]; apply nth_error_lt in E' end);
  intros _ _ H; solve [exfalso; lia | f_equal; f_equal; lia].
Qed.

(** *** witness *)
Lemma collect_map {A B} (f : A -> outcome cerr B) (g : A -> B) l :
  (forall x, In x l -> f x = Ok (g x)) -> collect f l = Ok (map g l).
Proof.
  induction l as [|x l IH]; intros H; cbn; auto. rewrite (H x) by now left. cbn.
  rewrite IH by (intros; apply H; now right). reflexivity.
Qed.
Definition values (c : circ F) (val : nat -> F) := forall i, (i < nv c)%nat -> get_var_value c i = Ok (val i).
Definition wit_of (c : circ F) (val : nat -> F) : list F * list F * list F :=
  let z := repeat 0 (const_num c) in
  (map (fun g => val (g_l g)) (c_mul c) ++ map (fun g => val (g_l g)) (c_add c) ++ z,
   map (fun g => val (g_r g)) (c_mul c) ++ map (fun g => val (g_r g)) (c_add c) ++ z,
   map (fun g => val (g_o g)) (c_mul c) ++ map (fun g => val (g_o g)) (c_add c) ++ map (fun g => val (cg_o g)) (c_const c)).
Lemma get_witness_ok c val : Inv c -> values c val -> get_witness c = Ok (wit_of c val).
Proof.
  intros I V. unfold get_witness.
  assert (forall g, In g (c_mul c) \/ In g (c_add c) -> (g_l g < nv c)%nat /\ (g_r g < nv c)%nat /\ (g_o g < nv c)%nat) as HG.
  { intros g [H|H]; pose proof H as Hk; apply nth_error_In_iff in Hk; destruct Hk as [k Hk].
    - pose proof (gate_out_lt c g I (or_intror H)). destruct (inv_mul c I k g Hk) as [? [? _]]. lia.
    - pose proof (gate_out_lt c g I (or_introl H)). destruct (inv_add c I k g Hk) as [? [? _]]. lia. }
  rewrite (collect_map _ (fun g => val (g_l g)) (c_mul c)) by (intros; apply V; now apply HG; auto). cbn [obind].
  rewrite (collect_map _ (fun g => val (g_l g)) (c_add c)) by (intros; apply V; now apply HG; auto). cbn [obind].
  rewrite (collect_map _ (fun g => val (g_r g)) (c_mul c)) by (intros; apply V; now apply HG; auto). cbn [obind].
  rewrite (collect_map _ (fun g => val (g_r g)) (c_add c)) by (intros; apply V; now apply HG; auto). cbn [obind].
  rewrite (collect_map _ (fun g => val (g_o g)) (c_mul c)) by (intros; apply V; now apply HG; auto). cbn [obind].
  rewrite (collect_map _ (fun g => val (g_o g)) (c_add c)) by (intros; apply V; now apply HG; auto). cbn [obind].
  rewrite (collect_map _ (fun g => val (cg_o g)) (c_const c)) by (intros; apply V; now apply cgate_out_lt). cbn [obind].
  reflexivity.
Qed.
Lemma wit_lengths c val : let '(a, b, d) := wit_of c val in
  length a = gate_num c /\ length b = gate_num c /\ length d = gate_num c.
Proof.
  unfold wit_of, gate_num, add_num, mul_num, const_num. rewrite !app_length, !map_length, !repeat_length. lia.
Qed.
Lemma coef_app_l (a b : list F) i : (i < length a)%nat -> coef (a ++ b) i = coef a i.
Proof. intros. unfold coef. now apply app_nth1. Qed.
Lemma coef_app_r (a b : list F) i : coef (a ++ b) (i + length a) = coef b i.
Proof. unfold coef. rewrite app_nth2 by lia. f_equal. lia. Qed.
Lemma coef_map_nth {A} (f : A -> F) l k x : nth_error l k = Some x -> coef (map f l) k = f x.
Proof. intros H. unfold coef. apply nth_error_nth. now apply map_nth_error. Qed.
Lemma coef_app_eq (a b : list F) i j : (i = j + length a)%nat -> coef (a ++ b) i = coef b j.
Proof. intros ->. apply coef_app_r. Qed.

Lemma wit_at c val w i : var_of_wire c w = Some i ->
  let '(a, b, d) := wit_of c val in coef (a ++ b ++ d) (wire_index c w) = val i.
Proof.
  intros H. pose proof (wit_lengths c val) as HL. destruct (wit_of c val) as [[a b] d] eqn:E.
  destruct HL as [La [Lb Ld]]. unfold wit_of in E. injection E as Ea Eb Ed.
  destruct w as [[k []|k []]|[k|k|k]]; cbn in H;
  (match type of H with option_map _ (nth_error ?l k) = _ =>
    destruct (nth_error l k) as [g|] eqn:Eg; [|discriminate]; cbn in H; injection H as <-; pose proof Eg as Hlt; apply nth_error_lt in Hlt end);
  cbn [wire_index]; unfold gate_num, add_num, mul_num, const_num in *.
  - rewrite coef_app_l by lia. rewrite <- Ea. rewrite (coef_app_eq _ _ _ k) by (rewrite map_length; lia).
    rewrite coef_app_l by (rewrite map_length; lia). apply (coef_map_nth (fun g => val (g_l g))); auto.
  - rewrite (coef_app_eq _ _ _ (k + length (c_mul c))) by lia. rewrite coef_app_l by lia. rewrite <- Eb.
    rewrite (coef_app_eq _ _ _ k) by (rewrite map_length; lia).
    rewrite coef_app_l by (rewrite map_length; lia). apply (coef_map_nth (fun g => val (g_r g))); auto.
  - rewrite coef_app_l by lia. rewrite <- Ea. rewrite Nat.add_0_r.
    rewrite coef_app_l by (rewrite map_length; lia). apply (coef_map_nth (fun g => val (g_l g))); auto.
  - rewrite (coef_app_eq _ _ _ k) by lia. rewrite coef_app_l by lia. rewrite <- Eb.
    rewrite coef_app_l by (rewrite map_length; lia). apply (coef_map_nth (fun g => val (g_r g))); auto.
  - rewrite app_assoc. rewrite (coef_app_eq _ _ _ (k + length (c_mul c))) by (rewrite app_length; lia). rewrite <- Ed.
    rewrite (coef_app_eq _ _ _ k) by (rewrite map_length; lia).
    rewrite coef_app_l by (rewrite map_length; lia). apply (coef_map_nth (fun g => val (g_o g))); auto.
  - rewrite app_assoc. rewrite (coef_app_eq _ _ _ k) by (rewrite app_length; lia). rewrite <- Ed.
    rewrite coef_app_l by (rewrite map_length; lia). apply (coef_map_nth (fun g => val (g_o g))); auto.
  - rewrite app_assoc. rewrite (coef_app_eq _ _ _ (k + (length (c_mul c) + length (c_add c)))) by (rewrite app_length; lia). rewrite <- Ed.
    rewrite app_assoc. rewrite (coef_app_eq _ _ _ k) by (rewrite app_length, !map_length; lia).
    apply (coef_map_nth (fun g => val (cg_o g))); auto.
Qed.

(** *** wiring *)
Lemma windows2_In {A} (l : list A) x y : In (x, y) (windows2 l) -> In x l /\ In y l.
Proof.
  revert x y; induction l as [|a l IH]; intros x y; [intros []|].
  destruct l as [|b l']; [intros []|]. cbn [windows2]. intros [H|H].
  - injection H as <- <-. cbn. auto.
  - destruct (IH x y H). cbn in *. tauto.
Qed.
Lemma windows2_hd {A} (P : A -> A -> Prop) (l : list A) d :
  (forall x, P x x) -> (forall x y z, P x y -> P y z -> P x z) ->
  (forall x y, In (x, y) (windows2 l) -> P x y) -> forall y, In y l -> P (hd d l) y.
Proof.
  intros Hr Ht. destruct l as [|a l]; [intros _ y []|]. cbn [hd]. revert a.
  induction l as [|b l IH]; intros a H y Hy.
  - destruct Hy as [->|[]]. apply Hr.
  - destruct Hy as [->|Hy]; [apply Hr|]. apply (Ht _ b).
    + apply H. cbn. now left.
    + apply (IH b); auto. intros u v Huv. apply H. cbn [windows2]. now right.
Qed.

Definition wiring_ok (c : circ F) := forallb connected_var (c_vars c) = true.
Lemma any_wire_ok c i v : Inv c -> nth_error (c_vars c) i = Some v -> connected_var v = true ->
  exists w, any_wire v = Some w /\ var_of_wire c w = Some i /\ hd_error (var_wires v) = Some w.
Proof.
  intros I Hv Hc. unfold any_wire, connected_var, is_gate_input, is_gate_output, first_in in *.
  destruct (v_in v) as [|w ws] eqn:Ei.
  - destruct (v_out v) as [g|] eqn:Eo; [|discriminate]. exists (WOut g). split; auto. split.
    + apply (var_in_wire c i v); auto. unfold var_wires. rewrite Ei, Eo. now left.
    + unfold var_wires. rewrite Ei, Eo. reflexivity.
  - exists (WIn w). split; auto. split.
    + apply (var_in_wire c i v); auto. unfold var_wires. rewrite Ei. now left.
    + unfold var_wires. rewrite Ei. reflexivity.
Qed.
(** the wire that represents variable i *)
Definition rep (c : circ F) (i : nat) : wire :=
  match nth_error (c_vars c) i with
  | Some v => match any_wire v with Some w => w | None => WOut (OAdd 0) end
  | None => WOut (OAdd 0)
  end.
Lemma rep_ok c i : Inv c -> wiring_ok c -> (i < nv c)%nat -> var_of_wire c (rep c i) = Some i.
Proof.
  intros I W Hi. destruct (nth_error_ex _ _ _ Hi) as [v Hv]. unfold rep. rewrite Hv.
  destruct (any_wire_ok c i v I Hv) as [w [-> [H _]]]; auto.
  exact (proj1 (forallb_nth_error _ _) W i v Hv).
Qed.
Lemma eq_pair_ok c a b : Inv c -> wiring_ok c -> (a < nv c)%nat -> (b < nv c)%nat ->
  eq_pair c (a, b) = Ok (wire_index c (rep c a), wire_index c (rep c b)).
Proof.
  intros I W Ha Hb. unfold eq_pair, get_var, rep. cbn [fst snd].
  destruct (nth_error_ex _ _ _ Ha) as [va Hva]. destruct (nth_error_ex _ _ _ Hb) as [vb Hvb]. rewrite Hva, Hvb. cbn [obind].
  destruct (any_wire_ok c a va I Hva) as [wa [-> _]]; [exact (proj1 (forallb_nth_error _ _) W a va Hva)|].
  destruct (any_wire_ok c b vb I Hvb) as [wb [-> _]]; [exact (proj1 (forallb_nth_error _ _) W b vb Hvb)|].
  reflexivity.
Qed.
Definition wires_of (c : circ F) : list (nat * nat) :=
  flat_map (fun v => windows2 (map (wire_index c) (var_wires v))) (c_vars c) ++
  map (fun ab => (wire_index c (rep c (fst ab)), wire_index c (rep c (snd ab)))) (c_eqs c).
Lemma get_wiring_ok c : Inv c -> wiring_ok c -> is_complete c = true -> get_wiring c = Ok (wires_of c).
Proof.
  intros I W Hc. unfold get_wiring, assert_complete. rewrite Hc. cbn [obind].
  rewrite (collect_map _ (fun ab => (wire_index c (rep c (fst ab)), wire_index c (rep c (snd ab))))).
  - reflexivity.
  - intros [a b] Hab. destruct (inv_eqs c I a b Hab) as [Ha [Hb _]]. now apply eq_pair_ok.
Qed.
Lemma pov_from_ok c : Inv c -> wiring_ok c -> is_complete c = true ->
  pov_from_circuit c = Ok (mkPOV (get_consts c) (wires_of c) (mul_num c) (add_num c)).
Proof. intros. unfold pov_from_circuit. now rewrite get_wiring_ok. Qed.

(** the derived wires hold for values [w] (indexed by position) iff positions of one variable agree
    and the asserted pairs agree *)
Lemma wires_of_spec c (Q : nat -> nat -> Prop) : Inv c -> wiring_ok c ->
  (forall x, Q x x) -> (forall x y, Q x y -> Q y x) -> (forall x y z, Q x y -> Q y z -> Q x z) ->
  ((forall x y, In (x, y) (wires_of c) -> Q x y) <->
   (forall w i, var_of_wire c w = Some i -> Q (wire_index c w) (wire_index c (rep c i))) /\
   (forall a b, In (a, b) (c_eqs c) -> Q (wire_index c (rep c a)) (wire_index c (rep c b)))).
Proof.
  intros I W Qr Qs Qt. unfold wires_of. split.
  - intros H. split.
    + intros w i Hw.
      assert (exists v, nth_error (c_vars c) i = Some v /\ In w (var_wires v)) as [v [Hv Hin]].
      { destruct w as [w|g].
        - assert (i < nv c)%nat as Hi.
          { destruct w as [k []|k []]; cbn in Hw;
            (match type of Hw with option_map _ (nth_error ?l k) = _ => destruct (nth_error l k) as [g|] eqn:Eg; [|discriminate] end);
            cbn in Hw; injection Hw as <-.
            1,2: pose proof (gate_out_lt c g I (or_introl (nth_error_In _ _ Eg))); destruct (inv_add c I k g Eg) as [? [? _]]; lia.
            all: pose proof (gate_out_lt c g I (or_intror (nth_error_In _ _ Eg))); destruct (inv_mul c I k g Eg) as [? [? _]]; lia. }
          destruct (nth_error_ex _ _ _ Hi) as [v Hv]. exists v. split; auto. unfold var_wires. apply in_app_iff. left.
          apply in_map. now apply (inv_in c I i v w Hv).
        - assert (exists v, nth_error (c_vars c) i = Some v /\ v_out v = Some g) as [v [Hv Ho]].
          { destruct g as [k|k|k]; cbn in Hw;
            (match type of Hw with option_map _ (nth_error ?l k) = _ => destruct (nth_error l k) as [g|] eqn:Eg; [|discriminate] end);
            cbn in Hw; injection Hw as <-.
            - destruct (inv_add c I k g Eg) as [_ [_ X]]. exact X.
            - destruct (inv_mul c I k g Eg) as [_ [_ X]]. exact X.
            - exact (inv_const c I k g Eg). }
          exists v. split; auto. unfold var_wires. rewrite Ho. apply in_app_iff. right. now left. }
      destruct (any_wire_ok c i v I Hv) as [w0 [E0 [_ Hh]]]; [exact (proj1 (forallb_nth_error _ _) W i v Hv)|].
      unfold rep. rewrite Hv, E0. apply Qs.
      assert (hd 0%nat (map (wire_index c) (var_wires v)) = wire_index c w0) as <-.
      { destruct (var_wires v); [discriminate|]. cbn in *. congruence. }
      apply (windows2_hd Q _ 0%nat); auto.
      * intros x y Hxy. apply H. apply in_app_iff. left. apply in_flat_map. exists v. split; auto. now apply nth_error_In in Hv.
      * now apply in_map.
    + intros a b Hab. apply H. apply in_app_iff. right. apply in_map_iff. exists (a, b). auto.
  - intros [H1 H2] x y Hxy. apply in_app_iff in Hxy. destruct Hxy as [Hxy|Hxy].
    + apply in_flat_map in Hxy. destruct Hxy as [v [Hv Hxy]]. apply In_nth_error in Hv. destruct Hv as [i Hv].
      apply windows2_In in Hxy. destruct Hxy as [Hx Hy]. apply in_map_iff in Hx, Hy.
      destruct Hx as [wx [<- Hx]]. destruct Hy as [wy [<- Hy]].
      apply (Qt _ (wire_index c (rep c i))); [|apply Qs]; apply H1; now apply (var_in_wire c i v).
    + apply in_map_iff in Hxy. destruct Hxy as [[a b] [E Hab]]. injection E as <- <-. now apply H2.
Qed.

Lemma get_instance_ok c val : Inv c -> values c val ->
  get_instance c = Ok (map (wire_index c) (c_pub c), map (fun w => match var_of_wire c w with Some i => val i | None => 0 end) (c_pub c)).
Proof.
  intros I V. unfold get_instance.
  rewrite (collect_map _ (fun w => match var_of_wire c w with Some i => val i | None => 0 end)); auto.
  intros w Hw. destruct (inv_pub c I w Hw) as [i Hi]. unfold get_wire_value. rewrite Hi. cbn [unwrap_opt obind].
  apply V. assert (In i [i]) by now left.
  destruct w as [[k []|k []]|[k|k|k]]; cbn in Hi;
    (match type of Hi with option_map _ (nth_error ?l k) = _ => destruct (nth_error l k) as [g|] eqn:Eg; [|discriminate] end);
    cbn in Hi; injection Hi as <-.
  1,2: pose proof (gate_out_lt c g I (or_introl (nth_error_In _ _ Eg))); destruct (inv_add c I k g Eg) as [? [? _]]; lia.
  1,2: pose proof (gate_out_lt c g I (or_intror (nth_error_In _ _ Eg))); destruct (inv_mul c I k g Eg) as [? [? _]]; lia.
  - apply (gate_out_lt c g I). left. now apply nth_error_In in Eg.
  - apply (gate_out_lt c g I). right. now apply nth_error_In in Eg.
  - apply (cgate_out_lt c g I). now apply nth_error_In in Eg.
Qed.

(** *** positions of a POV witness, gate by gate *)
Section Pos.
Variables (c : circ F) (a b d : list F).
Hypothesis (La : length a = gate_num c) (Lb : length b = gate_num c) (Ld : length d = gate_num c).
Lemma pos_mul k : (k < mul_num c)%nat ->
  coef (a ++ b ++ d) (wire_index c (WIn (IMul k SL))) = coef a k /\
  coef (a ++ b ++ d) (wire_index c (WIn (IMul k SR))) = coef b k /\
  coef (a ++ b ++ d) (wire_index c (WOut (OMul k))) = coef d k.
Proof.
  intros H. cbn [wire_index]. unfold gate_num in *. repeat split.
  - rewrite coef_app_l by lia. f_equal. lia.
  - rewrite (coef_app_eq _ _ _ k) by lia. now rewrite coef_app_l by lia.
  - rewrite app_assoc. rewrite (coef_app_eq _ _ _ k); auto. rewrite app_length. lia.
Qed.
Lemma pos_add k : (k < add_num c)%nat ->
  coef (a ++ b ++ d) (wire_index c (WIn (IAdd k SL))) = coef a (mul_num c + k) /\
  coef (a ++ b ++ d) (wire_index c (WIn (IAdd k SR))) = coef b (mul_num c + k) /\
  coef (a ++ b ++ d) (wire_index c (WOut (OAdd k))) = coef d (mul_num c + k).
Proof.
  intros H. cbn [wire_index]. unfold gate_num in *. repeat split.
  - rewrite coef_app_l by lia. f_equal. lia.
  - rewrite (coef_app_eq _ _ _ (mul_num c + k)) by lia. now rewrite coef_app_l by lia.
  - rewrite app_assoc. rewrite (coef_app_eq _ _ _ (mul_num c + k)); auto. rewrite app_length. lia.
Qed.
Lemma pos_const k : (k < const_num c)%nat ->
  coef (a ++ b ++ d) (wire_index c (WOut (OConst k))) = coef d (mul_num c + add_num c + k).
Proof.
  intros H. cbn [wire_index]. unfold gate_num in *. rewrite app_assoc.
  rewrite (coef_app_eq _ _ _ (mul_num c + add_num c + k)); auto. rewrite app_length. lia.
Qed.
End Pos.

Lemma honest_pov c inp val : Inv c -> wiring_ok c -> consistent c inp val ->
  let '(a, b, d) := wit_of c val in
  pov_holds (get_consts c) (wires_of c) (mul_num c) (add_num c) (map (wire_index c) (c_pub c))
     (map (fun w => match var_of_wire c w with Some i => val i | None => 0 end) (c_pub c)) a b d
  <-> (forall x y, In (x, y) (c_eqs c) -> val x = val y).
Proof.
  intros I W Hcon. pose proof (wit_lengths c val) as HL. pose proof (fun w i => wit_at c val w i) as HA.
  destruct (wit_of c val) as [[a b] d] eqn:E. destruct HL as [La [Lb Ld]].
  assert (HT : length (a ++ b ++ d) = (3 * gate_num c)%nat) by (rewrite !app_length; lia).
  assert (HQ : (forall x y, In (x, y) (wires_of c) -> (x < length (a ++ b ++ d))%nat /\ (y < length (a ++ b ++ d))%nat /\ coef (a ++ b ++ d) x = coef (a ++ b ++ d) y)
     <-> (forall x y, In (x, y) (c_eqs c) -> val x = val y)).
  { pose proof (wires_of_spec c (fun x y => ((x < length (a ++ b ++ d))%nat <-> (y < length (a ++ b ++ d))%nat) /\ coef (a ++ b ++ d) x = coef (a ++ b ++ d) y) I W) as HS.
    assert (forall x y, In (x, y) (c_eqs c) -> coef (a ++ b ++ d) (wire_index c (rep c x)) = val x /\ coef (a ++ b ++ d) (wire_index c (rep c y)) = val y
       /\ (wire_index c (rep c x) < length (a ++ b ++ d))%nat /\ (wire_index c (rep c y) < length (a ++ b ++ d))%nat) as HE.
    { intros x y Hxy. destruct (inv_eqs c I x y Hxy) as [Hx [Hy _]]. rewrite HT.
      repeat split; try apply HA; try (eapply wire_index_lt); now apply rep_ok. }
    split.
    - intros H x y Hxy. destruct HS as [HS _].
      + tauto.
      + intros u v [? ?]. split; [tauto|congruence].
      + intros u v t [? ?] [? ?]. split; [tauto|congruence].
      + destruct HS as [_ HS].
        { intros u v Huv. destruct (H u v Huv) as [? [? ?]]. split; auto. tauto. }
        destruct (HS x y Hxy) as [_ HS']. destruct (HE x y Hxy) as [-> [-> _]] in HS'. exact HS'.
    - intros H x y Hxy.
      assert ((forall x y, In (x, y) (wires_of c) -> (x < length (a ++ b ++ d))%nat /\ (y < length (a ++ b ++ d))%nat)) as HB.
      { clear x y Hxy. intros x y Hxy. unfold wires_of in Hxy. apply in_app_iff in Hxy. destruct Hxy as [Hxy|Hxy].
        - apply in_flat_map in Hxy. destruct Hxy as [v [Hv Hxy]]. apply In_nth_error in Hv. destruct Hv as [i Hv].
          apply windows2_In in Hxy. destruct Hxy as [Hx Hy]. apply in_map_iff in Hx, Hy.
          destruct Hx as [wx [<- Hx]]. destruct Hy as [wy [<- Hy]]. rewrite HT.
          split; apply (wire_index_lt c _ i); now apply (var_in_wire c i v).
        - apply in_map_iff in Hxy. destruct Hxy as [[u v] [E' Huv]]. injection E' as <- <-. cbn. destruct (HE u v Huv) as [_ [_ ?]]. auto. }
      destruct (HB x y Hxy) as [Bx By]. split; auto. split; auto.
      destruct HS as [_ HS].
      + tauto.
      + intros u v [? ?]. split; [tauto|congruence].
      + intros u v t [? ?] [? ?]. split; [tauto|congruence].
      + apply HS; auto. split.
        * intros w i Hw. assert (i < nv c)%nat as Hi.
          { destruct (Nat.lt_ge_cases i (nv c)); auto. exfalso.
            destruct w as [[k []|k []]|[k|k|k]]; cbn in Hw;
            (match type of Hw with option_map _ (nth_error ?l k) = _ => destruct (nth_error l k) as [g|] eqn:Eg; [|discriminate] end);
            cbn in Hw; injection Hw as <-.
            1,2: pose proof (gate_out_lt c g I (or_introl (nth_error_In _ _ Eg))); destruct (inv_add c I k g Eg) as [? [? _]]; lia.
            1,2: pose proof (gate_out_lt c g I (or_intror (nth_error_In _ _ Eg))); destruct (inv_mul c I k g Eg) as [? [? _]]; lia.
            - pose proof (gate_out_lt c g I (or_introl (nth_error_In _ _ Eg))). lia.
            - pose proof (gate_out_lt c g I (or_intror (nth_error_In _ _ Eg))). lia.
            - pose proof (cgate_out_lt c g I (nth_error_In _ _ Eg)). lia. }
          rewrite HT. split.
          -- split; intros _; [apply (wire_index_lt c _ i); now apply rep_ok|now apply (wire_index_lt c _ i)].
          -- rewrite (HA w i Hw). symmetry. apply HA. now apply rep_ok.
        * intros u v Huv. destruct (HE u v Huv) as [-> [-> [? ?]]]. split; [tauto|]. now apply H. }
  unfold pov_holds. cbn zeta. rewrite HQ. split; [tauto|]. intros H.
  assert (forall k g, nth_error (c_mul c) k = Some g -> coef a k = val (g_l g) /\ coef b k = val (g_r g) /\ coef d k = val (g_o g)) as HM.
  { intros k g Hg. destruct (pos_mul c a b d La Lb Ld k) as [<- [<- <-]]; [now apply nth_error_lt in Hg|].
    repeat split; apply HA; cbn; now rewrite Hg. }
  assert (forall k g, nth_error (c_add c) k = Some g -> coef a (mul_num c + k) = val (g_l g) /\ coef b (mul_num c + k) = val (g_r g) /\ coef d (mul_num c + k) = val (g_o g)) as HAd.
  { intros k g Hg. destruct (pos_add c a b d La Lb Ld k) as [<- [<- <-]]; [now apply nth_error_lt in Hg|].
    repeat split; apply HA; cbn; now rewrite Hg. }
  split; [|split; [|split; [|split]]]; auto.
  - intros i Hi. destruct (nth_error_ex _ (c_mul c) i Hi) as [g Hg]. destruct (HM i g Hg) as [-> [-> ->]].
    apply (con_mul _ _ _ Hcon). now apply nth_error_In in Hg.
  - intros i Hi. destruct (nth_error_ex _ (c_add c) (i - mul_num c)) as [g Hg]; [unfold add_num in *; lia|].
    destruct (HAd _ g Hg) as [A [B C]]. replace (mul_num c + (i - mul_num c))%nat with i in * by lia. rewrite A, B, C.
    apply (con_add _ _ _ Hcon). now apply nth_error_In in Hg.
  - intros i Hi. unfold get_consts in *. rewrite map_length in Hi. destruct (nth_error_ex _ (c_const c) i Hi) as [g Hg].
    rewrite <- (pos_const c a b d La Lb Ld i Hi). rewrite (HA (WOut (OConst i)) (cg_o g)) by (cbn; now rewrite Hg).
    rewrite (coef_map_nth cg_v _ _ g Hg). apply (con_const _ _ _ Hcon). now apply nth_error_In in Hg.
  - intros i Hi Hi'. rewrite map_length in *. destruct (nth_error_ex _ (c_pub c) i Hi) as [w Hw].
    destruct (inv_pub c I w (nth_error_In _ _ Hw)) as [j Hj].
    assert (nth i (map (wire_index c) (c_pub c)) 0%nat = wire_index c w) as -> by (apply nth_error_nth; now apply map_nth_error).
    rewrite (coef_map_nth (fun w => match var_of_wire c w with Some i => val i | None => 0 end) _ _ w Hw), Hj.
    rewrite HT. split; [now apply (wire_index_lt c w j)|]. now apply HA.
Qed.

(** soundness: any satisfying assignment of the POV comes from inputs *)
Lemma pov_sound c vals (a b d : list F) : Inv c -> wiring_ok c ->
  length a = gate_num c -> length b = gate_num c -> length d = gate_num c ->
  length vals = length (c_pub c) ->
  pov_holds (get_consts c) (wires_of c) (mul_num c) (add_num c) (map (wire_index c) (c_pub c)) vals a b d ->
  let val i := coef (a ++ b ++ d) (wire_index c (rep c i)) in
  consistent c (map val (seq 0 (c_nin c))) val /\
  (forall x y, In (x, y) (c_eqs c) -> val x = val y) /\
  vals = map (fun w => match var_of_wire c w with Some i => val i | None => 0 end) (c_pub c).
Proof.
  intros I W La Lb Ld Lv [H1 [H2 [H3 [H4 H5]]]] val. cbn zeta in *.
  destruct (wires_of_spec c (fun x y => coef (a ++ b ++ d) x = coef (a ++ b ++ d) y) I W) as [HS _].
  { auto. } { auto. } { intros; congruence. }
  destruct HS as [S1 S2]. { intros x y Hxy. now apply H4. }
  assert (forall w i, var_of_wire c w = Some i -> val i = coef (a ++ b ++ d) (wire_index c w)) as HV.
  { intros w i Hw. unfold val. symmetry. now apply S1. }
  split; [constructor|split].
  - intros i Hi. symmetry. unfold coef at 1. rewrite (nth_indep _ 0 (val 0%nat)) by (rewrite map_length, seq_length; lia).
    rewrite map_nth, seq_nth by lia. reflexivity.
  - intros g Hg. apply In_nth_error in Hg. destruct Hg as [k Hk].
    rewrite (HV (WIn (IAdd k SL)) (g_l g)), (HV (WIn (IAdd k SR)) (g_r g)), (HV (WOut (OAdd k)) (g_o g)) by (cbn; now rewrite Hk).
    apply nth_error_lt in Hk. destruct (pos_add c a b d La Lb Ld k Hk) as [-> [-> ->]]. apply H2. unfold add_num in *. lia.
  - intros g Hg. apply In_nth_error in Hg. destruct Hg as [k Hk].
    rewrite (HV (WIn (IMul k SL)) (g_l g)), (HV (WIn (IMul k SR)) (g_r g)), (HV (WOut (OMul k)) (g_o g)) by (cbn; now rewrite Hk).
    apply nth_error_lt in Hk. destruct (pos_mul c a b d La Lb Ld k Hk) as [-> [-> ->]]. now apply H1.
  - intros g Hg. apply In_nth_error in Hg. destruct Hg as [k Hk].
    rewrite (HV (WOut (OConst k)) (cg_o g)) by (cbn; now rewrite Hk).
    pose proof Hk as Hlt. apply nth_error_lt in Hlt. rewrite (pos_const c a b d La Lb Ld k Hlt).
    rewrite H3 by (unfold get_consts; now rewrite map_length). unfold get_consts. now apply (coef_map_nth cg_v).
  - intros x y Hxy. now apply S2.
  - apply (list_eq_nth F _ _ 0); [now rewrite map_length|]. intros i Hi. fold (coef vals i).
    destruct (H5 i) as [_ E]; [rewrite map_length; lia|lia|].
    destruct (nth_error_ex _ (c_pub c) i ltac:(lia)) as [w Hw].
    destruct (inv_pub c I w (nth_error_In _ _ Hw)) as [j Hj].
    assert (nth i (map (wire_index c) (c_pub c)) 0%nat = wire_index c w) as Ew by (apply nth_error_nth; now apply map_nth_error).
    rewrite Ew in E. rewrite <- E.
    match goal with |- _ = nth i (map ?f _) 0 => rewrite (nth_error_nth _ i (x:=f w)) by (now apply (map_nth_error f)) end.
    rewrite Hj. symmetry. now apply HV.
Qed.
End CPV.

(** CircuitTop.v: end-to-end lemmas about built circuits. *)
From Verif Require Import Base Spec ProgSpec Tools CS POVProofs Circuit CircuitProofs Build CircuitPOV.
Local Open Scope F_scope.

Section CT.
Context {F : Type} {fo : FieldOps F} {fl : FieldLaws F}.
Add Field Fct : F_th.
Implicit Types (c : circ F) (p : program F).

Lemma built_values p c hs inp : build p = (c, Ok hs) -> is_complete c = true -> length inp = prog_inputs p ->
  exists c1, evaluate inp c = (c1, Ok tt) /\ length hs = length (prog_values p inp) /\
    forall k, (k < length hs)%nat -> get_var_value c1 (nth k hs 0%nat) = Ok (nth k (prog_values p inp) 0).
Proof.
  intros B Hc HL. apply build_rel in B. pose proof (rl_inv _ _ _ B) as I.
  rewrite <- (rl_nin _ _ _ B) in HL.
  destruct (evaluate_ok c inp I Hc HL) as [vs [val [E [S [V Con]]]]].
  exists (set_vars c vs). split; auto. split; [apply (rl_len _ _ _ B)|].
  intros k Hk. rewrite V.
  - f_equal. now apply (rl_val _ _ _ B inp val).
  - apply (rl_lt _ _ _ B). now apply nth_In.
Qed.

Lemma var_of_wire_vals c vs w : var_of_wire (set_vars c vs) w = var_of_wire c w.
Proof. destruct w as [[? []|? []]|[]]; reflexivity. Qed.
Lemma rep_vals c vs i : same_shape (c_vars c) vs -> rep (set_vars c vs) i = rep c i.
Proof.
  intros S. unfold rep. cbn. destruct (nth_error (c_vars c) i) as [v|] eqn:E.
  - destruct (skel_nth _ _ _ _ S E) as [v' [E1 [E2 E3]]]. rewrite E1. unfold any_wire, first_in. now rewrite E2, E3.
  - assert (length vs = length (c_vars c)) as HL by (rewrite <- (map_length skel vs), S, map_length; auto).
    assert (nth_error vs i = None) as -> by (apply nth_error_None; rewrite HL; now apply nth_error_None). reflexivity.
Qed.
Lemma wires_of_vals c vs : same_shape (c_vars c) vs -> wires_of (set_vars c vs) = wires_of c.
Proof.
  intros S. unfold wires_of. f_equal.
  - cbn [c_vars set_vars].
    assert (forall f : list inwire * option outwire -> list (nat * nat), flat_map f (map skel vs) = flat_map f (map skel (c_vars c))) as HF by (intros; now rewrite S).
    specialize (HF (fun s => windows2 (map (wire_index c) (map WIn (fst s) ++ match snd s with Some w => [WOut w] | None => [] end)))).
    rewrite !flat_map_concat_map in *. rewrite !map_map in HF. exact HF.
  - apply map_ext. intros [a b]. cbn [fst snd]. now rewrite !rep_vals.
Qed.
Lemma pov_from_vals c vs : Inv c -> wiring_ok c -> is_complete c = true -> same_shape (c_vars c) vs ->
  pov_from_circuit (set_vars c vs) = pov_from_circuit c.
Proof.
  intros I W Hc S. rewrite (pov_from_ok c I W Hc), (pov_from_ok (set_vars c vs)); auto.
  - rewrite wires_of_vals; auto.
  - now apply inv_vals.
  - now apply (shape_conn (c_vars c)).
Qed.

Lemma built_pub p c hs inp val : Rel p c hs -> consistent c inp val ->
  map (fun w => match var_of_wire c w with Some i => val i | None => 0 end) (c_pub c) = prog_public_values p inp.
Proof.
  intros B Con. unfold prog_public_values.
  transitivity (map (fun o => match o with Some i => val i | None => 0 end) (map (var_of_wire c) (c_pub c))); [now rewrite map_map|].
  rewrite (rl_pub _ _ _ B), map_map. apply map_ext_in. intros i Hi. apply (rl_val _ _ _ B inp val); auto.
  now apply (rl_pub_lt _ _ _ B).
Qed.
Lemma built_eqs p c hs inp val : Rel p c hs -> consistent c inp val ->
  ((forall x y, In (x, y) (c_eqs c) -> val x = val y) <-> prog_asserts_hold p inp).
Proof.
  intros B Con. rewrite (rl_eqs _ _ _ B). unfold prog_asserts_hold. split.
  - intros H i j Hij. destruct (rl_eqs_lt _ _ _ B i j Hij) as [Hi Hj].
    rewrite <- !(rl_val _ _ _ B inp val Con) by auto. apply H. apply in_map_iff. exists (i, j). auto.
  - intros H x y Hxy. apply in_map_iff in Hxy. destruct Hxy as [[i j] [E Hij]]. injection E as <- <-. cbn.
    destruct (rl_eqs_lt _ _ _ B i j Hij) as [Hi Hj]. rewrite !(rl_val _ _ _ B inp val Con) by auto. now apply H.
Qed.

Lemma built_pov p c hs inp : build p = (c, Ok hs) -> is_complete c = true -> length inp = prog_inputs p ->
  exists pov c1 pos wit,
    pov_from_circuit c = Ok pov /\ evaluate inp c = (c1, Ok tt) /\ pov_from_circuit c1 = Ok pov /\
    get_instance c1 = Ok (pos, prog_public_values p inp) /\ get_witness c1 = Ok wit /\
    exists r, pov_satisfy (E:=cerr) pov (pos, prog_public_values p inp) wit = Ok r /\
      (r = true <-> prog_asserts_hold p inp).
Proof.
  intros B Hc HL. apply build_rel in B. pose proof (rl_inv _ _ _ B) as I.
  destruct (rl_compl _ _ _ B Hc) as [_ W].
  rewrite <- (rl_nin _ _ _ B) in HL.
  destruct (evaluate_ok c inp I Hc HL) as [vs [val [E [S [V Con]]]]].
  assert (Inv (set_vars c vs)) as I1 by now apply inv_vals.
  assert (values (set_vars c vs) val) as V1.
  { intros i Hi. apply V. unfold nv in *. cbn in Hi. rewrite <- (map_length skel vs), S, map_length in Hi. exact Hi. }
  pose proof (get_instance_ok _ val I1 V1) as EI. cbn [c_pub set_vars] in EI.
  rewrite (map_ext _ (fun w => match var_of_wire c w with Some i => val i | None => 0 end)) in EI
    by (intros w; now rewrite var_of_wire_vals).
  rewrite (built_pub p c hs inp val B Con) in EI.
  pose proof (get_witness_ok _ val I1 V1) as EW.
  eexists. eexists. eexists. eexists. split; [exact (pov_from_ok c I W Hc)|]. split; [exact E|].
  split; [rewrite pov_from_vals; auto; exact (pov_from_ok c I W Hc)|]. split; [exact EI|]. split; [exact EW|].
  pose proof (honest_pov c inp val I W Con) as HH. pose proof (wit_lengths c val) as WL.
  change (wit_of (set_vars c vs) val) with (wit_of c val) in *.
  destruct (wit_of c val) as [[a b] d]. destruct WL as [La [Lb Ld]].
  rewrite (built_pub p c hs inp val B Con) in HH. rewrite (built_eqs p c hs inp val B Con) in HH.
  match goal with |- context[pov_satisfy ?P (?pos, ?vals) _] => 
    destruct (pov_satisfy_spec (E:=cerr) P pos vals a b d) as [r [E1 E2]] end.
  1,2,3: cbn; unfold get_consts; rewrite map_length; unfold gate_num, const_num in *; lia.
  exists r. split; [exact E1|]. rewrite E2. exact HH.
Qed.

Lemma built_pov_sound p c hs pov pos c0 inp0 (vals a b d : list F) :
  build p = (c, Ok hs) -> is_complete c = true -> pov_from_circuit c = Ok pov ->
  evaluate inp0 c = (c0, Ok tt) -> get_instance c0 = Ok (pos, prog_public_values p inp0) ->
  let n := (p_nmul pov + p_nadd pov + length (p_consts pov))%nat in
  length a = n -> length b = n -> length d = n -> length vals = length (prog_pubs p) ->
  pov_satisfy (E:=cerr) pov (pos, vals) (a, b, d) = Ok true ->
  exists inp, length inp = prog_inputs p /\ prog_asserts_hold p inp /\ prog_public_values p inp = vals.
Proof.
  intros B Hc HP E0 EI n La Lb Ld Lv HS. apply build_rel in B. pose proof (rl_inv _ _ _ B) as I.
  destruct (rl_compl _ _ _ B Hc) as [_ W].
  rewrite (pov_from_ok c I W Hc) in HP. injection HP as <-. unfold n in *. clear n. cbn in La, Lb, Ld.
  assert (length (get_consts c) = const_num c) as LC by (unfold get_consts; now rewrite map_length).
  rewrite LC in *. 
  destruct (evaluate_shape c inp0 c0 tt I E0) as [vs [-> [S [_ HL0]]]].
  assert (pos = map (wire_index c) (c_pub c)) as ->.
  { destruct (evaluate_ok c inp0 I Hc HL0) as [vs' [val [E [S' [V Con]]]]]. rewrite E0 in E. injection E as Evs.
    assert (get_instance (set_vars c vs) = get_instance (set_vars c vs)) as _ by reflexivity.
    unfold get_instance in EI. destruct (collect (get_wire_value (set_vars c vs)) (c_pub (set_vars c vs))); try discriminate.
    cbn in EI. injection EI as <- _. reflexivity. }
  destruct (pov_satisfy_spec (E:=cerr) (mkPOV (get_consts c) (wires_of c) (mul_num c) (add_num c)) (map (wire_index c) (c_pub c)) vals a b d) as [r [E1 E2]].
  1,2,3: cbn; rewrite LC; unfold gate_num in *; lia.
  rewrite HS in E1. injection E1 as <-. destruct E2 as [E2 _]. specialize (E2 eq_refl). cbn in E2.
  assert (length vals = length (c_pub c)) as Lv'.
  { rewrite Lv. rewrite <- (map_length (var_of_wire c) (c_pub c)), (rl_pub _ _ _ B), map_length. reflexivity. }
  destruct (pov_sound c vals a b d I W) as [Con [HE HV]]; auto; try (unfold gate_num; lia).
  eexists. split; [|split].
  - rewrite map_length, seq_length. apply (rl_nin _ _ _ B).
  - apply (built_eqs p c hs _ _ B Con). exact HE.
  - rewrite <- (built_pub p c hs _ _ B Con). symmetry. exact HV.
Qed.

(** *** errors *)
Definition makes_gate (i : instr F) : bool :=
  match i with PAdd _ _ | PMul _ _ | PConst _ => true | _ => false end.
Lemma no_gate_step p c hs i c' hs' : Rel p c hs -> build_instr hs i c = (c', Ok hs') ->
  no_gate c' = no_gate c && negb (makes_gate i).
Proof.
  intros R H. pose proof (rl_inv _ _ _ R) as I. destruct i as [|a b|a b|x|a b|a| |inp|io]; cbn [build_instr makes_gate negb] in *; rewrite ?andb_true_r, ?andb_false_r.
  - apply bind_ok in H. destruct H as [c1 [r [H1 H2]]]. injection H2 as <- <-.
    destruct (no_gate c) eqn:E.
    + destruct (add_input_ok c I E) as [c2 [E1 [E2 _]]]. rewrite H1 in E1. injection E1 as <- _. rewrite E2. exact E.
    + unfold add_global_input_variable, bind, gets in H1. rewrite E in H1. discriminate.
  - apply bind_ok in H. destruct H as [c1 [x [H1 H]]]. apply handle_ok in H1. destruct H1 as [-> [La [-> Ia]]].
    apply bind_ok in H. destruct H as [c1 [y [H1 H]]]. apply handle_ok in H1. destruct H1 as [-> [Lb [-> Ib]]].
    apply bind_ok in H. destruct H as [c1 [r [H1 H]]]. injection H as <- <-.
    apply (rl_lt _ _ _ R) in Ia, Ib. exact (gw_ng _ _ _ _ (add_vars_grows c _ _ _ _ I Ia Ib H1)).
  - apply bind_ok in H. destruct H as [c1 [x [H1 H]]]. apply handle_ok in H1. destruct H1 as [-> [La [-> Ia]]].
    apply bind_ok in H. destruct H as [c1 [y [H1 H]]]. apply handle_ok in H1. destruct H1 as [-> [Lb [-> Ib]]].
    apply bind_ok in H. destruct H as [c1 [r [H1 H]]]. injection H as <- <-.
    apply (rl_lt _ _ _ R) in Ia, Ib. exact (gw_ng _ _ _ _ (mul_vars_grows c _ _ _ _ I Ia Ib H1)).
  - apply bind_ok in H. destruct H as [c1 [r [H1 H]]]. injection H as <- <-. now apply (const_var_grows c x _ _ I H1).
  - apply bind_ok in H. destruct H as [c1 [x [H1 H]]]. apply handle_ok in H1. destruct H1 as [-> [La [-> Ia]]].
    apply bind_ok in H. destruct H as [c1 [y [H1 H]]]. apply handle_ok in H1. destruct H1 as [-> [Lb [-> Ib]]].
    apply bind_ok in H. destruct H as [c1 [[] [H1 H]]]. injection H as <- <-.
    unfold assert_equal in H1. destruct (h_of hs a =? h_of hs b)%nat; [discriminate|]. injection H1 as <-. reflexivity.
  - apply bind_ok in H. destruct H as [c1 [x [H1 H]]]. apply handle_ok in H1. destruct H1 as [-> [La [-> Ia]]].
    apply bind_ok in H. destruct H as [c1 [[] [H1 H]]]. injection H as <- <-.
    destruct (mark_public_ok c _ _ I H1) as [w [-> Hw]]. reflexivity.
  - apply bind_ok in H. destruct H as [c1 [[] [H1 H]]]. injection H as <- <-. unfold mark_as_complete in H1.
    destruct (c_nin c =? 0)%nat; [discriminate|]. destruct (scan_vars 0 (c_vars c) (c_outs c)) as [outs r].
    destruct r; try discriminate. destruct (is_complete (set_outs c outs)); [|discriminate]. injection H1 as <-. reflexivity.
  - apply bind_ok in H. destruct H as [c1 [[] [H1 H]]]. injection H as <- <-.
    destruct (evaluate_shape c inp _ _ I H1) as [vs [-> [S _]]]. reflexivity.
  - apply bind_ok in H. destruct H as [c1 [[] [H1 H]]]. injection H as <- <-.
    destruct (assign_io_shape c io _ _ H1) as [vs [-> S]]. reflexivity.
Qed.
Lemma no_gate_from q : forall p c hs c' hs', Rel p c hs -> build_from q hs c = (c', Ok hs') ->
  no_gate c' = no_gate c && forallb (fun i => negb (makes_gate i)) q.
Proof.
  induction q as [|i q IH]; intros p c hs c' hs' R H; cbn [build_from] in H.
  - injection H as <- <-. cbn. now rewrite andb_true_r.
  - apply bind_ok in H. destruct H as [c1 [hs1 [H1 H]]]. cbn [forallb].
    rewrite (IH (p ++ [i]) c1 hs1 c' hs' (rel_step _ _ _ _ _ _ R H1) H), (no_gate_step p c hs i c1 hs1 R H1).
    now rewrite andb_assoc.
Qed.
Lemma built_late_input p c hs : build p = (c, Ok hs) ->
  ((exists i, In i p /\ makes_gate i = true) -> add_global_input_variable c = (c, Err GatesAreNotEmpty)) /\
  ((forall i, In i p -> makes_gate i = false) -> exists c' h, add_global_input_variable c = (c', Ok h)).
Proof.
  intros B. pose proof (build_rel p c hs B) as R. pose proof (no_gate_from p [] new_circ [] c hs rel_new B) as H. cbn in H. split.
  - intros [i [Hi Hm]]. assert (no_gate c = false) as E.
    { rewrite H. destruct (forallb (fun i => negb (makes_gate i)) p) eqn:E; auto.
      rewrite forallb_forall in E. specialize (E i Hi). rewrite Hm in E. discriminate. }
    unfold add_global_input_variable, bind, gets. rewrite E. reflexivity.
  - intros Hm. assert (no_gate c = true) as E.
    { rewrite H. apply forallb_forall. intros i Hi. now rewrite (Hm i Hi). }
    destruct (add_input_ok c (rl_inv _ _ _ R) E) as [c' [E1 _]]. eauto.
Qed.

(** the first unconnected variable *)
Lemma scan_vars_err i (l : list (var F)) outs : forallb connected_var l = false ->
  exists k outs', scan_vars i l outs = (outs', Err (VariableNotConnected (i + k))) /\
    (exists v, nth_error l k = Some v /\ connected_var v = false) /\
    (forall j v, (j < k)%nat -> nth_error l j = Some v -> connected_var v = true) /\
    ((forall j v, (j < k)%nat -> nth_error l j = Some v -> is_gate_input v = true) -> outs' = outs).
Proof.
  revert i outs; induction l as [|v l IH]; intros i outs H; cbn [forallb] in H; [discriminate|].
  cbn [scan_vars]. unfold connected_var in H at 1. 
  destruct (negb (is_gate_input v) && negb (is_gate_output v)) eqn:E.
  - exists 0%nat, outs. rewrite Nat.add_0_r. split; auto. split.
    + exists v. split; auto. unfold connected_var. apply andb_true_iff in E. destruct E as [E1 E2].
      apply negb_true_iff in E1, E2. now rewrite E1, E2.
    + split; [intros; lia|auto].
  - assert (connected_var v = true) as Hv.
    { unfold connected_var. destruct (is_gate_input v), (is_gate_output v); auto. }
    unfold connected_var in Hv. rewrite Hv in H. cbn in H.
    destruct (IH (S i) (if is_gate_input v then outs else outs ++ [i]) H) as [k [outs' [E1 [E2 [E3 E4]]]]].
    exists (S k), outs'. rewrite E1. split; [now replace (i + S k)%nat with (S i + k)%nat by lia|]. split; [exact E2|]. split.
    + intros [|j] u Hj Hu; cbn in Hu; [injection Hu as <-; exact Hv|]. apply (E3 j); auto; lia.
    + intros HA. rewrite E4.
      * rewrite (HA 0%nat v); auto. lia.
      * intros j u Hj Hu. apply (HA (S j)); auto. lia.
Qed.

Lemma gate_has_inwire c i v : Inv c -> nth_error (c_vars c) i = Some v ->
  (is_gate_input v = true <-> exists g, gates_in c g /\ (g_l g = i \/ g_r g = i)).
Proof.
  intros I Hv. unfold is_gate_input. split.
  - destruct (v_in v) as [|w ws] eqn:E; [discriminate|]. intros _.
    assert (In w (v_in v)) as Hw by (rewrite E; now left). apply (inv_in c I i v w Hv) in Hw.
    destruct w as [k []|k []]; cbn in Hw;
    (match type of Hw with option_map _ (nth_error ?l k) = _ => destruct (nth_error l k) as [g|] eqn:Eg; [|discriminate] end);
    cbn in Hw; injection Hw as Hw; exists g; apply nth_error_In in Eg; unfold gates_in; auto.
  - intros [g [[Hg|Hg] Hi]]; apply In_nth_error in Hg; destruct Hg as [k Hk];
    [assert (exists s, var_of_wire c (WIn (IAdd k s)) = Some i) as [s Hs] |assert (exists s, var_of_wire c (WIn (IMul k s)) = Some i) as [s Hs]];
    try (destruct Hi as [Hi|Hi]; [exists SL|exists SR]; cbn; rewrite Hk; cbn; now rewrite Hi);
    apply (inv_in c I i v _ Hv) in Hs; destruct (v_in v); [destruct Hs|reflexivity|destruct Hs|reflexivity].
Qed.

(** which inputs are connected *)
Lemma built_input_connected p c hs k v : Rel p c hs -> (k < prog_inputs p)%nat -> nth_error (c_vars c) k = Some v ->
  (connected_var v = true <-> prog_uses p k).
Proof.
  intros R Hk Hv. pose proof (rl_inv _ _ _ R) as I. rewrite <- (rl_nin _ _ _ R) in Hk.
  assert (connected_var v = is_gate_input v) as ->.
  { unfold connected_var, is_gate_output. rewrite (inv_out_in c I k v Hv Hk). now rewrite orb_false_r. }
  rewrite (gate_has_inwire c k v I Hv). destruct (rl_ins _ _ _ R k Hk) as [Hlt Hh]. split.
  - intros [g [Hg Hi]]. destruct (rl_used _ _ _ R g Hg) as [i [j [Li [Lj [Hin Hij]]]]].
    assert (i = k \/ j = k) as Hor.
    { assert (h_of hs i = k \/ h_of hs j = k) as Hor by (destruct Hij as [[? ?]|[? ?]], Hi; try (left; congruence); right; congruence).
      destruct Hor as [Ho|Ho]; [left|right].
      - destruct (Nat.lt_ge_cases i (c_nin c)) as [X|X]; [destruct (rl_ins _ _ _ R i X); congruence|].
        pose proof (rl_oth _ _ _ R i X Li). lia.
      - destruct (Nat.lt_ge_cases j (c_nin c)) as [X|X]; [destruct (rl_ins _ _ _ R j X); congruence|].
        pose proof (rl_oth _ _ _ R j X Lj). lia. }
    destruct Hor as [<-|<-]; [exists j|exists i]; tauto.
  - intros Hu. destruct (rl_use _ _ _ R k Hu) as [g [Hg Hi]]. rewrite Hh in Hi. exists g. auto.
Qed.

Lemma not_complete_from p : forall hs0 c0 done c hs, Rel done c0 hs0 -> c_outs c0 = [] ->
  build_from p hs0 c0 = (c, Ok hs) -> ~ In PComplete p -> c_outs c = [].
Proof.
  induction p as [|i p IH]; intros hs0 c0 done c hs R H0 H HN; cbn [build_from] in H.
  - injection H as <- <-. exact H0.
  - apply bind_ok in H. destruct H as [c1 [hs1 [H1 H]]].
    apply (IH hs1 c1 (done ++ [i]) c hs); auto; [now apply (rel_step done c0 hs0)| |intros X; apply HN; now right].
    pose proof (rl_inv _ _ _ R) as I.
    destruct i as [|a b|a b|x|a b|a| |inp|io]; cbn [build_instr] in H1.
    + apply bind_ok in H1. destruct H1 as [c2 [r [H1 H2]]]. injection H2 as <- <-.
      unfold add_global_input_variable, bind, gets in H1. destruct (no_gate c0); [|discriminate]. injection H1 as <- _. exact H0.
    + apply bind_ok in H1. destruct H1 as [c2 [y [H1 H2]]]. apply handle_ok in H1. destruct H1 as [-> [La [-> Ia]]].
      apply bind_ok in H2. destruct H2 as [c2 [y [H1 H2]]]. apply handle_ok in H1. destruct H1 as [-> [Lb [-> Ib]]].
      apply bind_ok in H2. destruct H2 as [c2 [r [H1 H2]]]. injection H2 as <- <-. apply (rl_lt _ _ _ R) in Ia, Ib.
      destruct (add_vars_ok c0 _ _ I Ia Ib) as [c3 [r2 [E [_ [X _]]]]]. rewrite H1 in E. injection E as <- <-.
      destruct X as [_ [_ [_ [_ [_ [_ [-> _]]]]]]]. exact H0.
    + apply bind_ok in H1. destruct H1 as [c2 [y [H1 H2]]]. apply handle_ok in H1. destruct H1 as [-> [La [-> Ia]]].
      apply bind_ok in H2. destruct H2 as [c2 [y [H1 H2]]]. apply handle_ok in H1. destruct H1 as [-> [Lb [-> Ib]]].
      apply bind_ok in H2. destruct H2 as [c2 [r [H1 H2]]]. injection H2 as <- <-. apply (rl_lt _ _ _ R) in Ia, Ib.
      destruct (mul_vars_ok c0 _ _ I Ia Ib) as [c3 [r2 [E [_ [X _]]]]]. rewrite H1 in E. injection E as <- <-.
      destruct X as [_ [_ [_ [_ [_ [_ [-> _]]]]]]]. exact H0.
    + apply bind_ok in H1. destruct H1 as [c2 [r [H1 H2]]]. injection H2 as <- <-.
      destruct (const_var_ok c0 x I) as [c3 [r2 [E [_ [X _]]]]]. rewrite H1 in E. injection E as <- <-.
      destruct X as [_ [_ [_ [_ [_ [_ [-> _]]]]]]]. exact H0.
    + apply bind_ok in H1. destruct H1 as [c2 [y [H1 H2]]]. apply handle_ok in H1. destruct H1 as [-> [La [-> Ia]]].
      apply bind_ok in H2. destruct H2 as [c2 [y [H1 H2]]]. apply handle_ok in H1. destruct H1 as [-> [Lb [-> Ib]]].
      apply bind_ok in H2. destruct H2 as [c2 [[] [H1 H2]]]. injection H2 as <- <-.
      unfold assert_equal in H1. destruct (h_of hs0 a =? h_of hs0 b)%nat; [discriminate|]. injection H1 as <-. exact H0.
    + apply bind_ok in H1. destruct H1 as [c2 [y [H1 H2]]]. apply handle_ok in H1. destruct H1 as [-> [La [-> Ia]]].
      apply bind_ok in H2. destruct H2 as [c2 [[] [H1 H2]]]. injection H2 as <- <-.
      destruct (mark_public_ok c0 _ _ I H1) as [w [-> _]]. exact H0.
    + exfalso. apply HN. now left.
    + apply bind_ok in H1. destruct H1 as [c2 [[] [H1 H2]]]. injection H2 as <- <-.
      destruct (evaluate_shape c0 inp _ _ I H1) as [vs [-> _]]. exact H0.
    + apply bind_ok in H1. destruct H1 as [c2 [[] [H1 H2]]]. injection H2 as <- <-.
      destruct (assign_io_shape c0 io _ _ H1) as [vs [-> _]]. exact H0.
Qed.

Lemma built_not_complete p c hs : build p = (c, Ok hs) -> ~ In PComplete p -> is_complete c = false.
Proof. intros B H. unfold is_complete. now rewrite (not_complete_from p [] new_circ [] c hs rel_new eq_refl B H). Qed.

Lemma built_complete p c hs : build p = (c, Ok hs) ->
  (prog_inputs p = 0%nat -> mark_as_complete c = (c, Err CircuitHasNoGlobalInput)) /\
  ((0 < prog_inputs p)%nat -> (forall k, (k < prog_inputs p)%nat -> prog_uses p k) ->
     exists c', mark_as_complete c = (c', Ok tt) /\ is_complete c' = true) /\
  (forall k, (k < prog_inputs p)%nat -> ~ prog_uses p k -> (forall j, (j < k)%nat -> prog_uses p j) ->
     mark_as_complete c = (c, Err (VariableNotConnected k))).
Proof.
  intros B. pose proof (build_rel p c hs B) as R. pose proof (rl_inv _ _ _ R) as I. pose proof (inv_nin c I) as HN.
  unfold mark_as_complete. rewrite (rl_nin _ _ _ R) in *. repeat split.
  - intros ->. reflexivity.
  - intros H0 HU. destruct (Nat.eqb_spec (prog_inputs p) 0); [lia|].
    assert (forallb connected_var (c_vars c) = true) as HC.
    { apply forallb_nth_error. intros i v Hv. destruct (Nat.lt_ge_cases i (prog_inputs p)) as [Hlt|Hge].
      - apply (built_input_connected p c hs i v R Hlt Hv). auto.
      - rewrite <- (rl_nin _ _ _ R) in Hge. destruct (inv_out_gate c I i v Hv Hge) as [g [Hg _]].
        unfold connected_var, is_gate_output. rewrite Hg. apply orb_true_r. }
    destruct (scan_vars 0 (c_vars c) (c_outs c)) as [outs r] eqn:Es.
    assert (r = Ok tt) as ->.
    { assert (X := proj2 (scan_vars_ok 0 (c_vars c) (c_outs c) _) (conj HC eq_refl)). rewrite Es in X. now injection X. }
    apply scan_vars_ok in Es. destruct Es as [_ Eo].
    cut (is_complete (set_outs c outs) = true); [intros EC; rewrite EC; exists (set_outs c outs); auto|].
    (* the last variable is not an input of a gate *)
    destruct (nv c) as [|m] eqn:Em; [lia|].
    destruct (nth_error_ex _ (c_vars c) m) as [v Hv]; [unfold nv in Em; lia|].
    assert (is_gate_input v = false) as Hi.
    { destruct (is_gate_input v) eqn:Ei; auto. apply (gate_has_inwire c m v I Hv) in Ei. destruct Ei as [g [Hg Hlr]].
      pose proof (gate_out_lt c g I Hg) as Ho. destruct Hg as [Hg|Hg]; apply In_nth_error in Hg; destruct Hg as [k Hk];
      [destruct (inv_add c I k g Hk) as [? [? _]]|destruct (inv_mul c I k g Hk) as [? [? _]]]; lia. }
    unfold is_complete. cbn. destruct outs as [|o outs']; auto. exfalso.
    symmetry in Eo. apply app_eq_nil in Eo. destruct Eo as [_ Eo].
    assert (In m (map fst (filter (fun iv => negb (is_gate_input (snd iv))) (combine (seq 0 (length (c_vars c))) (c_vars c))))) as X.
    { apply in_map_iff. exists (m, v). split; auto. apply filter_In. cbn. rewrite Hi. split; auto.
      apply nth_error_In with (n:=m).
      assert (forall (l : list (var F)) s k x, nth_error l k = Some x -> nth_error (combine (seq s (length l)) l) k = Some ((s + k)%nat, x)) as HX.
      { induction l as [|y l IHl]; intros s [|k] x Hx; cbn in *; try discriminate.
        - injection Hx as <-. now rewrite Nat.add_0_r.
        - rewrite (IHl (S s) k x Hx). now replace (s + S k)%nat with (S s + k)%nat by lia. }
      rewrite (HX _ 0%nat m v Hv). reflexivity. }
    rewrite Eo in X. destruct X.
  - intros k Hk Hnu Hbelow. destruct (Nat.eqb_spec (prog_inputs p) 0); [lia|].
    destruct (nth_error_ex _ (c_vars c) k) as [v Hv]; [unfold nv in *; lia|].
    assert (connected_var v = false) as Hcv.
    { destruct (connected_var v) eqn:E; auto. exfalso. apply Hnu. now apply (built_input_connected p c hs k v R Hk Hv). }
    assert (forallb connected_var (c_vars c) = false) as HF.
    { destruct (forallb connected_var (c_vars c)) eqn:E; auto. pose proof (proj1 (forallb_nth_error _ _) E k v Hv). congruence. }
    destruct (scan_vars_err 0 (c_vars c) (c_outs c) HF) as [k' [outs' [E1 [[v' [E2 E2']] [E3 E4]]]]].
    assert (k' = k) as ->.
    { destruct (Nat.lt_trichotomy k' k) as [Hlt|[|Hgt]]; auto.
      - exfalso. assert (prog_uses p k') as Hu by auto. apply (built_input_connected p c hs k' v' R) in Hu; auto; [congruence|lia].
      - rewrite (E3 k v Hgt Hv) in Hcv. discriminate. }
    rewrite E1. rewrite E4.
    + cbn. f_equal. destruct c; reflexivity.
    + intros j u Hj Hu. pose proof (E3 j u Hj Hu) as Hc. unfold connected_var, is_gate_output in Hc.
      rewrite (inv_out_in c I j u Hu) in Hc by (rewrite (rl_nin _ _ _ R); lia). now rewrite orb_false_r in Hc.
Qed.

(** failing calls leave the circuit unchanged *)
Lemma failed_call_unchanged p c hs i c' e : Rel p c hs -> build_instr hs i c = (c', Err e) ->
  (match i with PAssign _ => False | _ => True end) -> c' = c.
Proof.
  intros R H Hi. pose proof (rl_inv _ _ _ R) as I. destruct i as [|a b|a b|x|a b|a| |inp|io]; cbn [build_instr] in H.
  - unfold bind in H. destruct (no_gate c) eqn:E.
    + destruct (add_input_ok c I E) as [c2 [E1 _]]. rewrite E1 in H. discriminate.
    + unfold add_global_input_variable, bind, gets in H. rewrite E in H. cbn in H. now injection H.
  - unfold bind, handle, ret, panic in H.
    destruct (nth_error hs a) as [x|] eqn:Ea; [|discriminate]. destruct (nth_error hs b) as [y|] eqn:Eb; [|discriminate].
    destruct (add_vars_ok c x y I) as [c2 [r2 [E _]]]; try (apply (rl_lt _ _ _ R); eapply nth_error_In; eassumption).
    rewrite E in H. discriminate.
  - unfold bind, handle, ret, panic in H.
    destruct (nth_error hs a) as [x|] eqn:Ea; [|discriminate]. destruct (nth_error hs b) as [y|] eqn:Eb; [|discriminate].
    destruct (mul_vars_ok c x y I) as [c2 [r2 [E _]]]; try (apply (rl_lt _ _ _ R); eapply nth_error_In; eassumption).
    rewrite E in H. discriminate.
  - unfold bind in H. destruct (const_var_ok c x I) as [c2 [r2 [E _]]]. rewrite E in H. discriminate.
  - unfold bind, handle, ret, panic in H.
    destruct (nth_error hs a) as [x|]; [|discriminate]. destruct (nth_error hs b) as [y|]; [|discriminate].
    unfold assert_equal, fail, modify in H. destruct (x =? y)%nat; [now injection H|discriminate].
  - unfold bind, handle, ret, panic, mark_variable_as_public, query, get_var in H.
    destruct (nth_error hs a) as [x|] eqn:Ea; [|discriminate]. unfold bind in H.
    destruct (nth_error (c_vars c) x) as [v|]; [|discriminate].
    destruct (v_out v); [discriminate|]. destruct (first_in v); discriminate.
  - unfold bind in H. unfold mark_as_complete in H. destruct (c_nin c =? 0)%nat eqn:En; [now injection H|].
    destruct (forallb connected_var (c_vars c)) eqn:E.
    + destruct (scan_vars 0 (c_vars c) (c_outs c)) as [outs r] eqn:Es.
      assert (r = Ok tt) as ->.
      { assert (X := proj2 (scan_vars_ok 0 (c_vars c) (c_outs c) _) (conj E eq_refl)). rewrite Es in X. now injection X. }
      destruct (is_complete (set_outs c outs)) eqn:Ec; [discriminate|]. injection H as <- _.
      unfold is_complete in Ec. cbn in Ec. destruct outs; [|discriminate].
      apply scan_vars_ok in Es. destruct Es as [_ Es]. symmetry in Es. apply app_eq_nil in Es. destruct Es as [Es _].
      rewrite <- Es. destruct c; reflexivity.
    + destruct (scan_vars_err 0 (c_vars c) (c_outs c) E) as [k [outs' [E1 [[v [Hv Hcv]] [E3 E4]]]]].
      rewrite E1 in H. cbn in H. injection H as <- _. rewrite E4; [destruct c; reflexivity|].
      assert (k < c_nin c)%nat as Hk.
      { destruct (Nat.lt_ge_cases k (c_nin c)) as [|Hge]; auto. destruct (inv_out_gate c I k v Hv Hge) as [g [Hg _]].
        unfold connected_var, is_gate_output in Hcv. rewrite Hg, orb_true_r in Hcv. discriminate. }
      intros j u Hj Hu. pose proof (E3 j u Hj Hu) as Hc. unfold connected_var, is_gate_output in Hc.
      rewrite (inv_out_in c I j u Hu) in Hc by lia. now rewrite orb_false_r in Hc.
  - unfold bind in H. destruct (evaluate inp c) as [c1 r] eqn:E. destruct r as [[]| |]; try discriminate. injection H as <- <-.
    unfold evaluate, assign_global_inputs, bind, query, get_input_size, assert_complete in E.
    destruct (is_complete c) eqn:Hc; [|now injection E]. cbn [obind] in E. unfold assert_size in E.
    destruct (Nat.eqb_spec (c_nin c) (length inp)) as [HL|]; [|now injection E].
    destruct (evaluate_ok c inp I Hc (eq_sym HL)) as [vs [val [E' _]]].
    unfold evaluate, assign_global_inputs, bind, query, get_input_size, assert_complete in E'.
    rewrite Hc in E'. cbn [obind] in E'. unfold assert_size in E'. rewrite HL, Nat.eqb_refl in E'. rewrite E' in E. discriminate.
  - destruct Hi.
Qed.
End CT.

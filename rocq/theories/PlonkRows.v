(** PlonkRows.v: gates that look at the next one; the first circuit. *)
From Verif Require Import Base Tools KZG SnarkProofs Plonk PlonkSpec PlonkProofs PlonkGadgets PlonkSelect PlonkRange.
Local Open Scope F_scope.

Section PlonkRows.
Context {F : Type} {fo : FieldOps F} {fl : FieldLaws F} {po : PrimeFieldOps F} {pl : PrimeFieldLaws F}.
Add Field Fprw : F_th.
Variables ca cd : F.
Implicit Types (c : composer F) (s : sel F) (a : nat -> F).
Notation satisfies := (satisfies ca cd).
Notation honest := (honest ca cd).
Notation ext := (ext ca cd).

(** rows without public inputs have been added to c *)
Record rows c c' (ss : list (sel F)) (W : column -> list nat) : Prop := {
  r_n : c_n c' = (c_n c + length ss)%nat;
  r_sel : c_sel c' = c_sel c ++ ss;
  r_wires : forall col, wires c' col = wires c col ++ W col;
  r_len : forall col, length (W col) = length ss;
  r_table : c_table c' = c_table c;
  r_zero : c_zero c' = c_zero c;
  r_pi : c_pi c' = c_pi c;
  r_nv : (nvars c <= nvars c')%nat;
  r_lv : length (c_vals c') = nvars c';
  r_vals : forall v, (v < nvars c)%nat -> values c' v = values c v;
  r_vars : forall col v, In v (W col) -> (v < nvars c')%nat }.

Lemma rows_refl c : wf c -> rows c c [] (fun _ => []).
Proof.
  intros W. split; auto.
  - now rewrite app_nil_r.
  - intros col. now rewrite app_nil_r.
  - apply (wf_vals _ W).
  - intros col v [].
Qed.
Lemma rows_input c c' ss W v : rows c c' ss W -> rows c (snd (add_input v c')) ss W.
Proof.
  intros R. pose proof (add_input_nvars v c') as N. destruct R. split; [exact r_n0|exact r_sel0| |exact r_len0|exact r_table0|exact r_zero0|exact r_pi0|..].
  - intros col. rewrite <- r_wires0. destruct col; reflexivity.
  - lia.
  - rewrite N. cbn [add_input snd set_vars c_vals]. rewrite app_length. cbn. lia.
  - intros x Hx. rewrite <- r_vals0 by auto. unfold values. cbn [add_input snd set_vars c_vals]. apply app_nth1. lia.
  - intros col x Hx. apply r_vars0 in Hx. lia.
Qed.
Lemma input_value' v c : length (c_vals c) = nvars c -> values (snd (add_input v c)) (nvars c) = v.
Proof. intros W. unfold values. cbn [add_input snd set_vars c_vals]. rewrite <- W, app_nth2, Nat.sub_diag by lia. reflexivity. Qed.
Lemma input_old v c x : length (c_vals c) = nvars c -> (x < nvars c)%nat -> values (snd (add_input v c)) x = values c x.
Proof. intros W H. unfold values. cbn [add_input snd set_vars c_vals]. apply app_nth1. lia. Qed.
Lemma add_gate_none x y o f s c c' : add_gate x y o f s None c = Ok c' ->
  (x < nvars c /\ y < nvars c /\ o < nvars c /\ f < nvars c)%nat /\ nvars c' = nvars c /\ c_n c' = (c_n c + 1)%nat /\
  c_sel c' = c_sel c ++ [s] /\ (forall col, wires c' col = wires c col ++ [col4 x y o f col]) /\
  c_table c' = c_table c /\ c_zero c' = c_zero c /\ c_pi c' = c_pi c /\ c_vals c' = c_vals c.
Proof.
  unfold add_gate. cbn [add_pi_opt obind]. intros H. apply obind_ok in H. destruct H as [d [E H]]. injection H as <-.
  apply maps_inv in E. destruct E as [L1 [L2 [L3 [L4 [E N]]]]].
  split; [auto|]. split; [exact N|]. cbn [add_n set_n c_n c_sel c_table c_zero c_pi c_vals]. rewrite E.
  repeat split. intros col. destruct col; cbn [wires add_n set_n c_wl c_wr c_wo c_w4]; rewrite E; reflexivity.
Qed.
Lemma add_gate_none_ok x y o f s c : (x < nvars c)%nat -> (y < nvars c)%nat -> (o < nvars c)%nat -> (f < nvars c)%nat ->
  exists c', add_gate x y o f s None c = Ok c'.
Proof.
  intros H1 H2 H3 H4. unfold add_gate. cbn [add_pi_opt obind]. set (c1 := push_sels _ _).
  destruct (maps_ok x y o f (c_n c1) c1) as [c2 [E _]]; auto. rewrite E. cbn. eauto.
Qed.
Lemma rows_gate c c' ss W x y o f s c'' : rows c c' ss W -> add_gate x y o f s None c' = Ok c'' ->
  rows c c'' (ss ++ [s]) (fun col => W col ++ [col4 x y o f col]).
Proof.
  intros R H. apply add_gate_none in H. destruct H as [L [N [E1 [E2 [E3 [E4 [E5 [E6 E7]]]]]]]]. destruct R. split.
  - rewrite app_length. cbn. lia.
  - now rewrite E2, r_sel0, app_assoc.
  - intros col. now rewrite E3, r_wires0, app_assoc.
  - intros col. rewrite !app_length. cbn. now rewrite r_len0.
  - congruence.
  - congruence.
  - congruence.
  - lia.
  - congruence.
  - intros v Hv. unfold values. rewrite E7. now apply r_vals0.
  - intros col v Hv. rewrite N. apply in_app_or in Hv. destruct Hv as [Hv|[<-|[]]]; [now apply r_vars0 in Hv|]. destruct col; cbn [col4]; lia.
Qed.
Lemma rows_block c c' ss W : wf c -> rows c c' ss W -> (0 < length ss)%nat -> no_next (nth (length ss - 1) ss no_sel) -> block c c' ss W 0.
Proof.
  intros Wf R LN HL. destruct R. split; auto.
  - split; [|auto]. apply (list_eq_nth _ _ _ 0).
    + rewrite !firstn_length. rewrite (wf_vals _ Wf). lia.
    + intros i Hi. rewrite firstn_length in Hi. rewrite !nth_first by lia. apply r_vals0. lia.
  - intros i. rewrite r_pi0. destruct (Nat.eqb_spec i (c_n c)) as [->|]; auto. apply (wf_pi_out _ _ Wf). lia.
  - intros k v. rewrite r_pi0. auto.
Qed.
(** the rows, each with the wires of the next *)
Definition rows_ok (table : list (F * F * F * F)) (ss : list (sel F)) (W : column -> list nat) (z : nat) a : Prop := block_ok ca cd table ss W 0 z a.
Lemma rows_ext c c' ss W : wf c -> rows c c' ss W -> (0 < length ss)%nat -> no_next (nth (length ss - 1) ss no_sel) ->
  ext c c' (rows_ok (c_table c) ss W (c_zero c)).
Proof.
  intros Wf R LN HL. pose proof (rows_block _ _ _ _ Wf R LN HL) as B. split; try apply R.
  - eapply block_wf; eauto.
  - intros a. apply (block_sat ca cd _ _ _ _ _ a Wf B).
Qed.
(** the row j, if it is not the last *)
Lemma pi_0_row (j : nat) : (if (j =? 0)%nat then 0 else 0 : F) = 0.
Proof. now destruct (j =? 0)%nat. Qed.

(** *** blinding rows, and the first circuit *)
Lemma row1_no_sel table (x y z t : F) : row1_ok table no_sel 0 x y z t.
Proof. apply (row_ok_no_next ca cd _ _ _ _ _ _ _ 0 0 0); [apply no_sel_no_next|apply no_sel_ok]. Qed.
Lemma ext_no_sel x y o f c c' : wf c -> add_gate x y o f no_sel None c = Ok c' -> ext c c' (fun _ => True) /\ nvars c' = nvars c.
Proof.
  intros W H. apply (ext_gate ca cd) in H; auto; [|apply no_sel_no_next]. destruct H as [E [N L]]. split; [|auto].
  apply (ext_iff ca cd _ _ _ _ E). intros a. split; auto. intros _. apply row1_no_sel.
Qed.
#[local] Opaque add_gate.
Lemma blinding_row_ext r1 r2 r3 r4 c v1 v2 c' : wf c -> blinding_row r1 r2 r3 r4 c = Ok (v1, v2, c') ->
  ext c c' (fun _ => True) /\ v1 = nvars c /\ v2 = S (nvars c) /\ nvars c' = (nvars c + 4)%nat.
Proof.
  intros W H. unfold blinding_row in H.
  pose proof (ext_input ca cd r1 c W) as T1. pose proof (add_input_nvars r1 c) as N1. pose proof (add_input_var r1 c) as X1.
  destruct (add_input r1 c) as [x1 c1]. cbn [fst snd] in *.
  pose proof (ext_input ca cd r2 c1 (ext_wf _ _ _ _ _ T1)) as T2. pose proof (add_input_nvars r2 c1) as N2. pose proof (add_input_var r2 c1) as X2.
  destruct (add_input r2 c1) as [x2 c2]. cbn [fst snd] in *.
  pose proof (ext_input ca cd r3 c2 (ext_wf _ _ _ _ _ T2)) as T3. pose proof (add_input_nvars r3 c2) as N3. 
  destruct (add_input r3 c2) as [x3 c3]. cbn [fst snd] in *.
  pose proof (ext_input ca cd r4 c3 (ext_wf _ _ _ _ _ T3)) as T4. pose proof (add_input_nvars r4 c3) as N4.
  destruct (add_input r4 c3) as [x4 c4]. cbn [fst snd] in *.
  apply obind_ok in H. destruct H as [c5 [E H]]. injection H as <- <- <-.
  apply ext_no_sel in E; [|apply T4]. destruct E as [T5 N5].
  split; [|split; [auto|split; lia]].
  pose proof (ext_trans _ _ _ _ _ _ _ (ext_trans _ _ _ _ _ _ _ (ext_trans _ _ _ _ _ _ _ T1 T2) (ext_trans _ _ _ _ _ _ _ T3 T4)) T5) as T.
  eapply ext_iff; [exact T|]. tauto.
Qed.
Lemma blinding_row_ok r1 r2 r3 r4 d : wf d -> exists v1 v2 c', blinding_row (F:=F) r1 r2 r3 r4 d = Ok (v1, v2, c').
Proof.
  intros W. unfold blinding_row.
    pose proof (add_input_wf r1 d W) as T1. pose proof (add_input_nvars r1 d) as N1. pose proof (add_input_var r1 d) as X1.
    destruct (add_input r1 d) as [x1 c1]. cbn [fst snd] in *.
    pose proof (add_input_wf r2 c1 T1) as T2. pose proof (add_input_nvars r2 c1) as N2. pose proof (add_input_var r2 c1) as X2.
    destruct (add_input r2 c1) as [x2 c2]. cbn [fst snd] in *.
    pose proof (add_input_wf r3 c2 T2) as T3. pose proof (add_input_nvars r3 c2) as N3. pose proof (add_input_var r3 c2) as X3.
    destruct (add_input r3 c2) as [x3 c3]. cbn [fst snd] in *.
    pose proof (add_input_wf r4 c3 T3) as T4. pose proof (add_input_nvars r4 c3) as N4. pose proof (add_input_var r4 c3) as X4.
    destruct (add_input r4 c3) as [x4 c4]. cbn [fst snd] in *.
    destruct (add_gate_ok x1 x2 x3 x4 no_sel None c4 T4) as [c5 ->]; try lia. cbn [obind]. eauto.
Qed.
#[local] Opaque blinding_row add_gate.
Lemma blinding_ext (r q : F * F * F * F) c c' : wf c -> add_blinding_factors r q c = Ok c' -> ext c c' (fun _ => True).
Proof.
  destruct r as [[[r1 r2] r3] r4], q as [[[q1 q2] q3] q4]. intros W H. unfold add_blinding_factors in H.
  apply obind_ok in H. destruct H as [[[v1 v2] c1] [H1 H]]. apply obind_ok in H. destruct H as [[[v3 v4] c2] [H2 H]].
  apply blinding_row_ext in H1; auto. destruct H1 as [T1 _]. apply blinding_row_ext in H2; [|apply T1]. destruct H2 as [T2 _].
  apply ext_no_sel in H; [|apply T2]. destruct H as [T3 _].
  eapply ext_iff; [exact (ext_trans _ _ _ _ _ _ _ (ext_trans _ _ _ _ _ _ _ T1 T2) T3)|]. tauto.
Qed.
Lemma blinding_ok (r q : F * F * F * F) c : wf c -> exists c', add_blinding_factors r q c = Ok c'.
Proof.
  destruct r as [[[r1 r2] r3] r4], q as [[[q1 q2] q3] q4]. intros W. unfold add_blinding_factors.
  destruct (blinding_row_ok r1 r2 r3 r4 c W) as [v1 [v2 [c1 E1]]]. rewrite E1. cbn [obind]. apply blinding_row_ext in E1; auto. destruct E1 as [T1 _].
  destruct (blinding_row_ok q1 q2 q3 q4 c1 ltac:(apply T1)) as [v3 [v4 [c2 E2]]]. rewrite E2. cbn [obind]. apply blinding_row_ext in E2; [|apply T1].
  destruct E2 as [T2 [E3 [E4 N]]]. pose proof (wf_zero _ (ext_wf _ _ _ _ _ T2)). apply add_gate_ok; try apply T2; lia.
Qed.
#[local] Transparent add_gate.
#[local] Opaque add_blinding_factors.
Definition first_circuit : composer F := mkComposer 1 [arith_sel 0 1 0 0 0 (- 0)] [0%nat] [0%nat] [0%nat] [0%nat] [] [] [] 0 [0]
  [[(Left, 0%nat); (Right, 0%nat); (Output, 0%nat); (Fourth, 0%nat)]].
Lemma new_eq (r q : F * F * F * F) : new_composer r q = add_blinding_factors r q first_circuit.
Proof. reflexivity. Qed.
#[local] Opaque add_gate new_composer.
Lemma first_wf : wf first_circuit.
Proof.
  split; try reflexivity.
  - intros []; reflexivity.
  - intros [] v; cbn; lia.
  - cbn; lia.
  - cbn; lia.
  - split; reflexivity.
  - intros k v [].
  - apply arith_no_next.
Qed.
Lemma new_wf (r q : F * F * F * F) c : new_composer r q = Ok c -> wf c /\ (forall a, satisfies c a <-> a (c_zero c) = 0) /\ c_table c = [] /\ values c (c_zero c) = 0.
Proof.
  intros H. rewrite new_eq in H. pose proof first_wf as W0.
  assert (forall a, satisfies first_circuit a <-> a 0%nat = 0) as S0.
  { intros a. rewrite (satisfies_iff ca cd _ _ W0). split.
    - intros K. apply (satisfies_zero ca cd _ _ W0). apply (satisfies_iff ca cd _ _ W0). exact K.
    - intros K i Hi. replace i with 0%nat by (cbn in Hi; lia). unfold row_at. apply arith_ok. cbn. rewrite K. ring. }
  pose proof (blinding_ext _ _ _ _ W0 H) as T. split; [apply T|]. split; [|split].
  - intros a. rewrite (ext_sat _ _ _ _ _ T), S0, (ext_zero _ _ _ _ _ T). cbn [first_circuit c_zero]. tauto.
  - apply (ext_table _ _ _ _ _ T).
  - rewrite (ext_zero _ _ _ _ _ T). rewrite (ext_vals _ _ _ _ _ T); [reflexivity|cbn; lia].
Qed.
Lemma new_ok (r q : F * F * F * F) : exists c, new_composer (F:=F) r q = Ok c.
Proof. rewrite new_eq. apply blinding_ok, first_wf. Qed.
End PlonkRows.

(** PlonkProofs.v: the gates of a circuit, one after the other. *)
From Verif Require Import Base Tools KZG SnarkProofs Plonk PlonkSpec.
Local Open Scope F_scope.

Section PlonkProofs.
Context {F : Type} {fo : FieldOps F} {fl : FieldLaws F} {po : PrimeFieldOps F} {pl : PrimeFieldLaws F}.
Add Field Fpk : F_th.
Variables ca cd : F.
Implicit Types (c : composer F) (s : sel F) (a : nat -> F).
Notation row_ok := (row_ok ca cd).
Notation satisfies := (satisfies ca cd).

(** *** powers of two *)
Lemma npt_ge n : (n <= next_power_of_two n)%nat.
Proof.
  unfold next_power_of_two. destruct (Nat.leb_spec n 1); [lia|].
  pose proof (Nat.log2_spec (n - 1) ltac:(lia)) as [_ H1].
  replace (Nat.log2 (n - 1) + 1)%nat with (S (Nat.log2 (n - 1))) by lia. lia.
Qed.
Lemma bound_ge c : (c_n c <= circuit_bound c)%nat.
Proof. unfold circuit_bound. pose proof (npt_ge (Nat.max (c_n c) (length (c_table c)))). lia. Qed.
Lemma bound_table c : (length (c_table c) <= circuit_bound c)%nat.
Proof. unfold circuit_bound. pose proof (npt_ge (Nat.max (c_n c) (length (c_table c)))). lia. Qed.
Lemma bound_pos c : (0 < circuit_bound c)%nat.
Proof.
  unfold circuit_bound, next_power_of_two. destruct (Nat.leb_spec (Nat.max (c_n c) (length (c_table c))) 1); [lia|].
  apply Nat.neq_0_lt_0. now apply Nat.pow_nonzero.
Qed.

(** *** gates that do not look at the next one *)
Definition no_next s : Prop := q_range s = 0 /\ q_logic s = 0 /\ q_fixed s = 0 /\ q_var s = 0.
Definition row1_ok (table : list (F * F * F * F)) s (pi x y z t : F) : Prop :=
  q_arith s * (q_m s * x * y + q_l s * x + q_r s * y + q_o s * z + q_4 s * t +
    q_hl s * fpow x 5 + q_hr s * fpow y 5 + q_h4 s * fpow t 5 + q_c s) + pi = 0 /\
  (q_lookup s <> 0 -> In (x, y, z, t) table \/ table = [] /\ (x, y, z, t) = (0, 0, 0, 0)).
Lemma row_ok_no_next table s pi x y z t x' y' t' : no_next s ->
  row_ok table s pi x y z t x' y' t' <-> row1_ok table s pi x y z t.
Proof.
  intros [E1 [E2 [E3 E4]]]. unfold PlonkSpec.row_ok, row1_ok. rewrite E1, E2, E3, E4. tauto.
Qed.
Lemma no_sel_no_next : no_next no_sel.
Proof. repeat split. Qed.
Lemma arith_no_next m l r o f k : no_next (arith_sel m l r o f k).
Proof. repeat split. Qed.
Lemma no_sel_ok table x y z t x' y' t' : row_ok table no_sel 0 x y z t x' y' t'.
Proof.
  apply row_ok_no_next; [apply no_sel_no_next|]. split; cbn; [ring|congruence].
Qed.
Lemma arith_ok table m l r o f k pi x y z t x' y' t' :
  row_ok table (arith_sel m l r o f k) pi x y z t x' y' t' <-> m * x * y + l * x + r * y + o * z + f * t + k + pi = 0.
Proof.
  rewrite row_ok_no_next by apply arith_no_next. unfold row1_ok. cbn [arith_sel q_arith q_m q_l q_r q_o q_4 q_hl q_hr q_h4 q_c q_lookup].
  split; [intros [E _]|intros E; split; [|congruence]]; refine (eq_trans _ E); ring.
Qed.

(** *** well-formed circuits *)
Record wf c : Prop := {
  wf_sel : length (c_sel c) = c_n c;
  wf_wires : forall col, length (wires c col) = c_n c;
  wf_vals : length (c_vals c) = nvars c;
  wf_vars : forall col v, In v (wires c col) -> (v < nvars c)%nat;
  wf_zero : (c_zero c < nvars c)%nat;
  wf_pos : (0 < c_n c)%nat;
  wf_row0 : sel_at c 0 = arith_sel 0 1 0 0 0 (- 0) /\ wire_var c Left 0 = c_zero c;
  wf_pi : forall k v, In (k, v) (c_pi c) -> (1 <= k < c_n c)%nat;
  wf_last : no_next (sel_at c (c_n c - 1)) }.

Lemma pi_get_notin (m : list (nat * F)) i : (forall v, ~ In (i, v) m) -> pi_get m i = 0.
Proof.
  induction m as [|[k u] m IH]; intros H; [reflexivity|]. cbn [pi_get].
  destruct (Nat.eqb_spec k i) as [->|]; [destruct (H u); left; auto|]. apply IH. intros v Hv. apply (H v). now right.
Qed.
Lemma wf_pi_0 c : wf c -> pi_get (c_pi c) 0 = 0.
Proof. intros W. apply pi_get_notin. intros v Hv. apply (wf_pi _ W) in Hv. lia. Qed.
Lemma wf_pi_out c i : wf c -> (c_n c <= i)%nat -> pi_get (c_pi c) i = 0.
Proof. intros W Hi. apply pi_get_notin. intros v Hv. apply (wf_pi _ W) in Hv. lia. Qed.
Lemma wire_var_lt c col i : wf c -> (wire_var c col i < nvars c)%nat.
Proof.
  intros W. unfold wire_var. destruct (nth_in_or_default i (wires c col) (c_zero c)) as [H| ->]; [now apply (wf_vars _ W) in H|apply (wf_zero _ W)].
Qed.

Definition row_at c a i : Prop :=
  row_ok (c_table c) (sel_at c i) (pi_get (c_pi c) i)
    (a (wire_var c Left i)) (a (wire_var c Right i)) (a (wire_var c Output i)) (a (wire_var c Fourth i))
    (a (wire_var c Left (i + 1))) (a (wire_var c Right (i + 1))) (a (wire_var c Fourth (i + 1))).

(** the wrap-around does not matter *)
Lemma satisfies_iff c a : wf c -> satisfies c a <-> (forall i, (i < c_n c)%nat -> row_at c a i).
Proof.
  intros W. pose proof (bound_ge c) as HB. unfold PlonkSpec.satisfies, row_at. split; intros H i Hi.
  - specialize (H i ltac:(lia)). cbv zeta in H. rewrite (Nat.mod_small i) in H by lia.
    destruct (Nat.eq_dec i (c_n c - 1)) as [->|N].
    + rewrite row_ok_no_next in H |- * by apply (wf_last _ W). exact H.
    + rewrite (Nat.mod_small (i + 1)) in H by lia. exact H.
  - cbv zeta. rewrite (Nat.mod_small i) by lia. destruct (le_lt_dec (c_n c) i) as [L|L].
    + rewrite (wf_pi_out _ _ W L). unfold sel_at. rewrite nth_overflow by (rewrite (wf_sel _ W); auto). apply no_sel_ok.
    + specialize (H i L). destruct (Nat.eq_dec i (c_n c - 1)) as [->|N].
      * rewrite row_ok_no_next in H |- * by apply (wf_last _ W). exact H.
      * rewrite (Nat.mod_small (i + 1)) by lia. exact H.
Qed.

Lemma satisfies_zero c a : wf c -> satisfies c a -> a (c_zero c) = 0.
Proof.
  intros W H. rewrite satisfies_iff in H by auto. specialize (H 0%nat (wf_pos _ W)). unfold row_at in H.
  destruct (wf_row0 _ W) as [E1 E2]. rewrite E1, E2, (wf_pi_0 _ W) in H. apply arith_ok in H.
  refine (eq_trans _ H). ring.
Qed.

(** only the values of existing variables matter *)
Lemma satisfies_ext c a a' : wf c -> same_upto (nvars c) a a' -> satisfies c a -> satisfies c a'.
Proof.
  intros W E H. rewrite satisfies_iff in * by auto. intros i Hi. specialize (H i Hi). unfold row_at in *.
  rewrite !E by (now apply wire_var_lt). exact H.
Qed.
Lemma same_upto_sym n a a' : same_upto n a a' -> same_upto n a' a.
Proof. intros H v Hv. now rewrite H. Qed.
Lemma same_upto_refl n a : same_upto n a a.
Proof. intros v Hv. reflexivity. Qed.
Lemma same_upto_le n m a a' : (n <= m)%nat -> same_upto m a a' -> same_upto n a a'.
Proof. intros L H v Hv. apply H. lia. Qed.
Lemma same_upto_trans n a a' a'' : same_upto n a a' -> same_upto n a' a'' -> same_upto n a a''.
Proof. intros H H' v Hv. now rewrite H', H. Qed.
Lemma satisfies_same c a a' : wf c -> same_upto (nvars c) a a' -> satisfies c a <-> satisfies c a'.
Proof. intros W E. split; apply satisfies_ext; auto. now apply same_upto_sym. Qed.

(** *** blocks of new gates *)
(** c' is c with the rows of a block, whose selectors are ss and whose wires are given by W *)
Record block c c' (ss : list (sel F)) (W : column -> list nat) (pi0 : F) : Prop := {
  bl_n : c_n c' = (c_n c + length ss)%nat;
  bl_sel : c_sel c' = c_sel c ++ ss;
  bl_wires : forall col, wires c' col = wires c col ++ W col;
  bl_len : forall col, length (W col) = length ss;
  bl_table : c_table c' = c_table c;
  bl_zero : c_zero c' = c_zero c;
  bl_nvars : (nvars c <= nvars c')%nat;
  bl_vals : firstn (nvars c) (c_vals c') = firstn (nvars c) (c_vals c) /\ length (c_vals c') = nvars c';
  bl_vars : forall col v, In v (W col) -> (v < nvars c')%nat;
  bl_pi : forall i, pi_get (c_pi c') i = if (i =? c_n c)%nat then pi0 else pi_get (c_pi c) i;
  bl_pi_in : forall k v, In (k, v) (c_pi c') -> In (k, v) (c_pi c) \/ k = c_n c;
  bl_ne : (0 < length ss)%nat;
  bl_last : no_next (nth (length ss - 1) ss no_sel) }.

Definition block_ok table ss (W : column -> list nat) (pi0 : F) (z : nat) a : Prop := forall j, (j < length ss)%nat ->
  let w col k := a (nth k (W col) z) in
  row_ok table (nth j ss no_sel) (if (j =? 0)%nat then pi0 else 0)
    (w Left j) (w Right j) (w Output j) (w Fourth j) (w Left (j + 1)%nat) (w Right (j + 1)%nat) (w Fourth (j + 1)%nat).

Lemma block_wf c c' ss W pi0 : wf c -> block c c' ss W pi0 -> wf c'.
Proof.
  intros Wf B. pose proof (bl_ne _ _ _ _ _ B) as HN. pose proof (wf_pos _ Wf) as HP.
  assert (forall col, wires c' col = wires c col ++ W col) as EW by apply (bl_wires _ _ _ _ _ B).
  constructor.
  - rewrite (bl_sel _ _ _ _ _ B), app_length, (wf_sel _ Wf), (bl_n _ _ _ _ _ B). lia.
  - intros col. rewrite EW, app_length, (wf_wires _ Wf), (bl_len _ _ _ _ _ B), (bl_n _ _ _ _ _ B). lia.
  - apply (bl_vals _ _ _ _ _ B).
  - intros col v Hv. rewrite EW in Hv. apply in_app_or in Hv. destruct Hv as [Hv|Hv].
    + apply (wf_vars _ Wf) in Hv. pose proof (bl_nvars _ _ _ _ _ B). lia.
    + now apply (bl_vars _ _ _ _ _ B) in Hv.
  - rewrite (bl_zero _ _ _ _ _ B). pose proof (wf_zero _ Wf). pose proof (bl_nvars _ _ _ _ _ B). lia.
  - rewrite (bl_n _ _ _ _ _ B). lia.
  - unfold sel_at, wire_var. rewrite (bl_sel _ _ _ _ _ B), EW, (bl_zero _ _ _ _ _ B).
    rewrite !app_nth1 by (rewrite ?(wf_sel _ Wf), ?(wf_wires _ Wf); lia). apply (wf_row0 _ Wf).
  - intros k v Hv. apply (bl_pi_in _ _ _ _ _ B) in Hv. rewrite (bl_n _ _ _ _ _ B).
    destruct Hv as [Hv| ->]; [apply (wf_pi _ Wf) in Hv|]; lia.
  - unfold sel_at. rewrite (bl_sel _ _ _ _ _ B), (bl_n _ _ _ _ _ B), app_nth2 by (rewrite (wf_sel _ Wf); lia).
    rewrite (wf_sel _ Wf). replace (c_n c + length ss - 1 - c_n c)%nat with (length ss - 1)%nat by lia. apply (bl_last _ _ _ _ _ B).
Qed.

Lemma block_sat c c' ss W pi0 a : wf c -> block c c' ss W pi0 ->
  satisfies c' a <-> satisfies c a /\ block_ok (c_table c) ss W pi0 (c_zero c) a.
Proof.
  intros Wf B. pose proof (block_wf _ _ _ _ _ Wf B) as Wf'. rewrite (satisfies_iff _ _ Wf), (satisfies_iff _ _ Wf').
  pose proof (wf_pos _ Wf) as HP.
  assert (forall col i, (i < c_n c)%nat -> wire_var c' col i = wire_var c col i) as E1.
  { intros col i Hi. unfold wire_var. rewrite (bl_wires _ _ _ _ _ B), (bl_zero _ _ _ _ _ B), app_nth1; auto. now rewrite (wf_wires _ Wf). }
  assert (forall col j, wire_var c' col (c_n c + j) = nth j (W col) (c_zero c)) as E2.
  { intros col j. unfold wire_var. rewrite (bl_wires _ _ _ _ _ B), (bl_zero _ _ _ _ _ B), app_nth2 by (rewrite (wf_wires _ Wf); lia).
    rewrite (wf_wires _ Wf). f_equal. lia. }
  assert (forall i, (i < c_n c)%nat -> sel_at c' i = sel_at c i) as S1.
  { intros i Hi. unfold sel_at. rewrite (bl_sel _ _ _ _ _ B), app_nth1; auto. now rewrite (wf_sel _ Wf). }
  assert (forall j, sel_at c' (c_n c + j) = nth j ss no_sel) as S2.
  { intros j. unfold sel_at. rewrite (bl_sel _ _ _ _ _ B), app_nth2 by (rewrite (wf_sel _ Wf); lia). rewrite (wf_sel _ Wf). f_equal. lia. }
  assert (forall i, (i < c_n c)%nat -> row_at c' a i <-> row_at c a i) as R1.
  { intros i Hi. unfold row_at. rewrite (bl_table _ _ _ _ _ B), S1, !(E1 _ i), (bl_pi _ _ _ _ _ B) by auto.
    destruct (Nat.eqb_spec i (c_n c)); [lia|]. destruct (Nat.eq_dec i (c_n c - 1)) as [->|N].
    - rewrite !row_ok_no_next by apply (wf_last _ Wf). reflexivity.
    - rewrite !(E1 _ (i + 1)%nat) by lia. reflexivity. }
  assert (forall j, row_at c' a (c_n c + j) <-> (let w col k := a (nth k (W col) (c_zero c)) in
     row_ok (c_table c) (nth j ss no_sel) (if (j =? 0)%nat then pi0 else pi_get (c_pi c) (c_n c + j))
    (w Left j) (w Right j) (w Output j) (w Fourth j) (w Left (j + 1)%nat) (w Right (j + 1)%nat) (w Fourth (j + 1)%nat))) as R2.
  { intros j. unfold row_at. rewrite (bl_table _ _ _ _ _ B), S2, !E2, (bl_pi _ _ _ _ _ B). cbv zeta.
    replace (c_n c + j + 1)%nat with (c_n c + (j + 1))%nat by lia. rewrite !E2.
    replace (c_n c + j =? c_n c)%nat with (j =? 0)%nat; [reflexivity|].
    destruct (Nat.eqb_spec j 0), (Nat.eqb_spec (c_n c + j) (c_n c)); lia || reflexivity. }
  rewrite (bl_n _ _ _ _ _ B). split.
  - intros H. split.
    + intros i Hi. apply R1; auto. apply H. lia.
    + intros j Hj. specialize (H (c_n c + j)%nat ltac:(lia)). apply R2 in H. cbv zeta in *.
      rewrite (wf_pi_out _ _ Wf) in H by lia. exact H.
  - intros [H1 H2] i Hi. destruct (le_lt_dec (c_n c) i) as [L|L]; [|now apply R1, H1].
    replace i with (c_n c + (i - c_n c))%nat by lia. apply R2. cbv zeta. rewrite (wf_pi_out _ _ Wf) by lia.
    apply (H2 (i - c_n c)%nat). lia.
Qed.

(** *** inputs *)
Lemma add_input_wf v c : wf c -> wf (snd (add_input v c)).
Proof.
  intros W. constructor.
  - apply (wf_sel _ W).
  - intros col. generalize (wf_wires _ W col). destruct col; exact (fun h => h).
  - unfold nvars. cbn [add_input snd set_vars c_map c_vals]. rewrite !app_length. cbn. pose proof (wf_vals _ W). unfold nvars in *. lia.
  - intros col x Hx. unfold nvars. cbn [add_input snd set_vars c_map]. rewrite app_length. assert (x < nvars c)%nat by (generalize (wf_vars _ W col x); destruct col; auto). unfold nvars in *. lia.
  - unfold nvars. cbn [add_input snd set_vars c_map c_zero]. rewrite app_length. pose proof (wf_zero _ W). unfold nvars in *. lia.
  - apply (wf_pos _ W).
  - apply (wf_row0 _ W).
  - apply (wf_pi _ W).
  - apply (wf_last _ W).
Qed.
Lemma add_input_sat v c a : satisfies (snd (add_input v c)) a <-> satisfies c a.
Proof. reflexivity. Qed.
Lemma add_input_nvars v c : nvars (snd (add_input v c)) = S (nvars c).
Proof. unfold nvars. cbn. rewrite app_length. cbn. lia. Qed.
Lemma add_input_var v c : fst (add_input v c) = nvars c.
Proof. reflexivity. Qed.

(** *** registering wires does not change gates *)
Lemma map_inv v w c c' : add_variable_to_map v w c = Ok c' ->
  (v < nvars c)%nat /\ c' = set_vars (c_vals c) (c_map c') c /\ nvars c' = nvars c.
Proof.
  unfold add_variable_to_map. intros H. apply obind_ok in H. destruct H as [u [E H]].
  unfold assert_ in E. destruct (Nat.ltb_spec v (length (c_map c))) as [L|L]; [|discriminate].
  injection H as <-. unfold nvars. cbn [c_map set_vars]. rewrite upd_length. auto.
Qed.
Lemma remap_trans c c' c'' : c' = set_vars (c_vals c) (c_map c') c -> c'' = set_vars (c_vals c') (c_map c'') c' ->
  c'' = set_vars (c_vals c) (c_map c'') c.
Proof. destruct c, c', c''. unfold set_vars. cbn. intros [=] [=]. subst. reflexivity. Qed.
Lemma maps_inv v1 v2 v3 v4 i c c' : add_variables_to_map v1 v2 v3 v4 i c = Ok c' ->
  (v1 < nvars c)%nat /\ (v2 < nvars c)%nat /\ (v3 < nvars c)%nat /\ (v4 < nvars c)%nat /\
  c' = set_vars (c_vals c) (c_map c') c /\ nvars c' = nvars c.
Proof.
  unfold add_variables_to_map. intros H.
  apply obind_ok in H. destruct H as [d1 [H1 H]]. apply obind_ok in H. destruct H as [d2 [H2 H]]. apply obind_ok in H. destruct H as [d3 [H3 H]].
  apply map_inv in H1. destruct H1 as [L1 [E1 N1]]. apply map_inv in H2. destruct H2 as [L2 [E2 N2]].
  apply map_inv in H3. destruct H3 as [L3 [E3 N3]]. apply map_inv in H. destruct H as [L4 [E4 N4]].
  repeat split; try lia. eauto using remap_trans.
Qed.

Lemma pi_put_get pos (v : F) m i : pi_get (pi_put pos v m) i = if (i =? pos)%nat then (if existsb (fun p => fst p =? pos)%nat m then pi_get (pi_put pos v m) pos else v) else pi_get m i.
Proof.
  destruct (Nat.eqb_spec i pos) as [->|N].
  - destruct (existsb _ m) eqn:E; auto. induction m as [|[k u] m IH]; cbn [pi_put pi_get].
    + now rewrite Nat.eqb_refl.
    + cbn [existsb fst] in E. apply orb_false_iff in E. destruct E as [E1 E2].
      destruct (Nat.ltb_spec pos k); cbn [pi_get].
      * now rewrite Nat.eqb_refl.
      * rewrite E1. auto.
  - induction m as [|[k u] m IH]; cbn [pi_put pi_get].
    + destruct (Nat.eqb_spec pos i); [congruence|reflexivity].
    + destruct (Nat.ltb_spec pos k); cbn [pi_get].
      * destruct (Nat.eqb_spec pos i); [congruence|reflexivity].
      * now rewrite IH.
Qed.
Lemma pi_put_in pos (v : F) m k u : In (k, u) (pi_put pos v m) -> In (k, u) m \/ k = pos.
Proof.
  induction m as [|[k' u'] m IH]; cbn [pi_put].
  - intros [[= <- <-]|[]]. auto.
  - destruct (pos <? k')%nat; intros H; cbn [In] in *.
    + destruct H as [[= <- <-]|H]; auto.
    + destruct H as [H|H]; [auto|]. apply IH in H. tauto.
Qed.
Lemma add_pi_inv pi c c' : (forall v, ~ In (c_n c, v) (c_pi c)) -> add_pi_opt pi c = Ok c' ->
  c' = set_pi (c_pi c') (c_pos c') c /\
  (forall i, pi_get (c_pi c') i = if (i =? c_n c)%nat then match pi with Some p => p | None => 0 end else pi_get (c_pi c) i) /\
  (forall k v, In (k, v) (c_pi c') -> In (k, v) (c_pi c) \/ k = c_n c).
Proof.
  intros HN. destruct pi as [p|]; cbn [add_pi_opt].
  - unfold add_pi, pi_insert. intros H. apply obind_ok in H. destruct H as [m [E H]]. injection H as <-. cbn [c_pi set_pi c_pos].
    destruct (existsb _ (c_pi c)) eqn:EX; [discriminate|]. split; [reflexivity|]. destruct (feqb p 0) eqn:E0.
    + apply feqb_eq in E0. subst p. injection E as <-. split; [|auto]. intros i. destruct (Nat.eqb_spec i (c_n c)) as [->|]; auto.
      now apply pi_get_notin.
    + injection E as <-. split; [|intros k v; apply pi_put_in]. intros i. rewrite pi_put_get, EX. reflexivity.
  - intros [= <-]. split; [now destruct c|]. split; [|auto]. intros i. destruct (Nat.eqb_spec i (c_n c)) as [->|]; auto. now apply pi_get_notin.
Qed.

Definition col4 {A} (x y z t : A) (col : column) : A := match col with Left => x | Right => y | Output => z | Fourth => t end.
Definition pi_val (pi : option F) : F := match pi with Some p => p | None => 0 end.

Lemma add_gate_block x y o f s pi c c' : wf c -> no_next s -> add_gate x y o f s pi c = Ok c' ->
  block c c' [s] (fun col => [col4 x y o f col]) (pi_val pi) /\ nvars c' = nvars c /\ c_vals c' = c_vals c /\
  (x < nvars c /\ y < nvars c /\ o < nvars c /\ f < nvars c)%nat.
Proof.
  intros W HS H. unfold add_gate in H. apply obind_ok in H. destruct H as [d1 [E H]]. apply obind_ok in H. destruct H as [d2 [E0 H]]. injection H as <-.
  apply add_pi_inv in E. 2:{ cbn [push_sels push_wires set_sel set_wires c_n c_pi]. intros v Hv. apply (wf_pi _ W) in Hv. lia. }
  destruct E as [E1 [E2 E3]]. apply maps_inv in E0. destruct E0 as [L1 [L2 [L3 [L4 [E4 N]]]]].
  cbn [push_sels push_wires set_sel set_wires c_n c_pi] in E2, E3.
  assert (nvars d1 = nvars c) as N0 by (rewrite E1; reflexivity).
  assert (nvars (add_n 1 d2) = nvars c) as N1 by (change (nvars d2 = nvars c); congruence). rewrite N0 in L1, L2, L3, L4.
  split; [|split; [|split]].
  - constructor.
    + cbn [add_n set_n c_n]. rewrite E4, E1. reflexivity.
    + cbn [add_n set_n c_sel]. rewrite E4, E1. reflexivity.
    + intros col. transitivity (wires d2 col); [destruct col; reflexivity|]. rewrite E4, E1. destruct col; reflexivity.
    + reflexivity.
    + cbn [add_n set_n c_table]. rewrite E4, E1. reflexivity.
    + cbn [add_n set_n c_zero]. rewrite E4, E1. reflexivity.
    + now rewrite N1.
    + cbn [add_n set_n c_vals]. rewrite N1, E4, E1. split; [reflexivity|]. apply (wf_vals _ W).
    + intros col v [<-|[]]. rewrite N1. destruct col; cbn [col4]; lia.
    + intros i. cbn [add_n set_n c_pi]. rewrite E4. cbn [c_pi set_vars]. apply E2.
    + intros k v. cbn [add_n set_n c_pi]. rewrite E4. cbn [c_pi set_vars]. apply E3.
    + cbn. lia.
    + exact HS.
  - exact N1.
  - cbn [add_n set_n c_vals]. rewrite E4, E1. reflexivity.
  - auto.
Qed.

Lemma add_gate_inv x y o f s pi c c' : wf c -> no_next s -> add_gate x y o f s pi c = Ok c' ->
  wf c' /\ nvars c' = nvars c /\ c_zero c' = c_zero c /\ c_vals c' = c_vals c /\ c_table c' = c_table c /\
  (x < nvars c /\ y < nvars c /\ o < nvars c /\ f < nvars c)%nat /\
  (forall a, satisfies c' a <-> satisfies c a /\ row1_ok (c_table c) s (pi_val pi) (a x) (a y) (a o) (a f)).
Proof.
  intros W HS H. destruct (add_gate_block _ _ _ _ _ _ _ _ W HS H) as [B [N [V L]]].
  split; [eapply block_wf; eauto|]. split; [auto|]. split; [apply (bl_zero _ _ _ _ _ B)|]. split; [auto|].
  split; [apply (bl_table _ _ _ _ _ B)|]. split; [auto|].
  intros a. rewrite (block_sat _ _ _ _ _ a W B). unfold block_ok. cbn [length].
  assert ((forall j, (j < 1)%nat -> let w col k := a (nth k [col4 x y o f col] (c_zero c)) in
     row_ok (c_table c) (nth j [s] no_sel) (if (j =? 0)%nat then pi_val pi else 0)
    (w Left j) (w Right j) (w Output j) (w Fourth j) (w Left (j + 1)%nat) (w Right (j + 1)%nat) (w Fourth (j + 1)%nat)) <->
    row1_ok (c_table c) s (pi_val pi) (a x) (a y) (a o) (a f)) as ->; [|reflexivity].
  split.
  - intros K. specialize (K 0%nat ltac:(lia)). cbv zeta in K. cbn [nth col4 Nat.eqb] in K. now rewrite row_ok_no_next in K by auto.
  - intros K j Hj. replace j with 0%nat by lia. cbv zeta. cbn [nth col4 Nat.eqb]. now rewrite row_ok_no_next by auto.
Qed.

Lemma value_inv c v x : value c v = Ok x -> wf c -> (v < nvars c)%nat /\ x = values c v.
Proof.
  unfold value, unwrap_opt, values. intros H W. destruct (nth_error (c_vals c) v) as [y|] eqn:E; [|discriminate]. injection H as <-.
  split; [rewrite <- (wf_vals _ W); apply nth_error_Some; congruence|]. symmetry. now apply nth_error_nth.
Qed.
Lemma value_ok c v : wf c -> (v < nvars c)%nat -> value c v = Ok (values c v).
Proof.
  intros W H. unfold value, values, unwrap_opt. rewrite (nth_error_nth' _ (c_vals c) v 0); auto. now rewrite (wf_vals _ W).
Qed.
End PlonkProofs.

(** Build.v: running a program of ProgSpec through the model of the builder. *)
From Verif Require Import Base Spec ProgSpec Tools CS Circuit CircuitProofs.
Local Open Scope F_scope.

Section Build.
Context {F : Type} {fo : FieldOps F}.
(** The handle returned by the k-th value-producing call; a program that refers to a
    call that has not been made is not a program a user can write. *)
Definition handle (hs : list nat) (k : nat) : M (F:=F) nat :=
  match nth_error hs k with Some h => ret h | None => panic end.
(** One API call, keeping the handles returned so far. *)
Definition build_instr (hs : list nat) (i : instr F) : M (F:=F) (list nat) :=
  match i with
  | PInput => do r <- add_global_input_variable; ret (hs ++ [r])
  | PAdd a b => do x <- handle hs a; do y <- handle hs b; do r <- add_vars x y; ret (hs ++ [r])
  | PMul a b => do x <- handle hs a; do y <- handle hs b; do r <- mul_vars x y; ret (hs ++ [r])
  | PConst v => do r <- const_var v; ret (hs ++ [r])
  | PEq a b => do x <- handle hs a; do y <- handle hs b; do _ <- assert_equal x y; ret hs
  | PPub a => do x <- handle hs a; do _ <- mark_variable_as_public x; ret hs
  | PComplete => do _ <- mark_as_complete; ret hs
  | PEval inp => do _ <- evaluate inp; ret hs
  | PAssign io => do _ <- assign_public_io io; ret hs
  end.
Fixpoint build_from (p : program F) (hs : list nat) : M (F:=F) (list nat) :=
  match p with
  | [] => ret hs
  | i :: p' => do hs' <- build_instr hs i; build_from p' hs'
  end.
(** All calls of the program, each succeeding, on a new circuit. *)
Definition build (p : program F) : circ F * outcome cerr (list nat) := build_from p [] new_circ.
End Build.

Section BP.
Context {F : Type} {fo : FieldOps F} {fl : FieldLaws F}.
Add Field Fbp : F_th.
Implicit Types (c : circ F) (p : program F).

(** *** snoc lemmas for the specification *)
Lemma prog_inputs_app p q : prog_inputs (p ++ q) = (prog_inputs p + prog_inputs q)%nat.
Proof. induction p as [|[] p IH]; cbn; auto. Qed.
Lemma prog_eqs_app p q : prog_eqs (p ++ q) = prog_eqs p ++ prog_eqs q.
Proof. induction p as [|[] p IH]; cbn; auto. now rewrite IH. Qed.
Lemma prog_pubs_app p q : prog_pubs (p ++ q) = prog_pubs p ++ prog_pubs q.
Proof. induction p as [|[] p IH]; cbn; auto. now rewrite IH. Qed.
Lemma tl_nth (l : list F) k : nth k (tl l) 0 = nth (S k) l 0.
Proof. destruct l; cbn; auto. destruct k; auto. Qed.
Lemma skipn_tl (l : list F) k : skipn k (tl l) = skipn (S k) l.
Proof. destruct l; cbn; auto. now rewrite skipn_nil. Qed.
Lemma prog_values_app p q inp acc :
  prog_values_from (p ++ q) inp acc = prog_values_from q (skipn (prog_inputs p) inp) (prog_values_from p inp acc).
Proof.
  revert inp acc. induction p as [|[] p IH]; intros; cbn [app prog_values_from prog_inputs]; auto.
  now rewrite IH, skipn_tl.
Qed.
Lemma hd_skipn (l : list F) k : hd 0 (skipn k l) = nth k l 0.
Proof. revert l; induction k; intros [|x l]; cbn; auto. Qed.
Lemma prog_values_snoc p i inp : prog_values (p ++ [i]) inp =
  prog_values p inp ++ match i with
    | PInput => [nth (prog_inputs p) inp 0]
    | PAdd a b => [nth a (prog_values p inp) 0 + nth b (prog_values p inp) 0]
    | PMul a b => [nth a (prog_values p inp) 0 * nth b (prog_values p inp) 0]
    | PConst x => [x]
    | _ => []
    end.
Proof.
  unfold prog_values. rewrite prog_values_app. destruct i; cbn; auto using app_nil_end.
  now rewrite hd_skipn.
Qed.

(** *** invariance under changes of values only *)
Definition same_shape (vs vs' : list (var F)) := map skel vs' = map skel vs.
Lemma same_shape_nth vs vs' i v' : same_shape vs vs' -> nth_error vs' i = Some v' ->
  exists v, nth_error vs i = Some v /\ v_out v = v_out v' /\ v_in v = v_in v'.
Proof. intros H E. destruct (skel_nth vs' vs i v' (eq_sym H) E) as [v [A [B C]]]. eauto. Qed.
Lemma inv_vals c vs : Inv c -> same_shape (c_vars c) vs -> Inv (set_vars c vs).
Proof.
  intros I S. assert (length vs = length (c_vars c)) as HL by (rewrite <- (map_length skel vs), S, map_length; auto).
  assert (forall w, var_of_wire (set_vars c vs) w = var_of_wire c w) as HW by (intros [[? []|? []]|[]]; reflexivity).
  pose proof (inv_nin c I); pose proof (inv_eqs c I); pose proof (inv_addc c I); pose proof (inv_mulc c I); pose proof (inv_constc c I). constructor; unfold nv in *; cbn [c_nin c_vars c_add c_mul c_const c_addc c_mulc c_constc c_eqs c_pub set_vars]; rewrite ?HL; auto.
  - intros i v Hi Hlt. destruct (same_shape_nth _ _ _ _ S Hi) as [u [A [B C]]]. rewrite <- B. exact (inv_out_in c I i u A Hlt).
  - intros i v Hi Hge. destruct (same_shape_nth _ _ _ _ S Hi) as [u [A [B C]]]. rewrite <- B.
    destruct (inv_out_gate c I i u A Hge) as [g [X Y]]. exists g. now rewrite HW.
  - intros k g Hk. destruct (inv_add c I k g Hk) as [L [R [v [X Y]]]]. repeat split; auto.
    destruct (skel_nth _ _ _ _ S X) as [v' [A [B C]]]. exists v'. split; auto. congruence.
  - intros k g Hk. destruct (inv_mul c I k g Hk) as [L [R [v [X Y]]]]. repeat split; auto.
    destruct (skel_nth _ _ _ _ S X) as [v' [A [B C]]]. exists v'. split; auto. congruence.
  - intros k g Hk. destruct (inv_const c I k g Hk) as [v [X Y]].
    destruct (skel_nth _ _ _ _ S X) as [v' [A [B C]]]. exists v'. split; auto. congruence.
  - intros i v w Hi. destruct (same_shape_nth _ _ _ _ S Hi) as [u [A [B C]]]. rewrite <- C, HW. exact (inv_in c I i u w A).
  - intros w Hw. destruct (inv_pub c I w Hw) as [i Hi]. exists i. now rewrite HW.
Qed.
Lemma same_shape_refl vs : same_shape vs vs. Proof. reflexivity. Qed.
Lemma same_shape_trans a b d : same_shape a b -> same_shape b d -> same_shape a d.
Proof. unfold same_shape. congruence. Qed.

Lemma evaluate_shape c inp c' r : Inv c -> evaluate inp c = (c', Ok r) ->
  exists vs, c' = set_vars c vs /\ same_shape (c_vars c) vs /\ is_complete c = true /\ length inp = c_nin c.
Proof.
  intros I H. pose proof H as H0.
  unfold evaluate, assign_global_inputs, bind, query, get_input_size, assert_complete in H0.
  destruct (is_complete c) eqn:Hc; [|discriminate]. cbn [obind] in H0. unfold assert_size in H0.
  destruct (Nat.eqb_spec (c_nin c) (length inp)) as [HL|]; [|discriminate].
  destruct (evaluate_ok c inp I Hc (eq_sym HL)) as [vs [val [E [S _]]]]. rewrite H in E. injection E as -> _.
  exists vs. auto.
Qed.
Lemma assign_wires_shape l c c' r : assign_wires l c = (c', r) -> exists vs, c' = set_vars c vs /\ same_shape (c_vars c) vs.
Proof.
  revert c; induction l as [|[x w] l IH]; intros c H; cbn [assign_wires] in H.
  - injection H as <- <-. exists (c_vars c). now rewrite set_vars_id.
  - unfold bind at 1, query in H. destruct (unwrap_opt (var_of_wire c w)) as [i| |] eqn:Ei;
      try (injection H as <- <-; exists (c_vars c); now rewrite set_vars_id).
    unfold bind at 1, with_var in H. destruct (nth_error (c_vars c) i) as [v|] eqn:Ev;
      [|injection H as <- <-; exists (c_vars c); now rewrite set_vars_id].
    unfold v_assign_no_overwrite in H. destruct (v_val v) eqn:Evv.
    + injection H as <- <-. eexists. split; [reflexivity|]. red. now apply (skel_upd _ _ _ v).
    + destruct (IH _ H) as [vs [-> S]]. exists vs. split; [reflexivity|].
      eapply same_shape_trans; [|exact S]. red. cbn. now apply (skel_upd _ _ _ v).
Qed.
Lemma assign_io_shape c io c' r : assign_public_io io c = (c', r) -> exists vs, c' = set_vars c vs /\ same_shape (c_vars c) vs.
Proof.
  unfold assign_public_io, bind, query, gets. intros H.
  destruct (get_io_size c); try (injection H as <- <-; exists (c_vars c); now rewrite set_vars_id).
  destruct (assert_size a (length io)); try (injection H as <- <-; exists (c_vars c); now rewrite set_vars_id).
  now apply assign_wires_shape in H.
Qed.

(** *** the relation between a program and its circuit *)
Definition connected_var (v : var F) : bool := is_gate_input v || is_gate_output v.
Definition h_of (hs : list nat) (k : nat) := nth k hs 0%nat.
Record Rel (p : program F) (c : circ F) (hs : list nat) : Prop := {
  rl_inv : Inv c;
  rl_nin : c_nin c = prog_inputs p;
  rl_len : forall inp, length hs = length (prog_values p inp);
  rl_lt : forall h, In h hs -> (h < nv c)%nat;
  rl_val : forall inp val, consistent c inp val -> forall k, (k < length hs)%nat ->
     val (h_of hs k) = nth k (prog_values p inp) 0;
  rl_ins : forall k, (k < c_nin c)%nat -> (k < length hs)%nat /\ h_of hs k = k;
  rl_oth : forall k, (c_nin c <= k)%nat -> (k < length hs)%nat -> (c_nin c <= h_of hs k)%nat;
  rl_eqs : c_eqs c = map (fun ij => (h_of hs (fst ij), h_of hs (snd ij))) (prog_eqs p);
  rl_eqs_lt : forall i j, In (i, j) (prog_eqs p) -> (i < length hs)%nat /\ (j < length hs)%nat;
  rl_pub : map (var_of_wire c) (c_pub c) = map (fun i => Some (h_of hs i)) (prog_pubs p);
  rl_pub_lt : forall i, In i (prog_pubs p) -> (i < length hs)%nat;
  rl_use : forall k, prog_uses p k -> exists g, (In g (c_add c) \/ In g (c_mul c)) /\ (g_l g = h_of hs k \/ g_r g = h_of hs k);
  rl_used : forall g, In g (c_add c) \/ In g (c_mul c) ->
     exists i j, (i < length hs)%nat /\ (j < length hs)%nat /\
       (In (PAdd i j) p \/ In (PMul i j) p) /\
       ((g_l g = h_of hs i /\ g_r g = h_of hs j) \/ (g_l g = h_of hs j /\ g_r g = h_of hs i));
  rl_compl : is_complete c = true -> no_gate c = false /\ forallb connected_var (c_vars c) = true;
  rl_used_lt : forall k, prog_uses p k -> (k < length hs)%nat }.

Lemma h_of_app hs r k : (k < length hs)%nat -> h_of (hs ++ [r]) k = h_of hs k.
Proof. intros. unfold h_of. now apply app_nth1. Qed.
Lemma h_of_last hs r : h_of (hs ++ [r]) (length hs) = r.
Proof. unfold h_of. rewrite app_nth2, Nat.sub_diag; auto. Qed.

Lemma uses_snoc p i k : prog_uses (p ++ [i]) k <->
  prog_uses p k \/ (exists a b, (i = PAdd a b \/ i = PMul a b) /\ (k = a \/ k = b)).
Proof.
  unfold prog_uses. split.
  - intros [j H]. rewrite !in_app_iff in H. cbn in H.
    destruct H as [[H|[H|[]]]|[[H|[H|[]]]|[[H|[H|[]]]|[H|[H|[]]]]]]; try (left; exists j; now auto); right;
      [exists k, j|exists j, k|exists k, j|exists j, k]; auto.
  - intros [[j H]|[a [b [[->| ->] [-> | ->]]]]].
    + exists j. rewrite !in_app_iff. intuition.
    + exists b. rewrite !in_app_iff. cbn. auto.
    + exists a. rewrite !in_app_iff. cbn. auto 6.
    + exists b. rewrite !in_app_iff. cbn. auto 6.
    + exists a. rewrite !in_app_iff. cbn. auto 8.
Qed.

Lemma handle_ok hs k c c' h : handle (F:=F) hs k c = (c', Ok h) -> c' = c /\ (k < length hs)%nat /\ h = h_of hs k /\ In h hs.
Proof.
  unfold handle, ret, panic. destruct (nth_error hs k) as [x|] eqn:E; [|discriminate].
  intros H. injection H as <- <-. split; auto. split; [now apply nth_error_lt in E|]. split.
  - unfold h_of. symmetry. now apply nth_error_nth.
  - now apply nth_error_In in E.
Qed.
Lemma bind_ok {A B} (m : M (F:=F) A) (f : A -> M (F:=F) B) c c' b : bind m f c = (c', Ok b) ->
  exists c1 a, m c = (c1, Ok a) /\ f a c1 = (c', Ok b).
Proof. unfold bind. destruct (m c) as [c1 [a| |]] eqn:E; try discriminate. intros. eauto. Qed.

Lemma rel_new : Rel [] new_circ [].
Proof.
  constructor; cbn; auto using inv_new; try (intros; contradiction); try (intros; lia); try discriminate.
  - intros k [j H]. cbn in H. exfalso. tauto.
  - intros k [j H]. cbn in H. exfalso. tauto.
Qed.

(** a step that only extends the circuit by value-producing gates *)
Lemma extends_pub c c' : Inv c -> extends c c' -> map (var_of_wire c') (c_pub c') = map (var_of_wire c) (c_pub c).
Proof.
  intros I X. assert (c_pub c' = c_pub c) as -> by apply X. apply map_ext_in. intros w Hw.
  destruct (inv_pub c I w Hw) as [i Hi]. rewrite Hi. now apply (var_of_wire_extends c c').
Qed.
Lemma forallb_nth_error {A} (f : A -> bool) l : forallb f l = true <-> forall i x, nth_error l i = Some x -> f x = true.
Proof.
  rewrite forallb_forall. split.
  - intros H i x E. apply H. now apply nth_error_In in E.
  - intros H x Hx. apply In_nth_error in Hx. destruct Hx as [i Hi]. eauto.
Qed.
Lemma extends_no_gate c c' : extends c c' -> no_gate c = false -> no_gate c' = false.
Proof.
  intros [_ [_ [[l1 E1] [[l2 E2] [[l3 E3] _]]]]]. unfold no_gate. rewrite E1, E2, E3.
  destruct (c_add c), (c_mul c), (c_const c), l1, l2, l3; cbn; auto; discriminate.
Qed.
Lemma extends_no_gate' c c' : extends c c' -> no_gate c' = true -> no_gate c = true.
Proof. intros X H. destruct (no_gate c) eqn:E; auto. rewrite (extends_no_gate c c' X E) in H. discriminate. Qed.

(** more about the three calls *)
Definition gates_in (c : circ F) (g : gate) := In g (c_add c) \/ In g (c_mul c).
Record grows (c c' : circ F) (a b : nat) : Prop := {
  gw_gates : forall g, gates_in c' g -> gates_in c g \/ (g_l g, g_r g) = sort2 a b;
  gw_has : exists g, gates_in c' g /\ (g_l g, g_r g) = sort2 a b;
  gw_conn : forallb connected_var (c_vars c) = true -> forallb connected_var (c_vars c') = true;
  gw_ng : no_gate c' = false }.

Lemma vars_spec_conn vs vs' k mk mko a b : vars_spec (F:=F) vs vs' k mk mko a b ->
  forallb connected_var vs = true -> forallb connected_var vs' = true.
Proof.
  intros [HL HV] H. rewrite forallb_nth_error in *. intros i x Hx. rewrite HV in Hx.
  destruct (i =? length vs)%nat.
  - injection Hx as <-. reflexivity.
  - destruct (nth_error vs i) as [v|] eqn:E; [|discriminate]. injection Hx as <-.
    specialize (H i v E). unfold connected_var, is_gate_input, is_gate_output, push_wires in *. cbn.
    destruct (v_in v); cbn in *; auto.
    destruct (i =? a)%nat, (i =? b)%nat; cbn; auto.
Qed.

Lemma add_vars_grows c a b c' o : Inv c -> (a < nv c)%nat -> (b < nv c)%nat ->
  add_vars a b c = (c', Ok o) -> grows c c' a b.
Proof.
  intros I Ha Hb H. unfold add_vars in H. pose proof (sort2_lt a b (nv c) Ha Hb) as Hs.
  destruct (sort2 a b) as [x y] eqn:Es. destruct Hs as [Hx Hy].
  unfold bind at 1 in H. unfold gets at 1 in H. destruct (lookup2 (x, y) (c_addc c)) as [o'|] eqn:El.
  - apply lookup2_In in El. cbn in El. apply (inv_addc c I) in El. injection H as <- <-.
    constructor; auto.
    + exists (mkGate x y o'). split; [left; auto|]. rewrite Es. reflexivity.
    + unfold no_gate. destruct (c_add c); [destruct El|reflexivity].
  - destruct (add_gate_ok c x y I Hx Hy) as [vs' [E V]]. rewrite E in H. injection H as <- <-.
    constructor; unfold gates_in; cbn.
    + intros g [H|H]; auto. apply in_app_iff in H. destruct H as [H|[<-|[]]]; auto.
    + exists (mkGate x y (nv c)). split; [|rewrite Es; reflexivity]. left. apply in_app_iff. right. now left.
    + exact (vars_spec_conn _ _ _ _ _ _ _ V).
    + unfold no_gate. cbn. destruct (c_add c); reflexivity.
Qed.
Lemma mul_vars_grows c a b c' o : Inv c -> (a < nv c)%nat -> (b < nv c)%nat ->
  mul_vars a b c = (c', Ok o) -> grows c c' a b.
Proof.
  intros I Ha Hb H. unfold mul_vars in H. pose proof (sort2_lt a b (nv c) Ha Hb) as Hs.
  destruct (sort2 a b) as [x y] eqn:Es. destruct Hs as [Hx Hy].
  unfold bind at 1 in H. unfold gets at 1 in H. destruct (lookup2 (x, y) (c_mulc c)) as [o'|] eqn:El.
  - apply lookup2_In in El. cbn in El. apply (inv_mulc c I) in El. injection H as <- <-.
    constructor; auto.
    + exists (mkGate x y o'). split; [right; auto|]. rewrite Es. reflexivity.
    + unfold no_gate. destruct (c_mul c); [destruct El|destruct (c_add c); reflexivity].
  - destruct (mul_gate_ok c x y I Hx Hy) as [vs' [E V]]. rewrite E in H. injection H as <- <-.
    constructor; unfold gates_in; cbn.
    + intros g [H|H]; auto. apply in_app_iff in H. destruct H as [H|[<-|[]]]; auto.
    + exists (mkGate x y (nv c)). split; [|rewrite Es; reflexivity]. right. apply in_app_iff. right. now left.
    + exact (vars_spec_conn _ _ _ _ _ _ _ V).
    + unfold no_gate. cbn. destruct (c_add c); cbn; auto. destruct (c_mul c); reflexivity.
Qed.
Lemma const_var_grows c x c' o : Inv c -> const_var x c = (c', Ok o) ->
  (forall g, gates_in c' g <-> gates_in c g) /\ no_gate c' = false /\
  (forallb connected_var (c_vars c) = true -> forallb connected_var (c_vars c') = true).
Proof.
  intros I H. unfold const_var in H.
  unfold bind at 1 in H. unfold gets at 1 in H. destruct (lookupF x (c_constc c)) as [o'|] eqn:El.
  - apply lookupF_In in El. apply (inv_constc c I) in El. injection H as <- <-.
    split; [tauto|]. split; auto. unfold no_gate. destruct (c_const c); [destruct El|destruct (c_add c), (c_mul c); reflexivity].
  - rewrite (const_gate_ok c x I) in H. injection H as <- <-. split; [cbn; tauto|]. split.
    + unfold no_gate. cbn. destruct (c_add c), (c_mul c), (c_const c); reflexivity.
    + cbn. intros H. rewrite forallb_app, H. reflexivity.
Qed.

Lemma value_step p i c hs c' r (v : list F -> F) :
  Rel p c hs -> Inv c' -> extends c c' -> (r < nv c')%nat -> (c_nin c <= r)%nat ->
  (forall inp val, consistent c' inp val -> val r = v inp) ->
  (forall inp, prog_values (p ++ [i]) inp = prog_values p inp ++ [v inp]) ->
  prog_eqs [i] = [] -> prog_pubs [i] = [] -> prog_inputs [i] = 0%nat ->
  (forall k, (exists a b, (i = PAdd a b \/ i = PMul a b) /\ (k = a \/ k = b)) ->
     (k < length hs)%nat /\ exists g, gates_in c' g /\ (g_l g = h_of hs k \/ g_r g = h_of hs k)) ->
  (forall g, gates_in c' g -> gates_in c g \/
     exists a b, (a < length hs)%nat /\ (b < length hs)%nat /\ (i = PAdd a b \/ i = PMul a b) /\
       ((g_l g = h_of hs a /\ g_r g = h_of hs b) \/ (g_l g = h_of hs b /\ g_r g = h_of hs a))) ->
  no_gate c' = false ->
  (forallb connected_var (c_vars c) = true -> forallb connected_var (c_vars c') = true) ->
  Rel (p ++ [i]) c' (hs ++ [r]).
Proof.
  intros R I' X Hr Hn Hv Hval He Hp Hi HU HG NG HC.
  pose proof (rl_inv _ _ _ R) as I. 
  assert (c_nin c' = c_nin c) as EN by apply X. assert (nv c <= nv c')%nat as NV by apply X.
  constructor.
  - exact I'.
  - rewrite EN, (rl_nin _ _ _ R), prog_inputs_app, Hi. lia.
  - intros inp. rewrite Hval, !app_length, (rl_len _ _ _ R inp). reflexivity.
  - intros h Hh. apply in_app_iff in Hh. destruct Hh as [Hh|[<-|[]]]; auto.
    pose proof (rl_lt _ _ _ R h Hh). lia.
  - intros inp val Hcon k Hk. rewrite app_length in Hk. cbn in Hk. rewrite Hval.
    destruct (Nat.eq_dec k (length hs)) as [->|Hne].
    + rewrite h_of_last, (rl_len _ _ _ R inp), app_nth2, Nat.sub_diag by lia. cbn. now apply Hv.
    + rewrite h_of_app, app_nth1 by (rewrite <- ?(rl_len _ _ _ R inp); lia).
      apply (rl_val _ _ _ R inp val); [|lia]. now apply (extends_consistent c c').
  - intros k Hk. rewrite EN in Hk. destruct (rl_ins _ _ _ R k Hk) as [H1 H2]. rewrite app_length.
    split; [cbn; lia|]. now rewrite h_of_app.
  - intros k Hk Hk'. rewrite EN in *. rewrite app_length in Hk'. cbn in Hk'.
    destruct (Nat.eq_dec k (length hs)) as [->|Hne]; [now rewrite h_of_last|].
    rewrite h_of_app by lia. apply (rl_oth _ _ _ R); lia.
  - assert (c_eqs c' = c_eqs c) as -> by apply X. rewrite prog_eqs_app, He, app_nil_r, (rl_eqs _ _ _ R).
    apply map_ext_in. intros [a b] Hab. cbn. destruct (rl_eqs_lt _ _ _ R a b Hab). now rewrite !h_of_app.
  - rewrite prog_eqs_app, He, app_nil_r. intros a b Hab. destruct (rl_eqs_lt _ _ _ R a b Hab). rewrite app_length. cbn. lia.
  - rewrite (extends_pub c c' I X), prog_pubs_app, Hp, app_nil_r, (rl_pub _ _ _ R).
    apply map_ext_in. intros a Ha. rewrite h_of_app; auto. now apply (rl_pub_lt _ _ _ R).
  - rewrite prog_pubs_app, Hp, app_nil_r. intros a Ha. pose proof (rl_pub_lt _ _ _ R a Ha). rewrite app_length. cbn. lia.
  - intros k Hk. apply uses_snoc in Hk. destruct Hk as [Hk|Hk].
    + destruct (rl_use _ _ _ R k Hk) as [g [Hg Hg']]. exists g. rewrite h_of_app by now apply (rl_used_lt _ _ _ R). split; auto.
      destruct X as [_ [_ [[l1 E1] [[l2 E2] _]]]]. rewrite E1, E2, !in_app_iff. tauto.
    + destruct (HU k Hk) as [Hlt [g [Hg Hg']]]. exists g. rewrite h_of_app by auto. auto.
  - intros g Hg. rewrite app_length. cbn. destruct (HG g Hg) as [Hg'|[a [b [Ha [Hb [Hi' Hg']]]]]].
    + destruct (rl_used _ _ _ R g Hg') as [a [b [Ha [Hb [H1 H2]]]]]. exists a, b. rewrite !h_of_app, !in_app_iff by auto.
      repeat split; try lia; try tauto.
    + exists a, b. rewrite !h_of_app, !in_app_iff by auto. cbn. repeat split; try lia; tauto.
  - intros Hc. split; auto. apply HC. apply (rl_compl _ _ _ R). unfold is_complete in *.
    assert (c_outs c' = c_outs c) as <- by apply X. exact Hc.
  - intros k Hk. apply uses_snoc in Hk. rewrite app_length. cbn. destruct Hk as [Hk|Hk].
    + pose proof (rl_used_lt _ _ _ R k Hk). lia.
    + destruct (HU k Hk) as [Hlt _]. lia.
Qed.

Lemma scan_vars_ok i (l : list (var F)) outs outs' : scan_vars i l outs = (outs', Ok tt) <->
  forallb connected_var l = true /\
  outs' = outs ++ map fst (filter (fun iv => negb (is_gate_input (snd iv))) (combine (seq i (length l)) l)).
Proof.
  revert i outs; induction l as [|v l IH]; intros i outs; cbn [scan_vars forallb length seq combine filter map snd].
  - rewrite app_nil_r. split; [intros H; injection H as ->; auto|intros [_ ->]; auto].
  - unfold connected_var at 1. destruct (is_gate_input v) eqn:Ei; cbn [negb andb orb snd].
    + rewrite IH. tauto.
    + destruct (is_gate_output v) eqn:Eo; cbn [negb andb].
      * rewrite IH. cbn [map fst]. rewrite <- app_assoc. cbn. tauto.
      * split; [discriminate|intros [H _]; discriminate].
Qed.

Lemma no_gate_vars c : Inv c -> no_gate c = true -> c_nin c = nv c /\ forall i v, nth_error (c_vars c) i = Some v -> connected_var v = false.
Proof.
  intros I H. destruct (add_input_ok c I H) as [_ [_ [_ [_ HN]]]]. split; auto.
  intros i v Hv. pose proof (inv_out_in c I i v Hv) as Ho. rewrite HN in Ho. pose proof Hv as Hlt. apply nth_error_lt in Hlt. 
  unfold connected_var, is_gate_input, is_gate_output. rewrite (Ho Hlt).
  destruct (v_in v) as [|w ws] eqn:Ew; auto. exfalso.
  assert (In w (v_in v)) as Hw by (rewrite Ew; now left). apply (inv_in c I i v w Hv) in Hw.
  unfold no_gate in H. destruct (c_add c) eqn:E1; [|discriminate]. destruct (c_mul c) eqn:E2; [|discriminate].
  destruct w as [[|k] []|[|k] []]; cbn in Hw; rewrite ?E1, ?E2 in Hw; discriminate.
Qed.

(** fields that the remaining calls may change *)
Lemma rel_frame p i c hs c' :
  Rel p c hs -> Inv c' ->
  c_nin c' = c_nin c -> nv c' = nv c -> c_add c' = c_add c -> c_mul c' = c_mul c -> c_const c' = c_const c ->
  prog_inputs [i] = 0%nat -> (forall inp, prog_values (p ++ [i]) inp = prog_values p inp) ->
  (forall a b, i <> PAdd a b) -> (forall a b, i <> PMul a b) ->
  c_eqs c' = c_eqs c ++ map (fun ij => (h_of hs (fst ij), h_of hs (snd ij))) (prog_eqs [i]) ->
  (forall a b, In (a, b) (prog_eqs [i]) -> (a < length hs)%nat /\ (b < length hs)%nat) ->
  map (var_of_wire c') (c_pub c') = map (var_of_wire c) (c_pub c) ++ map (fun i => Some (h_of hs i)) (prog_pubs [i]) ->
  (forall a, In a (prog_pubs [i]) -> (a < length hs)%nat) ->
  (is_complete c' = true -> no_gate c' = false /\ forallb connected_var (c_vars c') = true) ->
  Rel (p ++ [i]) c' hs.
Proof.
  intros R I' EN NV EA EM EC Hi Hval NA NM He He' Hp Hp' HC.
  assert (forall k, prog_uses (p ++ [i]) k <-> prog_uses p k) as HU.
  { intros k. rewrite uses_snoc. split; auto. intros [H|[a [b [[->| ->] _]]]]; auto; exfalso; [eapply NA|eapply NM]; reflexivity. }
  constructor; rewrite ?prog_inputs_app, ?Hi, ?prog_eqs_app, ?prog_pubs_app, ?EN, ?EA, ?EM.
  - exact I'.
  - rewrite (rl_nin _ _ _ R). lia.
  - intros. rewrite Hval. apply (rl_len _ _ _ R).
  - rewrite NV. apply (rl_lt _ _ _ R).
  - intros inp val Hcon. rewrite Hval. apply (rl_val _ _ _ R inp val).
    destruct Hcon as [X1 X2 X3 X4]. rewrite EN in *. rewrite EA, EM, EC in *. constructor; auto.
  - apply (rl_ins _ _ _ R).
  - apply (rl_oth _ _ _ R).
  - rewrite He, (rl_eqs _ _ _ R), map_app. reflexivity.
  - intros a b Hab. apply in_app_iff in Hab. destruct Hab; auto. now apply (rl_eqs_lt _ _ _ R).
  - rewrite Hp, (rl_pub _ _ _ R), map_app. reflexivity.
  - intros a Ha. apply in_app_iff in Ha. destruct Ha; auto. now apply (rl_pub_lt _ _ _ R).
  - intros k Hk. apply HU in Hk. now apply (rl_use _ _ _ R).
  - intros g Hg. destruct (rl_used _ _ _ R g Hg) as [a [b [Ha [Hb [H1 H2]]]]]. exists a, b. rewrite !in_app_iff. tauto.
  - exact HC.
  - intros k Hk. apply HU in Hk. now apply (rl_used_lt _ _ _ R).
Qed.

Lemma sort2_match g a b : (g_l g, g_r g) = sort2 a b ->
  (g_l g = a /\ g_r g = b) \/ (g_l g = b /\ g_r g = a).
Proof. intros H. destruct (sort2_cases a b) as [E|E]; rewrite E in H; injection H as <- <-; auto. Qed.

Lemma shape_conn vs vs' : same_shape vs vs' -> forallb connected_var vs = true -> forallb connected_var vs' = true.
Proof.
  intros S. rewrite !forallb_nth_error. intros H i x Hx. destruct (same_shape_nth _ _ _ _ S Hx) as [v [A [B C]]].
  specialize (H i v A). unfold connected_var, is_gate_input, is_gate_output in *. now rewrite <- B, <- C.
Qed.
Lemma rel_vals_step p i c hs vs :
  Rel p c hs -> same_shape (c_vars c) vs ->
  (match i with PEval _ | PAssign _ => True | _ => False end) ->
  Rel (p ++ [i]) (set_vars c vs) hs.
Proof.
  intros R S Hi. pose proof (rl_inv _ _ _ R) as I.
  assert (length vs = length (c_vars c)) as HL by (rewrite <- (map_length skel vs), S, map_length; auto).
  apply (rel_frame p i c hs); auto; cbn.
  - now apply inv_vals.
  - destruct i; auto; destruct Hi.
  - intros inp. rewrite prog_values_snoc. destruct i; try destruct Hi; apply app_nil_r.
  - intros a b ->. destruct Hi.
  - intros a b ->. destruct Hi.
  - destruct i; try destruct Hi; cbn; now rewrite app_nil_r.
  - destruct i; try destruct Hi; cbn; tauto.
  - assert (forall w, var_of_wire (set_vars c vs) w = var_of_wire c w) as HW by (intros [[? []|? []]|[]]; reflexivity).
    rewrite (map_ext _ _ HW). destruct i; try destruct Hi; cbn; now rewrite app_nil_r.
  - destruct i; try destruct Hi; cbn; tauto.
  - intros Hc. destruct (rl_compl _ _ _ R Hc) as [A B]. split; auto. now apply (shape_conn (c_vars c)).
Qed.

Lemma rel_step p c hs i c' hs' : Rel p c hs -> build_instr hs i c = (c', Ok hs') -> Rel (p ++ [i]) c' hs'.
Proof.
  intros R H. pose proof (rl_inv _ _ _ R) as I. destruct i as [|a b|a b|x|a b|a| |inp|io]; cbn [build_instr] in H.
  - (* input *)
    apply bind_ok in H. destruct H as [c1 [r [H1 H2]]]. injection H2 as <- <-.
    assert (no_gate c = true) as NG.
    { destruct (no_gate c) eqn:E; auto. unfold add_global_input_variable, bind, gets in H1. rewrite E in H1. discriminate. }
    destruct (add_input_ok c I NG) as [c2 [E1 [E2 [I2 HN]]]]. rewrite H1 in E1. injection E1 as <- ->.
    destruct (no_gate_vars c I NG) as [_ HV].
    assert (c_add c = [] /\ c_mul c = [] /\ c_const c = []) as [EA [EM EC]].
    { unfold no_gate in NG. destruct (c_add c); [|discriminate]. destruct (c_mul c); [|discriminate]. destruct (c_const c); [auto|discriminate]. }
    assert (length hs = c_nin c) as HL.
    { destruct (Nat.lt_ge_cases (c_nin c) (length hs)) as [Hlt|Hge].
      - pose proof (rl_oth _ _ _ R (c_nin c) (le_n _) Hlt) as H. 
        assert (In (h_of hs (c_nin c)) hs) as Hin by (apply nth_In; lia).
        pose proof (rl_lt _ _ _ R _ Hin). lia.
      - destruct (c_nin c) eqn:E; [lia|]. rewrite <- E in *. destruct (rl_ins _ _ _ R (c_nin c - 1)); lia. }
    assert (forall k, prog_uses (p ++ [PInput]) k <-> prog_uses p k) as HU.
    { intros k. rewrite uses_snoc. split; auto. intros [H|[a [b [[E|E] _]]]]; auto; discriminate. }
    assert (forall w, var_of_wire c1 w = var_of_wire c w) as HW by (rewrite E2; intros [[? []|? []]|[]]; reflexivity).
    constructor; rewrite ?prog_inputs_app, ?prog_eqs_app, ?prog_pubs_app; rewrite ?E2; cbn [prog_inputs prog_eqs prog_pubs c_nin c_add c_mul c_vars c_eqs c_pub set_nin set_vars].
    + now rewrite <- E2.
    + rewrite (rl_nin _ _ _ R). lia.
    + intros inp. rewrite prog_values_snoc, !app_length, (rl_len _ _ _ R inp). reflexivity.
    + intros h Hh. unfold nv. cbn. rewrite app_length. cbn. apply in_app_iff in Hh. destruct Hh as [Hh|[<-|[]]].
      * pose proof (rl_lt _ _ _ R h Hh). unfold nv in *. lia.
      * unfold nv. lia.
    + intros inp val Hcon k Hk. rewrite app_length in Hk. cbn in Hk. rewrite prog_values_snoc.
      destruct (Nat.eq_dec k (length hs)) as [->|Hne].
      * rewrite h_of_last, (rl_len _ _ _ R inp), app_nth2, Nat.sub_diag by lia. cbn.
        rewrite <- HN. rewrite <- (rl_nin _ _ _ R). apply (con_in _ _ _ Hcon). cbn. lia.
      * rewrite h_of_app, app_nth1 by (rewrite <- ?(rl_len _ _ _ R inp); lia).
        apply (rl_val _ _ _ R inp val); [|lia]. destruct Hcon as [X1 X2 X3 X4]. cbn in *. constructor; auto.
    + intros k Hk. rewrite app_length. cbn. split; [lia|]. destruct (Nat.eq_dec k (length hs)) as [->|Hne].
      * rewrite h_of_last. lia.
      * rewrite h_of_app by lia. apply (rl_ins _ _ _ R). lia.
    + intros k Hk Hk'. rewrite app_length in Hk'. cbn in Hk'. lia.
    + rewrite app_nil_r, (rl_eqs _ _ _ R). apply map_ext_in. intros [a b] Hab. cbn. destruct (rl_eqs_lt _ _ _ R a b Hab). now rewrite !h_of_app.
    + rewrite app_nil_r. intros a b Hab. destruct (rl_eqs_lt _ _ _ R a b Hab). rewrite app_length. cbn. lia.
    + rewrite app_nil_r. rewrite <- E2, (map_ext _ _ HW), (rl_pub _ _ _ R). apply map_ext_in. intros a Ha. rewrite h_of_app; auto. now apply (rl_pub_lt _ _ _ R).
    + rewrite app_nil_r. intros a Ha. pose proof (rl_pub_lt _ _ _ R a Ha). rewrite app_length. cbn. lia.
    + intros k Hk. apply HU in Hk. destruct (rl_use _ _ _ R k Hk) as [g [Hg _]]. rewrite EA, EM in Hg. destruct Hg as [[]|[]].
    + intros g Hg. rewrite EA, EM in Hg. destruct Hg as [[]|[]].
    + intros Hc. destruct (rl_compl _ _ _ R Hc) as [A _]. congruence.
    + intros k Hk. apply HU in Hk. pose proof (rl_used_lt _ _ _ R k Hk). rewrite app_length. cbn. lia.
  - (* add *)
    apply bind_ok in H. destruct H as [c1 [x [H1 H]]]. apply handle_ok in H1. destruct H1 as [-> [La [-> Ia]]].
    apply bind_ok in H. destruct H as [c1 [y [H1 H]]]. apply handle_ok in H1. destruct H1 as [-> [Lb [-> Ib]]].
    apply bind_ok in H. destruct H as [c1 [r [H1 H]]]. injection H as <- <-.
    apply (rl_lt _ _ _ R) in Ia, Ib.
    destruct (add_vars_ok c _ _ I Ia Ib) as [c2 [r2 [E [I2 [X [Hr [Hv Hn]]]]]]]. rewrite H1 in E. injection E as <- <-.
    destruct (add_vars_grows c _ _ _ _ I Ia Ib H1) as [G1 [g0 [G2 G2']] G3 G4].
    apply (value_step p _ c hs c1 r (fun inp => nth a (prog_values p inp) 0 + nth b (prog_values p inp) 0)); auto.
    + intros inp val Hcon. rewrite (Hv inp val Hcon). pose proof (extends_consistent _ _ _ _ X Hcon) as Hcon'.
      now rewrite !(rl_val _ _ _ R inp val Hcon').
    + intros. apply prog_values_snoc.
    + intros k [a' [b' [[E|E] Hk]]]; [|discriminate]. injection E as <- <-.
      apply sort2_match in G2'. destruct Hk as [-> | ->]; split; auto; exists g0; split; auto; intuition.
    + intros g Hg. destruct (G1 g Hg) as [|Hs]; auto. right. exists a, b. apply sort2_match in Hs. tauto.
  - (* mul *)
    apply bind_ok in H. destruct H as [c1 [x [H1 H]]]. apply handle_ok in H1. destruct H1 as [-> [La [-> Ia]]].
    apply bind_ok in H. destruct H as [c1 [y [H1 H]]]. apply handle_ok in H1. destruct H1 as [-> [Lb [-> Ib]]].
    apply bind_ok in H. destruct H as [c1 [r [H1 H]]]. injection H as <- <-.
    apply (rl_lt _ _ _ R) in Ia, Ib.
    destruct (mul_vars_ok c _ _ I Ia Ib) as [c2 [r2 [E [I2 [X [Hr [Hv Hn]]]]]]]. rewrite H1 in E. injection E as <- <-.
    destruct (mul_vars_grows c _ _ _ _ I Ia Ib H1) as [G1 [g0 [G2 G2']] G3 G4].
    apply (value_step p _ c hs c1 r (fun inp => nth a (prog_values p inp) 0 * nth b (prog_values p inp) 0)); auto.
    + intros inp val Hcon. rewrite (Hv inp val Hcon). pose proof (extends_consistent _ _ _ _ X Hcon) as Hcon'.
      now rewrite !(rl_val _ _ _ R inp val Hcon').
    + intros. apply prog_values_snoc.
    + intros k [a' [b' [[E|E] Hk]]]; [discriminate|]. injection E as <- <-.
      apply sort2_match in G2'. destruct Hk as [-> | ->]; split; auto; exists g0; split; auto; intuition.
    + intros g Hg. destruct (G1 g Hg) as [|Hs]; auto. right. exists a, b. apply sort2_match in Hs. tauto.
  - (* const *)
    apply bind_ok in H. destruct H as [c1 [r [H1 H]]]. injection H as <- <-.
    destruct (const_var_ok c x I) as [c2 [r2 [E [I2 [X [Hr [Hv Hn]]]]]]]. rewrite H1 in E. injection E as <- <-.
    destruct (const_var_grows c x _ _ I H1) as [G1 [G2 G3]].
    apply (value_step p _ c hs c1 r (fun inp => x)); auto.
    + intros. apply prog_values_snoc.
    + intros k [a' [b' [[E|E] Hk]]]; discriminate.
    + intros g Hg. left. now apply G1.
  - (* eq *)
    apply bind_ok in H. destruct H as [c1 [x [H1 H]]]. apply handle_ok in H1. destruct H1 as [-> [La [-> Ia]]].
    apply bind_ok in H. destruct H as [c1 [y [H1 H]]]. apply handle_ok in H1. destruct H1 as [-> [Lb [-> Ib]]].
    apply bind_ok in H. destruct H as [c1 [[] [H1 H]]]. injection H as <- <-.
    unfold assert_equal in H1. destruct (Nat.eqb_spec (h_of hs a) (h_of hs b)) as [|Hne]; [discriminate|].
    unfold modify in H1. injection H1 as <-. apply (rl_lt _ _ _ R) in Ia, Ib.
    apply (rel_frame p _ c hs); auto; try discriminate.
    + now apply inv_change_eqs.
    + intros. rewrite prog_values_snoc. apply app_nil_r.
    + cbn. intros a' b' [E|[]]. injection E as <- <-. auto.
    + cbn. rewrite app_nil_r. apply map_ext. intros [[? []|? []]|[]]; reflexivity.
    + cbn. tauto.
    + exact (rl_compl _ _ _ R).
  - (* public *)
    apply bind_ok in H. destruct H as [c1 [x [H1 H]]]. apply handle_ok in H1. destruct H1 as [-> [La [-> Ia]]].
    apply bind_ok in H. destruct H as [c1 [[] [H1 H]]]. injection H as <- <-.
    destruct (mark_public_ok c _ _ I H1) as [w [-> Hw]].
    apply (rel_frame p _ c hs); auto; try discriminate.
    + now apply (inv_change_pub c w (h_of hs a)).
    + intros. rewrite prog_values_snoc. apply app_nil_r.
    + cbn. now rewrite app_nil_r.
    + cbn. tauto.
    + cbn. assert (forall w', var_of_wire (set_pub c (c_pub c ++ [w])) w' = var_of_wire c w') as HW by (intros [[? []|? []]|[]]; reflexivity).
      rewrite map_app, (map_ext _ _ HW). cbn [map]. now rewrite HW, Hw.
    + cbn. intros ? [<-|[]]. auto.
    + exact (rl_compl _ _ _ R).
  - (* complete *)
    apply bind_ok in H. destruct H as [c1 [[] [H1 H]]]. injection H as <- <-.
    unfold mark_as_complete in H1. destruct (Nat.eqb_spec (c_nin c) 0) as [|Hnz]; [discriminate|].
    destruct (scan_vars 0 (c_vars c) (c_outs c)) as [outs r] eqn:Es. destruct r as [[]| |]; try discriminate.
    destruct (is_complete (set_outs c outs)) eqn:Ec; [|discriminate]. injection H1 as <-.
    apply scan_vars_ok in Es. destruct Es as [Es _].
    apply (rel_frame p _ c hs); auto; try discriminate.
    + now apply inv_change_outs.
    + intros. rewrite prog_values_snoc. apply app_nil_r.
    + cbn. now rewrite app_nil_r.
    + cbn. tauto.
    + cbn. rewrite app_nil_r. apply map_ext. intros [[? []|? []]|[]]; reflexivity.
    + cbn. tauto.
    + intros _. split; [|exact Es]. cbn. destruct (no_gate c) eqn:NG; [exfalso|auto].
      destruct (no_gate_vars c I NG) as [HN HV]. destruct (c_vars c) as [|v vs] eqn:Ev.
      { unfold nv in HN. rewrite Ev in HN. cbn in HN. lia. }
      specialize (HV 0%nat v). cbn in Es. rewrite HV in Es by reflexivity. discriminate.
  - apply bind_ok in H. destruct H as [c1 [[] [H1 H]]]. injection H as <- <-.
    destruct (evaluate_shape c inp _ _ I H1) as [vs [-> [S _]]]. now apply rel_vals_step.
  - apply bind_ok in H. destruct H as [c1 [[] [H1 H]]]. injection H as <- <-.
    destruct (assign_io_shape c io _ _ H1) as [vs [-> S]]. now apply rel_vals_step.
Qed.

Lemma build_rel_from q : forall p c hs c' hs', Rel p c hs -> build_from q hs c = (c', Ok hs') -> Rel (p ++ q) c' hs'.
Proof.
  induction q as [|i q IH]; intros p c hs c' hs' R H; cbn [build_from] in H.
  - injection H as <- <-. now rewrite app_nil_r.
  - apply bind_ok in H. destruct H as [c1 [hs1 [H1 H]]]. replace (p ++ i :: q) with ((p ++ [i]) ++ q) by now rewrite <- app_assoc.
    eapply IH; [|exact H]. eapply rel_step; eauto.
Qed.
Lemma build_rel p c hs : build p = (c, Ok hs) -> Rel p c hs.
Proof. intros H. apply (build_rel_from p [] new_circ [] c hs rel_new H). Qed.
End BP.

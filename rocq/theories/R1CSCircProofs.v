(** R1CSCircProofs.v: the R1CS -> circuit conversion keeps the constraints. *)
From Verif Require Import Base Spec ProgSpec Tools MatProofs CS CSProofs POVProofs Circuit CircuitProofs Build CircuitPOV CircuitTop R1CSCirc.
From Coq Require Import Permutation.
Local Open Scope F_scope.

Section RP.
Context {F : Type} {fo : FieldOps F} {fl : FieldLaws F}.
Add Field Frp : F_th.
Implicit Types (c : circ F) (s : R1CS F).

(** *** flattened items of the map *)
Definition item := (F * pos)%type.
Definition items (m : posmap (F:=F)) : list item := flat_map (fun g => map (pair (fst g)) (snd g)) m.
Lemma items_push v p m : Permutation (items (map_push v p m)) ((v, p) :: items m).
Proof.
  unfold items. induction m as [|[u l] m IH]; cbn [map_push flat_map map fst snd app]; auto.
  destruct (feqb_spec u v) as [->|Hne]; cbn [flat_map fst snd].
  - rewrite map_app, <- app_assoc. cbn. symmetry. apply Permutation_middle.
  - rewrite IH. symmetry. apply Permutation_middle.
Qed.
Definition nz (e : nat * nat * F) := negb (is_zero (snd e)).
Definition mat_items (t : mat) (f : F -> F) (l : entries (F:=F)) : list item :=
  map (fun e => let '(r, c, v) := e in (f v, (r, c, t))) (filter nz l).
Lemma items_push_matrix t f rows cols vals m :
  Permutation (items (push_matrix t f rows cols vals m)) (mat_items t f (entries_of rows cols vals) ++ items m).
Proof.
  unfold push_matrix, mat_items, entries_of. fold nz. generalize (filter nz (combine (combine rows cols) vals)) as l.
  intros l; revert m. induction l as [|[[r c] v] l IH]; intros m; cbn [fold_left map app]; auto.
  rewrite IH, items_push. symmetry. apply Permutation_middle.
Qed.
Definition all_items s : list item :=
  mat_items MC (fun v => - v) (entries_of (r_crows s) (r_ccols s) (r_cvals s)) ++
  mat_items MB (fun v => v) (entries_of (r_brows s) (r_bcols s) (r_bvals s)) ++
  mat_items MA (fun v => v) (entries_of (r_arows s) (r_acols s) (r_avals s)).
Lemma items_all s : Permutation (items (value_to_position_lists s)) (all_items s).
Proof.
  unfold value_to_position_lists, all_items. rewrite items_push_matrix. apply Permutation_app_head.
  rewrite items_push_matrix. apply Permutation_app_head. rewrite items_push_matrix. cbn. now rewrite app_nil_r.
Qed.

(** *** sums *)
Definition row_of (t : mat) (r : nat) (z : list F) (l : list item) : F :=
  fsum (map (fun i : item => let '(v, (r', c', t')) := i in if (r' =? r)%nat && mat_eqb t' t then v * coef z c' else 0) l).
Lemma fsum_perm (l l' : list F) : Permutation l l' -> fsum l = fsum l'.
Proof. intros H. induction H as [|x l1 l2 H IH|x y l1|l1 l2 l3 H1 IH1 H2 IH2]; cbn; try congruence. ring. Qed.
Lemma row_of_perm t r z l l' : Permutation l l' -> row_of t r z l = row_of t r z l'.
Proof. intros H. apply fsum_perm. now apply Permutation_map. Qed.
Lemma row_of_app t r z l l' : row_of t r z (l ++ l') = row_of t r z l + row_of t r z l'.
Proof. unfold row_of. now rewrite map_app, fsum_app. Qed.
Lemma mat_items_other t f l t' r z : mat_eqb t t' = false -> row_of t' r z (mat_items t f l) = 0.
Proof.
  intros H. unfold row_of, mat_items. rewrite map_map. induction (filter nz l) as [|[[a b] v] l' IH]; cbn; auto.
  rewrite H, andb_false_r, IH. ring.
Qed.
Lemma mat_items_same t (f : F -> F) l h k r z : (forall v, f v = f 1 * v) -> in_shape (filter nz l) h k ->
  row_of t r z (mat_items t f l) = f 1 * mat_vec l k z r.
Proof.
  intros Hf HS. unfold row_of, mat_items. rewrite map_map.
  assert (mat_vec l k z r = mat_vec (filter nz l) k z r) as ->.
  { unfold mat_vec. apply sumn_ext. intros i _. f_equal. unfold mat_at.
    induction l as [|[[a b] v] l IH]; cbn; auto. unfold nz at 1. cbn [snd].
    destruct (is_zero_spec v) as [->|]; cbn [negb].
    - rewrite IH; [|intros x y w Hw; apply (HS x y w); cbn; unfold nz at 1; cbn; destruct (is_zero_spec (0:F)); [exact Hw|contradiction]].
      cbn. destruct ((a =? r)%nat && (b =? i)%nat); ring.
    - cbn. f_equal. apply IH. intros x y w Hw. apply (HS x y w). cbn. unfold nz at 1. cbn. destruct (is_zero_spec v); [contradiction|]. now right. }
  rewrite <- (row_sum_mat_vec _ h k z r HS). unfold row_sum.
  induction (filter nz l) as [|[[a b] v] l' IH]; cbn; [ring|].
  rewrite IH by (intros x y w Hw; apply (HS x y w); now right).
  assert (mat_eqb t t = true) as -> by now destruct t. rewrite andb_true_r.
  destruct (a =? r)%nat; rewrite ?(Hf v); unfold coef; try ring.
Qed.

(** *** relations between circuit states *)
Definition wired (c : circ F) (i : nat) := exists g, gates_in c g /\ (g_l g = i \/ g_r g = i).
Record lec (c c' : circ F) : Prop := {
  le_nin : c_nin c' = c_nin c; le_nv : (nv c <= nv c')%nat;
  le_con : forall inp val, consistent c' inp val -> consistent c inp val;
  le_wired : forall i, wired c i -> wired c' i;
  le_pub : c_pub c' = c_pub c; le_outs : c_outs c' = c_outs c }.
Lemma lec_refl c : lec c c. Proof. constructor; auto. Qed.
Lemma lec_trans a b c : lec a b -> lec b c -> lec a c.
Proof. intros [] []. constructor; auto; try congruence; lia. Qed.
Lemma extends_lec c c' : extends c c' -> lec c c'.
Proof.
  intros X. constructor; try apply X.
  - intros inp val. now apply extends_consistent.
  - intros i [g [Hg Hi]]. exists g. split; auto. destruct X as [_ [_ [[l1 E1] [[l2 E2] _]]]]. unfold gates_in in *.
    rewrite E1, E2, !in_app_iff. tauto.
Qed.

Section Fixed.
(** number of inputs and the inputs that are used *)
Variables (n : nat) (Used : nat -> Prop).
Record G (c : circ F) : Prop := {
  G_inv : Inv c; G_nin : c_nin c = n; G_used : forall i, (i < n)%nat -> wired c i -> Used i }.
Definition good (c : circ F) (h : nat) := (h < nv c)%nat /\ ((h < n)%nat -> Used h).
Lemma good_le c c' h : lec c c' -> good c h -> good c' h.
Proof. intros L [A B]. split; auto. pose proof (le_nv _ _ L). lia. Qed.

Lemma add_full c a b : G c -> good c a -> good c b ->
  exists c' o, add_vars a b c = (c', Ok o) /\ G c' /\ extends c c' /\ good c' o /\ (n <= o)%nat /\
    (forall inp val, consistent c' inp val -> val o = val a + val b) /\ wired c' a /\ wired c' b.
Proof.
  intros [I N U] [Ha Sa] [Hb Sb]. destruct (add_vars_ok c a b I Ha Hb) as [c' [o [E [I' [X [Ho [Hv Hn]]]]]]].
  destruct (add_vars_grows c a b c' o I Ha Hb E) as [G1 [g [G2 G3]] _ _].
  exists c', o. split; auto. apply sort2_match in G3. split; [|split; [auto|split; [|split; [lia|split; [auto|]]]]].
  - constructor; auto; [rewrite <- N; apply X|]. intros i Hi [g' [Hg' Hlr]].
    destruct (G1 g' Hg') as [Hold|Hnew]; [apply U; auto; exists g'; auto|].
    apply sort2_match in Hnew. assert (i = a \/ i = b) as [-> | ->] by intuition; auto.
  - split; auto. intros. lia.
  - split; exists g; split; auto; intuition.
Qed.
Lemma mul_full c a b : G c -> good c a -> good c b ->
  exists c' o, mul_vars a b c = (c', Ok o) /\ G c' /\ extends c c' /\ good c' o /\ (n <= o)%nat /\
    (forall inp val, consistent c' inp val -> val o = val a * val b) /\ wired c' a /\ wired c' b.
Proof.
  intros [I N U] [Ha Sa] [Hb Sb]. destruct (mul_vars_ok c a b I Ha Hb) as [c' [o [E [I' [X [Ho [Hv Hn]]]]]]].
  destruct (mul_vars_grows c a b c' o I Ha Hb E) as [G1 [g [G2 G3]] _ _].
  exists c', o. split; auto. apply sort2_match in G3. split; [|split; [auto|split; [|split; [lia|split; [auto|]]]]].
  - constructor; auto; [rewrite <- N; apply X|]. intros i Hi [g' [Hg' Hlr]].
    destruct (G1 g' Hg') as [Hold|Hnew]; [apply U; auto; exists g'; auto|].
    apply sort2_match in Hnew. assert (i = a \/ i = b) as [-> | ->] by intuition; auto.
  - split; auto. intros. lia.
  - split; exists g; split; auto; intuition.
Qed.
Lemma const_full c x : G c ->
  exists c' o, const_var x c = (c', Ok o) /\ G c' /\ extends c c' /\ good c' o /\ (n <= o)%nat /\
    (forall inp val, consistent c' inp val -> val o = x).
Proof.
  intros [I N U]. destruct (const_var_ok c x I) as [c' [o [E [I' [X [Ho [Hv Hn]]]]]]].
  destruct (const_var_grows c x c' o I E) as [G1 _].
  exists c', o. split; auto. split; [|split; [auto|split; [|split; [lia|auto]]]].
  - constructor; auto; [rewrite <- N; apply X|]. intros i Hi [g' [Hg' Hlr]]. apply U; auto. exists g'. split; auto. now apply G1.
  - split; auto. intros. lia.
Qed.

(** the handles of the constants *)
Lemma consts_ok (gs : posmap (F:=F)) c : G c ->
  exists c' cv, mapM (fun g => const_var (fst g)) gs c = (c', Ok cv) /\ G c' /\ extends c c' /\
    length cv = length gs /\
    forall g h, In (g, h) (combine gs cv) -> good c' h /\ (n <= h)%nat /\ (forall inp val, consistent c' inp val -> val h = fst g).
Proof.
  revert c; induction gs as [|g gs IH]; intros c HG.
  - exists c, []. split; [reflexivity|]. split; [auto|]. split; [apply extends_refl|]. split; [reflexivity|]. intros g h [].
  - destruct (const_full c (fst g) HG) as [c1 [o [E [G1 [X1 [Go [Hn Hv]]]]]]].
    destruct (IH c1 G1) as [c2 [cv [E2 [G2 [X2 [L2 H2]]]]]].
    exists c2, (o :: cv). split; [|split; [auto|split; [now apply (extends_trans c c1)|split; [cbn; lia|]]]].
    + cbn [mapM]. unfold bind at 1. rewrite E. unfold bind. rewrite E2. reflexivity.
    + intros g' h [Eq|Hin].
      * injection Eq as <- <-. split; [now apply (good_le c1); [apply extends_lec|]|]. split; auto.
        intros inp val Hc. apply (Hv inp). now apply (extends_consistent c1 c2).
      * now apply H2.
Qed.

(** *** the multiplication phase *)
Definition rows_at (t : mat) (x : rows3) : list (list nat) :=
  let '(a, b, d) := x in match t with MA => a | MB => b | MC => d end.
Definition wfrows (h : nat) (x : rows3) := forall t, length (rows_at t x) = h.
(** after the items [done]: *)
Record P (h : nat) (done : list item) (c : circ F) (rows : rows3) : Prop := {
  P_G : G c;
  P_len : wfrows h rows;
  P_good : forall t r x, In x (nth r (rows_at t rows) []) -> good c x;
  P_sum : forall inp val, consistent c inp val -> forall t r, (r < h)%nat ->
     fsum (map val (nth r (rows_at t rows) [])) = row_of t r (1 :: inp) done;
  P_used : forall v r ci t, In (v, (r, S ci, t)) done -> wired c ci \/ In ci (nth r (rows_at t rows) []);
  P_rng : forall v r ci t, In (v, (r, ci, t)) done -> (r < h)%nat /\ (ci <= n)%nat }.

Lemma bind_eq {A B} (m : M (F:=F) A) (f : A -> M (F:=F) B) c c' a : m c = (c', Ok a) -> bind m f c = f a c'.
Proof. intros H. unfold bind. now rewrite H. Qed.
Lemma bind_panic {A B} (m : M (F:=F) A) (f : A -> M (F:=F) B) c : snd (m c) = Panic -> snd (bind m f c) = Panic.
Proof. unfold bind. destruct (m c) as [c' r]. cbn. intros ->. reflexivity. Qed.

Lemma push_row_ok h t r x rows c : wfrows h rows -> (r < h)%nat ->
  exists rows', push_row (F:=F) t r x rows c = (c, Ok rows') /\ wfrows h rows' /\
    forall t' r', nth r' (rows_at t' rows') [] =
      nth r' (rows_at t' rows) [] ++ (if (r =? r')%nat && mat_eqb t t' then [x] else []).
Proof.
  intros W Hr. destruct rows as [[a b] d]. unfold push_row.
  pose proof (W MA) as WA. pose proof (W MB) as WB. pose proof (W MC) as WC. cbn in WA, WB, WC.
  assert (forall l, length l = h -> forall r', nth r' (upd l r (fun row => row ++ [x])) [] = nth r' l [] ++ (if (r =? r')%nat then [x] else [])) as HU.
  { intros l Hl r'. rewrite nth_upd. rewrite (Nat.eqb_sym r r'). destruct (Nat.eqb_spec r' r) as [->|]; cbn [andb].
    - assert ((r <? length l)%nat = true) as -> by (apply Nat.ltb_lt; lia). reflexivity.
    - now rewrite app_nil_r. }
  destruct t; cbn [rows_at].
  - destruct (r <? length a)%nat eqn:E; [|apply Nat.ltb_ge in E; lia].
    eexists. split; [reflexivity|]. split; [intros []; cbn; rewrite ?upd_length; auto|].
    intros [] r'; cbn [rows_at mat_eqb]; rewrite ?andb_true_r, ?andb_false_r, ?app_nil_r; auto.
  - destruct (r <? length b)%nat eqn:E; [|apply Nat.ltb_ge in E; lia].
    eexists. split; [reflexivity|]. split; [intros []; cbn; rewrite ?upd_length; auto|].
    intros [] r'; cbn [rows_at mat_eqb]; rewrite ?andb_true_r, ?andb_false_r, ?app_nil_r; auto.
  - destruct (r <? length d)%nat eqn:E; [|apply Nat.ltb_ge in E; lia].
    eexists. split; [reflexivity|]. split; [intros []; cbn; rewrite ?upd_length; auto|].
    intros [] r'; cbn [rows_at mat_eqb]; rewrite ?andb_true_r, ?andb_false_r, ?app_nil_r; auto.
Qed.
Lemma push_row_panic h t r x rows c : wfrows h rows -> (h <= r)%nat -> push_row (F:=F) t r x rows c = (c, Panic).
Proof.
  intros W Hr. destruct rows as [[a b] d]. unfold push_row. specialize (W t). cbn in W.
  destruct t; rewrite W; (destruct (r <? h)%nat eqn:E; [apply Nat.ltb_lt in E; lia|reflexivity]).
Qed.

Record cache_ok (c : circ F) (v : F) (cache : list (nat * nat)) : Prop := {
  ca_all : forall k x, assoc_nat k cache = Some x -> good c x /\ (n <= x)%nat /\ (k < n)%nat /\ wired c k /\
     (forall inp val, consistent c inp val -> val x = v * val k) }.
Lemma cache_le c c' v cache : extends c c' -> cache_ok c v cache -> cache_ok c' v cache.
Proof.
  intros X [H]. constructor. intros k x E. destruct (H k x E) as [A [B [C [D V]]]].
  pose proof (extends_lec _ _ X) as L. split; [now apply (good_le c)|]. split; auto. split; auto. split; [now apply (le_wired _ _ L)|].
  intros inp val Hc. apply (V inp). now apply (extends_consistent c c').
Qed.

Lemma nth_error_seq i : nth_error (seq 0 n) i = if (i <? n)%nat then Some i else None.
Proof.
  destruct (Nat.ltb_spec i n).
  - rewrite (nth_error_nth' _ _ _ 0%nat) by now rewrite seq_length. now rewrite seq_nth.
  - apply nth_error_None. now rewrite seq_length.
Qed.

Lemma P_push h done c c' rows rows' v r ci t x :
  P h done c rows -> extends c c' -> G c' -> good c' x -> wfrows h rows' -> (r < h)%nat -> (ci <= n)%nat ->
  (forall t' r', nth r' (rows_at t' rows') [] = nth r' (rows_at t' rows) [] ++ (if (r =? r')%nat && mat_eqb t t' then [x] else [])) ->
  (forall inp val, consistent c' inp val -> val x = v * coef (1 :: inp) ci) ->
  (forall k, ci = S k -> wired c' k \/ x = k) ->
  P h (done ++ [(v, (r, ci, t))]) c' rows'.
Proof.
  intros HP X HG Hx W Hr Hc HR Hv Hu. pose proof (extends_lec _ _ X) as L. constructor; auto.
  - intros t' r' y Hy. rewrite HR in Hy. apply in_app_iff in Hy. destruct Hy as [Hy|Hy].
    + apply (good_le c); auto. eapply (P_good _ _ _ _ HP); eauto.
    + destruct ((r =? r')%nat && mat_eqb t t'); [|destruct Hy]. destruct Hy as [<-|[]]. auto.
  - intros inp val Hcon t' r' Hr'. rewrite HR, map_app, fsum_app, row_of_app.
    rewrite (P_sum _ _ _ _ HP inp val (le_con _ _ L _ _ Hcon) t' r' Hr'). f_equal.
    unfold row_of. cbn [map fsum]. destruct ((r =? r')%nat && mat_eqb t t'); cbn -[coef]; [|ring].
    rewrite (Hv inp val Hcon). ring.
  - intros v' r' k t' Hin. apply in_app_iff in Hin. destruct Hin as [Hin|[Hin|[]]].
    + rewrite HR, in_app_iff. destruct (P_used _ _ _ _ HP v' r' k t' Hin) as [H|H]; auto. left. now apply (le_wired _ _ L).
    + injection Hin as <- <- -> <-. destruct (Hu k eq_refl) as [H|H]; auto. right. rewrite HR, in_app_iff. right.
      rewrite Nat.eqb_refl. assert (mat_eqb t t = true) as -> by now destruct t. left. auto.
  - intros v' r' k t' Hin. apply in_app_iff in Hin. destruct Hin as [Hin|[Hin|[]]].
    + now apply (P_rng _ _ _ _ HP v' r' k t').
    + injection Hin as <- <- <- <-. auto.
Qed.

Lemma mul_item_ok h done c rows cache zero cvar v r ci t :
  P h done c rows -> v <> 0 -> cache_ok c v cache -> good c cvar -> (n <= cvar)%nat ->
  (forall inp val, consistent c inp val -> val cvar = v) ->
  (r < h)%nat -> (ci <= n)%nat -> ((0 < ci)%nat -> Used (ci - 1)%nat) ->
  exists c' cache' rows', mul_item (seq 0 n) zero cvar v (cache, rows) (r, ci, t) c = (c', Ok (cache', rows')) /\
    extends c c' /\ P h (done ++ [(v, (r, ci, t))]) c' rows' /\ cache_ok c' v cache'.
Proof.
  intros HP Hv HC Hg Hn Hcv Hr Hci HU. unfold mul_item.
  pose proof (P_G _ _ _ _ HP) as HG. pose proof (P_len _ _ _ _ HP) as HW.
  assert (forall inp val i, consistent c inp val -> (i < n)%nat -> val i = coef inp i) as Hin.
  { intros inp val i Hcon Hi. apply (con_in _ _ _ Hcon). now rewrite (G_nin _ HG). }
  destruct (is_zero_spec v); [contradiction|]. destruct (Nat.ltb_spec 0 ci) as [Hpos|Hz].
  - assert (good c (ci - 1)) as Hgi.
    { split; [|intros; now apply HU]. pose proof (inv_nin c (G_inv _ HG)). rewrite (G_nin _ HG) in *. lia. }
    destruct (is_one_spec v) as [->|Hne].
    + unfold bind at 1. unfold bind at 1. unfold input_at. rewrite nth_error_seq. destruct (Nat.ltb_spec (ci - 1) n); [|lia].
      cbn [unwrap_opt]. cbn [ret snd fst]. destruct (push_row_ok h t r (ci - 1) rows c HW Hr) as [rows' [E [W' HR]]].
      exists c, cache, rows'. split; [unfold bind; rewrite E; reflexivity|]. split; [apply extends_refl|]. split; auto.
      apply (P_push h done c c rows rows' 1 r ci t (ci - 1)); auto using extends_refl.
      * intros inp val Hcon. rewrite (Hin inp val _ Hcon) by lia. destruct ci; [lia|]. cbn. rewrite Nat.sub_0_r. unfold coef. ring.
      * intros k ->. right. lia.
    + destruct (assoc_nat (ci - 1) cache) as [x|] eqn:Ea.
      * destruct (ca_all _ _ _ HC _ _ Ea) as [Gx [Nx [Hk [Wk Vx]]]].
        unfold bind at 1. cbn [ret fst snd]. destruct (push_row_ok h t r x rows c HW Hr) as [rows' [E [W' HR]]].
        exists c, cache, rows'. split; [unfold bind; rewrite E; reflexivity|]. split; [apply extends_refl|]. split; auto.
        apply (P_push h done c c rows rows' v r ci t x); auto using extends_refl.
        -- intros inp val Hcon. rewrite (Vx inp val Hcon), (Hin inp val _ Hcon) by lia. destruct ci; [lia|]. cbn. rewrite Nat.sub_0_r. reflexivity.
        -- intros k ->. left. replace k with (S k - 1)%nat by lia. exact Wk.
      * destruct (mul_full c cvar (ci - 1) HG Hg Hgi) as [c' [o [E [G' [X [Go [No [Vo [_ Wo]]]]]]]]].
        destruct (push_row_ok h t r o rows c' HW Hr) as [rows' [E' [W' HR]]].
        exists c', ((ci - 1, o) :: cache)%nat, rows'. split.
        { unfold bind at 1. unfold bind at 1. unfold input_at. rewrite nth_error_seq. destruct (Nat.ltb_spec (ci - 1) n); [|lia].
          cbn [unwrap_opt]. unfold bind at 1. rewrite E. cbn [ret fst snd]. unfold bind. rewrite E'. reflexivity. }
        split; [exact X|]. split.
        -- apply (P_push h done c c' rows rows' v r ci t o); auto.
           ++ intros inp val Hcon. rewrite (Vo inp val Hcon). pose proof (extends_consistent _ _ _ _ X Hcon) as Hcon0.
              rewrite (Hcv inp val Hcon0), (Hin inp val _ Hcon0) by lia. destruct ci; [lia|]. cbn. rewrite Nat.sub_0_r. reflexivity.
           ++ intros k ->. left. replace k with (S k - 1)%nat by lia. exact Wo.
        -- pose proof (cache_le c c' v cache X HC) as HC'. constructor. intros k x. cbn [assoc_nat].
           destruct (Nat.eqb_spec k (ci - 1)) as [->|]; [|apply (ca_all _ _ _ HC')].
           intros Eq. injection Eq as <-. split; auto. split; auto. split; [lia|]. split; auto.
           intros inp val Hcon. rewrite (Vo inp val Hcon). f_equal. apply (Hcv inp). now apply (extends_consistent c c').
  - assert (ci = 0)%nat as -> by lia. unfold bind at 1. cbn [ret fst snd].
    destruct (push_row_ok h t r cvar rows c HW Hr) as [rows' [E [W' HR]]].
    exists c, cache, rows'. split; [unfold bind; rewrite E; reflexivity|]. split; [apply extends_refl|]. split; auto.
    apply (P_push h done c c rows rows' v r 0 t cvar); auto using extends_refl.
    + intros inp val Hcon. rewrite (Hcv inp val Hcon). cbn. ring.
    + intros k Hk. discriminate.
Qed.

Lemma mul_item_panic h done c rows cache zero cvar v r ci t :
  P h done c rows -> v <> 0 -> cache_ok c v cache -> good c cvar -> ((0 < ci)%nat -> (ci <= n)%nat -> Used (ci - 1)%nat) ->
  (h <= r)%nat \/ (n < ci)%nat ->
  snd (mul_item (seq 0 n) zero cvar v (cache, rows) (r, ci, t) c) = Panic.
Proof.
  intros HP Hv HC Hg HU Hor. unfold mul_item.
  pose proof (P_G _ _ _ _ HP) as HG. pose proof (P_len _ _ _ _ HP) as HW.
  destruct (is_zero_spec v); [contradiction|]. destruct (Nat.ltb_spec 0 ci) as [Hpos|Hz].
  - destruct (is_one_spec v) as [->|Hne].
    + unfold bind at 1. unfold bind at 1. unfold input_at. rewrite nth_error_seq. destruct (Nat.ltb_spec (ci - 1) n); [|reflexivity].
      cbn [unwrap_opt ret snd fst]. unfold bind. rewrite (push_row_panic h); auto. lia.
    + destruct (assoc_nat (ci - 1) cache) as [x|] eqn:Ea.
      * destruct (ca_all _ _ _ HC _ _ Ea) as [_ [_ [Hk _]]]. unfold bind at 1. cbn [ret fst snd]. unfold bind.
        rewrite (push_row_panic h); auto. lia.
      * unfold bind at 1. unfold bind at 1. unfold input_at. rewrite nth_error_seq. destruct (Nat.ltb_spec (ci - 1) n) as [Hlt|]; [|reflexivity].
        cbn [unwrap_opt]. assert (good c (ci - 1)) as Hgi.
        { split; [|intros; apply HU; lia]. pose proof (inv_nin c (G_inv _ HG)). rewrite (G_nin _ HG) in *. lia. }
        destruct (mul_full c cvar (ci - 1) HG Hg Hgi) as [c' [o [E _]]]. unfold bind at 1. rewrite E. cbn [ret fst snd]. unfold bind.
        rewrite (push_row_panic h); auto. lia.
  - unfold bind at 1. cbn [ret fst snd]. unfold bind. rewrite (push_row_panic h); auto. lia.
Qed.

(** in range *)
Definition rng (h : nat) (p : pos) := let '(r, ci, _) := p in (r < h)%nat /\ (ci <= n)%nat.
Definition usedp (p : pos) := let '(_, ci, _) := p in (0 < ci)%nat -> (ci <= n)%nat -> Used (ci - 1)%nat.

Lemma mul_positions h zero cvar v (l : list pos) : v <> 0 -> (n <= cvar)%nat -> (forall p, In p l -> usedp p) ->
  forall done c rows cache, P h done c rows -> cache_ok c v cache -> good c cvar ->
  (forall inp val, consistent c inp val -> val cvar = v) ->
  ((forall p, In p l -> rng h p) ->
     exists c' cache' rows', foldM (mul_item (seq 0 n) zero cvar v) l (cache, rows) c = (c', Ok (cache', rows')) /\
      extends c c' /\ P h (done ++ map (pair v) l) c' rows') /\
  ((exists p, In p l /\ ~ rng h p) -> snd (foldM (mul_item (seq 0 n) zero cvar v) l (cache, rows) c) = Panic).
Proof.
  intros Hv Hn. induction l as [|[[r ci] t] l IH]; intros Hu done c rows cache HP HC Hg Hcv.
  - split.
    + intros _. exists c, cache, rows. cbn. rewrite app_nil_r. split; auto. split; [apply extends_refl|auto].
    + intros [p [[] _]].
  - assert ({(r < h)%nat /\ (ci <= n)%nat} + {~ ((r < h)%nat /\ (ci <= n)%nat)}) as [[Hr Hci]|Hout].
    { destruct (lt_dec r h), (le_dec ci n); [left|right|right|right]; lia. }
    + destruct (mul_item_ok h done c rows cache zero cvar v r ci t HP Hv HC Hg Hn Hcv Hr Hci) as [c1 [cache1 [rows1 [E [X [HP1 HC1]]]]]].
      { intros. apply (Hu (r, ci, t)); auto. now left. }
      destruct (IH (fun p Hp => Hu p (or_intror Hp)) _ c1 rows1 cache1 HP1 HC1) as [IH1 IH2].
      { apply (good_le c); auto. now apply extends_lec. }
      { intros inp val Hcon. apply (Hcv inp). now apply (extends_consistent c c1). }
      cbn [foldM]. rewrite (bind_eq _ _ _ _ _ E). split.
      * intros HR. destruct IH1 as [c2 [cache2 [rows2 [E2 [X2 HP2]]]]]; [intros; apply HR; now right|].
        exists c2, cache2, rows2. split; auto. split; [now apply (extends_trans c c1)|].
        cbn [map]. rewrite <- app_assoc in HP2. exact HP2.
      * intros [p [[<-|Hp] Hnr]]; [exfalso; apply Hnr; cbn; auto|]. apply IH2. eauto.
    + split.
      * intros HR. exfalso. apply Hout. specialize (HR (r, ci, t) (or_introl eq_refl)). exact HR.
      * intros _. cbn [foldM]. apply bind_panic. apply (mul_item_panic h done c rows cache); auto; [|lia].
        exact (Hu (r, ci, t) (or_introl eq_refl)).
Qed.

Lemma mul_groups h zero (gs : list ((F * list pos) * nat)) :
  (forall g x, In (g, x) gs -> fst g <> 0 /\ (n <= x)%nat /\ forall p, In p (snd g) -> usedp p) ->
  forall done c rows, P h done c rows ->
  (forall g x, In (g, x) gs -> good c x /\ forall inp val, consistent c inp val -> val x = fst g) ->
  ((forall p, In p (flat_map (fun g => snd (fst g)) gs) -> rng h p) ->
     exists c' rows', foldM (mul_group (seq 0 n) zero) gs rows c = (c', Ok rows') /\
      extends c c' /\ P h (done ++ items (map fst gs)) c' rows') /\
  ((exists p, In p (flat_map (fun g => snd (fst g)) gs) /\ ~ rng h p) -> snd (foldM (mul_group (seq 0 n) zero) gs rows c) = Panic).
Proof.
  induction gs as [|[[v l] x] gs IH]; intros H0 done c rows HP Hg.
  - split.
    + intros _. exists c, rows. cbn. rewrite app_nil_r. split; auto. split; [apply extends_refl|auto].
    + intros [p [[] _]].
  - destruct (H0 (v, l) x (or_introl eq_refl)) as [Hv [Hn Hu]]. cbn in Hv, Hu.
    destruct (Hg (v, l) x (or_introl eq_refl)) as [Hgx Hcx]. cbn in Hcx.
    destruct (mul_positions h zero x v l Hv Hn Hu done c rows [] HP) as [M1 M2]; auto.
    { constructor. cbn. discriminate. }
    assert ((forall p, In p l -> rng h p) \/ exists p, In p l /\ ~ rng h p) as [Hall|Hex].
    { clear. induction l as [|[[r ci] t] l IH]; [left; intros p []|].
      assert (rng h (r, ci, t) \/ ~ rng h (r, ci, t)) as [A|A] by (cbn; lia).
      - destruct IH as [IH|[p [Hp Hn]]]; [left; intros p [<-|Hp]; auto|right; exists p; split; auto; now right].
      - right. exists (r, ci, t). split; auto. now left. }
    + destruct (M1 Hall) as [c1 [cache1 [rows1 [E [X HP1]]]]].
      assert (mul_group (seq 0 n) zero rows ((v, l), x) c = (c1, Ok rows1)) as E1.
      { unfold mul_group. cbn [fst snd]. rewrite (bind_eq _ _ _ _ _ E). reflexivity. }
      destruct (IH (fun g y Hy => H0 g y (or_intror Hy)) _ c1 rows1 HP1) as [IH1 IH2].
      { intros g y Hy. destruct (Hg g y (or_intror Hy)) as [A B]. split; [apply (good_le c); auto; now apply extends_lec|].
        intros inp val Hcon. apply (B inp). now apply (extends_consistent c c1). }
      cbn [foldM]. rewrite (bind_eq _ _ _ _ _ E1). split.
      * intros HR. destruct IH1 as [c2 [rows2 [E2 [X2 HP2]]]]; [intros p Hp; apply HR; cbn; apply in_app_iff; auto|].
        exists c2, rows2. split; auto. split; [now apply (extends_trans c c1)|].
        cbn [map fst items flat_map]. rewrite <- app_assoc in HP2. exact HP2.
      * intros [p [Hp Hnr]]. cbn in Hp. apply in_app_iff in Hp. destruct Hp as [Hp|Hp]; [exfalso; apply Hnr; auto|]. apply IH2. eauto.
    + split.
      * intros HR. exfalso. destruct Hex as [p [Hp Hnr]]. apply Hnr, HR. cbn. apply in_app_iff. auto.
      * intros _. cbn [foldM]. apply bind_panic. unfold mul_group. cbn [fst snd]. now apply bind_panic, M2.
Qed.

(** *** the sums of the rows *)
Lemma fold_add_ok l : forall c x, G c -> good c x -> (forall y, In y l -> good c y) ->
  exists c' o, foldM add_vars l x c = (c', Ok o) /\ G c' /\ extends c c' /\ good c' o /\
    (forall inp val, consistent c' inp val -> val o = val x + fsum (map val l)) /\
    (forall y, In y (x :: l) -> wired c' y \/ o = y).
Proof.
  induction l as [|y l IH]; intros c x HG Hx Hl.
  - exists c, x. split; [reflexivity|]. split; auto. split; [apply extends_refl|]. split; auto. split.
    + intros. cbn. ring.
    + intros y [<-|[]]. auto.
  - destruct (add_full c x y HG Hx (Hl y (or_introl eq_refl))) as [c1 [o1 [E [G1 [X [Go [No [Vo [W1 W2]]]]]]]]].
    destruct (IH c1 o1 G1 Go) as [c2 [o [E2 [G2 [X2 [Go2 [V2 W]]]]]]].
    { intros z Hz. apply (good_le c); [now apply extends_lec|]. apply Hl. now right. }
    exists c2, o. cbn [foldM]. rewrite (bind_eq _ _ _ _ _ E). split; auto. split; auto. split; [now apply (extends_trans c c1)|]. split; auto. split.
    + intros inp val Hcon. rewrite (V2 inp val Hcon), (Vo inp val (extends_consistent _ _ _ _ X2 Hcon)). cbn. ring.
    + pose proof (le_wired _ _ (extends_lec _ _ X2)) as L. intros z [<-|[<-|Hz]]; auto. apply W. now right.
Qed.
Lemma sum_row_ok c zero row : G c -> good c zero -> (forall inp val, consistent c inp val -> val zero = 0) ->
  (forall y, In y row -> good c y) ->
  exists c' o, sum_row zero row c = (c', Ok o) /\ G c' /\ extends c c' /\ good c' o /\
    (forall inp val, consistent c' inp val -> val o = fsum (map val row)) /\
    (forall y, In y row -> wired c' y \/ o = y).
Proof.
  intros HG Hz H0 Hl. destruct row as [|x l].
  - exists c, zero. split; [reflexivity|]. split; auto. split; [apply extends_refl|]. split; auto. split; [|intros y []].
    intros. cbn. eauto.
  - destruct (fold_add_ok l c x HG (Hl x (or_introl eq_refl)) (fun y Hy => Hl y (or_intror Hy))) as [c' [o [E H]]].
    exists c', o. split; auto.
Qed.
Lemma sum_rows_ok rows : forall c zero, G c -> good c zero -> (forall inp val, consistent c inp val -> val zero = 0) ->
  (forall r y, In y (nth r rows []) -> good c y) ->
  exists c' os, mapM (sum_row zero) rows c = (c', Ok os) /\ G c' /\ extends c c' /\ length os = length rows /\
    (forall r, (r < length rows)%nat -> good c' (nth r os 0%nat)) /\
    (forall inp val, consistent c' inp val -> forall r, (r < length rows)%nat -> val (nth r os 0%nat) = fsum (map val (nth r rows []))) /\
    (forall r y, In y (nth r rows []) -> wired c' y \/ nth r os 0%nat = y).
Proof.
  induction rows as [|row rows IH]; intros c zero HG Hz H0 Hl.
  - exists c, []. split; [reflexivity|]. split; auto. split; [apply extends_refl|]. split; auto. split; [cbn; lia|]. split; [cbn; lia|].
    intros [|r] y [].
  - destruct (sum_row_ok c zero row HG Hz H0 (Hl 0%nat)) as [c1 [o [E [G1 [X1 [Go [Vo Wo]]]]]]].
    pose proof (extends_lec _ _ X1) as L1.
    destruct (IH c1 zero G1) as [c2 [os [E2 [G2 [X2 [L2 [Gs [Vs Ws]]]]]]]].
    { now apply (good_le c). }
    { intros inp val Hcon. apply (H0 inp). now apply (le_con _ _ L1). }
    { intros r y Hy. apply (good_le c); auto. now apply (Hl (S r)). }
    pose proof (extends_lec _ _ X2) as LL.
    exists c2, (o :: os). cbn [mapM]. rewrite (bind_eq _ _ _ _ _ E), (bind_eq _ _ _ _ _ E2). split; [reflexivity|].
    split; auto. split; [now apply (extends_trans c c1)|]. split; [cbn; lia|]. split; [|split].
    + intros [|r] Hr; cbn; [now apply (good_le c1)|]. apply Gs. cbn in Hr. lia.
    + intros inp val Hcon [|r] Hr; cbn [nth]; [apply (Vo inp); now apply (le_con _ _ LL)|]. apply (Vs inp); auto. cbn in Hr. lia.
    + intros [|r] y Hy; cbn [nth] in *; [|now apply Ws]. destruct (Wo y Hy); auto. left. now apply (le_wired _ _ LL).
Qed.

(** *** the constraints *)
Definition eqs_hold (c : circ F) (val : nat -> F) := forall x y, In (x, y) (c_eqs c) -> val x = val y.
Lemma constraints_ok l : forall c zero, G c -> good c zero -> (n <= zero)%nat -> (exists k, var_of_wire c (WOut (OConst k)) = Some zero) ->
  (forall inp val, consistent c inp val -> val zero = 0) ->
  (forall a b d, In (a, b, d) l -> good c a /\ good c b /\ good c d) ->
  exists c', fst (mapM (row_constraint zero) l c) = c' /\ (exists us, snd (mapM (row_constraint zero) l c) = Ok us) /\ G c' /\ lec c c' /\
    (forall inp val, consistent c' inp val -> (eqs_hold c' val <-> eqs_hold c val /\ forall a b d, In (a, b, d) l -> val a * val b + val d = 0)) /\
    (forall a b d, In (a, b, d) l -> wired c' a /\ wired c' b /\ wired c' d).
Proof.
  induction l as [|[[a b] d] l IH]; intros c zero HG Hz Hnz HK H0 Hl.
  - exists c. cbn. split; auto. split; [now exists []|]. split; auto. split; [apply lec_refl|]. split; [|tauto].
    intros. split; [intros; split; auto; tauto|tauto].
  - destruct (Hl a b d (or_introl eq_refl)) as [Ga [Gb Gd]].
    destruct (mul_full c a b HG Ga Gb) as [c1 [m [E1 [G1 [X1 [Gm [Nm [Vm [W1 W2]]]]]]]]].
    pose proof (extends_lec _ _ X1) as L1.
    destruct (add_full c1 m d G1 Gm (good_le _ _ _ L1 Gd)) as [c2 [x [E2 [G2 [X2 [Gx [Nx [Vx [_ W3]]]]]]]]].
    pose proof (extends_lec _ _ X2) as L2.
    assert (x <> zero) as Hxz.
    { intros ->. destruct HK as [k HK]. 
      assert (exists k, var_of_wire c2 (WOut (OAdd k)) = Some zero) as [k2 HA].
      { destruct (add_vars_grows c1 m d c2 zero (G_inv _ G1) (proj1 Gm) (proj1 (good_le _ _ _ L1 Gd)) E2) as [_ _ _ _].
        (* the returned variable is the output of an add gate *)
        unfold add_vars in E2. destruct (sort2 m d) as [p q] eqn:Es. unfold bind at 1, gets in E2.
        pose proof (sort2_lt m d (nv c1) (proj1 Gm) (proj1 (good_le _ _ _ L1 Gd))) as Hs. rewrite Es in Hs.
        destruct (lookup2 (p, q) (c_addc c1)) as [o|] eqn:El.
        - injection E2 as <- <-. apply lookup2_In in El. apply (inv_addc c1 (G_inv _ G1)) in El. apply In_nth_error in El.
          destruct El as [k2 El]. exists k2. cbn. now rewrite El.
        - destruct (add_gate_ok c1 p q (G_inv _ G1) (proj1 Hs) (proj2 Hs)) as [vs' [E V]]. rewrite E in E2. injection E2 as <- E2.
          exists (length (c_add c1)). cbn. rewrite nth_error_snoc, Nat.eqb_refl. cbn. congruence. }
      pose proof (var_of_wire_extends _ _ _ _ X2 (var_of_wire_extends _ _ _ _ X1 HK)) as HK2.
      pose proof (G_inv _ G2) as I2. cbn in HA, HK2.
      destruct (nth_error (c_add c2) k2) as [g|] eqn:Eg; [|discriminate]. destruct (nth_error (c_const c2) k) as [g'|] eqn:Eg'; [|discriminate].
      cbn in HA, HK2. injection HA as HA. injection HK2 as HK2.
      destruct (inv_add c2 I2 k2 g Eg) as [_ [_ [v [A B]]]]. destruct (inv_const c2 I2 k g' Eg') as [v' [A' B']]. congruence. }
    set (c3 := set_eqs c2 (c_eqs c2 ++ [(x, zero)])).
    assert (row_constraint zero (a, b, d) c = (c3, Ok tt)) as E3.
    { unfold row_constraint. rewrite (bind_eq _ _ _ _ _ E1), (bind_eq _ _ _ _ _ E2). unfold unwrapM, assert_equal, modify.
      destruct (Nat.eqb_spec x zero); [contradiction|reflexivity]. }
    assert (Gz2 : good c2 zero) by (apply (good_le c1); auto; now apply (good_le c)).
    assert (G3 : G c3).
    { constructor.
      - apply inv_change_eqs; auto; [apply (G_inv _ G2)|apply Gx|apply Gz2].
      - exact (G_nin _ G2).
      - exact (G_used _ G2). }
    assert (L3 : lec c2 c3) by (constructor; cbn; auto; intros inp val [Y1 Y2 Y3 Y4]; constructor; auto).
    pose proof (lec_trans _ _ _ (lec_trans _ _ _ L1 L2) L3) as L.
    destruct (IH c3 zero G3) as [c' [E4 [Eu [G4 [L4 [V4 W4]]]]]]; auto.
    { destruct HK as [k HK]. exists k. exact (var_of_wire_extends _ _ _ _ X2 (var_of_wire_extends _ _ _ _ X1 HK)). }
    { intros inp val Hcon. apply (H0 inp). now apply (le_con _ _ L). }
    { intros a' b' d' Hin. destruct (Hl a' b' d' (or_intror Hin)) as [? [? ?]]. split; [|split]; apply (good_le c); auto. }
    exists c'. cbn [mapM]. rewrite (bind_eq _ _ _ _ _ E3). destruct Eu as [us Eu].
    destruct (mapM (row_constraint zero) l c3) as [c4 r4] eqn:E5. cbn in E4, Eu. subst c4 r4.
    rewrite (bind_eq _ _ _ _ _ E5). cbn. split; auto. split; [eauto|]. split; auto. split; [now apply (lec_trans _ c3)|]. split.
    + intros inp val Hcon. rewrite (V4 inp val Hcon). pose proof (le_con _ _ L4 _ _ Hcon) as Hc3. pose proof (le_con _ _ L3 _ _ Hc3) as Hc2.
      pose proof (le_con _ _ L2 _ _ Hc2) as Hc1.
      assert (val x = val a * val b + val d) as Hx by (rewrite (Vx inp val Hc2), (Vm inp val Hc1); reflexivity).
      assert (val zero = 0) as Hzero by (apply (H0 inp); now apply (le_con _ _ L1)).
      assert (c_eqs c2 = c_eqs c) as Eq.
      { transitivity (c_eqs c1); [apply X2|apply X1]. }
      unfold eqs_hold, c3. cbn [c_eqs set_eqs]. rewrite Eq. split.
      * intros [H1 H2]. split.
        -- intros u v Huv. apply H1. apply in_app_iff. auto.
        -- intros a' b' d' [Heq|Hin]; [|now apply H2]. injection Heq as <- <- <-. rewrite <- Hx, <- Hzero. apply H1. apply in_app_iff. right. now left.
      * intros [H1 H2]. split.
        -- intros u v Huv. apply in_app_iff in Huv. destruct Huv as [Huv|[Huv|[]]]; auto. injection Huv as <- <-. rewrite Hx, Hzero. apply H2. now left.
        -- intros a' b' d' Hin. apply H2. now right.
    + pose proof (fun i => le_wired _ _ (lec_trans _ _ _ L3 L4) i) as LW. intros a' b' d' [Heq|Hin]; [|now apply W4].
      injection Heq as <- <- <-. pose proof (le_wired _ _ L2) as LW2. pose proof (le_wired _ _ L1) as LW1. split; [|split]; apply LW; auto.
Qed.
End Fixed.
End RP.

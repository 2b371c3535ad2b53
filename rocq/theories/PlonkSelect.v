(** PlonkSelect.v: the gadgets made of a few arithmetic gates. *)
From Verif Require Import Base Tools KZG SnarkProofs Plonk PlonkSpec PlonkProofs PlonkGadgets.
Local Open Scope F_scope.

Section PlonkSelect.
Context {F : Type} {fo : FieldOps F} {fl : FieldLaws F} {po : PrimeFieldOps F} {pl : PrimeFieldLaws F}.
Add Field Fps : F_th.
Variables ca cd : F.
Implicit Types (c : composer F) (a : nat -> F).
Notation satisfies := (satisfies ca cd).
Notation honest := (honest ca cd).
Notation computes := (computes ca cd).
Notation enforces := (enforces ca cd).
Notation ext := (ext ca cd).

(** *** gates with one new output *)
(** c' extends c by gates that determine the value of the one new variable, and stores that value *)
Record defines c c' (o : nat) (f : (nat -> F) -> F) : Prop := {
  def_ext : ext c c' (fun a => a o = f a);
  def_o : o = nvars c;
  def_n : nvars c' = S (nvars c);
  def_val : honest c -> values c' o = f (values c');
  def_f : forall a a', same_upto (nvars c) a a' -> f a' = f a }.

Lemma defines_honest c c' o f : wf c -> defines c c' o f -> honest c' <-> honest c.
Proof.
  intros W D. rewrite (honest_ext ca cd _ _ _ W (def_ext _ _ _ _ D)). split; [tauto|].
  intros H. split; [auto|now apply (def_val _ _ _ _ D)].
Qed.
Lemma defines_computes c c' o f : wf c -> defines c c' o f -> computes c c' o (fun a y => y = f a).
Proof.
  intros W D. apply (computes_intro ca cd _ _ _ _ _ W (def_ext _ _ _ _ D)). intros a Ha y. split.
  - intros [a' [S1 [E1 E2]]]. now rewrite <- E1, E2, (def_f _ _ _ _ D _ _ S1).
  - intros ->. exists (ins (nvars c) [f a] a). rewrite (def_o _ _ _ _ D). split; [apply ins_same|].
    rewrite ins_new0. cbn [nth]. split; [auto|]. symmetry. apply (def_f _ _ _ _ D), ins_same.
Qed.

(** an arithmetic gate whose output has the coefficient - 1 *)
Lemma arithmetic_defines g x y c out c' : wf c -> g_witness g = Some (x, y, None) -> g_out g = - (1) ->
  arithmetic_gate g c = Ok (out, c') -> defines c c' out (fun a => g_lin c g x y a).
Proof.
  intros W EG EO H. eapply (arithmetic_ext_none ca cd) in H; [|auto|exact EG]. destruct H as [E1 [N [E [[L1 [L2 L3]] V]]]].
  rewrite EO in *. assert (forall a a', same_upto (nvars c) a a' -> g_lin c g x y a' = g_lin c g x y a) as HF.
  { intros a a' S1. unfold g_lin. now rewrite !S1 by auto. }
  split; auto.
  - apply (ext_iff ca cd _ _ _ _ E). intros a. split; intros K.
    + transitivity (g_lin c g x y a + - (1) * a out + a out); [rewrite K; ring|]. ring_simplify. reflexivity.
    + rewrite K. ring.
  - intros _. rewrite V, (HF (values c) (values c')); [ring|]. intros v Hv. now apply (ext_vals _ _ _ _ _ E).
Qed.

(** *** zero tests *)
Definition zero_test (x y : F) : Prop := x = 0 /\ y = 1 \/ x <> 0 /\ y = 0.
Lemma is_zero_ext x c out c' : wf c -> is_zero_with_output x c = Ok (out, c') ->
  exists v, nvars c' = S (S (nvars c)) /\ v = nvars c /\ out = S (nvars c) /\ (x < nvars c)%nat /\
  ext c c' (fun a => a x * a out = a (c_zero c) /\ a x * a v + a out = 1 + a (c_zero c)) /\
  values c' v = (if feqb (values c x) 0 then 1 else finv (values c x)) /\
  values c' out = 1 - values c x * values c' v.
Proof.
  intros W H. unfold is_zero_with_output in H. apply obind_ok in H. destruct H as [va [Va H]].
  apply value_inv in Va; auto. destruct Va as [L ->].
  set (yv := match inverse (values c x) with Some i => i | None => 1 end) in H.
  pose proof (ext_input ca cd yv c W) as A1. pose proof (input_value yv c W) as V1. pose proof (add_input_nvars yv c) as N1. pose proof (add_input_var yv c) as X1.
  destruct (add_input yv c) as [y c1]. cbn [fst snd] in *.
  set (bv := 1 - values c x * yv) in H. pose proof (ext_wf _ _ _ _ _ A1) as W1.
  pose proof (ext_input ca cd bv c1 W1) as A2. pose proof (input_value bv c1 W1) as V2. pose proof (add_input_nvars bv c1) as N2. pose proof (add_input_var bv c1) as X2.
  destruct (add_input bv c1) as [b c2]. cbn [fst snd] in *. pose proof (ext_wf _ _ _ _ _ A2) as W2.
  apply obind_ok in H. destruct H as [[o3 c3] [E3 H]]. apply obind_ok in H. destruct H as [[o4 c4] [E4 H]]. injection H as <- <-.
  eapply (arithmetic_ext_some ca cd) in E3; [|auto|reflexivity]. destruct E3 as [_ [N3 [A3 _]]]. pose proof (ext_wf _ _ _ _ _ A3) as W3.
  eapply (arithmetic_ext_some ca cd) in E4; [|auto|reflexivity]. destruct E4 as [_ [N4 [A4 _]]].
  pose proof (ext_trans ca cd _ _ _ _ _ (ext_trans ca cd _ _ _ _ _ A1 A2) (ext_trans ca cd _ _ _ _ _ A3 A4)) as A.
  exists (nvars c). split; [lia|]. split; [auto|]. split; [lia|]. split; [auto|]. rewrite X1 in *. split; [|split].
  - apply (ext_iff ca cd _ _ _ _ A). intros a. unfold g_lin, g_in4. cbn [g_mul g_add g_const g_pi g_out g_fan_in_3 with_mul with_const with_fan_in_3 gate_of fst snd pi_val].
    split.
    + intros [_ [K1 K2]]. split.
      * match type of K1 with ?l = 0 => transitivity (l + a (c_zero c)); [ring|rewrite K1; ring] end.
      * match type of K2 with ?l = 0 => transitivity (l + 1 + a (c_zero c)); [ring|rewrite K2; ring] end.
    + intros [K1 K2]. split; [auto|]. split.
      * transitivity (a x * a b - a (c_zero c)); [ring|]. rewrite K1. ring.
      * transitivity (a x * a (nvars c) + a b - (1 + a (c_zero c))); [ring|]. rewrite K2. ring.
  - pose proof (ext_vals _ _ _ _ _ (ext_trans ca cd _ _ _ _ _ A2 (ext_trans ca cd _ _ _ _ _ A3 A4)) (nvars c) ltac:(lia)) as K. rewrite K, V1.
    unfold yv, inverse, is_zero. destruct (feqb (values c x) 0); reflexivity.
  - pose proof (ext_vals _ _ _ _ _ (ext_trans ca cd _ _ _ _ _ A2 (ext_trans ca cd _ _ _ _ _ A3 A4)) (nvars c) ltac:(lia)) as K. rewrite K, V1.
    pose proof (ext_vals _ _ _ _ _ (ext_trans ca cd _ _ _ _ _ A3 A4) b ltac:(lia)) as K2. rewrite K2, X2, V2. reflexivity.
Qed.
Lemma zero_test_spec x y : zero_test x y <-> exists v, x * y = 0 /\ x * v + y = 1.
Proof.
  unfold zero_test. split.
  - intros [[-> ->]|[H ->]].
    + exists 1. split; ring.
    + exists (finv x). split; [ring|]. field. auto.
  - intros [v [H1 H2]]. destruct (feq_dec x 0) as [->|N].
    + left. split; auto. rewrite <- H2. ring.
    + right. split; auto. apply fmul_integral in H1. tauto.
Qed.
Lemma is_zero_computes x c out c' : wf c -> is_zero_with_output x c = Ok (out, c') -> computes c c' out (fun a y => zero_test (a x) y).
Proof.
  intros W H. destruct (is_zero_ext _ _ _ _ W H) as [v [N [Ev [Eo [L [A _]]]]]].
  apply (computes_intro ca cd _ _ _ _ _ W A). intros a Ha y. pose proof (satisfies_zero ca cd _ _ W Ha) as Z. pose proof (wf_zero _ W) as LZ. split.
  - intros [a' [S1 [E1 [E2 E3]]]]. rewrite (S1 (c_zero c)), Z in E2, E3 by auto. rewrite (S1 x) in E2, E3 by auto.
    apply zero_test_spec. exists (a' v). rewrite <- E1. split; [exact E2|rewrite E3; ring].
  - intros R. apply zero_test_spec in R. destruct R as [u [R1 R2]]. exists (ins (nvars c) [u; y] a). split; [apply ins_same|].
    subst v out. rewrite !(ins_old _ _ _ x), !(ins_old _ _ _ (c_zero c)), !ins_new0 by auto.
    replace (S (nvars c)) with (nvars c + 1)%nat by lia. rewrite !ins_new. cbn [nth]. rewrite Z. split; [auto|]. split; [auto|]. rewrite R2. ring.
Qed.
Lemma is_zero_honest x c out c' : wf c -> is_zero_with_output x c = Ok (out, c') -> honest c' <-> honest c.
Proof.
  intros W H. destruct (is_zero_ext _ _ _ _ W H) as [v [N [Ev [Eo [L [A [V1 V2]]]]]]].
  rewrite (honest_ext ca cd _ _ _ W A). split; [tauto|]. intros Hc. split; [auto|].
  pose proof (honest_zero ca cd _ W Hc) as Z. rewrite !(ext_vals _ _ _ _ _ A x), !(ext_vals _ _ _ _ _ A (c_zero c)) by (auto; apply (wf_zero _ W)).
  rewrite Z, V2. rewrite V1. destruct (feqb (values c x) 0) eqn:E.
  - apply feqb_eq in E. rewrite E. split; ring.
  - assert (values c x <> 0) by (intros K; apply feqb_eq in K; congruence). split; field; auto.
Qed.
Lemma is_zero_ok x c : wf c -> (x < nvars c)%nat -> exists out c', is_zero_with_output x c = Ok (out, c').
Proof.
  intros W L. unfold is_zero_with_output. rewrite value_ok by auto. cbn [obind].
  set (yv := match inverse (values c x) with Some i => i | None => 1 end).
  pose proof (ext_input ca cd yv c W) as A1. pose proof (add_input_nvars yv c) as N1. pose proof (add_input_var yv c) as X1.
  destruct (add_input yv c) as [y c1]. cbn [fst snd] in *. pose proof (ext_wf _ _ _ _ _ A1) as W1.
  set (bv := 1 - values c x * yv).
  pose proof (ext_input ca cd bv c1 W1) as A2. pose proof (add_input_nvars bv c1) as N2. pose proof (add_input_var bv c1) as X2.
  destruct (add_input bv c1) as [b c2]. cbn [fst snd] in *. pose proof (ext_wf _ _ _ _ _ A2) as W2. pose proof (wf_zero _ W).
  edestruct (arithmetic_ok (with_mul 1 (gate_of x b (Some (c_zero c)))) x b (Some (c_zero c)) c2) as [o3 [c3 E3]]; try reflexivity; auto; try lia.
  { intros o' [= <-]. lia. } { intros q v K; discriminate K. }
  rewrite E3. cbn [obind]. eapply (arithmetic_ext_some ca cd) in E3; [|auto|reflexivity]. destruct E3 as [_ [N3 [A3 _]]]. pose proof (ext_wf _ _ _ _ _ A3) as W3.
  edestruct (arithmetic_ok (with_const (- (1)) (with_fan_in_3 1 b (with_mul 1 (gate_of x y (Some (c_zero c)))))) x y (Some (c_zero c)) c3) as [o4 [c4 E4]]; try reflexivity; auto; try lia.
  { intros o' [= <-]. lia. } { intros q v [= <- <-]. lia. }
  rewrite E4. cbn [obind]. eauto.
Qed.

(** *** two gadgets in sequence *)
Lemma computes_seq c c1 c2 o1 o2 f R : wf c -> wf c1 -> (nvars c <= nvars c1)%nat -> (o1 < nvars c1)%nat ->
  computes c c1 o1 (fun a y => y = f a) -> computes c1 c2 o2 (fun a y => R (a o1) y) -> computes c c2 o2 (fun a y => R (f a) y).
Proof.
  intros W W1 N L C1 C2 a y. split.
  - intros [a' [S1 [E1 H]]].
    assert (satisfies c1 a' /\ R (a' o1) y) as [H1 H2] by (apply C2; exists a'; split; [apply same_upto_refl|auto]).
    assert (satisfies c a /\ a' o1 = f a) as [H3 H4] by (apply C1; exists a'; auto).
    rewrite <- H4. auto.
  - intros [H1 H2]. destruct (proj2 (C1 a (f a)) (conj H1 eq_refl)) as [a1 [S1 [E1 H3]]].
    rewrite <- E1 in H2. destruct (proj2 (C2 a1 y) (conj H3 H2)) as [a2 [S2 [E2 H4]]].
    exists a2. split; auto. eapply same_upto_trans; [exact S1|]. eapply same_upto_le; [|exact S2]. auto.
Qed.

Lemma is_eq_inv x y c out c' : wf c -> is_eq_with_output x y c = Ok (out, c') ->
  exists d c1, wf c1 /\ defines c c1 d (fun a => a x - a y) /\ is_zero_with_output d c1 = Ok (out, c').
Proof.
  intros W H. unfold is_eq_with_output in H. apply obind_ok in H. destruct H as [[d c1] [E H]].
  eapply arithmetic_defines in E; [|auto|reflexivity|reflexivity]. exists d, c1.
  split; [apply (ext_wf _ _ _ _ _ (def_ext _ _ _ _ E))|]. split; [|auto].
  assert (forall a, g_lin c (with_add 1 (- (1)) (gate_of x y None)) x y a = a x - a y) as EG by (intros a; unfold g_lin, g_in4; cbn; ring).
  destruct E as [E1 E2 E3 E4 E5]. split; auto.
  - apply (ext_iff ca cd _ _ _ _ E1). intros a. now rewrite EG.
  - intros K. now rewrite (E4 K), EG.
  - intros a a' K. now rewrite <- !EG, (E5 _ _ K).
Qed.
Lemma is_eq_computes x y c out c' : wf c -> is_eq_with_output x y c = Ok (out, c') ->
  computes c c' out (fun a v => a x = a y /\ v = 1 \/ a x <> a y /\ v = 0).
Proof.
  intros W H. destruct (is_eq_inv _ _ _ _ _ W H) as [d [c1 [W1 [D H1]]]].
  pose proof (computes_seq c c1 c' d out _ _ W W1 ltac:(rewrite (def_n _ _ _ _ D); lia) ltac:(rewrite (def_n _ _ _ _ D), (def_o _ _ _ _ D); lia)
    (defines_computes _ _ _ _ W D) (is_zero_computes _ _ _ _ W1 H1)) as K.
  intros a v. rewrite (K a v). unfold zero_test.
  assert (a x - a y = 0 <-> a x = a y) as E.
  { split; intros E; [transitivity (a x - a y + a y); [ring|rewrite E; ring]|rewrite E; ring]. }
  rewrite E. reflexivity.
Qed.
Lemma is_eq_honest x y c out c' : wf c -> is_eq_with_output x y c = Ok (out, c') -> honest c' <-> honest c.
Proof.
  intros W H. destruct (is_eq_inv _ _ _ _ _ W H) as [d [c1 [W1 [D H1]]]].
  rewrite (is_zero_honest _ _ _ _ W1 H1). now apply (defines_honest _ _ _ _ W D).
Qed.

(** *** gadgets that determine their new variables *)
Record total c c' (Q : (nat -> F) -> Prop) : Prop := {
  t_wf : wf c';
  t_n : (nvars c <= nvars c')%nat;
  t_zero : c_zero c' = c_zero c;
  t_table : c_table c' = c_table c;
  t_vals : forall v, (v < nvars c)%nat -> values c' v = values c v;
  t_sound : forall a, satisfies c' a -> satisfies c a /\ Q a;
  t_complete : forall a, satisfies c a -> exists a', same_upto (nvars c) a a' /\ satisfies c' a';
  t_honest : honest c' <-> honest c }.
Lemma total_trans c c1 c2 Q1 Q2 : total c c1 Q1 -> total c1 c2 Q2 -> total c c2 (fun a => Q1 a /\ Q2 a).
Proof.
  intros A B. pose proof (t_n _ _ _ A). pose proof (t_n _ _ _ B). split.
  - apply (t_wf _ _ _ B).
  - lia.
  - rewrite (t_zero _ _ _ B). apply (t_zero _ _ _ A).
  - rewrite (t_table _ _ _ B). apply (t_table _ _ _ A).
  - intros v Hv. rewrite (t_vals _ _ _ B) by lia. now apply (t_vals _ _ _ A).
  - intros a Ha. apply (t_sound _ _ _ B) in Ha. destruct Ha as [Ha Q]. apply (t_sound _ _ _ A) in Ha. tauto.
  - intros a Ha. destruct (t_complete _ _ _ A _ Ha) as [a1 [S1 H1]]. destruct (t_complete _ _ _ B _ H1) as [a2 [S2 H2]].
    exists a2. split; auto. eapply same_upto_trans; [exact S1|]. eapply same_upto_le; [|exact S2]. auto.
  - rewrite (t_honest _ _ _ B). apply (t_honest _ _ _ A).
Qed.
Lemma total_weak c c' (Q Q' : (nat -> F) -> Prop) : total c c' Q -> (forall a, satisfies c' a -> Q a -> Q' a) -> total c c' Q'.
Proof. intros [] H. split; auto. intros a Ha. destruct (t_sound0 _ Ha). auto. Qed.
Lemma total_of_ext c c' R (Q : (nat -> F) -> Prop) : ext c c' R -> (forall a, satisfies c' a -> R a -> Q a) ->
  (forall a, satisfies c a -> exists a', same_upto (nvars c) a a' /\ satisfies c' a') -> (honest c' <-> honest c) -> total c c' Q.
Proof.
  intros E H1 H2 H3. split; auto; try apply E. intros a Ha. pose proof (proj1 (ext_sat _ _ _ _ _ E a) Ha) as [K1 K2]. auto.
Qed.
Lemma defines_total c c' o f : wf c -> defines c c' o f -> total c c' (fun a => a o = f a).
Proof.
  intros W D. pose proof (def_ext _ _ _ _ D) as E. apply total_of_ext with (1 := E).
  - auto.
  - intros a Ha. destruct (proj2 (defines_computes _ _ _ _ W D a (f a)) (conj Ha eq_refl)) as [a' [S1 [_ H]]]. eauto.
  - apply (defines_honest _ _ _ _ W D).
Qed.
Lemma total_computes c c' o R Q : wf c -> total c c' Q ->
  (forall a, satisfies c' a -> Q a -> forall y, R a y <-> y = a o) -> (forall a a' y, same_upto (nvars c) a a' -> R a y <-> R a' y) ->
  computes c c' o R.
Proof.
  intros W T HQ HF a y. split.
  - intros [a' [S1 [E1 H]]]. destruct (t_sound _ _ _ T _ H) as [H1 H2].
    split; [now apply (satisfies_same ca cd c a a')|]. apply (proj2 (HF a a' y S1)). apply (proj2 (HQ a' H H2 y)). now symmetry.
  - intros [H1 H2]. destruct (t_complete _ _ _ T _ H1) as [a' [S1 H3]]. exists a'. split; auto. split; auto.
    destruct (t_sound _ _ _ T _ H3) as [H4 H5]. symmetry. apply (proj1 (HQ a' H3 H5 y)). now apply (proj1 (HF a a' y S1)).
Qed.
Lemma total_honest_value c c' Q : wf c -> total c c' Q -> honest c -> Q (values c').
Proof. intros W T H. apply (t_honest _ _ _ T) in H. now apply (t_sound _ _ _ T) in H. Qed.
Lemma zero_test_fun x y y' : zero_test x y -> zero_test x y' <-> y' = y.
Proof. unfold zero_test. intros [[-> ->]|[H ->]]; split; intros K; try tauto; subst; tauto. Qed.
Lemma is_zero_total x c out c' : wf c -> is_zero_with_output x c = Ok (out, c') ->
  total c c' (fun a => zero_test (a x) (a out)) /\ out = S (nvars c) /\ nvars c' = S (S (nvars c)) /\ (x < nvars c)%nat.
Proof.
  intros W H. destruct (is_zero_ext _ _ _ _ W H) as [v [N [Ev [Eo [L [A _]]]]]]. split; [|auto].
  pose proof (is_zero_computes _ _ _ _ W H) as C. apply total_of_ext with (1 := A).
  - intros a Ha _. assert (satisfies c a /\ zero_test (a x) (a out)) as [K1 K2] by (apply C; exists a; split; [apply same_upto_refl|auto]). auto.
  - intros a Ha. destruct (feq_dec (a x) 0) as [E|E].
    + destruct (proj2 (C a 1)) as [a' [S1 [_ K]]]; eauto. unfold zero_test. tauto.
    + destruct (proj2 (C a 0)) as [a' [S1 [_ K]]]; eauto. unfold zero_test. tauto.
  - eapply is_zero_honest; eauto.
Qed.

(** a gate built from scratch: the values of the new variables *)
Lemma arithmetic_total g x y c out c' : wf c -> g_witness g = Some (x, y, None) -> g_out g = - (1) ->
  arithmetic_gate g c = Ok (out, c') ->
  total c c' (fun a => a out = g_lin c g x y a) /\ out = nvars c /\ nvars c' = S (nvars c) /\ (x < nvars c)%nat /\ (y < nvars c)%nat.
Proof.
  intros W EG EO H. pose proof (arithmetic_defines _ _ _ _ _ _ W EG EO H) as D.
  split; [now apply defines_total|]. split; [apply (def_o _ _ _ _ D)|]. split; [apply (def_n _ _ _ _ D)|].
  eapply (arithmetic_ext_none ca cd) in H; [|auto|exact EG]. tauto.
Qed.
Ltac glin := unfold g_lin, g_in4; cbn [g_mul g_add g_const g_pi g_out g_fan_in_3 with_mul with_add with_const with_fan_in_3 gate_of fst snd pi_val].

Lemma cond_zero_defines bit x c out c' : wf c -> conditional_select_zero bit x c = Ok (out, c') ->
  defines c c' out (fun a => a bit * a x) /\ (bit < nvars c)%nat /\ (x < nvars c)%nat.
Proof.
  intros W H. unfold conditional_select_zero in H. pose proof H as H'. eapply arithmetic_total in H'; [|auto|reflexivity|reflexivity].
  destruct H' as [_ [O [N [L1 L2]]]]. eapply arithmetic_defines in H; [|auto|reflexivity|reflexivity]. split; [|auto].
  assert (forall a, g_lin c (with_mul 1 (gate_of bit x None)) bit x a = a bit * a x) as EG by (intros a; glin; ring).
  destruct H as [E H1 H2 H3 H4]. constructor; auto.
  - apply (ext_iff _ _ _ _ _ _ E). intros a. now rewrite EG.
  - intros HH. rewrite <- EG. now apply H3.
  - intros a a' S1. now rewrite !S1.
Qed.
Lemma cond_zero_total bit x c out c' : wf c -> conditional_select_zero bit x c = Ok (out, c') ->
  total c c' (fun a => a out = a bit * a x) /\ out = nvars c /\ nvars c' = S (nvars c) /\ (bit < nvars c)%nat /\ (x < nvars c)%nat.
Proof.
  intros W H. unfold conditional_select_zero in H. eapply arithmetic_total in H; [|auto|reflexivity|reflexivity].
  destruct H as [T H]. split; [|auto]. apply (total_weak _ _ _ _ T). intros a Ha Q. rewrite Q. glin. ring.
Qed.
Lemma cond_select_total bit x y c out c' : wf c -> conditional_select bit x y c = Ok (out, c') ->
  total c c' (fun a => a out = a bit * a x + (1 - a bit) * a y) /\ (nvars c <= out < nvars c')%nat /\
  (bit < nvars c)%nat /\ (x < nvars c)%nat.
Proof.
  intros W H. unfold conditional_select in H.
  apply obind_ok in H. destruct H as [[ba c1] [H1 H]]. apply obind_ok in H. destruct H as [[nb c2] [H2 H]].
  apply obind_ok in H. destruct H as [[nbb c3] [H3 H]].
  eapply arithmetic_total in H1; [|auto|reflexivity|reflexivity]. destruct H1 as [T1 [O1 [N1 [L1 L1']]]].
  eapply arithmetic_total in H2; [|apply T1|reflexivity|reflexivity]. destruct H2 as [T2 [O2 [N2 [L2 L2']]]].
  eapply arithmetic_total in H3; [|apply T2|reflexivity|reflexivity]. destruct H3 as [T3 [O3 [N3 [L3 L3']]]].
  eapply arithmetic_total in H; [|apply T3|reflexivity|reflexivity]. destruct H as [T4 [O4 [N4 [L4 L4']]]].
  pose proof (total_trans _ _ _ _ _ (total_trans _ _ _ _ _ T1 T2) (total_trans _ _ _ _ _ T3 T4)) as T.
  split; [|split; [lia|split; [auto|auto]]].
  apply (total_weak _ _ _ _ T). intros a Ha [[Q1 Q2] [Q3 Q4]]. rewrite Q4. revert Q1 Q2 Q3. glin. intros Q1 Q2 Q3.
  rewrite Q1, Q3, Q2. ring.
Qed.
Lemma cond_select_ok bit x y c : wf c -> (bit < nvars c)%nat -> (x < nvars c)%nat -> (y < nvars c)%nat ->
  exists out c', conditional_select bit x y c = Ok (out, c').
Proof.
  intros W LB LX LY. unfold conditional_select. pose proof (wf_zero _ W) as LZ.
  edestruct (arithmetic_ok (with_mul 1 (gate_of bit x None))) as [ba [c1 H1]]; try reflexivity; eauto; try (intros; discriminate).
  rewrite H1. cbn [obind]. eapply arithmetic_total in H1; [|auto|reflexivity|reflexivity]. destruct H1 as [T1 [O1 [N1 _]]].
  edestruct (arithmetic_ok (with_const 1 (with_add (- (1)) 0 (gate_of bit (c_zero c) None))) bit (c_zero c) None c1) as [nb [c2 H2]];
    try reflexivity; try apply T1; try lia; try (intros; discriminate).
  rewrite H2. cbn [obind]. eapply arithmetic_total in H2; [|apply T1|reflexivity|reflexivity]. destruct H2 as [T2 [O2 [N2 _]]].
  edestruct (arithmetic_ok (with_mul 1 (gate_of nb y None)) nb y None c2) as [nbb [c3 H3]];
    try reflexivity; try apply T2; try lia; try (intros; discriminate).
  rewrite H3. cbn [obind]. eapply arithmetic_total in H3; [|apply T2|reflexivity|reflexivity]. destruct H3 as [T3 [O3 [N3 _]]].
  eapply (arithmetic_ok (with_add 1 1 (gate_of nbb ba None)) nbb ba None c3);
    try reflexivity; try apply T3; try lia; try (intros; discriminate).
Qed.

(** a gate given by add_input and add_gate *)
Lemma input_defines v c o c1 c' f (R : (nat -> F) -> Prop) : wf c -> add_input v c = (o, c1) -> ext c1 c' R -> nvars c' = nvars c1 ->
  (forall a, satisfies c a -> R a <-> a o = f a) -> (honest c -> v = f (values c)) ->
  (forall a a', same_upto (nvars c) a a' -> f a' = f a) -> defines c c' o f.
Proof.
  intros W EI E N HR HV HF.
  pose proof (ext_input ca cd v c W) as A1. pose proof (input_value v c W) as V1. pose proof (add_input_nvars v c) as N1. pose proof (add_input_var v c) as X1.
  rewrite EI in *. cbn [fst snd] in *. pose proof (ext_trans ca cd _ _ _ _ _ A1 E) as A.
  split; auto; try lia.
  - split; try apply A. intros a. rewrite (ext_sat _ _ _ _ _ A). split; intros [K1 K2]; split; auto.
    + now apply HR.
    + split; auto. now apply HR.
  - intros K. rewrite (ext_vals _ _ _ _ _ E) by lia. subst o. rewrite V1, HV by auto. symmetry. apply HF.
    intros x Hx. now apply (ext_vals _ _ _ _ _ A).
Qed.
Lemma cond_one_defines bit x c out c' : wf c -> conditional_select_one bit x c = Ok (out, c') ->
  defines c c' out (fun a => a bit * a x + (1 - a bit)) /\ (bit < nvars c)%nat /\ (x < nvars c)%nat.
Proof.
  intros W H. unfold conditional_select_one in H.
  apply obind_ok in H. destruct H as [vv [V1 H]]. apply obind_ok in H. destruct H as [vb [V2 H]].
  apply value_inv in V1; auto. destruct V1 as [L1 ->]. apply value_inv in V2; auto. destruct V2 as [L2 ->].
  match type of H with context [add_input ?v c] => destruct (add_input v c) as [o c1] eqn:EI end.
  apply obind_ok in H. destruct H as [c2 [E H]]. injection H as <- <-.
  assert (wf c1) as W1. { eapply add_input_wf in W. rewrite EI in W. exact W. }
  assert (o = nvars c /\ nvars c1 = S (nvars c)) as [X N].
  { unfold add_input in EI. injection EI as <- <-. unfold nvars. cbn [c_map set_vars]. rewrite app_length. cbn. lia. }
  apply (poly_gate_ext ca cd) in E; auto. destruct E as [E [N2 L]].
  assert (defines c c2 o (fun a => a bit * a x + (1 - a bit))) as D.
  { eapply input_defines; [exact W|exact EI|exact E|exact N2| | |].
    - intros a Ha. cbn [pi_val]. split; intros K.
      + match type of K with ?l = 0 => transitivity (l + a o); [rewrite K; ring|ring] end.
      + rewrite K. ring.
    - intros _. ring.
    - intros a a' S1. now rewrite !S1 by auto. }
  split; [exact D|]. auto 10.
Qed.
Lemma cond_one_total bit x c out c' : wf c -> conditional_select_one bit x c = Ok (out, c') ->
  total c c' (fun a => a out = a bit * a x + (1 - a bit)) /\ out = nvars c /\ nvars c' = S (nvars c) /\ (bit < nvars c)%nat /\ (x < nvars c)%nat.
Proof.
  intros W H. apply cond_one_defines in H; auto. destruct H as [D L]. split; [now apply defines_total|]. split; [apply D|]. split; [apply D|exact L].
Qed.

(** *** the gates of the Poseidon gadget *)
Lemma full_total x y z s0 s1 s2 s3 s4 c out c' : wf c -> full_affine_transform_gate (x, y, z) (s0, s1, s2, s3, s4) c = Ok (out, c') ->
  total c c' (fun a => a out = - (s0 * fpow (a x) 5 + s1 * fpow (a y) 5 + s2 * fpow (a z) 5 + s3) / s4) /\
  out = nvars c /\ nvars c' = S (nvars c) /\ s4 <> 0 /\ (x < nvars c /\ y < nvars c /\ z < nvars c)%nat.
Proof.
  intros W H. unfold full_affine_transform_gate in H.
  apply obind_ok in H. destruct H as [vx [V1 H]]. apply obind_ok in H. destruct H as [vy [V2 H]]. apply obind_ok in H. destruct H as [vz [V3 H]].
  apply value_inv in V1; auto. destruct V1 as [L1 ->]. apply value_inv in V2; auto. destruct V2 as [L2 ->]. apply value_inv in V3; auto. destruct V3 as [L3 ->].
  apply obind_ok in H. destruct H as [v [V H]]. unfold div_or_panic in V. destruct (feqb (- s4) 0) eqn:E0; [discriminate|]. injection V as <-.
  assert (s4 <> 0) as N4. { intros ->. assert (feqb (- (0)) 0 = true) by (apply feqb_eq; ring). congruence. }
  match type of H with context [add_input ?v c] => destruct (add_input v c) as [o c1] eqn:EI end.
  apply obind_ok in H. destruct H as [c2 [E H]]. injection H as <- <-.
  assert (wf c1) as W1. { eapply add_input_wf in W. rewrite EI in W. exact W. }
  assert (o = nvars c /\ nvars c1 = S (nvars c)) as [X N].
  { unfold add_input in EI. injection EI as <- <-. unfold nvars. cbn [c_map set_vars]. rewrite app_length. cbn. lia. }
  apply (ext_gate ca cd) in E; auto; [|repeat split]. destruct E as [E [N2 L]].
  assert (- s4 <> 0) as N5. { intros K. apply feqb_eq in K. congruence. }
  assert (defines c c2 o (fun a => - (s0 * fpow (a x) 5 + s1 * fpow (a y) 5 + s2 * fpow (a z) 5 + s3) / s4)) as D.
  { eapply input_defines; [exact W|exact EI|exact E|exact N2| | |].
    - intros a Ha. unfold row1_ok. cbn [pi_val q_arith q_m q_l q_r q_o q_4 q_hl q_hr q_h4 q_c q_lookup]. split.
      + intros [K _]. apply (fmul_cancel_l s4); auto.
        match type of K with ?l = 0 => transitivity (l - (s0 * fpow (a x) 5 + s1 * fpow (a y) 5 + s2 * fpow (a z) 5 + s3)); [ring|rewrite K] end. field. auto.
      + intros K. split; [|congruence]. rewrite K. field. auto.
    - intros _. cbn [fpow]. field. auto.
    - intros a a' S1. now rewrite !S1 by auto. }
  split; [now apply defines_total|]. rewrite N2. auto 10.
Qed.
Lemma partial_total x y z s0 s1 s2 s3 s4 c out c' : wf c -> partial_affine_transform_gate (x, y, z) (s0, s1, s2, s3, s4) c = Ok (out, c') ->
  total c c' (fun a => a out = - (s0 * fpow (a x) 5 + s1 * a y + s2 * a z + s3) / s4) /\
  out = nvars c /\ nvars c' = S (nvars c) /\ s4 <> 0 /\ (x < nvars c /\ y < nvars c /\ z < nvars c)%nat.
Proof.
  intros W H. unfold partial_affine_transform_gate in H.
  apply obind_ok in H. destruct H as [vx [V1 H]]. apply obind_ok in H. destruct H as [vy [V2 H]]. apply obind_ok in H. destruct H as [vz [V3 H]].
  apply value_inv in V1; auto. destruct V1 as [L1 ->]. apply value_inv in V2; auto. destruct V2 as [L2 ->]. apply value_inv in V3; auto. destruct V3 as [L3 ->].
  apply obind_ok in H. destruct H as [v [V H]]. unfold div_or_panic in V. destruct (feqb (- s4) 0) eqn:E0; [discriminate|]. injection V as <-.
  assert (s4 <> 0) as N4. { intros ->. assert (feqb (- (0)) 0 = true) by (apply feqb_eq; ring). congruence. }
  match type of H with context [add_input ?v c] => destruct (add_input v c) as [o c1] eqn:EI end.
  apply obind_ok in H. destruct H as [c2 [E H]]. injection H as <- <-.
  assert (wf c1) as W1. { eapply add_input_wf in W. rewrite EI in W. exact W. }
  assert (o = nvars c /\ nvars c1 = S (nvars c)) as [X N].
  { unfold add_input in EI. injection EI as <- <-. unfold nvars. cbn [c_map set_vars]. rewrite app_length. cbn. lia. }
  apply (ext_gate ca cd) in E; auto; [|repeat split]. destruct E as [E [N2 L]].
  assert (- s4 <> 0) as N5. { intros K. apply feqb_eq in K. congruence. }
  assert (defines c c2 o (fun a => - (s0 * fpow (a x) 5 + s1 * a y + s2 * a z + s3) / s4)) as D.
  { eapply input_defines; [exact W|exact EI|exact E|exact N2| | |].
    - intros a Ha. unfold row1_ok. cbn [pi_val q_arith q_m q_l q_r q_o q_4 q_hl q_hr q_h4 q_c q_lookup]. split.
      + intros [K _]. apply (fmul_cancel_l s4); auto.
        match type of K with ?l = 0 => transitivity (l - (s0 * fpow (a x) 5 + s1 * a y + s2 * a z + s3)); [ring|rewrite K] end. field. auto.
      + intros K. split; [|congruence]. rewrite K. field. auto.
    - intros _. cbn [fpow]. field. auto.
    - intros a a' S1. now rewrite !S1 by auto. }
  split; [now apply defines_total|]. rewrite N2. auto 10.
Qed.

(** *** lookups *)
Lemma lookup_ext x y z t pi c out c' : wf c -> lookup_gate x y z t pi c = Ok (out, c') ->
  let u := match t with Some t => t | None => c_zero c end in
  out = z /\ nvars c' = nvars c /\ (x < nvars c /\ y < nvars c /\ z < nvars c /\ u < nvars c)%nat /\
  ext c c' (fun a => pi_val pi = 0 /\ (In (a x, a y, a z, a u) (c_table c) \/ c_table c = [] /\ (a x, a y, a z, a u) = (0, 0, 0, 0))).
Proof.
  intros W H u. unfold lookup_gate in H. fold u in H. apply obind_ok in H. destruct H as [c1 [E H]]. injection H as <- <-.
  apply (ext_gate ca cd) in E; auto; [|repeat split]. destruct E as [E [N L]]. split; auto. split; auto. split; auto.
  apply (ext_iff ca cd _ _ _ _ E). intros a. unfold row1_ok. cbn [q_arith q_lookup]. split.
  - intros [K1 K2]. split; [refine (eq_trans _ K1); ring|]. apply K2. apply f1_neq_0.
  - intros [K1 K2]. split; [rewrite K1; ring|auto].
Qed.
End PlonkSelect.

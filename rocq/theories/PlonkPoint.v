(** PlonkPoint.v: additions of curve points. *)
From Verif Require Import Base Tools KZG SnarkProofs Plonk PlonkSpec PlonkProofs PlonkGadgets PlonkSelect PlonkRange PlonkRows.
Local Open Scope F_scope.

Section PlonkPoint.
Context {F : Type} {fo : FieldOps F} {fl : FieldLaws F} {po : PrimeFieldOps F} {pl : PrimeFieldLaws F}.
Add Field Fpp : F_th.
Variables ca cd : F.
Implicit Types (c : composer F) (a : nat -> F).
Notation satisfies := (satisfies ca cd).
Notation honest := (honest ca cd).
Notation ext := (ext ca cd).
Notation computes2 := (computes2 ca cd).
Notation on_curve := (on_curve ca cd).
Notation add_rel := (add_rel ca cd).
Notation complete_curve := (complete_curve ca cd).

(** *** the curve *)

(** *** completeness of the addition law (Bernstein, Lange) *)
Hypothesis two_nz : (1 + 1 : F) <> 0.
Lemma sq_0 (x : F) : x * x = 0 -> x = 0.
Proof. intros H. apply fmul_integral in H. tauto. Qed.
Lemma denominators_nz p q : complete_curve -> on_curve p -> on_curve q ->
  forall e, e = 1 \/ e = - (1) -> cd * (fst p * fst q * (snd p * snd q)) <> e.
Proof.
  intros [Na [[s Es] Nd]] Hp Hq e He K. destruct p as [x1 y1], q as [x2 y2]. unfold on_curve in *. cbn [fst snd] in *.
  assert (e * e = 1) as E2 by (destruct He as [-> | ->]; ring). assert (e <> 0) as Ne by (intros ->; apply f1_neq_0; rewrite <- E2; ring).
  assert (x1 <> 0 /\ y1 <> 0) as [Nx1 Ny1]. { split; intros ->; apply Ne; rewrite <- K; ring. }
  assert (s <> 0) as Ns by (intros ->; apply Na; rewrite Es; ring).
  (* (s x1 + e y1)^2 = d x1^2 y1^2 (s x2 + y2)^2 *)
  assert (ca * (x1 * x1) + y1 * y1 = cd * (x1 * x1 * (y1 * y1)) * (ca * (x2 * x2) + y2 * y2)) as H1.
  { rewrite Hq, Hp. transitivity (e * e + cd * (x1 * x1 * (y1 * y1))); [rewrite E2; ring|]. rewrite <- K. ring. }
  assert (forall g, g * g = 1 -> (s * x1 + g * e * y1) * (s * x1 + g * e * y1) = cd * ((x1 * y1 * (s * x2 + g * y2)) * (x1 * y1 * (s * x2 + g * y2)))) as H2.
  { intros g Hg. transitivity (ca * (x1 * x1) + (g * g) * (e * e) * (y1 * y1) + (1 + 1) * g * s * (x1 * y1) * e); [rewrite Es; ring|].
    rewrite Hg, E2. transitivity (cd * (x1 * x1 * (y1 * y1)) * (ca * (x2 * x2) + (g * g) * (y2 * y2) + (1 + 1) * g * s * x2 * y2)); [|rewrite Es; ring].
    rewrite Hg. transitivity ((ca * (x1 * x1) + y1 * y1) + (1 + 1) * g * s * (x1 * y1) * e); [ring|]. rewrite H1. rewrite <- K. ring. }
  assert (forall u v, u * u = cd * (v * v) -> v <> 0 -> False) as H3.
  { intros u v E Nv. apply (Nd (u / v)). transitivity (u * u / (v * v)); [rewrite E; field; auto|field; auto]. }
  (* one of s x2 + y2, s x2 - y2 is not zero *)
  assert (forall g, g * g = 1 -> s * x2 + g * y2 = 0) as H4.
  { intros g Hg. destruct (feq_dec (s * x2 + g * y2) 0) as [|N]; auto. exfalso. apply (H3 _ _ (H2 g Hg)).
    apply fmul_neq_0; auto. apply fmul_neq_0; auto. }
  assert (s * x2 + 1 * y2 = 0) as A1 by (apply H4; ring). assert (s * x2 + - (1) * y2 = 0) as A2 by (apply H4; ring).
  assert ((1 + 1) * (s * x2) = 0) as A3. { transitivity ((s * x2 + 1 * y2) + (s * x2 + - (1) * y2)); [ring|rewrite A1, A2; ring]. }
  apply fmul_integral in A3. destruct A3 as [A3|A3]; [now apply two_nz in A3|]. apply fmul_integral in A3. destruct A3 as [A3|A3]; [now apply Ns in A3|].
  apply Ne. rewrite <- K, A3. ring.
Qed.
Lemma te_add_rel p q : complete_curve -> on_curve p -> on_curve q -> forall r, add_rel p q r <-> r = te_add ca cd p q.
Proof.
  intros C Hp Hq r. pose proof (denominators_nz p q C Hp Hq 1 ltac:(auto)) as N1. pose proof (denominators_nz p q C Hp Hq (- (1)) ltac:(auto)) as N2.
  destruct p as [x1 y1], q as [x2 y2], r as [x3 y3]. unfold add_rel, te_add. cbn [fst snd] in *. set (k := cd * (x1 * x2 * (y1 * y2))) in *.
  assert (1 + k <> 0) as D1. { intros E. apply N2. transitivity (1 + k - 1); [ring|rewrite E; ring]. }
  assert (1 - k <> 0) as D2. { intros E. apply N1. transitivity (1 - (1 - k)); [ring|rewrite E; ring]. }
  split.
  - intros [E1 E2]. f_equal.
    + rewrite <- E1. field. auto.
    + rewrite <- E2. field. auto.
  - intros [= -> ->]. split; field; auto.
Qed.
Lemma te_add_on_curve p q : complete_curve -> on_curve p -> on_curve q -> on_curve (te_add ca cd p q).
Proof.
  intros C Hp Hq. pose proof (denominators_nz p q C Hp Hq 1 ltac:(auto)) as N1. pose proof (denominators_nz p q C Hp Hq (- (1)) ltac:(auto)) as N2.
  destruct p as [x1 y1], q as [x2 y2]. unfold on_curve, te_add in *. cbn [fst snd] in *. 
  assert (1 + cd * (x1 * x2 * (y1 * y2)) <> 0) as D1. { intros E. apply N2. transitivity (1 + cd * (x1 * x2 * (y1 * y2)) - 1); [ring|rewrite E; ring]. }
  assert (1 - cd * (x1 * x2 * (y1 * y2)) <> 0) as D2. { intros E. apply N1. transitivity (1 - (1 - cd * (x1 * x2 * (y1 * y2)))); [ring|rewrite E; ring]. }
  clear N1 N2. set (A := x1 * y2 + y1 * x2). set (B := y1 * y2 - ca * (x1 * x2)). set (k := cd * (x1 * x2 * (y1 * y2))) in *.
  assert (ca * (A * A) * ((1 - k) * (1 - k)) + B * B * ((1 + k) * (1 + k)) = (1 + k) * (1 + k) * ((1 - k) * (1 - k)) + cd * (A * A * (B * B))) as G.
  { transitivity ((ca * (x1 * x1) + y1 * y1) * (ca * (x2 * x2) + y2 * y2) * (1 + k * k) - cd * (x1 * x1 * (y1 * y1)) * ((ca * (x2 * x2) + y2 * y2) * (ca * (x2 * x2) + y2 * y2))
      - cd * (x2 * x2 * (y2 * y2)) * ((ca * (x1 * x1) + y1 * y1) * (ca * (x1 * x1) + y1 * y1)) + cd * (A * A * (B * B))).
    { unfold A, B, k. ring. }
    rewrite Hp, Hq. unfold k. ring. }
  apply (fmul_cancel_l ((1 + k) * (1 + k) * ((1 - k) * (1 - k)))); [repeat apply fmul_neq_0; auto|].
  transitivity (ca * (A * A) * ((1 - k) * (1 - k)) + B * B * ((1 + k) * (1 + k))); [field; auto|]. rewrite G. field. auto.
Qed.

(** *** the gate *)
#[local] Opaque add_variables_to_map.
Lemma point_addition_inv chk x1 y1 x2 y2 c x3 y3 c' : wf c -> point_addition_gate ca cd chk (x1, y1) (x2, y2) c = Ok (x3, y3, c') ->
  let r := te_add ca cd (values c x1, values c y1) (values c x2, values c y2) in
  (x1 < nvars c /\ y1 < nvars c /\ x2 < nvars c /\ y2 < nvars c)%nat /\ nvars c' = (nvars c + 3)%nat /\ x3 = (nvars c + 1)%nat /\ y3 = (nvars c + 2)%nat /\
  chk (values c x1, values c y1) = true /\ chk (values c x2, values c y2) = true /\
  ext c c' (fun a => a (nvars c) = a x1 * a y2 /\ add_rel (a x1, a y1) (a x2, a y2) (a x3, a y3)) /\
  values c' (nvars c) = values c x1 * values c y2 /\ values c' x3 = fst r /\ values c' y3 = snd r.
Proof.
  intros Wf H r. unfold point_addition_gate in H.
  apply obind_ok in H. destruct H as [v1 [V1 H]]. apply value_inv in V1; auto. destruct V1 as [L1 ->].
  apply obind_ok in H. destruct H as [v2 [V2 H]]. apply value_inv in V2; auto. destruct V2 as [L2 ->].
  apply obind_ok in H. destruct H as [v3 [V3 H]]. apply value_inv in V3; auto. destruct V3 as [L3 ->].
  apply obind_ok in H. destruct H as [v4 [V4 H]]. apply value_inv in V4; auto. destruct V4 as [L4 ->].
  apply obind_ok in H. destruct H as [u1 [K1 H]]. apply obind_ok in H. destruct H as [u2 [K2 H]].
  assert (chk (values c x1, values c y1) = true) as C1 by (destruct (chk (values c x1, values c y1)); [auto|discriminate]).
  assert (chk (values c x2, values c y2) = true) as C2 by (destruct (chk (values c x2, values c y2)); [auto|discriminate]).
  clear K1 K2. fold r in H. destruct r as [vx3 vy3]. unfold add_input in H.
  cbn [set_vars c_vals c_map] in H. rewrite !app_length in H. cbn [length] in H. fold (nvars c) in H.
  replace (nvars c + 1 + 1)%nat with (nvars c + 2)%nat in H by lia.
  match type of H with context [push_sels ?l ?x] => set (c5 := push_sels l x) in H end.
  apply obind_ok in H. destruct H as [c6 [E6 H]]. apply maps_inv in E6. destruct E6 as [_ [_ [_ [_ [E6 N6]]]]].
  apply obind_ok in H. destruct H as [c8 [E8 H]]. apply maps_inv in E8. destruct E8 as [_ [_ [_ [_ [E8 N8]]]]].
  assert (add_n 1 c8 = c') as Ec by congruence. assert (x3 = (nvars c + 1)%nat /\ y3 = (nvars c + 2)%nat) as [-> ->] by (split; congruence). clear H.
  assert (nvars c5 = (nvars c + 3)%nat) as N5 by (unfold nvars, c5; cbn; rewrite !app_length; cbn; lia).
  assert (nvars c' = (nvars c + 3)%nat) as N by (rewrite <- Ec; change (nvars (add_n 1 c8)) with (nvars c8); rewrite N8; change (nvars (add_n 1 c6)) with (nvars c6); lia).
  assert (c_vals c' = c_vals c ++ [values c x1 * values c y2; vx3; vy3]) as EV.
  { rewrite <- Ec. cbn. rewrite E8. cbn. rewrite E6. cbn. now rewrite <- !app_assoc. }
  set (W := fun col => match col with Left => [x1; nvars c + 1]%nat | Right => [y1; nvars c + 2]%nat | Output => [x2; c_zero c] | Fourth => [y2; nvars c] end).
  assert (rows c c' [var_add_sel; no_sel] W) as R.
  { split.
    - rewrite <- Ec. cbn. rewrite E8. cbn. rewrite E6. cbn. lia.
    - rewrite <- Ec. cbn. rewrite E8. cbn. rewrite E6. reflexivity.
    - intros col. rewrite <- Ec. destruct col; cbn; rewrite E8; cbn; rewrite E6; cbn; now rewrite <- app_assoc.
    - intros []; reflexivity.
    - rewrite <- Ec. cbn. rewrite E8. cbn. rewrite E6. reflexivity.
    - rewrite <- Ec. cbn. rewrite E8. cbn. rewrite E6. reflexivity.
    - rewrite <- Ec. cbn. rewrite E8. cbn. rewrite E6. reflexivity.
    - lia.
    - rewrite EV, app_length, (wf_vals _ Wf). cbn [length]. lia.
    - intros v Hv. unfold values. rewrite EV. apply app_nth1. now rewrite (wf_vals _ Wf).
    - intros col v Hv. rewrite N. pose proof (wf_zero _ Wf). destruct col; cbn [W] in Hv; destruct Hv as [<-|[<-|[]]]; lia. }
  pose proof (rows_ext ca cd _ _ _ _ Wf R ltac:(cbn; lia) no_sel_no_next) as E.
  assert (forall i, values c' (nvars c + i) = nth i [values c x1 * values c y2; vx3; vy3] 0) as VN.
  { intros i. unfold values at 1. rewrite EV, app_nth2; rewrite (wf_vals _ Wf); [|lia]. f_equal. lia. }
  split; [auto|]. split; [auto|]. split; [auto|]. split; [auto|]. split; [auto|]. split; [auto|]. split; [|split; [|split]].
  - eapply (ext_iff ca cd); [exact E|]. intros a. unfold rows_ok, block_ok. cbn [length]. split.
    + intros K. specialize (K 0%nat ltac:(lia)). cbn in K. destruct K as [_ [_ [_ [_ [K _]]]]]. specialize (K f1_neq_0).
      destruct K as [Q1 [Q2 Q3]]. unfold add_rel. cbn [fst snd]. split; [exact Q1|]. split.
      * refine (eq_trans _ (eq_trans Q2 _)); ring.
      * refine (eq_trans _ (eq_trans Q3 _)); ring.
    + intros [Q1 [Q2 Q3]] j Hj. destruct j as [|[|j]]; [| |lia]; cbv zeta; cbn [nth W Nat.eqb Nat.add]; [|apply no_sel_ok].
      cbn [fst snd] in *. unfold row_ok, var_add_sel. cbn [q_arith q_m q_l q_r q_o q_4 q_c q_hl q_hr q_h4 q_range q_logic q_fixed q_var q_lookup].
      split; [ring|]. split; [congruence|]. split; [congruence|]. split; [congruence|]. split; [|congruence]. intros _.
      split; [exact Q1|]. split.
      * refine (eq_trans _ (eq_trans Q2 _)); ring.
      * refine (eq_trans _ (eq_trans Q3 _)); ring.
  - rewrite <- (Nat.add_0_r (nvars c)) at 1. apply VN.
  - apply (VN 1%nat).
  - apply (VN 2%nat).
Qed.
Theorem point_addition_computes chk x1 y1 x2 y2 c x3 y3 c' : wf c -> point_addition_gate ca cd chk (x1, y1) (x2, y2) c = Ok (x3, y3, c') ->
  computes2 c c' (x3, y3) (fun a x y => add_rel (a x1, a y1) (a x2, a y2) (x, y)).
Proof.
  intros W H. apply point_addition_inv in H; auto. cbv zeta in H. destruct H as [[L1 [L2 [L3 L4]]] [N [-> [-> [_ [_ [E _]]]]]]].
  intros a x y. cbn [fst snd]. split.
  - intros [a' [S1 [E1 [E2 K]]]]. apply (ext_sat _ _ _ _ _ E) in K. destruct K as [K1 [_ K2]].
    split; [exact (proj2 (satisfies_same ca cd c a a' W S1) K1)|]. rewrite !S1, E1, E2 in K2 by auto. exact K2.
  - intros [K1 K2]. exists (ins (nvars c) [a x1 * a y2; x; y] a). split; [apply ins_same|].
    rewrite !ins_new. cbn [nth]. split; auto. split; auto. apply (ext_sat _ _ _ _ _ E).
    split; [exact (proj1 (satisfies_same ca cd c a _ W (ins_same _ _ _)) K1)|]. rewrite !ins_new, ins_new0, !ins_old by auto. cbn [nth]. auto.
Qed.
Theorem point_addition_honest chk x1 y1 x2 y2 c x3 y3 c' : wf c -> complete_curve ->
  on_curve (values c x1, values c y1) -> on_curve (values c x2, values c y2) ->
  point_addition_gate ca cd chk (x1, y1) (x2, y2) c = Ok (x3, y3, c') -> honest c' <-> honest c.
Proof.
  intros W C H1 H2 H. apply point_addition_inv in H; auto. cbv zeta in H. destruct H as [[L1 [L2 [L3 L4]]] [N [EX [EY [_ [_ [E [V0 [V1 V2]]]]]]]]].
  rewrite (honest_ext ca cd _ _ _ W E). split; [tauto|]. intros HC. split; auto. rewrite V0, V1, V2.
  rewrite !(ext_vals _ _ _ _ _ E) by auto. split; auto. rewrite <- surjective_pairing. apply te_add_rel; auto.
Qed.
End PlonkPoint.

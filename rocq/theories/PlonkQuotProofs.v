(** PlonkQuotProofs.v: the quotient polynomial of plonk-core. *)
From Verif Require Import Base Spec Tools ToolsProofs KZG KZGSpec KZGProofs SoundSpec Sound ProdPoly Plonk PlonkSpec PlonkProver PlonkGP PlonkLookupSpec PlonkLookup4
  PlonkQuot PolyDom PlonkQuotSpec.
Local Open Scope F_scope.

Section PlonkQuotProofs.
Context {F : Type} {fo : FieldOps F} {fl : FieldLaws F} {po : PrimeFieldOps F} {pl : PrimeFieldLaws F}.
Add Field Fplonkquot : F_th.
Variables ca cd : F.

(** *** degrees *)
Section Deg.
Variables (n : nat) (omega : F).
Let m := Nat.max 1 (n - 1).
Definition deg (k : nat) (f : F -> F) : Prop := exists l, (length l <= 1 + k * m)%nat /\ forall x, peval l x = f x.
Lemma deg_const c : deg 0 (fun _ => c).
Proof. exists [c]. split; [cbn; lia|]. intros x. cbn. ring. Qed.
Lemma deg_x : deg 1 (fun x => x).
Proof. exists [0; 1]. split; [cbn [length]; unfold m; lia|]. intros x. cbn. ring. Qed.
Lemma deg_poly l : (length l <= n)%nat -> deg 1 (fun x => peval l x).
Proof. exists l. split; [unfold m; lia|reflexivity]. Qed.
Lemma scale_value (l : list F) a x : peval (map (fun i => coef l i * fpow a i) (seq 0 (length l))) x = peval l (x * a).
Proof.
  rewrite (peval_sumn _ _ (length l)) by (rewrite map_length, seq_length; auto). rewrite (peval_sumn l _ (length l)) by auto.
  apply sumn_ext. intros i Hi. unfold coef at 1. rewrite nth_map_seq by auto. rewrite Nat.add_0_l, fpow_mul_base. ring.
Qed.
Lemma deg_next l : (length l <= n)%nat -> deg 1 (fun x => peval l (x * omega)).
Proof.
  intros H. exists (map (fun i => coef l i * fpow omega i) (seq 0 (length l))). rewrite map_length, seq_length. split; [unfold m; lia|]. intros x. apply scale_value.
Qed.
Lemma deg_add a b f g : deg a f -> deg b g -> deg (Nat.max a b) (fun x => f x + g x).
Proof.
  intros [l [L V]] [l' [L' V']]. exists (padd l l'). rewrite padd_length. split.
  - apply Nat.max_lub; [etransitivity; [exact L|]|etransitivity; [exact L'|]]; apply le_n_S, Nat.mul_le_mono_r; lia.
  - intros x. now rewrite peval_padd, V, V'.
Qed.
Lemma deg_opp a f : deg a f -> deg a (fun x => - f x).
Proof. intros [l [L V]]. exists (pscale (- (1)) l). unfold pscale at 1. rewrite map_length. split; auto. intros x. rewrite peval_pscale, V. ring. Qed.
Lemma deg_ext a f g : (forall x, f x = g x) -> deg a f -> deg a g.
Proof. intros H [l [L V]]. exists l. split; auto. intros x. now rewrite V. Qed.
Lemma deg_sub a b f g : deg a f -> deg b g -> deg (Nat.max a b) (fun x => f x - g x).
Proof. intros Hf Hg. apply (deg_ext _ (fun x => f x + - g x)); [intros; ring|]. apply deg_add; auto. now apply deg_opp. Qed.
Lemma deg_mul a b f g : deg a f -> deg b g -> deg (a + b) (fun x => f x * g x).
Proof.
  intros [l [L V]] [l' [L' V']]. exists (pmul l l'). split; [|intros x; now rewrite peval_pmul, V, V'].
  destruct l as [|u l]; [cbn; lia|]. destruct l' as [|u' l'].
  - assert (forall q : list F, (length (pmul q []) <= length q)%nat) as X.
    { clear - fl. induction q as [|v q IH]; cbn [pmul length]; [auto|]. rewrite padd_length. unfold pscale. cbn [map length]. lia. }
    specialize (X (u :: l)). cbn [length] in *. nia.
  - rewrite pmul_length by discriminate. cbn [length] in *. nia.
Qed.
Lemma deg_pow a f : deg a f -> forall k, deg (k * a) (fun x => fpow (f x) k).
Proof. intros H. induction k as [|k IH]; cbn [fpow]; [apply deg_const|]. now apply deg_mul. Qed.
Lemma deg_le a b f : (a <= b)%nat -> deg a f -> deg b f.
Proof. intros H [l [L V]]. exists l. split; auto. etransitivity; [exact L|]. apply le_n_S, Nat.mul_le_mono_r. auto. Qed.
End Deg.

Ltac degs := repeat first [ apply deg_const | apply deg_x | (apply deg_poly; assumption) | (apply deg_next; assumption)
  | apply deg_add | apply deg_sub | apply deg_opp | apply deg_mul | apply deg_pow ].

(** the value of the numerator when the compression factor is neither 0 nor 1 *)
Definition lookup_value (ch : chal F) (p : point F) : F :=
  let dl := ch_delta ch in let eps := ch_eps ch in let sep := ch_lookup ch in let v := p_v p in
  q_lookup (p_sel p) * (combined (ch_zeta ch) (v_a v, v_b v, v_c v, v_d v) - p_f p) * sep
  + p_z2 p * (dl + 1) * (eps + p_f p) * (eps * (dl + 1) + p_t p + dl * p_t' p) * (sep * sep)
  + - p_z2' p * (eps * (dl + 1) + p_h1 p + dl * p_h2 p) * (eps * (dl + 1) + p_h2 p + dl * p_h1' p) * (sep * sep)
  + (p_z2 p - 1) * p_l1 p * (sep * sep * sep).
Definition perm_value (ch : chal F) (p : point F) : F :=
  permutation_term (ch_alpha ch) (ch_beta ch) (ch_gamma ch) (p_x p) (p_l1 p) (p_v p)
          (p_sl p) (p_sr p) (p_so p) (p_sf p) (p_z p) (p_z' p).
Definition num_value (ch : chal F) (p : point F) : F :=
  gate_term ca cd (ch_seps ch) (p_sel p) (p_pi p) (p_v p) + perm_value ch p + lookup_value ch p.
Lemma numerator_ok ch p : ch_zeta ch <> 0 -> ch_zeta ch <> 1 -> numerator ca cd ch p = Ok (num_value ch p).
Proof. intros N0 N1. unfold numerator, lookup_term. rewrite lc4 by auto. reflexivity. Qed.
Lemma numerator_panic ch p : ch_zeta ch = 0 \/ ch_zeta ch = 1 -> numerator ca cd ch p = Panic.
Proof. intros N. unfold numerator, lookup_term. rewrite lc4_panic by auto. reflexivity. Qed.
Lemma numerator_value ch p y : numerator ca cd ch p = Ok y -> y = num_value ch p /\ ch_zeta ch <> 0 /\ ch_zeta ch <> 1.
Proof.
  intros H. destruct (feq_dec (ch_zeta ch) 0) as [E|N0]; [rewrite numerator_panic in H by auto; discriminate|].
  destruct (feq_dec (ch_zeta ch) 1) as [E|N1]; [rewrite numerator_panic in H by auto; discriminate|]. rewrite numerator_ok in H by auto. injection H as <-. auto.
Qed.
Lemma l1_length omega n : length (l1_poly omega n) = n. Proof. apply ifft_length. Qed.
Lemma num_poly_deg omega n m ch k P : (0 < n <= m)%nat -> key_sized m k -> polys_sized m P ->
  exists l, (length l <= 9 * m)%nat /\ forall x, peval l x = num_value ch (point_at omega n k P x).
Proof.
  intros Hn [[K1 [K2 [K3 [K4 [K5 [K6 [K7 [K8 [K9 [K10 [K11 [K12 [K13 [K14 K15]]]]]]]]]]]]]] KS] [W [H1 [H2 [H3 [H4 [H5 [H6 H7]]]]]]].
  pose proof (W Left). pose proof (W Right). pose proof (W Output). pose proof (W Fourth). pose proof (KS Left). pose proof (KS Right). pose proof (KS Output). pose proof (KS Fourth).
  pose proof (l1_length omega n) as L1. assert (length (l1_poly omega n) <= m)%nat as L1' by lia. clear L1.
  assert (deg m 7 (fun x => num_value ch (point_at omega n k P x))) as [l [L V]].
  { eapply deg_le; [|unfold num_value, gate_term, perm_value, lookup_value, permutation_term, arithmetic_term, range_constraints, logic_constraints, fixed_constraints, var_constraints,
      delta_xor_and, delta4, combined, point_at, sel_map; cbv zeta;
      cbn [p_x p_l1 p_sel p_pi p_v p_sl p_sr p_so p_sf p_z p_z' p_f p_t p_t' p_h1 p_h1' p_h2 p_z2 p_z2' v_a v_b v_c v_d v_a' v_b' v_d'
           q_m q_l q_r q_o q_4 q_c q_hl q_hr q_h4 q_arith q_range q_logic q_fixed q_var q_lookup]; degs].
    vm_compute. lia. }
  exists l. split; auto. destruct (Nat.eq_dec m 1) as [->|]; [cbn in L; lia|]. rewrite Nat.max_r in L by lia. lia.
Qed.
Lemma num_poly omega n ch k P : (0 < n)%nat -> key_sized n k -> polys_sized n P ->
  exists l, (length l <= 9 * n)%nat /\ forall x, peval l x = num_value ch (point_at omega n k P x).
Proof. intros Hn. apply num_poly_deg. lia. Qed.

(** *** the quotient *)
Lemma coset_fft_nth g eta m l i : (i < m)%nat -> nth i (coset_fft g eta m l) 0 = peval l (g * fpow eta i).
Proof. intros H. unfold coset_fft. rewrite nth_map_seq by auto. reflexivity. Qed.
Lemma coset_next g eta m l i : (8 <= m)%nat -> fpow eta m = 1 -> (i < m)%nat ->
  nth (i + 8) (coset_fft g eta m l ++ firstn 8 (coset_fft g eta m l)) 0 = peval l (g * fpow eta i * fpow eta 8).
Proof.
  intros Hm E Hi. assert (length (coset_fft g eta m l) = m) as L by (unfold coset_fft; now rewrite map_length, seq_length).
  replace (g * fpow eta i * fpow eta 8) with (g * fpow eta (i + 8)) by (rewrite fpow_add; ring).
  destruct (Nat.lt_ge_cases (i + 8) m) as [H|H].
  - rewrite app_nth1 by lia. now apply coset_fft_nth.
  - rewrite app_nth2 by lia. rewrite L. rewrite <- (firstn_skipn 8 (coset_fft g eta m l)) at 1.
    assert (forall (a : list F) j, (j < 8)%nat -> nth j (firstn 8 (firstn 8 a ++ skipn 8 a)) 0 = nth j a 0) as X.
    { intros a j Hj. rewrite firstn_skipn. clear - Hj. revert a Hj. generalize 8%nat. intros q. revert j. induction q as [|q IH]; intros j a Hj; [lia|]. destruct a as [|y a]; [now destruct j|]. cbn. destruct j; auto. apply IH. lia. }
    rewrite X by lia. rewrite coset_fft_nth by lia. f_equal. f_equal. replace (i + 8)%nat with ((i + 8 - m) + m)%nat at 2 by lia. rewrite fpow_add, E. ring.
Qed.
Section Quot.
Variables (omega g eta : F) (n : nat).
Hypothesis Dn : domain_of omega n.
Hypothesis D8 : domain_of eta (8 * n).
Hypothesis E8 : fpow eta 8 = omega.
Hypothesis G0 : g <> 0.
Hypothesis G8 : fpow g (8 * n) <> 1.

Lemma npos : (0 < n)%nat. Proof. apply Dn. Qed.
Lemma coset_nodup : NoDup (map (fun i => g * fpow eta i) (seq 0 (8 * n))).
Proof.
  rewrite <- (map_map (fpow eta) (fun y => g * y)). apply nodup_map_inj; [|apply D8]. intros x y _ _ H. now apply fmul_cancel_l in H.
Qed.
Lemma vh_value i : v_h g eta n i = fpow (g * fpow eta i) n - 1.
Proof. unfold v_h. rewrite fpow_mul_base, <- fpow_mul, (Nat.mul_comm n i). reflexivity. Qed.
Lemma vh_neq i : v_h g eta n i <> 0.
Proof.
  rewrite vh_value. intros H. apply fsub_0_eq in H. apply (f_equal (fun y => fpow y 8)) in H. rewrite <- fpow_mul, fpow_1_l, (Nat.mul_comm n 8), fpow_mul_base in H.
  rewrite <- (fpow_mul eta i), (Nat.mul_comm i), (fpow_mul eta (8 * n)) in H. destruct D8 as [_ [E _]]. rewrite E, fpow_1_l in H. apply G8. rewrite <- H. ring.
Qed.
Lemma sel_map_ext (f h : list F -> F) (s : sel (list F)) : (forall l, f l = h l) -> sel_map f s = sel_map h s.
Proof. intros H. unfold sel_map. now rewrite !H. Qed.
(** the points of the coset *)
Lemma quotient_values ch k P : ch_zeta ch <> 0 -> ch_zeta ch <> 1 ->
  exists t, quotient ca cd omega g (Some eta) n ch k P = Ok t /\ length t = (8 * n)%nat /\
    forall i, (i < 8 * n)%nat -> let x := g * fpow eta i in num_value ch (point_at omega n k P x) = peval t x * (fpow x n - 1).
Proof.
  intros N0 N1. pose proof npos as Hn. unfold quotient. cbv zeta.
  match goal with |- context [lift (map_out ?f _)] => set (step := f) end.
  assert (forall i, (i < 8 * n)%nat -> step i = Ok (num_value ch (point_at omega n k P (g * fpow eta i)) * finv (v_h g eta n i))) as S1.
  { intros i Hi. unfold step. rewrite numerator_ok by auto. cbn [obind].
    assert (inverse (v_h g eta n i) = Some (finv (v_h g eta n i))) as ->.
    { unfold inverse, is_zero. destruct (feqb (v_h g eta n i) 0) eqn:Z; auto. apply feqb_eq in Z. now apply vh_neq in Z. }
    cbn [unwrap_opt obind]. f_equal. f_equal. f_equal. unfold point_at. destruct D8 as [_ [E1 _]]. rewrite <- E8.
    rewrite !coset_next by (auto; lia). rewrite !coset_fft_nth by auto. 
    f_equal; [cbn; ring|apply sel_map_ext; intros l; now apply coset_fft_nth]. }
  set (q := map (fun i => num_value ch (point_at omega n k P (g * fpow eta i)) * finv (v_h g eta n i)) (seq 0 (8 * n))).
  assert (map_out step (seq 0 (8 * n)) = Ok q) as EQ.
  { apply (proj2 (map_out_seq step (8 * n) q 0)). unfold q. rewrite map_length, seq_length. split; auto. intros i Hi. rewrite S1 by auto. now rewrite nth_map_seq by auto. }
  rewrite EQ. cbn [lift obind]. eexists. split; [reflexivity|]. split; [apply coset_ifft_length|]. intros i Hi. rewrite coset_ifft_value by auto.
  unfold q. rewrite nth_map_seq, Nat.add_0_l by auto. rewrite <- vh_value. pose proof (vh_neq i). field. auto.
Qed.
Lemma quotient_exact ch k P : key_sized n k -> polys_sized n P -> vanishes ca cd omega n ch k P ->
  exists t, quotient ca cd omega g (Some eta) n ch k P = Ok t /\ length t = (8 * n)%nat /\ divides ca cd omega n ch k P t.
Proof.
  intros HK HP HV. pose proof npos as Hn. pose proof (HV 0%nat Hn) as Z0. apply numerator_value in Z0. destruct Z0 as [_ [N0 N1]].
  destruct (quotient_values ch k P N0 N1) as [t [E [L V]]]. exists t. split; [exact E|]. split; [exact L|].
  destruct (num_poly omega n ch k P Hn HK HP) as [l [Ll Vl]].
  destruct (divide_domain omega n l Dn) as [q [Lq Vq]].
  { intros i Hi. rewrite Vl. specialize (HV i Hi). rewrite numerator_ok in HV by auto. now injection HV. }
  assert (forall x, peval t x = peval q x) as A.
  { apply (poly_agree (8 * n) t q (map (fun i => g * fpow eta i) (seq 0 (8 * n)))); try lia.
    - apply coset_nodup.
    - rewrite map_length, seq_length. lia.
    - intros x Hx. apply in_map_iff in Hx. destruct Hx as [i [<- Hi]]. apply in_seq in Hi. specialize (V i ltac:(lia)). cbv zeta in V. rewrite <- Vl, Vq in V.
      rewrite <- vh_value in V. pose proof (vh_neq i) as NZ. apply fmul_cancel_l with (a := v_h g eta n i); auto.
      transitivity (peval t (g * fpow eta i) * v_h g eta n i); [ring|]. rewrite <- V. ring. }
  intros x. rewrite numerator_ok by auto. f_equal. rewrite <- Vl, Vq, A. reflexivity.
Qed.
End Quot.
(** a numerator that does not vanish on the domain is different from every multiple at all but 9 m points *)
Lemma quotient_unsound omega n m ch k P t : domain_of omega n -> (n <= m)%nat -> key_sized m k -> polys_sized m P -> (length t <= 8 * m)%nat ->
  ~ vanishes ca cd omega n ch k P -> most (9 * m) (fun x => numerator ca cd ch (point_at omega n k P x) <> Ok (peval t x * (fpow x n - 1))).
Proof.
  intros D Hnm HK HP Lt NV. assert (0 < n)%nat as Hn by apply D.
  destruct (feq_dec (ch_zeta ch) 0) as [E|N0].
  { apply (most_intro _ (fun _ => False)); auto. { apply (cnt_weaken 0 (9 * m) (fun _ => False)); [lia|auto|apply cnt_false; tauto]. } intros x _. rewrite numerator_panic by auto. discriminate. }
  destruct (feq_dec (ch_zeta ch) 1) as [E|N1].
  { apply (most_intro _ (fun _ => False)); auto. { apply (cnt_weaken 0 (9 * m) (fun _ => False)); [lia|auto|apply cnt_false; tauto]. } intros x _. rewrite numerator_panic by auto. discriminate. }
  destruct (num_poly_deg omega n m ch k P (conj Hn Hnm) HK HP) as [l [Ll Vl]].
  set (xn := (- (1) : F) :: repeat 0 (n - 1) ++ [1]).
  assert (forall y, peval xn y = fpow y n - 1) as V.
  { intros y. unfold xn. cbn [peval]. rewrite peval_app, peval_repeat0, repeat_length. cbn [peval]. replace n with (S (n - 1)) at 2 by lia. cbn [fpow]. ring. }
  assert (length xn = S n) as L by (unfold xn; cbn [length]; rewrite app_length, repeat_length; cbn; lia).
  assert (exists tx, (length tx <= 9 * m + 1)%nat /\ forall y, peval tx y = peval t y * (fpow y n - 1)) as [tx [Ltx Vtx]].
  { destruct t as [|u t]; [exists []; split; [cbn; lia|intros y; cbn; ring]|]. exists (pmul (u :: t) xn). split; [|intros y; now rewrite peval_pmul, V].
    rewrite pmul_length by discriminate. lia. }
  set (d := padd l (pscale (- (1)) tx)).
  assert (forall y, peval d y = num_value ch (point_at omega n k P y) - peval t y * (fpow y n - 1)) as Vd by (intros y; unfold d; rewrite peval_padd, peval_pscale, Vl, Vtx; ring).
  assert (length d <= 9 * m + 1)%nat as Ld by (unfold d; rewrite padd_length; unfold pscale; rewrite map_length; lia).
  apply (most_intro _ (fun x => (exists i, coef d i <> 0) /\ peval d x = 0)).
  - now apply cnt_roots.
  - intros x. apply dec_roots.
  - intros x NB E. rewrite numerator_ok in E by auto. injection E as E. apply NB.
    destruct (nonzero_dec d) as [NZ|Z]; [split; auto; rewrite Vd, E; ring|]. exfalso. apply NV. intros i Hi. rewrite numerator_ok by auto. f_equal.
    pose proof (peval_over d (fpow omega i) Z) as Y. rewrite Vd in Y. apply fsub_0_eq in Y. rewrite Y. rewrite <- fpow_mul, Nat.mul_comm, fpow_mul. destruct D as [_ [-> _]]. rewrite fpow_1_l. ring.
Qed.
End PlonkQuotProofs.

(** RCSound.v: soundness of the range-check argument, round by round. *)
From Verif Require Import Base Spec Tools ToolsProofs ToolsProofs2 KZG KZGSpec KZGProofs Snark Laurent Laurent2 SnarkProofs
  SnarkPerm Properties_KZG PovPEConst RC RCProofs SoundSpec Sound KZGSound PovSound PartFrac R1Sound RCSoundSpec.
Local Open Scope F_scope.

Section LogDeriv.
Context {F : Type} {fo : FieldOps F} {fl : FieldLaws F}.
Add Field Frcs : F_th.

(** the weight that the list gives to the value v *)
Definition weight (n : nat) (xs c : nat -> F) (v : F) : F := sumn n (fun j => if feq_dec (xs j) v then c j else 0).
(** a weighted sum over a list, grouped by values *)
Lemma regroup n (xs c : nat -> F) (g : F -> F) L : NoDup L -> (forall j, (j < n)%nat -> In (xs j) L) ->
  sumn n (fun j => c j * g (xs j)) = sumn (length L) (fun i => g (nth i L 0) * weight n xs c (nth i L 0)).
Proof.
  intros ND HI. unfold weight.
  rewrite (sumn_ext (length L) _ (fun i => sumn n (fun j => if feq_dec (xs j) (nth i L 0) then c j * g (xs j) else 0))).
  2:{ intros i Hi. rewrite <- sumn_mul_l. apply sumn_ext. intros j Hj. destruct (feq_dec (xs j) (nth i L 0)) as [->|]; ring. }
  rewrite sumn_swap. apply sumn_ext. intros j Hj.
  destruct (In_nth _ _ 0 (HI j Hj)) as [k [Hk Ek]].
  rewrite (sumn_single _ k); [|auto|].
  - destruct (feq_dec (xs j) (nth k L 0)); congruence.
  - intros i Hi Hne. destruct (feq_dec (xs j) (nth i L 0)) as [E|]; auto.
    exfalso. apply Hne. apply (proj1 (NoDup_nth L 0) ND i k Hi Hk). congruence.
Qed.

Section One.
Variables (n m : nat) (ws ts ms : nat -> F).
Definition ld_values : list F := nodup feq_dec (map ws (seq 0 n) ++ map ts (seq 0 m)).
Definition ld_pole (i : nat) : F := - nth i ld_values 0.
Definition ld_num (i : nat) : F :=
  weight n ws (fun _ => 1) (nth i ld_values 0) - weight m ts ms (nth i ld_values 0).
Lemma ld_len : (length ld_values <= n + m)%nat.
Proof.
  assert (incl ld_values (map ws (seq 0 n) ++ map ts (seq 0 m))) as I by (intros x; unfold ld_values; now rewrite nodup_In).
  apply NoDup_incl_length in I; [|apply NoDup_nodup]. now rewrite app_length, !map_length, !seq_length in I.
Qed.
Lemma ld_in_w j : (j < n)%nat -> In (ws j) ld_values.
Proof. intros Hj. unfold ld_values. rewrite nodup_In, in_app_iff. left. apply in_map, in_seq. lia. Qed.
Lemma ld_in_t j : (j < m)%nat -> In (ts j) ld_values.
Proof. intros Hj. unfold ld_values. rewrite nodup_In, in_app_iff. right. apply in_map, in_seq. lia. Qed.
Lemma ld_in v : In v ld_values -> (exists j, (j < n)%nat /\ v = ws j) \/ (exists j, (j < m)%nat /\ v = ts j).
Proof.
  unfold ld_values. rewrite nodup_In, in_app_iff, !in_map_iff. intros [[j [<- Hj]]|[j [<- Hj]]]; apply in_seq in Hj; [left|right]; exists j; split; auto; lia.
Qed.
Lemma ld_distinct i k : (i < length ld_values)%nat -> (k < length ld_values)%nat -> ld_pole i = ld_pole k -> i = k.
Proof.
  intros Hi Hk E. apply (proj1 (NoDup_nth ld_values 0) (NoDup_nodup _ _) i k Hi Hk).
  unfold ld_pole in E. transitivity (- - nth i ld_values 0); [ring|rewrite E; ring].
Qed.
(** values of beta for which the two sums of fractions may agree by accident *)
Definition ld_bad (b : F) : Prop :=
  (exists i, (i < m)%nat /\ b = - ts i) \/ bad_frac ld_pole ld_num (length ld_values) b.
Lemma dec_ld_bad b : ld_bad b \/ ~ ld_bad b.
Proof.
  destruct (dec_ex m (fun i => b = - ts i)) as [Q|Q]; [intros i _; destruct (feq_dec b (- ts i)); auto|now left; left|].
  destruct (dec_bad_frac ld_pole ld_num (length ld_values) b) as [Q'|Q']; [now left; right|right; intros [?|?]; auto].
Qed.
Lemma cnt_ld_bad : cnt (n + 2 * m) ld_bad.
Proof.
  apply (cnt_weaken (m * 1 + length ld_values) _ ld_bad); [pose proof ld_len; lia|auto|].
  apply cnt_or.
  - intros x. apply dec_ex. intros i _. destruct (feq_dec x (- ts i)); auto.
  - apply (cnt_ex m 1 (fun i x => x = - ts i)); [intros i x _; destruct (feq_dec x (- ts i)); auto|intros; apply cnt_eq].
  - apply cnt_bad_frac, ld_distinct.
Qed.
(** if the sums of fractions agree at a good beta, the weights agree *)
Lemma ld_weights b : ~ ld_bad b -> (forall j, (j < n)%nat -> ws j + b <> 0) ->
  sumn n (fun j => finv (ws j + b)) = sumn m (fun j => ms j * finv (ts j + b)) ->
  forall j, (j < n)%nat -> weight n ws (fun _ => 1) (ws j) = weight m ts ms (ws j).
Proof.
  intros NB HW E j Hj.
  assert (forall i, (i < length ld_values)%nat -> ld_num i = 0) as HA.
  { intros i Hi. destruct (feq_dec (ld_num i) 0) as [|Q]; auto. exfalso. apply NB. right. split; [eauto|].
    assert (forall i, (i < length ld_values)%nat -> b <> ld_pole i) as HP.
    { intros k Hk Eb. destruct (ld_in (nth k ld_values 0)) as [[j' [Hj' E']]|[j' [Hj' E']]]; [now apply nth_In| |].
      - apply (HW j' Hj'). rewrite <- E', Eb. unfold ld_pole. ring.
      - apply NB. left. exists j'. split; auto. rewrite <- E'. exact Eb. }
    split; auto.
    rewrite (sumn_ext _ _ (fun k => finv (nth k ld_values 0 + b) * weight n ws (fun _ => 1) (nth k ld_values 0)
      - finv (nth k ld_values 0 + b) * weight m ts ms (nth k ld_values 0))).
    2:{ intros k Hk. unfold ld_num, ld_pole. replace (b - - nth k ld_values 0) with (nth k ld_values 0 + b) by ring. ring. }
    rewrite sumn_sub.
    rewrite <- (regroup n ws (fun _ => 1) (fun v => finv (v + b)) ld_values), <- (regroup m ts ms (fun v => finv (v + b)) ld_values);
      [|apply NoDup_nodup|apply ld_in_t|apply NoDup_nodup|apply ld_in_w].
    rewrite <- E. rewrite (sumn_ext n (fun j => 1 * finv (ws j + b)) (fun j => finv (ws j + b))) by (intros; ring). ring. }
  destruct (In_nth _ _ 0 (ld_in_w j Hj)) as [k [Hk Ek]]. specialize (HA k Hk). unfold ld_num in HA. rewrite Ek in HA. now apply fsub_0_eq.
Qed.
End One.
End LogDeriv.

Section Count.
Context {F : Type} {fo : FieldOps F} {fl : FieldLaws F} {pf : PrimeFieldOps F} {pl : PrimeFieldLaws F}.
Add Field Frcc : F_th.
Lemma weight_count n (ws : nat -> F) v : exists k, (k <= n)%nat /\ weight n ws (fun _ => 1) v = from_Z (Z.of_nat k) /\
  ((exists j, (j < n)%nat /\ ws j = v) -> (1 <= k)%nat).
Proof.
  induction n as [|n IH].
  - exists 0%nat. split; auto. split; [unfold weight; cbn [sumn]; now rewrite from_Z_0|]. intros [j [Hj _]]. lia.
  - destruct IH as [k [Hk [E HE]]]. unfold weight in *. cbn [sumn]. rewrite E. destruct (feq_dec (ws n) v) as [Q|Q].
    + exists (S k). split; [lia|]. split; [|lia]. replace (Z.of_nat (S k)) with (Z.of_nat k + 1)%Z by lia.
      now rewrite from_Z_add, from_Z_1.
    + exists k. split; [lia|]. split; [ring|]. intros [j [Hj Ej]]. destruct (Nat.eq_dec j n) as [->|]; [congruence|]. apply HE. exists j. split; auto; lia.
Qed.
Lemma from_Z_nz k : (1 <= k)%nat -> (Z.of_nat k < modulus (F:=F))%Z -> from_Z (Z.of_nat k) <> (0 : F).
Proof.
  intros H1 H2 E. assert (to_Z (from_Z (Z.of_nat k) : F) = to_Z (0 : F)) as E' by now rewrite E.
  rewrite <- from_Z_0, !to_from_Z, Z.mod_small, Z.mod_0_l in E' by lia. lia.
Qed.
(** every value occurs in the table *)
Lemma ld_member n m (ws ts ms : nat -> F) b : (Z.of_nat n < modulus (F:=F))%Z -> ~ ld_bad n m ws ts ms b -> (forall j, (j < n)%nat -> ws j + b <> 0) ->
  sumn n (fun j => finv (ws j + b)) = sumn m (fun j => ms j * finv (ts j + b)) ->
  forall j, (j < n)%nat -> exists i, (i < m)%nat /\ ws j = ts i.
Proof.
  intros Hp NB HW E j Hj. pose proof (ld_weights n m ws ts ms b NB HW E j Hj) as EW.
  destruct (dec_ex m (fun i => ws j = ts i)) as [Q|Q]; auto. { intros i _. destruct (feq_dec (ws j) (ts i)); auto. }
  exfalso. destruct (weight_count n ws (ws j)) as [k [Hk [Ek HE]]].
  specialize (HE (ex_intro _ j (conj Hj eq_refl))).
  apply (from_Z_nz k); [auto|lia|]. rewrite <- Ek, EW. unfold weight. apply sumn_0. intros i Hi.
  destruct (feq_dec (ts i) (ws j)) as [E'|]; auto. exfalso. apply Q. eauto.
Qed.
End Count.

Section RCSoundB.
Context {F G1 G2 GT : Type} {fo : FieldOps F} {fl : FieldLaws F} {pf : PrimeFieldOps F} {pl : PrimeFieldLaws F}
        {po : PairingOps F G1 G2 GT} {pa : PairingLaws F G1 G2 GT}.
Add Field Frcb : F_th.

(** the polynomial that [index] commits to: the table, moved up when it is shorter than the lookups *)
Definition rc_tab (cs : rc_cs) : list F := map (fun j => from_Z (Z.of_nat j)) (seq 0 (rc_range_size cs)).
Definition rc_tpoly (cs : rc_cs) : list F := repeat 0 (rc_lookup_size cs - rc_range_size cs) ++ rc_tab cs.
Lemma rc_tab_length cs : length (rc_tab cs) = rc_range_size cs.
Proof. unfold rc_tab. now rewrite map_length, seq_length. Qed.
Lemma rc_table_inv i k l : rc_table i k = Ok l -> l = map (fun j => from_Z (i + Z.of_nat j)) (seq 0 k).
Proof.
  revert i l. induction k as [|k IH]; intros i l E; cbn [rc_table] in E.
  - now injection E as <-.
  - apply obind_ok in E. destruct E as [x [E1 E]]. apply obind_ok in E. destruct E as [r [E2 E]]. injection E as <-.
    unfold to_field in E1. destruct (i <? modulus)%Z; [|discriminate]. injection E1 as <-.
    apply IH in E2. cbn [seq map]. f_equal; [f_equal; lia|]. rewrite E2, <- seq_shift, map_map. apply map_ext. intros j. f_equal. lia.
Qed.
Record rc_keys (d : nat) (tau : F) (g : G1) (h : G2) (cs : rc_cs) (pk : rc_pk F G1 G2) (vk : rc_vk G1 G2) : Prop := {
  rck_vk : rc_pk_verifier_key pk = vk;
  rck_pow : rc_pk_powers pk = srs (d + 1) tau g;
  rck_kzg : rc_vk_kzg_vk vk = vk_for tau g h;
  rck_size : rc_vk_size vk = cs;
  rck_bound : rc_vk_degree_bound vk = (d + 1)%nat;
  rck_t : rc_pk_t pk = rc_tab cs;
  rck_cm : rc_vk_cm_t_vec vk = vscale (peval (rc_tpoly cs) tau) g;
  rck_rg : (1 <= rc_range_size cs)%nat;
  rck_d : (Nat.max (rc_lookup_size cs) (rc_range_size cs) <= d)%nat }.
Lemma rc_index_inv d tau (g : G1) (h : G2) pp cs pk vk : setup d tau g h = Ok pp ->
  rc_index pp cs = Ok (pk, vk) -> rc_keys d tau g h cs pk vk.
Proof.
  intros Hs Hi. destruct (kzg_vk_setup d tau g h pp Hs) as [Hd [Hp Hv]].
  unfold rc_index in Hi. rewrite Hp, Hv, srs_length in Hi. cbn zeta in Hi.
  destruct (Nat.ltb_spec (rc_get_max_degree cs) (d + 1)) as [Hm|]; [|discriminate].
  cbn [assert_ obind] in Hi. apply obind_ok in Hi. destruct Hi as [t [Et Hi]]. apply rc_table_inv in Et.
  change t with (id t) in Et. assert (t = rc_tab cs) as -> by (rewrite <- (eq_refl : id t = t), Et; reflexivity). clear Et.
  apply obind_ok in Hi. destruct Hi as [c [Ec Hi]]. apply commit_vector_inv in Ec. rewrite rc_tab_length in Ec.
  destruct Ec as [_ [H1 [H2 ->]]]. injection Hi as <- <-. unfold rc_get_max_degree in Hm.
  split; auto; cbn [rc_vk_cm_t_vec]; try lia.
  unfold rc_tpoly. rewrite peval_app, peval_repeat0, repeat_length. f_equal.
  assert (voffset (rc_tab cs) (Z.of_nat (rc_lookup_size cs)) = (rc_lookup_size cs - rc_range_size cs)%nat) as ->; [|ring].
  unfold voffset. rewrite rc_tab_length, Nat2Z.id. destruct (Nat.ltb_spec (rc_lookup_size cs) (rc_range_size cs)); lia.
Qed.

Lemma rc_divisors_cases (q : rc_ctx F) :
  (rc_divisors q = Ok tt /\ rc_q_z q <> 0 /\ rc_q_z q <> 1 /\ rc_q_omega q <> rc_q_z q) \/
  (rc_divisors q = Panic /\ (rc_q_z q = 0 \/ rc_q_z q = 1 \/ rc_q_omega q = rc_q_z q)).
Proof.
  unfold rc_divisors. generalize (rc_q_z q), (rc_q_omega q). intros z om.
  destruct (feq_dec z 0) as [->|Hz]; [right; rewrite nonzero_panic; auto|].
  rewrite (nonzero_ok z) by auto. cbn [obind].
  destruct (feq_dec om z) as [->|Ho].
  { right. split; auto. replace ((z - 1 * z) * (1 - z)) with (0 : F) by ring. now rewrite nonzero_panic. }
  destruct (feq_dec z 1) as [->|H1].
  { right. split; auto. replace ((om - 1 * 1) * (1 - 1)) with (0 : F) by ring. now rewrite nonzero_panic. }
  assert (om - 1 * z <> 0) as N1 by (intros E; apply Ho, fsub_0_eq; rewrite <- E; ring).
  assert (1 - z <> 0) as N2 by (intros E; apply H1; symmetry; apply fsub_0_eq; exact E).
  left. rewrite !nonzero_ok by auto using fmul_neq_0. auto.
Qed.

(** the constraint for power j of alpha at position i *)
Definition rc_kk (e : rc_s5 F) (i : Z) (j : nat) : F :=
  match j with 0 => rc_k0 e i | 1 => rc_k1 e i | 2 => rc_k2 e i | _ => rc_k3 e i end.
Definition rc_bad_alpha (N : nat) (e : rc_s5 F) (al : F) : Prop :=
  exists i, (i < N)%nat /\ (exists j, (j < 4)%nat /\ rc_kk e (1 + Z.of_nat i) j <> 0) /\
    sumn 4 (fun j => fpow al j * rc_kk e (1 + Z.of_nat i) j) = 0.
Lemma dec_rc_bad_alpha N e al : rc_bad_alpha N e al \/ ~ rc_bad_alpha N e al.
Proof. apply dec_ex. intros i _. apply dec_sumn. destruct (feq_dec (sumn 4 (fun j => fpow al j * rc_kk e (1 + Z.of_nat i) j)) 0); auto. Qed.
Lemma cnt_rc_bad_alpha N e : cnt (N * 3) (rc_bad_alpha N e).
Proof.
  apply (cnt_ex N 3 (fun i al => (exists j, (j < 4)%nat /\ rc_kk e (1 + Z.of_nat i) j <> 0) /\ sumn 4 (fun j => fpow al j * rc_kk e (1 + Z.of_nat i) j) = 0)).
  - intros i al _. apply dec_sumn. destruct (feq_dec (sumn 4 (fun j => fpow al j * rc_kk e (1 + Z.of_nat i) j)) 0); auto.
  - intros i _. apply (cnt_sumn 4 (rc_kk e (1 + Z.of_nat i))).
Qed.

(** the polynomial behind the combined commitment *)
Definition rc_pg (e : rc_s5 F) (q : rc_ctx F) (ph1 ph2 : list F) : list F :=
  (padd (pscale (rc_v_c_14 q) (rc_w_vec e))
  (padd (pscale (rc_v_c_19 q) (rc_pk_t_vec e))
  (padd (pscale (rc_v_c_25 q) (rc_r_vec_tilde e))
  (padd (pscale (rc_v_c_28 q) (rc_t_vec_1 e))
  (padd (pscale (rc_v_c_29 q) ph1)
  (padd (pscale (rc_v_c_30 q) ph2)
  [rc_v_c_15 q])))))).
Lemma rc_pg_value e q ph1 ph2 x : peval (rc_pg e q ph1 ph2) x =
  rc_v_c_14 q * peval (rc_w_vec e) x + rc_v_c_19 q * peval (rc_pk_t_vec e) x + rc_v_c_25 q * peval (rc_r_vec_tilde e) x
  + rc_v_c_28 q * peval (rc_t_vec_1 e) x + rc_v_c_29 q * peval ph1 x + rc_v_c_30 q * peval ph2 x + rc_v_c_15 q.
Proof. unfold rc_pg. rewrite !peval_padd, !peval_pscale. cbn [peval]. ring. Qed.

Section Main.
Variables (d : nat) (cs : rc_cs).
Let ns := rc_lookup_size cs.
Let rg := rc_range_size cs.
Let nn := Nat.max ns rg.
Let tp := rc_tpoly cs.
Hypothesis Hns : (1 <= ns)%nat.
Hypothesis Hrg : (1 <= rg)%nat.
Hypothesis Hd : (nn <= d)%nat.
Hypothesis Hp : (Z.of_nat ns < modulus (F:=F))%Z.

Notation rc_accepts_with := (rc_accepts_with (G1:=G1) (G2:=G2) (GT:=GT) d cs).
Definition rc_spub : rc_pub := mkRCPub (Z.of_nat ns) (Z.of_nat rg) (Z.of_nat (d + 1)).
(** a run with the given vectors *)
Definition rc_se (pw pm pr ps prt pt1 : list F) beta alpha omega : rc_s5 F :=
  mkRCS5 (mkRCS4 (mkRCS3 (mkRCS2 (mkRCS1 rc_spub tp pw (pm ++ [0])) beta) (pr ++ [0]) (ps ++ [0]) 0) prt alpha) pt1 omega.

Lemma rc_accepts_batch pw pm pr ps prt pt1 ph1 ph2 pW pW1 beta alpha omega z y y1 y2 xi tau rnd :
  Forall (fun p => length p <= d + 1)%nat [pw; pm; pr; ps; prt; pt1; ph1; ph2; pW; pW1] ->
  rc_accepts_with pw pm pr ps prt pt1 ph1 ph2 pW pW1 beta alpha omega z y y1 y2 xi tau rnd ->
  let q := mkRCCtx rc_spub beta alpha omega z y y1 y2 in
  rc_divisors q = Ok tt /\ exists (g : G1) (h : G2) xi2, g <> v0 /\ h <> v0 /\
  batch_check (vk_for tau g h) (map (fun f => vscale (peval f tau) g) [pr; ps; pm])
    [vscale (peval (rc_pg (rc_se pw pm pr ps prt pt1 beta alpha omega) q ph1 ph2) tau) g] (omega / z) z xi xi2 [y; y1; y2] [0]
    (vscale (peval pW tau) g) (vscale (peval pW1 tau) g) rnd = true.
Proof.
  intros HLe [H [g [h0 [pp [pk [vk [cw [cm [cr [cc [crt [ct1 [ch1 [ch2 [cW [cW1 A]]]]]]]]]]]]]]]].
  destruct A as [Hg [Hh [Hs [Hi [C1 [C2 [C3 [C4 [C5 [C6 [C7 [C8 [C9 [C10 [E1 [E2 [E3 [E4 [E5 V]]]]]]]]]]]]]]]]]]].
  intros q. destruct (rc_index_inv _ _ _ _ _ _ _ _ Hs Hi) as [K1 K2 K3 K4 K5 K6 K7 _ _].
  destruct (kzg_vk_setup d tau g h0 pp Hs) as [_ [Hpp _]]. rewrite Hpp in *.
  rewrite Forall_forall in HLe.
  apply poly_commit in C1, C2, C3, C4, C5, C6, C7, C8, C9, C10; auto; try lia; try (apply HLe; cbn [In]; tauto).
  assert (rc_pub_of vk = rc_spub) as EP.
  { unfold rc_pub_of, rc_spub. rewrite K4, K5. reflexivity. }
  unfold rc_verify in V. cbn [rc_cm_w_vec rc_cm_m_vec rc_cm_r_vec rc_cm_s_vec rc_cm_r_vec_tilde rc_cm_t_vec_1 rc_cm_h_vec_1 rc_cm_h_vec_2 rc_pf_y rc_pf_y_1 rc_pf_y_2 rc_cap_w rc_cap_w_1] in V.
  rewrite EP, E1, E2, E3, E4 in V. fold q in V. apply obind_ok in V. destruct V as [[] [D V]]. split; [exact D|].
  rewrite EP in E5. fold q in E5. rewrite E5 in V.
  match type of V with (if ?b then _ else _) = _ => destruct b eqn:B; [clear V|discriminate] end.
  rewrite K3 in B. eexists g, h0, _. split; auto. split; auto. cbn [map].
  replace (vscale (peval (rc_pg (rc_se pw pm pr ps prt pt1 beta alpha omega) q ph1 ph2) tau) g) with (rc_v_cm_g vk q cw crt ct1 ch1 ch2).
  { rewrite <- C2, <- C3, <- C4, <- C9, <- C10. exact B. }
  rewrite rc_pg_value. unfold rc_v_cm_g. rewrite K3, K7. cbn [vk_g vk_for].
  pose proof (lin_comb_vscale g (rc_v_c_15 q)
    [(peval pw tau, rc_v_c_14 q); (peval tp tau, rc_v_c_19 q); (peval prt tau, rc_v_c_25 q); (peval pt1 tau, rc_v_c_28 q);
     (peval ph1 tau, rc_v_c_29 q); (peval ph2 tau, rc_v_c_30 q)]) as E. cbn [map fst snd] in E.
  rewrite <- C1, <- C5, <- C6, <- C7, <- C8 in E. unfold tp in E. rewrite E. f_equal.
  unfold rc_se, tp. cbn [rc_w_vec rc_m_vec rc_r_vec rc_s_vec rc_pk_t_vec rc_r_vec_tilde rc_t_vec_1 rc_s2_s1 rc_s3_s2 rc_s4_s3 rc_s5_s4]. cbn [fsum]. ring.
Qed.

(** what the constraints say about the committed values *)
Lemma rc_sat_holds pw pm pr ps prt beta : let e := rc_se pw pm pr ps prt [] beta 0 0 in
  ~ ld_bad ns rg (coef pw) (coef tp) (coef pm) beta ->
  (forall i, (i < nn)%nat -> forall j, (j < 4)%nat -> rc_kk e (1 + Z.of_nat i) j = 0) ->
  forall j, (j < ns)%nat -> exists i, (i < rg)%nat /\ coef pw j = coef tp i.
Proof.
  intros e NB HK.
  assert (rc_n e = Z.of_nat nn) as EN by (change (Z.max (Z.of_nat ns) (Z.of_nat rg) = Z.of_nat nn); unfold nn; lia).
  assert (forall i, vidx (rc_r_vec e) (1 + Z.of_nat i) = coef pr i) as Vr.
  { intros i. change (rc_r_vec e) with (pr ++ [0]). rewrite (vidx_coef _ _ i) by lia. apply coef_snoc0. }
  assert (forall i, vidx (rc_s_vec e) (1 + Z.of_nat i) = coef ps i) as Vs.
  { intros i. change (rc_s_vec e) with (ps ++ [0]). rewrite (vidx_coef _ _ i) by lia. apply coef_snoc0. }
  assert (forall i, vidx (rc_m_vec e) (1 + Z.of_nat i) = coef pm i) as Vm.
  { intros i. change (rc_m_vec e) with (pm ++ [0]). rewrite (vidx_coef _ _ i) by lia. apply coef_snoc0. }
  assert (forall j, (j < ns)%nat -> coef pw j + beta <> 0 /\ coef pr j = finv (coef pw j + beta)) as HR.
  { intros j Hj. apply prod_1. pose proof (HK j ltac:(unfold nn; lia) 0%nat ltac:(lia)) as K. cbn [rc_kk] in K. unfold rc_k0 in K.
    change (rc_nsize e) with (Z.of_nat ns) in K. rewrite range_in, Vr in K by lia.
    change (rc_w_vec e) with pw in K. rewrite (vidx_coef pw _ j) in K by lia. change (rc_beta e) with beta in K.
    apply fsub_0_eq. refine (eq_trans _ K). ring. }
  assert (forall j, (j < rg)%nat -> coef tp j + beta <> 0) as HT.
  { intros j Hj E. apply NB. left. exists j. split; auto. transitivity (coef tp j + beta - coef tp j); [ring|rewrite E; ring]. }
  assert (forall j, (j < rg)%nat -> coef ps j = coef pm j * finv (coef tp j + beta)) as HS.
  { intros j Hj. pose proof (HT j Hj) as NT. pose proof (HK j ltac:(unfold nn; lia) 1%nat ltac:(lia)) as K. cbn [rc_kk] in K. unfold rc_k1 in K.
    change (rc_range e) with (Z.of_nat rg) in K. rewrite range_in, Vs, Vm in K by lia.
    change (rc_pk_t_vec e) with tp in K. rewrite (vidx_coef tp _ j) in K by lia. change (rc_beta e) with beta in K.
    assert (coef pm j = coef ps j * (coef tp j + beta)) as ->; [|field; auto].
    symmetry. apply fsub_0_eq. refine (eq_trans _ K). ring. }
  assert (sumn ns (fun j => finv (coef pw j + beta)) = sumn rg (fun j => coef pm j * finv (coef tp j + beta))) as E.
  { set (f := fun i => vidx (rc_r_vec e) i * range_index 1 (rc_nsize e) i - vidx (rc_s_vec e) i * range_index 1 (rc_range e) i).
    assert (sumn nn (fun i => f (Z.of_nat (S i))) = 0) as E0.
    { rewrite (telescope f (vidx (rc_r_vec_tilde e)) nn).
      - pose proof (HK (nn - 1)%nat ltac:(unfold nn; lia) 3%nat ltac:(lia)) as K. cbn [rc_kk] in K. unfold rc_k3 in K.
        rewrite EN in K. replace (1 + Z.of_nat (nn - 1))%Z with (Z.of_nat nn) in K by (unfold nn; lia).
        unfold delta in K. rewrite Z.eqb_refl in K. refine (eq_trans _ K). ring.
      - apply vidx_out; lia.
      - intros i Hi. pose proof (HK (Z.to_nat (i - 1)) ltac:(lia) 2%nat ltac:(lia)) as K. cbn [rc_kk] in K. unfold rc_k2 in K.
        replace (1 + Z.of_nat (Z.to_nat (i - 1)))%Z with i in K by lia. rewrite EN, (range_in 1 (Z.of_nat nn)) in K by lia.
        apply fsub_0_eq. refine (eq_trans _ K). unfold f. ring. }
    rewrite (sumn_ext nn _ (fun j => (if (j <? ns)%nat then coef pr j else 0) - (if (j <? rg)%nat then coef ps j else 0))) in E0.
    2:{ intros j Hj. unfold f. replace (Z.of_nat (S j)) with (1 + Z.of_nat j)%Z by lia. rewrite Vr, Vs.
        change (rc_nsize e) with (Z.of_nat ns). change (rc_range e) with (Z.of_nat rg).
        destruct (Nat.ltb_spec j ns); [rewrite (range_in 1 (Z.of_nat ns)) by lia|rewrite (range_out 1 (Z.of_nat ns)) by lia];
        (destruct (Nat.ltb_spec j rg); [rewrite (range_in 1 (Z.of_nat rg)) by lia|rewrite (range_out 1 (Z.of_nat rg)) by lia]); ring. }
    rewrite sumn_sub in E0. apply fsub_0_eq in E0.
    assert (forall k (u : nat -> F), (k <= nn)%nat -> sumn nn (fun j => if (j <? k)%nat then u j else 0) = sumn k u) as TR.
    { intros k u Hk. replace nn with (k + (nn - k))%nat by lia. rewrite sumn_split, (sumn_0 (nn - k)).
      - rewrite (sumn_ext k _ u); [ring|]. intros i Hi. destruct (Nat.ltb_spec i k); [auto|lia].
      - intros i Hi. destruct (Nat.ltb_spec (k + i) k); [lia|auto]. }
    rewrite !TR in E0 by (unfold nn; lia).
    rewrite (sumn_ext ns _ (coef pr)) by (intros; symmetry; now apply HR).
    rewrite (sumn_ext rg (fun j => coef pm j * finv (coef tp j + beta)) (coef ps)) by (intros; symmetry; now apply HS). exact E0. }
  apply (ld_member ns rg (coef pw) (coef tp) (coef pm) beta); auto. intros j Hj. now apply HR.
Qed.

Lemma rc_sound pw pm : (length pw <= d + 1)%nat -> (length pm <= d + 1)%nat ->
  most (ns + 2 * rg) (fun beta => forall pr ps prt, (length pr <= d + 1)%nat -> (length ps <= d + 1)%nat -> (length prt <= d + 1)%nat ->
  most (3 * nn) (fun alpha => forall pt1, (length pt1 <= d + 1)%nat ->
  most (d + 2) (fun omega =>
  forall ph1 ph2, (length ph1 <= d + 1)%nat -> (length ph2 <= d + 1)%nat ->
  most (2 * (d + 2)) (fun z => forall y y1 y2, most 2 (fun xi =>
  forall pW pW1, (length pW <= d + 1)%nat -> (length pW1 <= d + 1)%nat -> most (2 * (d + 1)) (fun tau => most 1 (fun rnd =>
  rc_accepts_with pw pm pr ps prt pt1 ph1 ph2 pW pW1 beta alpha omega z y y1 y2 xi tau rnd ->
  forall j, (j < ns)%nat -> exists i, (i < rg)%nat /\ coef pw j = coef tp i))))))).
Proof.
  intros Lpw Lpm.
  assert (length tp = nn) as Ltp by (unfold tp, rc_tpoly; rewrite app_length, repeat_length, rc_tab_length; fold ns rg; unfold nn; lia).
  apply (most_intro _ (ld_bad ns rg (coef pw) (coef tp) (coef pm))); [apply cnt_ld_bad|apply dec_ld_bad|].
  intros beta Nb pr ps prt Lpr Lps Lprt. set (e0 := rc_se pw pm pr ps prt [] beta 0 0).
  apply (most_intro _ (rc_bad_alpha nn e0)).
  { replace (3 * nn)%nat with (nn * 3)%nat by lia. apply cnt_rc_bad_alpha. }
  { apply dec_rc_bad_alpha. }
  intros alpha Na pt1 Lt. set (e1 := rc_se pw pm pr ps prt pt1 beta alpha 0).
  set (N := (d + 2)%nat).
  apply (most_intro _ (fun om => om = 0 \/ (exists i, (i < N)%nat /\ rc_br e1 (1 + Z.of_nat i) <> 0) /\
    sumZ 1 N (fun i => fpowZ om (i - 1) * rc_br e1 i) = 0)).
  { apply (cnt_weaken (1 + (N - 1)) (d + 2) _ _ ltac:(unfold N; lia) (fun _ q => q)). apply cnt_or; [intros om; destruct (feq_dec om 0); auto|apply cnt_eq|apply cnt_CT]. }
  { intros om. destruct (feq_dec om 0) as [|Q0]; [tauto|].
    destruct (dec_ex N (fun i => rc_br e1 (1 + Z.of_nat i) <> 0)) as [Q1|Q1].
    - intros i _. destruct (feq_dec (rc_br e1 (1 + Z.of_nat i)) 0); auto.
    - destruct (feq_dec (sumZ 1 N (fun i => fpowZ om (i - 1) * rc_br e1 i)) 0); tauto.
    - tauto. }
  intros om No ph1 ph2 L1 L2. set (e := rc_se pw pm pr ps prt pt1 beta alpha om).
  set (Mz := Z.of_nat (d + 2)).
  set (f := fun K => rc_hK e K - (vidx ph1 (minus_i64 K (1 - Z.of_nat (d + 1))) + vidx ph2 (minus_i64 K 2))).
  apply (most_intro _ (fun z => z <> 0 /\ ~ lzero Mz f /\ lsum Mz f z = 0)).
  { apply (cnt_weaken (Z.to_nat (2 * Mz)) (2 * (d + 2)) _ _ ltac:(unfold Mz; lia) (fun _ q => q)). apply cnt_laurent. unfold Mz. lia. }
  { intros z. destruct (feq_dec z 0), (lzero_dec Mz f), (feq_dec (lsum Mz f z) 0); tauto. }
  intros z Nzz y y1 y2. set (q := mkRCCtx rc_spub beta alpha om z y y1 y2).
  assert (forall p : list F, Z.of_nat (length (p ++ [0%F])) = Z.of_nat (length p) + 1)%Z as Ls by (intros p; rewrite app_length; cbn [length]; lia).
  eapply most_weaken; [| |apply (kzg_batch_sound (d + 1) [pr; ps; pm] [y; y1; y2] (rc_pg e q ph1 ph2) (om / z) z)]; [cbn [length]; lia| |reflexivity| |].
  2:{ cbn [In]. intros p [<-|[<-|[<-|[]]]]; lia. }
  2:{ unfold rc_pg. repeat (rewrite padd_length || rewrite pscale_length). unfold e, rc_se.
      cbn [rc_w_vec rc_pk_t_vec rc_r_vec_tilde rc_t_vec_1 rc_s2_s1 rc_s3_s2 rc_s4_s3 rc_s5_s4 length]. lia. }
  cbn beta. intros xi HX pW pW1 LW LW1. specialize (HX pW pW1 ltac:(lia) ltac:(lia)).
  revert HX. apply most_weaken; [lia|]. intros tau. apply most_weaken; [lia|]. intros rnd HX HA.
  assert (Forall (fun p : list F => (length p <= d + 1)%nat) [pw; pm; pr; ps; prt; pt1; ph1; ph2; pW; pW1]) as HLe by (repeat constructor; auto).
  destruct (rc_accepts_batch _ _ _ _ _ _ _ _ _ _ _ _ _ _ _ _ _ _ _ _ HLe HA) as [D [g [h0 [xi2 [Hg [Hh B]]]]]]. clear HA.
  fold e q in B, D. specialize (HX g h0 xi2 Hg Hh B). clear B. destruct HX as [Hy Hg0].
  pose proof (Hy 0%nat ltac:(cbn; lia)) as Hy0. pose proof (Hy 1%nat ltac:(cbn; lia)) as Hy1. pose proof (Hy 2%nat ltac:(cbn; lia)) as Hy2. cbn [nth] in Hy0, Hy1, Hy2.
  change (coef [y; y1; y2] 0) with y in Hy0. change (coef [y; y1; y2] 1) with y1 in Hy1. change (coef [y; y1; y2] 2) with y2 in Hy2.
  destruct (rc_divisors_cases q) as [[_ [Hz [Hz1 Hoz]]]|[D1 _]]; [|rewrite D in D1; discriminate].
  change (rc_q_z q) with z in *. change (rc_q_omega q) with om in *.
  destruct (feq_dec om 0) as [|Ho]; [exfalso; auto|].
  assert (rc_n e = Z.of_nat nn) as EN by (change (Z.max (Z.of_nat ns) (Z.of_nat rg) = Z.of_nat nn); unfold nn; lia).
  assert (rc_sizes e) as SZ.
  { split; unfold e, rc_se, rc_spub;
    cbn [rc_nsize rc_range rc_r_vec rc_s_vec rc_m_vec rc_s1_pub rc_s2_s1 rc_s3_s2 rc_s4_s3 rc_s5_s4]; rewrite ?app_length; cbn [length]; lia. }
  (* the combined polynomial vanishes at z, so the identity holds as one of polynomials *)
  assert (lsum Mz f z = 0) as LS.
  { assert (LP Mz (rc_hK e) z (rc_p_c_14 q * peval (rc_w_vec e) z + rc_p_c_15 q + rc_p_c_19 q * peval (rc_pk_t_vec e) z
      + rc_p_c_25 q * peval (rc_r_vec_tilde e) z + rc_p_c_28 q * peval (rc_t_vec_1 e) z)) as L.
    { apply rc_LP; auto; unfold Mz; rewrite ?EN;
      change (rc_r_vec e) with (pr ++ [0]); change (rc_s_vec e) with (ps ++ [0]); change (rc_m_vec e) with (pm ++ [0]);
      change (rc_w_vec e) with pw; change (rc_pk_t_vec e) with tp; change (rc_r_vec_tilde e) with prt; change (rc_t_vec_1 e) with pt1; rewrite ?Ls; try lia.
      - rewrite peval_snoc0. symmetry. exact Hy0.
      - rewrite peval_snoc0. symmetry. exact Hy1.
      - rewrite peval_snoc0. symmetry. exact Hy2. }
    assert (LP Mz f z 0) as [_ LF]; [|exact LF].
    eapply LP_val; [|unfold f; apply LP_sub; [exact L|apply LP_add; apply LP_list; auto; unfold Mz; lia]].
    refine (eq_trans _ Hg0). rewrite rc_pg_value.
    change (rc_v_c_14 q) with (rc_p_c_14 q). change (rc_v_c_15 q) with (rc_p_c_15 q). change (rc_v_c_19 q) with (rc_p_c_19 q).
    change (rc_v_c_25 q) with (rc_p_c_25 q). change (rc_v_c_28 q) with (rc_p_c_28 q).
    change (rc_v_c_30 q) with (- z).
    assert (rc_v_c_29 q = - fpowZ z (1 - Z.of_nat (d + 1) - 1)) as ->.
    { change (rc_v_c_29 q) with (- power z (- Z.of_nat (d + 1))%Z). rewrite Laurent.pw by auto. do 2 f_equal. lia. }
    replace (fpowZ z (2 - 1)) with z by (change (2 - 1)%Z with 1%Z; now rewrite fpowZ_1). ring. }
  assert (lzero Mz f) as LZ by (destruct (lzero_dec Mz f); auto; exfalso; apply Nzz; auto).
  assert (rc_hK e 1 = 0) as H1.
  { pose proof (LZ 1%Z ltac:(unfold Mz; lia)) as Z1. unfold f in Z1. unfold minus_i64 in Z1.
    rewrite (vidx_coef ph1 _ (d + 1)), coef_over, (vidx_out ph2) in Z1 by lia.
    rewrite <- Z1. ring. }
  (* the constant term vanishes, so every position is fine *)
  assert (CT om N (rc_hK e 1) (rc_br e)) as HC.
  { replace N with (Z.to_nat (Z.of_nat N)) by lia. apply rc_CT; auto; unfold N; rewrite ?EN;
      change (rc_r_vec e) with (pr ++ [0]); change (rc_s_vec e) with (ps ++ [0]); change (rc_m_vec e) with (pm ++ [0]); rewrite ?Ls; lia. }
  assert (forall i, (i < N)%nat -> rc_br e1 (1 + Z.of_nat i) = 0) as HB.
  { apply not_ex_0. intros X. apply No. right. split; auto. unfold CT in HC. rewrite H1 in HC. symmetry. exact HC. }
  (* every power of alpha *)
  assert (forall i, (i < nn)%nat -> forall j, (j < 4)%nat -> rc_kk e0 (1 + Z.of_nat i) j = 0) as HK.
  { intros i Hi. apply not_ex_0. intros X. apply Na. exists i. split; auto. split; auto.
    specialize (HB i ltac:(unfold N; lia)). refine (eq_trans _ HB). unfold rc_br.
    change (rc_n e1) with (rc_n e). rewrite EN, (range_out (Z.of_nat nn + 1)) by lia.
    change (rc_alpha e1) with alpha. cbn [sumn rc_kk].
    rewrite !pw_pos by lia.
    change (Pos.to_nat 2) with 2%nat. change (Pos.to_nat 3) with 3%nat.
    change (rc_k0 e1) with (rc_k0 e0). change (rc_k1 e1) with (rc_k1 e0). change (rc_k2 e1) with (rc_k2 e0). change (rc_k3 e1) with (rc_k3 e0).
    cbn [fpow]. ring. }
  exact (rc_sat_holds pw pm pr ps prt beta Nb HK).
Qed.

(** the entries of the committed table *)
Lemma rc_tpoly_entry i : (i < rg)%nat -> coef tp i = from_Z (Z.of_nat (i - (ns - rg))).
Proof.
  intros Hi. unfold tp, rc_tpoly. fold ns rg. unfold coef. destruct (Nat.lt_ge_cases i (ns - rg)) as [H|H].
  - rewrite app_nth1 by (rewrite repeat_length; lia). rewrite nth_repeat. replace (i - (ns - rg))%nat with 0%nat by lia. symmetry. apply from_Z_0.
  - rewrite app_nth2 by (rewrite repeat_length; lia). rewrite repeat_length.
    change (nth (i - (ns - rg)) (rc_tab cs) 0) with (coef (rc_tab cs) (i - (ns - rg))).
    unfold rc_tab. rewrite coef_map_seq by (fold rg; lia). reflexivity.
Qed.
End Main.
End RCSoundB.

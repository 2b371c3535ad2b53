(** PovSound.v: soundness of the POV argument, round by round. *)
From Verif Require Import Base Spec Tools ToolsProofs ToolsProofs2 PermProofs CS KZG KZGSpec KZGProofs Snark Laurent SnarkProofs SnarkPerm
  Properties_KZG PovPEConst PovPEComplete Pov PovProofs PovConst PovComplete PovTop SoundSpec Sound KZGSound PovSoundSpec.
Local Open Scope F_scope.

Section PovSoundA.
Context {F : Type} {fo : FieldOps F} {fl : FieldLaws F}.
Add Field Fps : F_th.

Lemma coef_snoc0 (l : list F) i : coef (l ++ [0]) i = coef l i.
Proof.
  rewrite coef_app. destruct (Nat.ltb_spec i (length l)); auto. rewrite (coef_over l) by lia.
  unfold coef. destruct (i - length l)%nat as [|[|?]]; reflexivity.
Qed.
Lemma peval_snoc0 (l : list F) x : peval (l ++ [0]) x = peval l x.
Proof. induction l as [|a l IH]; cbn [app peval]; [ring|]. rewrite IH. ring. Qed.
Lemma coef_map_seq (f : nat -> F) b n i : (i < n)%nat -> coef (map f (seq b n)) i = f (b + i)%nat.
Proof.
  intros Hi. unfold coef. rewrite (nth_indep _ 0 (f 0%nat)) by (rewrite map_length, seq_length; auto).
  rewrite (map_nth f), seq_nth by auto. reflexivity.
Qed.
Lemma fprod_map_prodn N (f : nat -> F) x : fprod (map (fun a => a + x) (map f (seq 0 N))) = prodn N (fun k => f k + x).
Proof. rewrite map_map, prodn_fprod. reflexivity. Qed.

Lemma row_length p b n : length (row p b n) = n.
Proof. unfold row. now rewrite map_length, seq_length. Qed.
Lemma coef_row p b n i : (i < n)%nat -> coef (row p b n) i = coef p (b + i).
Proof. apply coef_map_seq. Qed.
Lemma rows_split p n : row p 0 n ++ row p n n ++ row p (2 * n) n = row p 0 (3 * n).
Proof.
  unfold row. rewrite <- !map_app. f_equal. replace (3 * n)%nat with (n + (n + n))%nat by lia.
  rewrite !seq_app. cbn [Nat.add]. do 3 f_equal. lia.
Qed.

(** *** What a challenge can go wrong with *)
(** the first permutation challenge: two pairs (value, label) collide *)
Definition bad_zeta (N : nat) (w gs ss : nat -> F) (zeta : F) : Prop :=
  exists i, (i < N)%nat /\ exists j, (j < N)%nat /\ (w i - w j <> 0 \/ gs i - ss j <> 0) /\ (w i - w j) + zeta * (gs i - ss j) = 0.
Lemma dec_bad_zeta N w gs ss zeta : bad_zeta N w gs ss zeta \/ ~ bad_zeta N w gs ss zeta.
Proof.
  apply (dec_ex N (fun i => exists j, (j < N)%nat /\ (w i - w j <> 0 \/ gs i - ss j <> 0) /\ (w i - w j) + zeta * (gs i - ss j) = 0)).
  intros i _. apply (dec_ex N (fun j => (w i - w j <> 0 \/ gs i - ss j <> 0) /\ (w i - w j) + zeta * (gs i - ss j) = 0)).
  intros j _. apply dec_linear.
Qed.
Lemma cnt_bad_zeta N w gs ss : cnt (N * (N * 1)) (bad_zeta N w gs ss).
Proof.
  apply (cnt_ex N (N * 1) (fun i x => exists j, (j < N)%nat /\ (w i - w j <> 0 \/ gs i - ss j <> 0) /\ (w i - w j) + x * (gs i - ss j) = 0)).
  - intros i x _. apply (dec_ex N (fun j => (w i - w j <> 0 \/ gs i - ss j <> 0) /\ (w i - w j) + x * (gs i - ss j) = 0)).
    intros j _. apply dec_linear.
  - intros i _. apply (cnt_ex N 1 (fun j x => (w i - w j <> 0 \/ gs i - ss j <> 0) /\ (w i - w j) + x * (gs i - ss j) = 0)).
    + intros j x _. apply dec_linear.
    + intros j _. apply cnt_linear.
Qed.
(** the second one: different products agree *)
Definition bad_zeta_1 (A B : list F) (x : F) : Prop :=
  (exists i, (i < length A)%nat /\ ~ In (coef A i) B) /\ fprod (map (fun a => a + x) A) = fprod (map (fun b => b + x) B).

(** good challenges and equal products: the values are invariant under the permutation *)
Lemma products_inv (wires : list (nat * nat)) (N : nat) gamma (w : nat -> F) zeta zeta_1 :
  distinct_powers gamma N ->
  ~ bad_zeta N w (fpow gamma) (fun j => fpow gamma (sg wires N j)) zeta ->
  ~ bad_zeta_1 (map (fun k => w k + fpow gamma k * zeta) (seq 0 N)) (map (fun k => w k + fpow gamma (sg wires N k) * zeta) (seq 0 N)) zeta_1 ->
  prodn N (fun k => (w k + fpow gamma k * zeta) + zeta_1) = prodn N (fun k => (w k + fpow gamma (sg wires N k) * zeta) + zeta_1) ->
  forall x, (x < N)%nat -> w (sg wires N x) = w x.
Proof.
  intros Hg N1 N2 HP x Hx. set (s := sg wires N x). assert (s < N)%nat as Hs by now apply sg_below.
  set (A := map (fun k => w k + fpow gamma k * zeta) (seq 0 N)) in *.
  set (B := map (fun k => w k + fpow gamma (sg wires N k) * zeta) (seq 0 N)) in *.
  assert (In (coef A s) B) as HI.
  { destruct (in_dec_F (coef A s) B) as [|Q]; auto. exfalso. apply N2. split.
    - exists s. split; auto. unfold A. now rewrite map_length, seq_length.
    - unfold A, B. rewrite !fprod_map_prodn. exact HP. }
  unfold A in HI. rewrite coef_map_seq in HI by auto. cbn [Nat.add] in HI.
  apply in_map_iff in HI. destruct HI as [j [E Hj]]. apply in_seq in Hj.
  assert ((w s - w j) + zeta * (fpow gamma s - fpow gamma (sg wires N j)) = 0) as E0.
  { transitivity ((w s + fpow gamma s * zeta) - (w j + fpow gamma (sg wires N j) * zeta)); [ring|rewrite E; ring]. }
  destruct (feq_dec (w s - w j) 0) as [D1|D1]; [|exfalso; apply N1; exists s; split; auto; exists j; split; [lia|auto]].
  destruct (feq_dec (fpow gamma s - fpow gamma (sg wires N j)) 0) as [D2|D2]; [|exfalso; apply N1; exists s; split; auto; exists j; split; [lia|auto]].
  apply fsub_0_eq in D1. apply fsub_0_eq in D2. apply Hg in D2; [|auto|apply sg_below; lia].
  apply sg_inj in D2; [|auto|lia]. now subst j.
Qed.
End PovSoundA.

Section PovSoundB.
Context {F : Type} {fo : FieldOps F} {fl : FieldLaws F}.
Add Field Fps2 : F_th.

(** ** The constraints imply the circuit relation *)
Section SatHolds.
Variable e : pv_s4 F.
Variables (nm na : nat) (consts pw : list F) (wires : list (nat * nat)) (pos : list nat) (vals : list F).
Let n := (nm + na + length consts)%nat.
Hypothesis EC : pv_cap_c_total e = Z.of_nat n.
Hypothesis ECa : pv_cap_c_a e = Z.of_nat na.
Hypothesis ECm : pv_cap_c_m e = Z.of_nat nm.
Hypothesis Hn : (1 <= n)%nat.
Hypothesis Ew : pv_w_vec e = pw ++ [0].
Hypothesis Ed : pv_d_vec e = consts.
Hypothesis Es : permutation_vector_from_wires (E:=error) (pv_gamma e) wires (3 * n) = Ok (pv_sigma_vec e).
Hypothesis Ex : forall k, coef (pv_x_vec e) k = sparse_at pos vals k.
Hypothesis Et : forall k, coef (pv_t_vec e) k = sparse_at pos (map (fun _ => 1) pos) k.
Hypothesis Hnd : NoDup pos.
Hypothesis Hlen : length pos = length vals.
Hypothesis Hpos : forall i, In i pos -> (i < 3 * n)%nat.
Hypothesis Hga : distinct_powers (pv_gamma e) (3 * n).
Hypothesis Hz : ~ bad_zeta (3 * n) (coef pw) (fpow (pv_gamma e)) (fun j => fpow (pv_gamma e) (sg wires (3 * n) j)) (pv_zeta e).
Hypothesis Hz1 : ~ bad_zeta_1 (map (fun k => coef pw k + fpow (pv_gamma e) k * pv_zeta e) (seq 0 (3 * n)))
  (map (fun k => coef pw k + fpow (pv_gamma e) (sg wires (3 * n) k) * pv_zeta e) (seq 0 (3 * n))) (pv_zeta_1 e).
Hypothesis G : pv_sat e.

Lemma snd_w i (j : nat) : i = (Z.of_nat j + 1)%Z -> vidx (pv_w_vec e) i = coef pw j.
Proof. intros ->. rewrite (vidx_coef _ _ j) by lia. rewrite Ew. apply coef_snoc0. Qed.
Lemma snd_num k : (k < 3 * n)%nat -> pv_r_num e (1 + Z.of_nat k) = (coef pw k + fpow (pv_gamma e) k * pv_zeta e) + pv_zeta_1 e.
Proof.
  intros Hk. unfold pv_r_num, minus_i64. replace (1 + Z.of_nat k - 1 + 1)%Z with (1 + Z.of_nat k)%Z by lia.
  rewrite (snd_w _ k), EC by lia. rewrite range_in by lia.
  destruct (sigma_at _ _ _ _ Es) as [Hg _].
  assert (power_vidx (pv_gamma e) (3 * Z.of_nat n) (1 + Z.of_nat k) = fpow (pv_gamma e) k) as ->; [|ring].
  unfold power_vidx. destruct (Z.leb_spec 1 (1 + Z.of_nat k)), (Z.leb_spec (1 + Z.of_nat k) (3 * Z.of_nat n)); try lia. cbn [andb].
  replace (1 + Z.of_nat k - 1)%Z with (Z.of_nat k) by lia. now apply power_nat.
Qed.
Lemma snd_den k : (k < 3 * n)%nat -> pv_r_den e (1 + Z.of_nat k) = (coef pw k + fpow (pv_gamma e) (sg wires (3 * n) k) * pv_zeta e) + pv_zeta_1 e.
Proof.
  intros Hk. unfold pv_r_den, minus_i64. replace (1 + Z.of_nat k - 1 + 1)%Z with (1 + Z.of_nat k)%Z by lia.
  rewrite (snd_w _ k), EC by lia. rewrite range_in by lia.
  destruct (sigma_at _ _ _ _ Es) as [_ [_ Hs]]. rewrite (vidx_coef _ _ k), Hs by lia. ring.
Qed.
Lemma snd_inv x : (x < 3 * n)%nat -> coef pw (sg wires (3 * n) x) = coef pw x.
Proof.
  apply (products_inv wires (3 * n) (pv_gamma e) (coef pw) (pv_zeta e) (pv_zeta_1 e)); auto.
  transitivity (prodn (3 * n) (fun k => pv_r_num e (1 + Z.of_nat k))); [symmetry; apply prodn_ext; intros; now apply snd_num|].
  transitivity (prodn (3 * n) (fun k => pv_r_den e (1 + Z.of_nat k))); [|apply prodn_ext; intros; now apply snd_den].
  apply (grand_product_sound (pv_r_num e) (pv_r_den e) (vidx (pv_r_vec e))); [apply vidx_out; lia|lia| |].
  - intros i Hi. apply fsub_0_eq. apply (ps_k4 e G). rewrite EC. lia.
  - pose proof (ps_k5 e G (3 * Z.of_nat n)%Z ltac:(rewrite EC; lia)) as K. unfold pv_k5, delta in K. rewrite EC, Z.eqb_refl in K.
    apply fsub_0_eq. replace (Z.of_nat (3 * n)) with (3 * Z.of_nat n)%Z by lia. rewrite <- K. ring.
Qed.

Lemma pv_sat_holds : pov_holds consts [] nm na pos vals (row pw 0 n) (row pw n n) (row pw (2 * n) n) /\ inv_idx wires (3 * n) (row pw 0 (3 * n)).
Proof.
  assert (n = nm + na + length consts)%nat as En by reflexivity.
  split; [|intros x Hx; rewrite !coef_row by auto using sg_below; cbn [Nat.add]; now apply snd_inv].
  destruct G as [G0 G1 G2 G3 _ _]. unfold pov_holds. cbn zeta. rewrite rows_split.
  split; [|split; [|split; [|split]]].
  - intros i Hi. rewrite !coef_row by lia. cbn [Nat.add].
    specialize (G0 (Z.of_nat i + 1 + 3 * Z.of_nat n - Z.of_nat nm)%Z). unfold pv_k0 in G0. rewrite EC, ECm in G0.
    rewrite range_in in G0 by lia.
    rewrite (snd_w _ i), (snd_w _ (n + i)), (snd_w _ (2 * n + i)) in G0 by lia.
    symmetry. apply fsub_0_eq. rewrite <- G0 by lia. ring.
  - intros i Hi. rewrite !coef_row by lia. cbn [Nat.add].
    specialize (G1 (Z.of_nat i + 1 + 2 * Z.of_nat n)%Z). unfold pv_k1 in G1. rewrite EC, ECm, ECa in G1.
    rewrite range_in in G1 by lia.
    rewrite (snd_w _ i), (snd_w _ (n + i)), (snd_w _ (2 * n + i)) in G1 by lia.
    symmetry. apply fsub_0_eq. rewrite <- G1 by lia. ring.
  - intros i Hi. rewrite !coef_row by lia.
    specialize (G2 (Z.of_nat i + 1 + 2 * Z.of_nat n + Z.of_nat na + Z.of_nat nm)%Z). unfold pv_k2 in G2. rewrite EC, ECm, ECa, Ed in G2.
    rewrite range_in in G2 by lia.
    rewrite (snd_w _ (2 * n + (nm + na + i))), (vidx_coef _ _ i) in G2 by lia.
    apply fsub_0_eq. rewrite <- G2 by lia. ring.
  - intros x y [].
  - intros j Hj Hj'. rewrite row_length. assert (In (nth j pos 0%nat) pos) as Hin by now apply nth_In.
    pose proof (Hpos _ Hin) as Hk. split; auto. rewrite coef_row by auto. cbn [Nat.add]. set (k := nth j pos 0%nat) in *.
    specialize (G3 (Z.of_nat k + 1)%Z ltac:(lia)). unfold pv_k3 in G3.
    rewrite (vidx_coef (pv_t_vec e) _ k), (vidx_coef (pv_x_vec e) _ k), (snd_w _ k), Ex, Et in G3 by lia.
    assert (In (k, coef vals j) (combine pos vals)) as H1.
    { unfold k, coef. rewrite <- combine_nth by auto. apply nth_In. rewrite combine_length. lia. }
    assert (In (k, 1) (combine pos (map (fun _ => 1) pos))) as H2.
    { assert (In (nth j pos 0%nat, nth j (map (fun _ => 1) pos) (1 : F)) (combine pos (map (fun _ => 1) pos))) as Q.
      { rewrite <- combine_nth by (now rewrite map_length). apply nth_In. rewrite combine_length, map_length. lia. }
      rewrite (map_nth (fun _ => 1 : F) pos 0%nat j) in Q. exact Q. }
    unfold sparse_at in G3. rewrite (NoDup_fsum_pick (combine pos vals) k (coef vals j)), (NoDup_fsum_pick (combine pos (map (fun _ => 1) pos)) k 1) in G3;
      auto using combine_NoDup_fst; try (rewrite map_length; auto).
    apply fsub_0_eq. rewrite <- G3. ring.
Qed.
End SatHolds.
End PovSoundB.

Section PovSoundC.
Context {F G1 G2 GT : Type} {fo : FieldOps F} {fl : FieldLaws F}
        {po : PairingOps F G1 G2 GT} {pl : PairingLaws F G1 G2 GT}.
Add Field Fps3 : F_th.

(** the constraint for power j of alpha at position i *)
Definition pv_kk (e : pv_s4 F) (i : Z) (j : nat) : F :=
  match j with 0 => pv_k0 e i | 1 => pv_k1 e i | 2 => pv_k2 e i | 3 => pv_k3 e i | 4 => pv_k4 e i | _ => pv_k5 e i end.
Definition bad_alpha (N : nat) (e : pv_s4 F) (al : F) : Prop :=
  exists i, (i < N)%nat /\ (exists j, (j < 6)%nat /\ pv_kk e (1 + Z.of_nat i) j <> 0) /\
    sumn 6 (fun j => fpow al j * pv_kk e (1 + Z.of_nat i) j) = 0.
Lemma dec_bad_alpha N e al : bad_alpha N e al \/ ~ bad_alpha N e al.
Proof. apply dec_ex. intros i _. apply dec_sumn. destruct (feq_dec (sumn 6 (fun j => fpow al j * pv_kk e (1 + Z.of_nat i) j)) 0); auto. Qed.
Lemma cnt_bad_alpha N e : cnt (N * 5) (bad_alpha N e).
Proof.
  apply (cnt_ex N 5 (fun i al => (exists j, (j < 6)%nat /\ pv_kk e (1 + Z.of_nat i) j <> 0) /\ sumn 6 (fun j => fpow al j * pv_kk e (1 + Z.of_nat i) j) = 0)).
  - intros i al _. apply dec_sumn. destruct (feq_dec (sumn 6 (fun j => fpow al j * pv_kk e (1 + Z.of_nat i) j)) 0); auto.
  - intros i _. apply (cnt_sumn 6 (pv_kk e (1 + Z.of_nat i))).
Qed.

(** the polynomial behind the combined commitment *)
Definition pv_pg (e : pv_s4 F) (q : pv_ctx F) (pw ph1 ph2 : list F) : list F :=
  padd (pscale (pv_v_c_20 q) pw) (padd (pscale (pv_v_c_21 q) (pv_d_vec e)) (padd [pv_v_c_22 q]
  (padd (pscale (pv_v_c_23 q) (pv_sigma_vec e)) (padd (pscale (pv_v_c_24 q) (pv_t_vec_1 e))
  (padd (pscale (pv_v_c_25 q) ph1) (pscale (pv_v_c_26 q) ph2)))))).
Lemma pv_pg_value e q pw ph1 ph2 x : peval (pv_pg e q pw ph1 ph2) x =
  pv_v_c_20 q * peval pw x + pv_v_c_21 q * peval (pv_d_vec e) x + pv_v_c_22 q
  + pv_v_c_23 q * peval (pv_sigma_vec e) x + pv_v_c_24 q * peval (pv_t_vec_1 e) x
  + pv_v_c_25 q * peval ph1 x + pv_v_c_26 q * peval ph2 x.
Proof. unfold pv_pg. rewrite !peval_padd, !peval_pscale. cbn [peval]. ring. Qed.

Section Main.
Variable gamma : F.
Variables (d : nat) (cs : POV F) (pos : list nat) (vals : list F).
Let n := ps_n (pov_get_size cs).
Hypothesis Hga : gamma <> 0.
Hypothesis Hdp : distinct_powers gamma (3 * n).
Hypothesis Hb : pairs_below (3 * n) (p_wires cs).
Hypothesis Hc : (1 <= length (p_consts cs))%nat.
Hypothesis Hd : (6 * n - p_nmul cs <= d)%nat.
Hypothesis Hnd : NoDup pos.
Hypothesis Hlen : length pos = length vals.
Hypothesis Hpos : forall i, In i pos -> (i < 3 * n)%nat.

Notation pv_accepts_with := (pv_accepts_with (G1:=G1) (G2:=G2) (GT:=GT) gamma d cs pos vals).
Definition pv_spub : pv_pub F := mkPVPub (Z.of_nat n) (Z.of_nat (p_nadd cs)) (Z.of_nat (p_nmul cs)) (Z.of_nat (d + 1)) gamma pos vals.
Let sv := map (fpow gamma) (idx (p_wires cs) (3 * n)).
(** a run with the given vectors *)
Definition pv_se (xv tv pw pr pt : list F) zeta zeta_1 alpha omega : pv_s4 F :=
  mkPVS4 (mkPVS3 (mkPVS2 (mkPVS1 pv_spub sv (p_consts cs) xv tv (pw ++ [0])) zeta zeta_1) (pr ++ [0]) alpha) pt omega.

Lemma pv_accepts_batch pw pr pt ph1 ph2 pW pW1 zeta zeta_1 alpha omega z y y2 xi beta rnd xv tv :
  Forall (fun p => length p <= d + 1)%nat [pw; pr; pt; ph1; ph2; pW; pW1] ->
  pv_accepts_with pw pr pt ph1 ph2 pW pW1 zeta zeta_1 alpha omega z y y2 xi beta rnd ->
  let q := mkPVCtx pv_spub zeta zeta_1 alpha omega z y y2 in
  pv_divisors q = Ok tt /\ exists (g : G1) (h : G2) xi2, g <> v0 /\ h <> v0 /\
  batch_check (vk_for beta g h) (map (fun f => vscale (peval f beta) g) [pw; pr])
    [vscale (peval (pv_pg (pv_se xv tv pw pr pt zeta zeta_1 alpha omega) q pw ph1 ph2) beta) g] (omega / z) z xi xi2 [y; y2] [0]
    (vscale (peval pW beta) g) (vscale (peval pW1 beta) g) rnd = true.
Proof.
  intros HL [H [g [h [pp [pk [vk [cw [cr [ct [ch1 [ch2 [cW [cW1 A]]]]]]]]]]]]].
  destruct A as [Hg [Hh [Hs [Hi [C1 [C2 [C3 [C4 [C5 [C6 [C7 [E1 [E2 [E3 [E4 [E5 [E6 V]]]]]]]]]]]]]]]]].
  intros q. destruct (pv_index_inv _ _ _ _ _ _ _ _ _ Hs Hi) as
    [K1 [K2 [K3 [K4 [K5 [K6 [K7 [K8 [K9 [K10 K11]]]]]]]]]].
  fold n in K7. rewrite pvw_ok in K7 by auto. assert (pv_pk_sigma_vec pk = sv) as K7' by (injection K7; intros <-; reflexivity).
  destruct (kzg_vk_setup d beta g h pp Hs) as [_ [Hp _]]. rewrite Hp in *.
  rewrite Forall_forall in HL.
  apply poly_commit in C1, C2, C3, C4, C5, C6, C7; auto; try lia; try (apply HL; cbn [In]; tauto).
  assert (pv_pub_of gamma vk (pos, vals) = pv_spub) as EP.
  { unfold pv_pub_of, pv_spub. rewrite K4, K5. reflexivity. }
  unfold pv_verify in V. cbn [pv_cm_w_vec pv_cm_r_vec pv_cm_t_vec_1 pv_cm_h_vec_1 pv_cm_h_vec_2 pv_pf_y pv_pf_y_2 pv_cap_w pv_cap_w_1] in V.
  rewrite EP, E1, E2, E3, E4, E5 in V. fold q in V. apply obind_ok in V. destruct V as [[] [D V]]. split; [exact D|].
  rewrite EP in E6. fold q in E6. rewrite E6 in V.
  match type of V with (if ?b then _ else _) = _ => destruct b eqn:B; [clear V|discriminate] end.
  rewrite K3 in B. eexists g, h, _. split; auto. split; auto. cbn [map].
  replace (vscale (peval (pv_pg (pv_se xv tv pw pr pt zeta zeta_1 alpha omega) q pw ph1 ph2) beta) g) with (pv_v_cm_g vk q cw cr ct ch1 ch2).
  { rewrite <- C1, <- C2, <- C6, <- C7. exact B. }
  rewrite pv_pg_value. unfold pv_v_cm_g. rewrite K3, K10, K11, K7'. cbn [vk_g vk_for].
  pose proof (lin_comb_vscale g (pv_v_c_22 q)
    [(peval pw beta, pv_v_c_20 q); (peval (p_consts cs) beta, pv_v_c_21 q);
     (peval sv beta, pv_v_c_23 q); (peval pt beta, pv_v_c_24 q);
     (peval ph1 beta, pv_v_c_25 q); (peval ph2 beta, pv_v_c_26 q)]) as E. cbn [map fst snd] in E.
  rewrite <- C1, <- C3, <- C4, <- C5 in E. rewrite E. f_equal.
  unfold pv_se. cbn [pv_w_vec pv_d_vec pv_sigma_vec pv_t_vec_1 pv_s2_s1 pv_s3_s2 pv_s4_s3]. cbn [fsum]. ring.
Qed.

Lemma pv_sound_gen pw (Q : Prop) : (length pw <= d + 1)%nat ->
  (pov_holds (p_consts cs) [] (p_nmul cs) (p_nadd cs) pos vals (row pw 0 n) (row pw n n) (row pw (2 * n) n) ->
   inv_idx (p_wires cs) (3 * n) (row pw 0 (3 * n)) -> Q) ->
  most (9 * n * n) (fun zeta => most (3 * n) (fun zeta_1 =>
  forall pr, (length pr <= d + 1)%nat -> most (15 * n) (fun alpha =>
  forall pt, (length pt <= d + 1)%nat -> most (d + 3 * n + 2) (fun omega =>
  forall ph1 ph2, (length ph1 <= d + 1)%nat -> (length ph2 <= d + 1)%nat -> most (2 * (d + n + 2)) (fun z =>
  forall y y2, most 1 (fun xi =>
  forall pW pW1, (length pW <= d + 1)%nat -> (length pW1 <= d + 1)%nat -> most (2 * (d + 1)) (fun beta => most 1 (fun rnd =>
  pv_accepts_with pw pr pt ph1 ph2 pW pW1 zeta zeta_1 alpha omega z y y2 xi beta rnd -> Q)))))))).
Proof.
  intros Lw HQ.
  assert (n = length (p_consts cs) + p_nmul cs + p_nadd cs)%nat as EN by reflexivity.
  assert (n = p_nmul cs + p_nadd cs + length (p_consts cs))%nat as EN' by lia.
  destruct (sparse_vector_ok (E:=error) pos vals (3 * n) Hnd Hpos) as [xv [Exv [Lxv Vxv]]].
  destruct (sparse_vector_ok (E:=error) pos (map (fun _ => 1) pos) (3 * n) Hnd Hpos) as [tv [Etv [Ltv Vtv]]].
  assert (length sv = 3 * n)%nat as Lsv by (unfold sv; now rewrite map_length, idx_length).
  assert (permutation_vector_from_wires (E:=error) gamma (p_wires cs) (3 * n) = Ok sv) as Esv by (now apply pvw_ok).
  apply (most_intro _ (bad_zeta (3 * n) (coef pw) (fpow gamma) (fun j => fpow gamma (sg (p_wires cs) (3 * n) j)))).
  { replace (9 * n * n)%nat with (3 * n * (3 * n * 1))%nat by lia. apply cnt_bad_zeta. }
  { apply dec_bad_zeta. }
  intros zeta Nz.
  apply (most_intro _ (bad_zeta_1 (map (fun k => coef pw k + fpow gamma k * zeta) (seq 0 (3 * n)))
    (map (fun k => coef pw k + fpow gamma (sg (p_wires cs) (3 * n) k) * zeta) (seq 0 (3 * n))))).
  { apply cnt_products; rewrite map_length, seq_length; lia. }
  { apply dec_products. }
  intros zeta_1 Nz1 pr Lr. set (e0 := pv_se xv tv pw pr [] zeta zeta_1 0 0).
  apply (most_intro _ (bad_alpha (3 * n) e0)).
  { replace (15 * n)%nat with (3 * n * 5)%nat by lia. apply cnt_bad_alpha. }
  { apply dec_bad_alpha. }
  intros alpha Na pt Lt. set (e1 := pv_se xv tv pw pr pt zeta zeta_1 alpha 0).
  set (N := (d + 3 * n + 2)%nat).
  apply (most_intro _ (fun om => om = 0 \/ (exists i, (i < N)%nat /\ pv_br e1 (1 + Z.of_nat i) <> 0) /\
    sumZ 1 N (fun i => fpowZ om (i - 1) * pv_br e1 i) = 0)).
  { replace N with (1 + (N - 1))%nat at 1 by lia. apply cnt_or; [intros om; destruct (feq_dec om 0); auto|apply cnt_eq|apply cnt_CT]. }
  { intros om. destruct (feq_dec om 0) as [|Q0]; [tauto|].
    destruct (dec_ex N (fun i => pv_br e1 (1 + Z.of_nat i) <> 0)) as [Q1|Q1].
    - intros i _. destruct (feq_dec (pv_br e1 (1 + Z.of_nat i)) 0); auto.
    - destruct (feq_dec (sumZ 1 N (fun i => fpowZ om (i - 1) * pv_br e1 i)) 0); tauto.
    - tauto. }
  intros om No ph1 ph2 L1 L2. set (e := pv_se xv tv pw pr pt zeta zeta_1 alpha om).
  set (M := Z.of_nat (d + n + 2)).
  set (f := fun K => pv_hK e K - (vidx ph1 (minus_i64 K (1 - Z.of_nat (d + 1))) + vidx ph2 (minus_i64 K 2))).
  apply (most_intro _ (fun z => z <> 0 /\ ~ lzero M f /\ lsum M f z = 0)).
  { replace (2 * (d + n + 2))%nat with (Z.to_nat (2 * M)) by (unfold M; lia). apply cnt_laurent. unfold M. lia. }
  { intros z. destruct (feq_dec z 0), (lzero_dec M f), (feq_dec (lsum M f z) 0); tauto. }
  intros z Nzz y y2. set (q := mkPVCtx pv_spub zeta zeta_1 alpha om z y y2).
  assert (Z.of_nat (length (pw ++ [0%F])) = Z.of_nat (length pw) + 1)%Z as Lw' by (rewrite app_length; cbn [length]; lia).
  assert (Z.of_nat (length (pr ++ [0%F])) = Z.of_nat (length pr) + 1)%Z as Lr' by (rewrite app_length; cbn [length]; lia).
  eapply most_weaken; [| |apply (kzg_batch_sound (d + 1) [pw; pr] [y; y2] (pv_pg e q pw ph1 ph2) (om / z) z)]; [cbn [length]; lia| |reflexivity| |].
  2:{ cbn [In]. intros p [<-|[<-|[]]]; lia. }
  2:{ unfold pv_pg. repeat (rewrite padd_length || rewrite pscale_length). unfold e, pv_se.
      cbn [pv_w_vec pv_d_vec pv_sigma_vec pv_t_vec_1 pv_s2_s1 pv_s3_s2 pv_s4_s3 length]. lia. }
  cbn beta. intros xi HX pW pW1 LW LW1. specialize (HX pW pW1 ltac:(lia) ltac:(lia)).
  revert HX. apply most_weaken; [lia|]. intros beta. apply most_weaken; [lia|]. intros rnd HX HA.
  assert (Forall (fun p : list F => (length p <= d + 1)%nat) [pw; pr; pt; ph1; ph2; pW; pW1]) as HL by (repeat constructor; auto).
  destruct (pv_accepts_batch _ _ _ _ _ _ _ _ _ _ _ _ _ _ _ _ _ xv tv HL HA) as [D [g [h [xi2 [Hg [Hh B]]]]]]. clear HA.
  fold e q in B, D. specialize (HX g h xi2 Hg Hh B). clear B. destruct HX as [Hy Hg0].
  pose proof (Hy 0%nat ltac:(cbn; lia)) as Hy0. pose proof (Hy 1%nat ltac:(cbn; lia)) as Hy1. cbn [nth] in Hy0, Hy1. clear Hy.
  change (coef [y; y2] 0) with y in Hy0. change (coef [y; y2] 1) with y2 in Hy1.
  destruct (pv_divisors_cases q) as [[_ [Hz [Hz1 [Hgz Hoz]]]]|[D1 _]]; [|rewrite D in D1; discriminate].
  change (pv_q_z q) with z in *. change (pv_q_omega q) with om in *. change (pv_gamma q) with gamma in *.
  destruct (feq_dec om 0) as [|Ho]; [exfalso; auto|].
  assert (om / z <> 0) as Hoz0.
  { intros E. apply Ho. transitivity (om / z * z); [field; auto|rewrite E; ring]. }
  assert (pv_sizes e) as SZ.
  { split; unfold e, pv_se, pv_spub;
    cbn [pv_cap_c_a pv_cap_c_m pv_cap_c_total pv_w_vec pv_r_vec pv_x_vec pv_t_vec pv_d_vec pv_sigma_vec pv_s1_pub pv_s2_s1 pv_s3_s2 pv_s4_s3];
    try lia. }
  (* the combined polynomial vanishes at z, so the identity holds as one of polynomials *)
  assert (lsum M f z = 0) as LS.
  { assert (LP M (pv_hK e) z (pv_p_c_20 q * peval (pv_w_vec e) z + pv_p_c_21 q * peval (pv_d_vec e) z + pv_p_c_22 q
      + pv_p_c_23 q * peval (pv_sigma_vec e) z + pv_p_c_24 q * peval (pv_t_vec_1 e) z)) as L.
    { apply pv_LP; auto.
      - unfold M. change (pv_cap_c_total e) with (Z.of_nat n). change (pv_cap_c_m e) with (Z.of_nat (p_nmul cs)). lia.
      - unfold M. change (pv_cap_c_total e) with (Z.of_nat n). change (pv_w_vec e) with (pw ++ [0]). lia.
      - unfold M. change (pv_r_vec e) with (pr ++ [0]). lia.
      - unfold M. change (pv_t_vec_1 e) with pt. lia.
      - change (pv_w_vec e) with (pw ++ [0]). rewrite peval_snoc0. symmetry. exact Hy0.
      - change (pv_r_vec e) with (pr ++ [0]). rewrite peval_snoc0. symmetry. exact Hy1.
      - change (pv_omega e) with om. change (pv_x0 e) with pos. change (pv_t_vec e) with tv.
        rewrite eval_sparse_zero_one_eq.
        destruct (eval_sparse_vector_ok (E:=error) (om / z) pos (map (fun _ => 1) pos) (3 * n) Hoz0 Hnd) as [tv' [Et' ->]]; auto.
        rewrite Etv in Et'. now injection Et' as <-.
      - change (pv_x0 e) with pos. change (pv_x1 e) with vals. change (pv_x_vec e) with xv.
        destruct (eval_sparse_vector_ok (E:=error) z pos vals (3 * n) Hz Hnd) as [xv' [Ex' ->]]; auto.
        rewrite Exv in Ex'. now injection Ex' as <-. }
    assert (LP M f z 0) as [_ LF]; [|exact LF].
    eapply LP_val; [|unfold f; apply LP_sub; [exact L|apply LP_add; apply LP_list; auto; unfold M; lia]].
    refine (eq_trans _ Hg0). rewrite pv_pg_value. change (pv_w_vec e) with (pw ++ [0]). rewrite peval_snoc0.
    change (pv_v_c_20 q) with (pv_p_c_20 q). change (pv_v_c_21 q) with (pv_p_c_21 q).
    change (pv_v_c_22 q) with (pv_p_c_22 q). change (pv_v_c_23 q) with (pv_p_c_23 q).
    change (pv_v_c_24 q) with (pv_p_c_24 q). change (pv_v_c_26 q) with (- z).
    assert (pv_v_c_25 q = - fpowZ z (1 - Z.of_nat (d + 1) - 1)) as ->.
    { change (pv_v_c_25 q) with (- power z (- Z.of_nat (d + 1))%Z). rewrite Laurent.pw by auto. do 2 f_equal. lia. }
    replace (fpowZ z (2 - 1)) with z by (change (2 - 1)%Z with 1%Z; now rewrite fpowZ_1). ring. }
  assert (lzero M f) as LZ by (destruct (lzero_dec M f); auto; exfalso; apply Nzz; auto).
  assert (pv_hK e 1 = 0) as H1.
  { pose proof (LZ 1%Z ltac:(unfold M; lia)) as Z1. unfold f in Z1. unfold minus_i64 in Z1.
    rewrite (vidx_coef ph1 _ (d + 1)), coef_over, (vidx_out ph2) in Z1 by lia.
    rewrite <- Z1. ring. }
  (* the constant term vanishes, so every position is fine *)
  assert (CT om N (pv_hK e 1) (pv_br e)) as HC.
  { replace N with (Z.to_nat (Z.of_nat N)) by lia. apply pv_CT; auto; unfold N.
    - change (pv_cap_c_total e) with (Z.of_nat n). change (pv_cap_c_m e) with (Z.of_nat (p_nmul cs)). lia.
    - change (pv_cap_c_total e) with (Z.of_nat n). change (pv_cap_c_m e) with (Z.of_nat (p_nmul cs)). change (pv_w_vec e) with (pw ++ [0]). lia.
    - change (pv_r_vec e) with (pr ++ [0]). lia. }
  assert (forall i, (i < N)%nat -> pv_br e1 (1 + Z.of_nat i) = 0) as HB.
  { apply not_ex_0. intros X. apply No. right. split; auto. unfold CT in HC. rewrite H1 in HC. symmetry. exact HC. }
  (* every power of alpha *)
  assert (forall i, (i < 3 * n)%nat -> forall j, (j < 6)%nat -> pv_kk e0 (1 + Z.of_nat i) j = 0) as HK.
  { intros i Hi. apply not_ex_0. intros X. apply Na. exists i. split; auto. split; auto.
    specialize (HB i ltac:(unfold N; lia)). refine (eq_trans _ HB). unfold pv_br.
    change (pv_cap_c_total e1) with (Z.of_nat n). rewrite (range_out (3 * Z.of_nat n + 1)) by lia.
    change (pv_alpha e1) with alpha. cbn [sumn pv_kk].
    rewrite !pw_pos by lia. change (Pos.to_nat 2) with 2%nat. change (Pos.to_nat 3) with 3%nat. change (Pos.to_nat 4) with 4%nat. change (Pos.to_nat 5) with 5%nat.
    change (pv_k0 e1) with (pv_k0 e0). change (pv_k1 e1) with (pv_k1 e0). change (pv_k2 e1) with (pv_k2 e0).
    change (pv_k3 e1) with (pv_k3 e0). change (pv_k4 e1) with (pv_k4 e0). change (pv_k5 e1) with (pv_k5 e0).
    cbn [fpow]. ring. }
  assert (pv_sat e0) as GS.
  { split; intros i Hi; change (pv_cap_c_total e0) with (Z.of_nat n) in Hi;
      replace i with (1 + Z.of_nat (Z.to_nat (i - 1)))%Z by lia; specialize (HK (Z.to_nat (i - 1)) ltac:(lia)).
    - exact (HK 0%nat ltac:(lia)).
    - exact (HK 1%nat ltac:(lia)).
    - exact (HK 2%nat ltac:(lia)).
    - exact (HK 3%nat ltac:(lia)).
    - exact (HK 4%nat ltac:(lia)).
    - exact (HK 5%nat ltac:(lia)). }
  pose proof (pv_sat_holds e0 (p_nmul cs) (p_nadd cs) (p_consts cs) pw (p_wires cs) pos vals) as R.
  rewrite <- EN' in R. destruct R as [R1 R2]; auto; lia.
Qed.
Lemma pv_sound_forest pw : forest (p_wires cs) ->
  pov_holds (p_consts cs) [] (p_nmul cs) (p_nadd cs) pos vals (row pw 0 n) (row pw n n) (row pw (2 * n) n) ->
  inv_idx (p_wires cs) (3 * n) (row pw 0 (3 * n)) ->
  pov_holds (p_consts cs) (p_wires cs) (p_nmul cs) (p_nadd cs) pos vals (row pw 0 n) (row pw n n) (row pw (2 * n) n).
Proof.
  intros Hf HP HI. pose proof (inv_forest_respects _ _ _ Hf Hb HI) as R. unfold pov_holds in *. cbn zeta in *. rewrite rows_split in *.
  destruct HP as [P1 [P2 [P3 [_ P5]]]]. repeat (split; auto).
  - rewrite row_length. now apply (Hb _ _ H).
  - rewrite row_length. now apply (Hb _ _ H).
Qed.
Lemma pv_sound_perm pw sigma : permutation_vector_from_wires (E:=error) gamma (p_wires cs) (3 * n) = Ok sigma ->
  inv_idx (p_wires cs) (3 * n) (row pw 0 (3 * n)) -> perm_invariant gamma (3 * n) sigma (row pw 0 (3 * n)).
Proof.
  intros Es HI i j Hi Hj E. destruct (sigma_at _ _ _ _ Es) as [_ [_ Hs]]. rewrite Hs in E by auto.
  apply Hdp in E; auto using sg_below. subst j. symmetry. now apply HI.
Qed.
End Main.
End PovSoundC.

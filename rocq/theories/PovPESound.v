(** PovPESound.v: what an accepted proof of the prover-efficient POV argument proves. *)
From Verif Require Import Base Spec Tools ToolsProofs ToolsProofs2 PermProofs CS KZG KZGSpec KZGProofs Snark Laurent SnarkProofs SnarkPerm
  Properties_KZG PovPE PovPEProofs PovPEConst PovPEComplete PovPETop PovPEGen SoundSpec Sound KZGSound PovSound PovPESoundSpec.
Local Open Scope F_scope.

Section PovPESoundB.
Context {F : Type} {fo : FieldOps F} {fl : FieldLaws F}.
Add Field Fpes2 : F_th.

(** the constraints at position i, one for every power of alpha *)
Definition pe_k0 (e : pe_s4 F) (i : Z) : F := vidx (pe_u_vec e) (i - pe_cap_c_total e) * vidx (pe_u_vec e) i
  - range_index (pe_cap_c_total e + 1) (pe_cap_c_m e + pe_cap_c_total e) i * vidx (pe_v_vec e) (i - pe_cap_c_m e).
Definition pe_k1 (e : pe_s4 F) (i : Z) : F := range_index (pe_cap_c_total e + 1) (pe_cap_c_a e + pe_cap_c_total e) i *
  (vidx (pe_v_vec e) (i - pe_cap_c_total e) + vidx (pe_u_vec e) (i + pe_cap_c_m e - pe_cap_c_total e) - vidx (pe_v_vec e) i).
Definition pe_k2 (e : pe_s4 F) (i : Z) : F := vidx (pe_t_vec e) i *
  (vidx (pe_u_vec e) i + vidx (pe_v_vec e) (i - pe_cap_c_m e - pe_cap_c_total e) - vidx (pe_x_vec e) i).
Definition pe_k3 (e : pe_s4 F) (i : Z) : F := (delta i 1 + vidx (pe_r_vec e) (i - 1)) * pe_r_num e i - vidx (pe_r_vec e) i * pe_r_den e i.
Definition pe_k4 (e : pe_s4 F) (i : Z) : F := delta i (3 * pe_cap_c_total e) * (vidx (pe_r_vec e) i - 1).
Definition pe_kk (e : pe_s4 F) (i : Z) (j : nat) : F :=
  match j with 0 => pe_k0 e i | 1 => pe_k1 e i | 2 => pe_k2 e i | 3 => pe_k3 e i | _ => pe_k4 e i end.

(** ** The constraints imply what is enforced *)
Section SatHolds.
Variable e : pe_s4 F.
Variable cs : POV F.
Notation nm := (p_nmul cs).
Notation na := (p_nadd cs).
Notation consts := (p_consts cs).
Notation wires := (p_wires cs).
Variables (pu pv : list F) (pos : list nat) (vals : list F).
Let n := (nm + na + length consts)%nat.
Notation W := (pe_values cs pu pv).
Hypothesis EC : pe_cap_c_total e = Z.of_nat n.
Hypothesis ECa : pe_cap_c_a e = Z.of_nat na.
Hypothesis ECm : pe_cap_c_m e = Z.of_nat nm.
Hypothesis Hn : (1 <= n)%nat.
Hypothesis Eu : pe_u_vec e = pu ++ [0].
Hypothesis Ev : pe_v_vec e = pv ++ [0].
Hypothesis Ed : pe_d_vec e = consts.
Hypothesis Es : permutation_vector_from_wires (E:=error) (pe_gamma e) wires (3 * n) = Ok (pe_sigma_vec e).
Hypothesis Ex : forall k, coef (pe_x_vec e) k = sparse_at pos vals k.
Hypothesis Et : forall k, coef (pe_t_vec e) k = sparse_at pos (map (fun _ => 1) pos) k.
Hypothesis Hnd : NoDup pos.
Hypothesis Hlen : length pos = length vals.
Hypothesis Hpos : forall i, In i pos -> (i < 2 * n + nm + na)%nat.
Hypothesis Hga : distinct_powers (pe_gamma e) (3 * n).
Hypothesis Hz : ~ bad_zeta (3 * n) (coef W) (fpow (pe_gamma e)) (fun j => fpow (pe_gamma e) (sg wires (3 * n) j)) (pe_zeta e).
Hypothesis Hz1 : ~ bad_zeta_1 (map (fun k => coef W k + fpow (pe_gamma e) k * pe_zeta e) (seq 0 (3 * n)))
  (map (fun k => coef W k + fpow (pe_gamma e) (sg wires (3 * n) k) * pe_zeta e) (seq 0 (3 * n))) (pe_zeta_1 e).
Hypothesis G : forall i, (i < 3 * n)%nat -> forall j, (j < 5)%nat -> pe_kk e (1 + Z.of_nat i) j = 0.

Lemma pes_u i (j : nat) : i = (Z.of_nat j + 1)%Z -> vidx (pe_u_vec e) i = coef pu j.
Proof. intros ->. rewrite (vidx_coef _ _ j) by lia. rewrite Eu. apply coef_snoc0. Qed.
Lemma pes_v i (j : nat) : i = (Z.of_nat j + 1)%Z -> vidx (pe_v_vec e) i = coef pv j.
Proof. intros ->. rewrite (vidx_coef _ _ j) by lia. rewrite Ev. apply coef_snoc0. Qed.
Lemma pes_W k : (k < 3 * n)%nat -> coef W k = coef pu k + (if (k <? n + nm)%nat then 0 else coef pv (k - (n + nm)))
                + (if (k <? 2 * n + nm + na)%nat then 0 else coef consts (k - (2 * n + nm + na))).
Proof. intros Hk. unfold pe_values. fold n. rewrite coef_map_seq by auto. reflexivity. Qed.
Lemma pes_W' k : (k < 3 * n)%nat ->
  vidx (pe_u_vec e) (1 + Z.of_nat k) + vidx (pe_v_vec e) (1 + Z.of_nat k - (Z.of_nat nm + Z.of_nat n)) +
  vidx (pe_d_vec e) (1 + Z.of_nat k - (Z.of_nat na + Z.of_nat nm + 2 * Z.of_nat n)) = coef W k.
Proof.
  intros Hk. rewrite pes_W by auto. rewrite (pes_u _ k), Ed by lia. f_equal; [f_equal|].
  - destruct (Nat.ltb_spec k (n + nm)); [apply vidx_out; lia|apply pes_v; lia].
  - destruct (Nat.ltb_spec k (2 * n + nm + na)); [apply vidx_out; lia|rewrite (vidx_coef _ _ (k - (2 * n + nm + na))) by lia; reflexivity].
Qed.
Lemma pes_num k : (k < 3 * n)%nat -> pe_r_num e (1 + Z.of_nat k) = (coef W k + fpow (pe_gamma e) k * pe_zeta e) + pe_zeta_1 e.
Proof.
  intros Hk. unfold pe_r_num, minus_i64. rewrite <- pes_W', EC, ECa, ECm by auto.
  replace (1 + Z.of_nat k - 1 + 1)%Z with (1 + Z.of_nat k)%Z by lia. rewrite range_in by lia.
  replace (1 + Z.of_nat k - (Z.of_nat nm + Z.of_nat n + 1) + 1)%Z with (1 + Z.of_nat k - (Z.of_nat nm + Z.of_nat n))%Z by lia.
  replace (1 + Z.of_nat k - (Z.of_nat na + Z.of_nat nm + 2 * Z.of_nat n + 1) + 1)%Z with (1 + Z.of_nat k - (Z.of_nat na + Z.of_nat nm + 2 * Z.of_nat n))%Z by lia.
  destruct (sigma_at _ _ _ _ Es) as [Hg _].
  assert (power_vidx (pe_gamma e) (3 * Z.of_nat n) (1 + Z.of_nat k) = fpow (pe_gamma e) k) as ->; [|ring].
  unfold power_vidx. destruct (Z.leb_spec 1 (1 + Z.of_nat k)), (Z.leb_spec (1 + Z.of_nat k) (3 * Z.of_nat n)); try lia. cbn [andb].
  replace (1 + Z.of_nat k - 1)%Z with (Z.of_nat k) by lia. now apply power_nat.
Qed.
Lemma pes_den k : (k < 3 * n)%nat -> pe_r_den e (1 + Z.of_nat k) = (coef W k + fpow (pe_gamma e) (sg wires (3 * n) k) * pe_zeta e) + pe_zeta_1 e.
Proof.
  intros Hk. unfold pe_r_den, minus_i64. rewrite <- pes_W', EC, ECa, ECm by auto.
  replace (1 + Z.of_nat k - 1 + 1)%Z with (1 + Z.of_nat k)%Z by lia. rewrite range_in by lia.
  replace (1 + Z.of_nat k - (Z.of_nat nm + Z.of_nat n + 1) + 1)%Z with (1 + Z.of_nat k - (Z.of_nat nm + Z.of_nat n))%Z by lia.
  replace (1 + Z.of_nat k - (Z.of_nat na + Z.of_nat nm + 2 * Z.of_nat n + 1) + 1)%Z with (1 + Z.of_nat k - (Z.of_nat na + Z.of_nat nm + 2 * Z.of_nat n))%Z by lia.
  destruct (sigma_at _ _ _ _ Es) as [_ [_ Hs]]. rewrite (vidx_coef (pe_sigma_vec e) _ k), Hs by lia. ring.
Qed.
Lemma pes_inv x : (x < 3 * n)%nat -> coef W (sg wires (3 * n) x) = coef W x.
Proof.
  apply (products_inv wires (3 * n) (pe_gamma e) (coef W) (pe_zeta e) (pe_zeta_1 e)); auto.
  transitivity (prodn (3 * n) (fun k => pe_r_num e (1 + Z.of_nat k))); [symmetry; apply prodn_ext; intros; now apply pes_num|].
  transitivity (prodn (3 * n) (fun k => pe_r_den e (1 + Z.of_nat k))); [|apply prodn_ext; intros; now apply pes_den].
  apply (grand_product_sound (pe_r_num e) (pe_r_den e) (vidx (pe_r_vec e))); [apply vidx_out; lia|lia| |].
  - intros i Hi. apply fsub_0_eq. replace i with (1 + Z.of_nat (Z.to_nat (i - 1)))%Z by lia. exact (G (Z.to_nat (i - 1)) ltac:(lia) 3%nat ltac:(lia)).
  - pose proof (G (3 * n - 1)%nat ltac:(lia) 4%nat ltac:(lia)) as K. cbn [pe_kk] in K. unfold pe_k4, delta in K. rewrite EC in K.
    replace (1 + Z.of_nat (3 * n - 1))%Z with (3 * Z.of_nat n)%Z in K by lia. rewrite Z.eqb_refl in K.
    apply fsub_0_eq. replace (Z.of_nat (3 * n)) with (3 * Z.of_nat n)%Z by lia. rewrite <- K. ring.
Qed.

Lemma pe_values_length : length W = (3 * n)%nat.
Proof. unfold pe_values. now rewrite map_length, seq_length. Qed.
Lemma pes_rows : row W 0 n ++ row W n n ++ row W (2 * n) n = W.
Proof.
  rewrite rows_split. unfold row. rewrite <- pe_values_length. clear. generalize W. intros l. unfold coef.
  induction l as [|x l IH]; [reflexivity|]. cbn [length seq map nth]. f_equal. rewrite <- seq_shift, map_map. exact IH.
Qed.
Lemma pe_sat_enforced : pe_enforced [] nm pos vals (row W 0 n) (row W n n) (row W (2 * n) n) /\ inv_idx wires (3 * n) W.
Proof.
  assert (n = nm + na + length consts)%nat as En by reflexivity.
  split; [|intros x Hx; now apply pes_inv].
  unfold pe_enforced. cbn zeta. rewrite pes_rows.
  split; [|split].
  - intros i Hi Hb. rewrite !coef_row in * by lia. cbn [Nat.add] in *. rewrite !pes_W in * by lia.
    repeat match goal with H : context [(?x <? ?y)%nat] |- _ => destruct (Nat.ltb_spec x y) in H; [|lia] end.
    repeat match goal with |- context [(?x <? ?y)%nat] => destruct (Nat.ltb_spec x y); try lia end.
    pose proof (G (n + i)%nat ltac:(lia) 0%nat ltac:(lia)) as K1. pose proof (G (2 * n + i)%nat ltac:(lia) 0%nat ltac:(lia)) as K2.
    cbn [pe_kk] in K1, K2. unfold pe_k0 in K1, K2. rewrite EC, ECm in K1, K2.
    rewrite range_in in K1 by lia. rewrite range_out in K2 by lia.
    rewrite (pes_u _ i), (pes_u _ (n + i)), (pes_v _ (n + i - nm)) in K1 by lia.
    rewrite (pes_u _ (n + i)), (pes_u _ (2 * n + i)) in K2 by lia.
    assert (coef pu (n + i) * coef pu (2 * n + i) = 0) as K3 by (rewrite <- K2; ring).
    apply fmul_integral in K3. destruct K3 as [K3|K3]; [exfalso; apply Hb; rewrite K3; ring|].
    rewrite K3. replace (2 * n + i - (n + nm))%nat with (n + i - nm)%nat by lia.
    apply fsub_0_eq in K1. transitivity (1 * coef pv (n + i - nm)); [ring|]. rewrite <- K1. ring.
  - intros x y [].
  - intros j Hj. assert (In (nth j pos 0%nat) pos) as Hin by now apply nth_In.
    pose proof (Hpos _ Hin) as Hk. set (k := nth j pos 0%nat) in *. rewrite <- pes_W' by lia.
    rewrite (vidx_out (pe_d_vec e)) by lia.
    pose proof (G k ltac:(lia) 2%nat ltac:(lia)) as G3. cbn [pe_kk] in G3. unfold pe_k2 in G3. rewrite EC, ECm in G3.
    rewrite (vidx_coef (pe_t_vec e) _ k), (vidx_coef (pe_x_vec e) _ k), Ex, Et in G3 by lia.
    assert (In (k, coef vals j) (combine pos vals)) as H1.
    { unfold k, coef. rewrite <- combine_nth by auto. apply nth_In. rewrite combine_length. lia. }
    assert (In (k, 1) (combine pos (map (fun _ => 1) pos))) as H2.
    { assert (In (nth j pos 0%nat, nth j (map (fun _ => 1) pos) (1 : F)) (combine pos (map (fun _ => 1) pos))) as Q.
      { rewrite <- combine_nth by (now rewrite map_length). apply nth_In. rewrite combine_length, map_length. lia. }
      rewrite (map_nth (fun _ => 1 : F) pos 0%nat j) in Q. exact Q. }
    unfold sparse_at in G3. rewrite (NoDup_fsum_pick (combine pos vals) k (coef vals j)), (NoDup_fsum_pick (combine pos (map (fun _ => 1) pos)) k 1) in G3;
      auto using combine_NoDup_fst; try (rewrite map_length; auto).
    apply fsub_0_eq. refine (eq_trans _ G3).
    replace (1 + Z.of_nat k - Z.of_nat nm - Z.of_nat n)%Z with (1 + Z.of_nat k - (Z.of_nat nm + Z.of_nat n))%Z by lia. ring.
Qed.
End SatHolds.
End PovPESoundB.

Section PovPESoundC.
Context {F G1 G2 GT : Type} {fo : FieldOps F} {fl : FieldLaws F}
        {po : PairingOps F G1 G2 GT} {pl : PairingLaws F G1 G2 GT}.
Add Field Fpes3 : F_th.

Definition pe_bad_alpha (N : nat) (e : pe_s4 F) (al : F) : Prop :=
  exists i, (i < N)%nat /\ (exists j, (j < 5)%nat /\ pe_kk e (1 + Z.of_nat i) j <> 0) /\
    sumn 5 (fun j => fpow al j * pe_kk e (1 + Z.of_nat i) j) = 0.
Lemma dec_pe_bad_alpha N e al : pe_bad_alpha N e al \/ ~ pe_bad_alpha N e al.
Proof. apply dec_ex. intros i _. apply dec_sumn. destruct (feq_dec (sumn 5 (fun j => fpow al j * pe_kk e (1 + Z.of_nat i) j)) 0); auto. Qed.
Lemma cnt_pe_bad_alpha N e : cnt (N * 4) (pe_bad_alpha N e).
Proof.
  apply (cnt_ex N 4 (fun i al => (exists j, (j < 5)%nat /\ pe_kk e (1 + Z.of_nat i) j <> 0) /\ sumn 5 (fun j => fpow al j * pe_kk e (1 + Z.of_nat i) j) = 0)).
  - intros i al _. apply dec_sumn. destruct (feq_dec (sumn 5 (fun j => fpow al j * pe_kk e (1 + Z.of_nat i) j)) 0); auto.
  - intros i _. apply (cnt_sumn 5 (pe_kk e (1 + Z.of_nat i))).
Qed.

(** the polynomial behind the combined commitment *)
Definition pe_pg (e : pe_s4 F) (q : pe_ctx F) (pu pv ph1 ph2 : list F) : list F :=
  padd (pscale (pe_v_c_18 q) pu) (padd (pscale (pe_v_c_19 q) pv) (padd (pscale (pe_v_c_21 q) (pe_d_vec e)) (padd [pe_v_c_20 q]
  (padd (pscale (pe_v_c_22 q) (pe_sigma_vec e)) (padd (pscale (pe_v_c_23 q) (pe_t_vec_1 e))
  (padd (pscale (pe_v_c_24 q) ph1) (pscale (pe_v_c_25 q) ph2))))))).
Lemma pe_pg_value e q pu pv ph1 ph2 x : peval (pe_pg e q pu pv ph1 ph2) x =
  pe_v_c_18 q * peval pu x + pe_v_c_19 q * peval pv x + pe_v_c_20 q + pe_v_c_21 q * peval (pe_d_vec e) x
  + pe_v_c_22 q * peval (pe_sigma_vec e) x + pe_v_c_23 q * peval (pe_t_vec_1 e) x
  + pe_v_c_24 q * peval ph1 x + pe_v_c_25 q * peval ph2 x.
Proof. unfold pe_pg. rewrite !peval_padd, !peval_pscale. cbn [peval]. ring. Qed.

Section Main.
Variable gamma : F.
Variables (d : nat) (cs : POV F) (pos : list nat) (vals : list F).
Let n := ps_n (pov_get_size cs).
Hypothesis Hga : gamma <> 0.
Hypothesis Hdp : distinct_powers gamma (3 * n).
Hypothesis Hb : pairs_below (3 * n) (p_wires cs).
Hypothesis Hc : (1 <= length (p_consts cs))%nat.
Hypothesis Hd : (p_nmul cs + 4 * n <= d)%nat.
Hypothesis Hnd : NoDup pos.
Hypothesis Hlen : length pos = length vals.
Hypothesis Hpos : forall i, In i pos -> (i < 2 * n + p_nmul cs + p_nadd cs)%nat.

Notation pe_accepts_with := (pe_accepts_with (G1:=G1) (G2:=G2) (GT:=GT) gamma d cs pos vals).
Definition pe_spub : pe_pub F := mkPEPub (Z.of_nat n) (Z.of_nat (p_nadd cs)) (Z.of_nat (p_nmul cs)) (Z.of_nat (d + 1)) gamma pos vals.
Let sv := map (fpow gamma) (idx (p_wires cs) (3 * n)).
(** a run with the given vectors *)
Definition pe_se (xv tv pu pv pr pt : list F) zeta zeta_1 alpha omega : pe_s4 F :=
  mkPES4 (mkPES3 (mkPES2 (mkPES1 pe_spub sv (p_consts cs) xv tv (pu ++ [0]) (pv ++ [0])) zeta zeta_1) (pr ++ [0]) alpha) pt omega.

Lemma pe_accepts_batch pu pv pr pt ph1 ph2 pW pW1 zeta zeta_1 alpha omega z y y2 xi beta rnd xv tv :
  Forall (fun p => length p <= d + 1)%nat [pu; pv; pr; pt; ph1; ph2; pW; pW1] ->
  pe_accepts_with pu pv pr pt ph1 ph2 pW pW1 zeta zeta_1 alpha omega z y y2 xi beta rnd ->
  let q := mkPECtx pe_spub zeta zeta_1 alpha omega z y y2 in
  pe_divisors q = Ok tt /\ exists (g : G1) (h : G2) xi2, g <> v0 /\ h <> v0 /\
  batch_check (vk_for beta g h) (map (fun f => vscale (peval f beta) g) [pu; pr])
    [vscale (peval (pe_pg (pe_se xv tv pu pv pr pt zeta zeta_1 alpha omega) q pu pv ph1 ph2) beta) g] (omega / z) z xi xi2 [y; y2] [0]
    (vscale (peval pW beta) g) (vscale (peval pW1 beta) g) rnd = true.
Proof.
  intros HL [H [g [h [pp [pk [vk [cu [cv [cr [ct [ch1 [ch2 [cW [cW1 A]]]]]]]]]]]]]].
  destruct A as [Hg [Hh [Hs [Hi [C1 [C1' [C2 [C3 [C4 [C5 [C6 [C7 [E1 [E2 [E3 [E4 [E5 [E6 V]]]]]]]]]]]]]]]]]].
  intros q. destruct (pe_index_inv _ _ _ _ _ _ _ _ _ Hs Hi) as
    [K1 [K2 [K3 [K4 [K5 [K6 [K7 [K8 [K9 [K10 K11]]]]]]]]]].
  fold n in K7. rewrite pvw_ok in K7 by auto. assert (pe_pk_sigma_vec pk = sv) as K7' by (injection K7; intros <-; reflexivity).
  destruct (kzg_vk_setup d beta g h pp Hs) as [_ [Hp _]]. rewrite Hp in *.
  rewrite Forall_forall in HL.
  apply poly_commit in C1, C1', C2, C3, C4, C5, C6, C7; auto; try lia; try (apply HL; cbn [In]; tauto).
  assert (pe_pub_of gamma vk (pos, vals) = pe_spub) as EP.
  { unfold pe_pub_of, pe_spub. rewrite K4, K5. reflexivity. }
  unfold pe_verify in V. cbn [pe_cm_u_vec pe_cm_v_vec pe_cm_r_vec pe_cm_t_vec_1 pe_cm_h_vec_1 pe_cm_h_vec_2 pe_pf_y pe_pf_y_2 pe_cap_w pe_cap_w_1] in V.
  rewrite EP, E1, E2, E3, E4, E5 in V. fold q in V. apply obind_ok in V. destruct V as [[] [D V]]. split; [exact D|].
  rewrite EP in E6. fold q in E6. rewrite E6 in V.
  match type of V with (if ?b then _ else _) = _ => destruct b eqn:B; [clear V|discriminate] end.
  rewrite K3 in B. eexists g, h, _. split; auto. split; auto. cbn [map].
  replace (vscale (peval (pe_pg (pe_se xv tv pu pv pr pt zeta zeta_1 alpha omega) q pu pv ph1 ph2) beta) g) with (pe_v_cm_g vk q cu cv cr ct ch1 ch2).
  { rewrite <- C1, <- C2, <- C6, <- C7. exact B. }
  rewrite pe_pg_value. unfold pe_v_cm_g. rewrite K3, K10, K11, K7'. cbn [vk_g vk_for].
  pose proof (lin_comb_vscale g (pe_v_c_20 q)
    [(peval pu beta, pe_v_c_18 q); (peval pv beta, pe_v_c_19 q); (peval (p_consts cs) beta, pe_v_c_21 q);
     (peval sv beta, pe_v_c_22 q); (peval pt beta, pe_v_c_23 q);
     (peval ph1 beta, pe_v_c_24 q); (peval ph2 beta, pe_v_c_25 q)]) as E. cbn [map fst snd] in E.
  rewrite <- C1, <- C1', <- C3, <- C4, <- C5 in E. rewrite E. f_equal.
  unfold pe_se. cbn [pe_u_vec pe_v_vec pe_d_vec pe_sigma_vec pe_t_vec_1 pe_s2_s1 pe_s3_s2 pe_s4_s3]. cbn [fsum]. ring.
Qed.

Notation W pu pv := (pe_values cs pu pv).
Lemma pe_sound_gen pu pv (Q : Prop) : (length pu <= d + 1)%nat -> (length pv <= d + 1)%nat ->
  (pe_enforced [] (p_nmul cs) pos vals (row (W pu pv) 0 n) (row (W pu pv) n n) (row (W pu pv) (2 * n) n) ->
   inv_idx (p_wires cs) (3 * n) (W pu pv) -> Q) ->
  most (9 * n * n) (fun zeta => most (3 * n) (fun zeta_1 =>
  forall pr, (length pr <= d + 1)%nat -> most (12 * n) (fun alpha =>
  forall pt, (length pt <= d + 1)%nat -> most (d + n + 2) (fun omega =>
  forall ph1 ph2, (length ph1 <= d + 1)%nat -> (length ph2 <= d + 1)%nat -> most (2 * (d + 2 * n + 2)) (fun z =>
  forall y y2, most 1 (fun xi =>
  forall pW pW1, (length pW <= d + 1)%nat -> (length pW1 <= d + 1)%nat -> most (2 * (d + 1)) (fun beta => most 1 (fun rnd =>
  pe_accepts_with pu pv pr pt ph1 ph2 pW pW1 zeta zeta_1 alpha omega z y y2 xi beta rnd -> Q)))))))).
Proof.
  intros Lu Lv HQ.
  assert (n = length (p_consts cs) + p_nmul cs + p_nadd cs)%nat as EN by reflexivity.
  assert (n = p_nmul cs + p_nadd cs + length (p_consts cs))%nat as EN' by lia.
  assert (forall i, In i pos -> (i < 3 * n)%nat) as Hpos' by (intros i Hi; apply Hpos in Hi; lia).
  destruct (sparse_vector_ok (E:=error) pos vals (3 * n) Hnd Hpos') as [xv [Exv [Lxv Vxv]]].
  destruct (sparse_vector_ok (E:=error) pos (map (fun _ => 1) pos) (3 * n) Hnd Hpos') as [tv [Etv [Ltv Vtv]]].
  assert (length sv = 3 * n)%nat as Lsv by (unfold sv; now rewrite map_length, idx_length).
  assert (permutation_vector_from_wires (E:=error) gamma (p_wires cs) (3 * n) = Ok sv) as Esv by (now apply pvw_ok).
  apply (most_intro _ (bad_zeta (3 * n) (coef (W pu pv)) (fpow gamma) (fun j => fpow gamma (sg (p_wires cs) (3 * n) j)))).
  { replace (9 * n * n)%nat with (3 * n * (3 * n * 1))%nat by lia. apply cnt_bad_zeta. }
  { apply dec_bad_zeta. }
  intros zeta Nz.
  apply (most_intro _ (bad_zeta_1 (map (fun k => coef (W pu pv) k + fpow gamma k * zeta) (seq 0 (3 * n)))
    (map (fun k => coef (W pu pv) k + fpow gamma (sg (p_wires cs) (3 * n) k) * zeta) (seq 0 (3 * n))))).
  { apply cnt_products; rewrite map_length, seq_length; lia. }
  { apply dec_products. }
  intros zeta_1 Nz1 pr Lr. set (e0 := pe_se xv tv pu pv pr [] zeta zeta_1 0 0).
  apply (most_intro _ (pe_bad_alpha (3 * n) e0)).
  { replace (12 * n)%nat with (3 * n * 4)%nat by lia. apply cnt_pe_bad_alpha. }
  { apply dec_pe_bad_alpha. }
  intros alpha Na pt Lt. set (e1 := pe_se xv tv pu pv pr pt zeta zeta_1 alpha 0).
  set (N := (d + n + 2)%nat).
  apply (most_intro _ (fun om => om = 0 \/ (exists i, (i < N)%nat /\ pe_br e1 (1 + Z.of_nat i) <> 0) /\
    sumZ 1 N (fun i => fpowZ om (i - 1) * pe_br e1 i) = 0)).
  { replace N with (1 + (N - 1))%nat at 1 by lia. apply cnt_or; [intros om; destruct (feq_dec om 0); auto|apply cnt_eq|apply cnt_CT]. }
  { intros om. destruct (feq_dec om 0) as [|Q0]; [tauto|].
    destruct (dec_ex N (fun i => pe_br e1 (1 + Z.of_nat i) <> 0)) as [Q1|Q1].
    - intros i _. destruct (feq_dec (pe_br e1 (1 + Z.of_nat i)) 0); auto.
    - destruct (feq_dec (sumZ 1 N (fun i => fpowZ om (i - 1) * pe_br e1 i)) 0); tauto.
    - tauto. }
  intros om No ph1 ph2 L1 L2. set (e := pe_se xv tv pu pv pr pt zeta zeta_1 alpha om).
  set (M := Z.of_nat (d + 2 * n + 2)).
  set (f := fun K => pe_hK e K - (vidx ph1 (minus_i64 K (1 - Z.of_nat (d + 1))) + vidx ph2 (minus_i64 K 2))).
  apply (most_intro _ (fun z => z <> 0 /\ ~ lzero M f /\ lsum M f z = 0)).
  { replace (2 * (d + 2 * n + 2))%nat with (Z.to_nat (2 * M)) by (unfold M; lia). apply cnt_laurent. unfold M. lia. }
  { intros z. destruct (feq_dec z 0), (lzero_dec M f), (feq_dec (lsum M f z) 0); tauto. }
  intros z Nzz y y2. set (q := mkPECtx pe_spub zeta zeta_1 alpha om z y y2).
  assert (Z.of_nat (length (pu ++ [0%F])) = Z.of_nat (length pu) + 1)%Z as Lu' by (rewrite app_length; cbn [length]; lia).
  assert (Z.of_nat (length (pv ++ [0%F])) = Z.of_nat (length pv) + 1)%Z as Lv' by (rewrite app_length; cbn [length]; lia).
  assert (Z.of_nat (length (pr ++ [0%F])) = Z.of_nat (length pr) + 1)%Z as Lr' by (rewrite app_length; cbn [length]; lia).
  eapply most_weaken; [| |apply (kzg_batch_sound (d + 1) [pu; pr] [y; y2] (pe_pg e q pu pv ph1 ph2) (om / z) z)]; [cbn [length]; lia| |reflexivity| |].
  2:{ cbn [In]. intros p [<-|[<-|[]]]; lia. }
  2:{ unfold pe_pg. repeat (rewrite padd_length || rewrite pscale_length). unfold e, pe_se.
      cbn [pe_u_vec pe_v_vec pe_d_vec pe_sigma_vec pe_t_vec_1 pe_s2_s1 pe_s3_s2 pe_s4_s3 length]. lia. }
  cbn beta. intros xi HX pW pW1 LW LW1. specialize (HX pW pW1 ltac:(lia) ltac:(lia)).
  revert HX. apply most_weaken; [lia|]. intros beta. apply most_weaken; [lia|]. intros rnd HX HA.
  assert (Forall (fun p : list F => (length p <= d + 1)%nat) [pu; pv; pr; pt; ph1; ph2; pW; pW1]) as HL by (repeat constructor; auto).
  destruct (pe_accepts_batch _ _ _ _ _ _ _ _ _ _ _ _ _ _ _ _ _ _ xv tv HL HA) as [D [g [h [xi2 [Hg [Hh B]]]]]]. clear HA.
  fold e q in B, D. specialize (HX g h xi2 Hg Hh B). clear B. destruct HX as [Hy Hg0].
  pose proof (Hy 0%nat ltac:(cbn; lia)) as Hy0. pose proof (Hy 1%nat ltac:(cbn; lia)) as Hy1. cbn [nth] in Hy0, Hy1. clear Hy.
  change (coef [y; y2] 0) with y in Hy0. change (coef [y; y2] 1) with y2 in Hy1.
  destruct (pe_divisors_cases q) as [[_ [Hz [Hz1 [Hgz Hoz]]]]|[D1 _]]; [|rewrite D in D1; discriminate].
  change (pe_q_z q) with z in *. change (pe_q_omega q) with om in *. change (pe_gamma q) with gamma in *.
  destruct (feq_dec om 0) as [|Ho]; [exfalso; auto|].
  assert (om / z <> 0) as Hoz0.
  { intros E. apply Ho. transitivity (om / z * z); [field; auto|rewrite E; ring]. }
  assert (pe_gsizes e) as SZ.
  { split; unfold e, pe_se, pe_spub;
    cbn [pe_cap_c_a pe_cap_c_m pe_cap_c_total pe_u_vec pe_v_vec pe_r_vec pe_x_vec pe_t_vec pe_d_vec pe_sigma_vec pe_s1_pub pe_s2_s1 pe_s3_s2 pe_s4_s3];
    try lia. }
  (* the combined polynomial vanishes at z, so the identity holds as one of polynomials *)
  assert (lsum M f z = 0) as LS.
  { assert (LP M (pe_hK e) z (pe_p_c_18 q * peval (pe_u_vec e) z + pe_p_c_19 q * peval (pe_v_vec e) z + pe_p_c_20 q
   + pe_p_c_21 q * peval (pe_d_vec e) z + pe_p_c_22 q * peval (pe_sigma_vec e) z
   + pe_p_c_23 q * peval (pe_t_vec_1 e) z)) as L.
    { apply pe_gLP; auto.
      - unfold M. change (pe_cap_c_total e) with (Z.of_nat n). change (pe_cap_c_m e) with (Z.of_nat (p_nmul cs)). lia.
      - unfold M. change (pe_cap_c_total e) with (Z.of_nat n). change (pe_u_vec e) with (pu ++ [0]). lia.
      - unfold M. change (pe_cap_c_total e) with (Z.of_nat n). change (pe_cap_c_m e) with (Z.of_nat (p_nmul cs)). change (pe_v_vec e) with (pv ++ [0]). lia.
      - unfold M. change (pe_r_vec e) with (pr ++ [0]). lia.
      - unfold M. change (pe_t_vec_1 e) with pt. lia.
      - change (pe_u_vec e) with (pu ++ [0]). rewrite peval_snoc0. symmetry. exact Hy0.
      - change (pe_r_vec e) with (pr ++ [0]). rewrite peval_snoc0. symmetry. exact Hy1.
      - change (pe_omega e) with om. change (pe_x0 e) with pos. change (pe_t_vec e) with tv.
        rewrite eval_sparse_zero_one_eq.
        destruct (eval_sparse_vector_ok (E:=error) (om / z) pos (map (fun _ => 1) pos) (3 * n) Hoz0 Hnd) as [tv' [Et' ->]]; auto.
        rewrite Etv in Et'. now injection Et' as <-.
      - change (pe_x0 e) with pos. change (pe_x1 e) with vals. change (pe_x_vec e) with xv.
        destruct (eval_sparse_vector_ok (E:=error) z pos vals (3 * n) Hz Hnd) as [xv' [Ex' ->]]; auto.
        rewrite Exv in Ex'. now injection Ex' as <-. }
    assert (LP M f z 0) as [_ LF]; [|exact LF].
    eapply LP_val; [|unfold f; apply LP_sub; [exact L|apply LP_add; apply LP_list; auto; unfold M; lia]].
    refine (eq_trans _ Hg0). rewrite pe_pg_value. change (pe_u_vec e) with (pu ++ [0]). change (pe_v_vec e) with (pv ++ [0]). rewrite !peval_snoc0.
    change (pe_v_c_18 q) with (pe_p_c_18 q). change (pe_v_c_19 q) with (pe_p_c_19 q).
    change (pe_v_c_20 q) with (pe_p_c_20 q). change (pe_v_c_21 q) with (pe_p_c_21 q).
    change (pe_v_c_22 q) with (pe_p_c_22 q). change (pe_v_c_23 q) with (pe_p_c_23 q).
    change (pe_v_c_25 q) with (- z).
    assert (pe_v_c_24 q = - fpowZ z (1 - Z.of_nat (d + 1) - 1)) as ->.
    { change (pe_v_c_24 q) with (- power z (- Z.of_nat (d + 1))%Z). rewrite Laurent.pw by auto. do 2 f_equal. lia. }
    replace (fpowZ z (2 - 1)) with z by (change (2 - 1)%Z with 1%Z; now rewrite fpowZ_1). ring. }
  assert (lzero M f) as LZ by (destruct (lzero_dec M f); auto; exfalso; apply Nzz; auto).
  assert (pe_hK e 1 = 0) as H1.
  { pose proof (LZ 1%Z ltac:(unfold M; lia)) as Z1. unfold f in Z1. unfold minus_i64 in Z1.
    rewrite (vidx_coef ph1 _ (d + 1)), coef_over, (vidx_out ph2) in Z1 by lia.
    rewrite <- Z1. ring. }
  (* the constant term vanishes, so every position is fine *)
  assert (CT om N (pe_hK e 1) (pe_br e)) as HC.
  { replace N with (Z.to_nat (Z.of_nat N)) by lia. apply pe_gCT; auto; unfold N.
    - change (pe_cap_c_total e) with (Z.of_nat n). change (pe_cap_c_m e) with (Z.of_nat (p_nmul cs)). lia.
    - change (pe_cap_c_total e) with (Z.of_nat n). change (pe_u_vec e) with (pu ++ [0]). lia.
    - change (pe_r_vec e) with (pr ++ [0]). lia. }
  assert (forall i, (i < N)%nat -> pe_br e1 (1 + Z.of_nat i) = 0) as HB.
  { apply not_ex_0. intros X. apply No. right. split; auto. unfold CT in HC. rewrite H1 in HC. symmetry. exact HC. }
  (* every power of alpha *)
  assert (forall i, (i < 3 * n)%nat -> forall j, (j < 5)%nat -> pe_kk e0 (1 + Z.of_nat i) j = 0) as HK.
  { intros i Hi. apply not_ex_0. intros X. apply Na. exists i. split; auto. split; auto.
    specialize (HB i ltac:(unfold N; lia)). refine (eq_trans _ HB). unfold pe_br. fold (pe_k0 e1 (1 + Z.of_nat i)) (pe_k1 e1 (1 + Z.of_nat i)) (pe_k2 e1 (1 + Z.of_nat i)) (pe_k3 e1 (1 + Z.of_nat i)) (pe_k4 e1 (1 + Z.of_nat i)).
    change (pe_cap_c_total e1) with (Z.of_nat n). rewrite (range_out (3 * Z.of_nat n + 1)) by lia.
    change (pe_alpha e1) with alpha. cbn [sumn pe_kk].
    rewrite !pw_pos by lia. change (Pos.to_nat 2) with 2%nat. change (Pos.to_nat 3) with 3%nat. change (Pos.to_nat 4) with 4%nat. 
    change (pe_k0 e1) with (pe_k0 e0). change (pe_k1 e1) with (pe_k1 e0). change (pe_k2 e1) with (pe_k2 e0).
    change (pe_k3 e1) with (pe_k3 e0). change (pe_k4 e1) with (pe_k4 e0).
    cbn [fpow]. ring. }
  pose proof (pe_sat_enforced e0 cs pu pv pos vals) as R. rewrite <- EN' in R. destruct R as [R1 R2]; auto; lia.
Qed.
Lemma pe_sound_forest pu pv : forest (p_wires cs) ->
  pe_enforced [] (p_nmul cs) pos vals (row (W pu pv) 0 n) (row (W pu pv) n n) (row (W pu pv) (2 * n) n) ->
  inv_idx (p_wires cs) (3 * n) (W pu pv) ->
  pe_enforced (p_wires cs) (p_nmul cs) pos vals (row (W pu pv) 0 n) (row (W pu pv) n n) (row (W pu pv) (2 * n) n).
Proof.
  assert (n = p_nmul cs + p_nadd cs + length (p_consts cs))%nat as EN' by (unfold n, pov_get_size; cbn [ps_n]; lia).
  intros Hf HP HI. pose proof (inv_forest_respects _ _ _ Hf Hb HI) as R. destruct HP as [P1 [P2 P3]].
  split; [exact P1|]. split; [|exact P3]. rewrite EN'. rewrite pes_rows. exact R.
Qed.
End Main.
End PovPESoundC.

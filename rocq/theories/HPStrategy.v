(** HPStrategy.v: a prover who commits to an assignment that satisfies what the verifier of the HPR
    argument enforces can answer all challenges, but for a few. *)
From Verif Require Import Base Spec Tools ToolsProofs MatProofs ToolsProofs2 PermProofs CS CSProofs KZG KZGSpec KZGProofs Snark Laurent Laurent2 SnarkProofs
  SnarkPerm Properties_KZG PovPEConst SparseSum HP HPProofs HPConst HPComplete HPTop SoundSpec Sound KZGSound PovSound PartFrac R1Sound HPSoundSpec HPSound.
Local Open Scope F_scope.

Section Quotient.
Context {F : Type} {fo : FieldOps F} {fl : FieldLaws F}.
Add Field Fq : F_th.
Lemma quotient_ex (p : list F) z : exists w, (length w <= length p)%nat /\ forall x, peval p x - peval p z = (x - z) * peval w x.
Proof.
  induction p as [|a p [w [L E]]]; [exists []; split; auto; intros; cbn [peval]; ring|].
  exists (padd p (pscale z w)). split; [rewrite padd_length, pscale_length; cbn [length]; lia|].
  intros x. rewrite peval_padd, peval_pscale. cbn [peval].
  transitivity ((x - z) * peval p x + z * (peval p x - peval p z)); [ring|]. rewrite E. ring.
Qed.

Section StratSat.
Variable e : hp_s6 F.
Variables (h k sa sb sc sd off n : nat) (rows cols : list nat) (vals pw ps ph pr : list F).
Variable m : nat.
Hypothesis Hm : m = (sa + sb + sc + sd)%nat.
Let K := (3 * k + 1)%nat.
Let M := entries_of (firstn m rows) (firstn m cols) (firstn m vals).
Notation x := (hp_x_vec e).
Hypothesis EH : hp_cap_h e = Z.of_nat h.
Hypothesis EK : hp_cap_k e = Z.of_nat k.
Hypothesis ESa : hp_cap_s_a e = Z.of_nat sa.
Hypothesis ESb : hp_cap_s_b e = Z.of_nat sb.
Hypothesis ESc : hp_cap_s_c e = Z.of_nat sc.
Hypothesis ESd : hp_cap_s_d e = Z.of_nat sd.
Hypothesis Hhm : (h <= m)%nat.
Hypothesis Hoff : (off + Nat.min n m = m)%nat.
Hypothesis Lr : length rows = n.
Hypothesis Lc : length cols = n.
Hypothesis Lv : length vals = n.
Hypothesis HM : in_shape M h K.
Notation mu := (hp_mu e).
Notation nu := (hp_nu e).
Notation ga := (hp_gamma e).
Notation be := (hp_beta e).
Hypothesis Hga : ga <> 0.
Notation uv0 := (int_array_to_power_vector rows ga).
Notation wv0 := (int_array_to_power_vector cols ga).
Notation uv := (repeat 0 off ++ uv0).
Notation wv := (repeat 0 off ++ wv0).
Notation vs := (repeat 0 off ++ vals).
Hypothesis Eu1 : hp_w_vec_1 e = pw ++ [0].
Hypothesis Es : hp_s_vec e = ps.
Hypothesis Eh : hp_h_vec e = ph ++ [0].
Hypothesis Er : hp_r_vec_tilde e = pr.
Hypothesis Eu : hp_u_vec e = uv.
Hypothesis Ew : hp_w_vec e = wv.
Hypothesis Ev : hp_v_vec e = vs.
Hypothesis Ey : hp_y_vec e = repeat 0 off ++ hadamard_vector uv0 wv0.
Notation C := (mat_vec (transpose M) h (r1_rinv ga mu h)).
Hypothesis Nmu : forall j, (j < h)%nat -> mu <> fpow ga j.
Hypothesis Nnu : forall j, (j < K)%nat -> nu <> fpow ga j.
Hypothesis Nmu0 : mu <> 0.
Hypothesis Nnu0 : nu <> 0.
Hypothesis S1 : forall j, (j < h)%nat -> coef ps j = finv (mu - fpow ga j).
Hypothesis S2 : forall c, (c < K)%nat -> coef ps (h + c) = - C c.
Hypothesis S3 : forall i, (h + K <= i)%nat -> coef ps i = 0.
Hypothesis P1 : forall j, (j < K)%nat -> coef ph j = finv (nu - fpow ga j).
Hypothesis P2 : forall j, (j < m)%nat -> coef ph (K + j) = finv (mu - coef uv j) * finv (nu - coef wv j).
(** the summand of the running sum *)
Definition st_f (x pw ps ph vs : list F) (h k : nat) (be : F) (i : nat) : F :=
  (coef x i + vidx pw (Z.of_nat (S i) - Z.of_nat h - 1) + delta (Z.of_nat (S i)) (Z.of_nat h + 1)) * coef ps i
  - be * (vidx ph (Z.of_nat (S i) - Z.of_nat h) * coef ps i + coef ph i * vidx vs (Z.of_nat (S i) - 3 * Z.of_nat k - 1)).
Hypothesis R1 : forall i, (i < K + m)%nat -> coef pr i = sumn (S i) (st_f x pw ps ph vs h k be).
Hypothesis Had : forall i, (i < k)%nat -> coef pw i * coef pw (k + i) = coef pw (2 * k + i).
Hypothesis Lin : forall r, (r < h)%nat -> mat_vec M K (hp_asg h k x pw) r = coef x r.

Notation vv := (3 * Z.of_nat k + Z.of_nat sa + Z.of_nat sb + Z.of_nat sc + Z.of_nat sd + 1)%Z.
Lemma ss_m : Z.of_nat m = (Z.of_nat sa + Z.of_nat sb + Z.of_nat sc + Z.of_nat sd)%Z. Proof. lia. Qed.
Lemma ss_K : Z.of_nat K = (3 * Z.of_nat k + 1)%Z. Proof. unfold K. lia. Qed.
Ltac sizes := pose proof ss_m as Em; pose proof ss_K as EK'.
Lemma ss_snoc (l : list F) i : vidx (l ++ [0]) i = vidx l i.
Proof.
  destruct (Z_le_gt_dec i 0); [now rewrite !vidx_out by lia|].
  rewrite !(vidx_coef _ i (Z.to_nat (i - 1))) by lia. apply coef_snoc0.
Qed.
Lemma ss_sub (a b : F) : a <> b -> a - b <> 0.
Proof. intros N E. apply N. now apply fsub_0_eq. Qed.
(** the committed rows and columns of the counted entries *)
Lemma ss_uw j : (j < m)%nat ->
  mu - coef uv j <> 0 /\ nu - coef wv j <> 0 /\ coef (hp_y_vec e) j = coef uv j * coef wv j.
Proof.
  intros Hj. rewrite Ey. destruct (Nat.lt_ge_cases j off) as [Q|Q].
  - rewrite !coef_off_0 by auto. repeat split; try ring; apply ss_sub; auto.
  - replace j with (off + (j - off))%nat by lia. set (i := (j - off)%nat).
    assert (Lv' : length (firstn m vals) = Nat.min n m) by (rewrite firstn_length; lia).
    destruct (in_shape_nth (firstn m rows) (firstn m cols) (firstn m vals) h K i) as [H1 H2]; auto; try (rewrite !firstn_length; lia).
    rewrite nth_firstn_lt in H1, H2 by (unfold i; lia).
    rewrite !coef_off, coef_hadamard, !power_vector_length, Lr, Lc, Nat.min_id, !coef_power_vector by (auto; unfold i; lia).
    destruct (Nat.ltb_spec i n); [|unfold i in *; lia].
    split; [apply ss_sub, Nmu; auto|]. split; [apply ss_sub, Nnu; auto|reflexivity].
Qed.
Lemma ss_total : sumn (K + m) (st_f x pw ps ph vs h k be) = 0.
Proof.
  transitivity (hp_A h (K + m) x pw ps - be * hp_B h k vs ps ph (K + m)).
  { unfold hp_A, hp_B, st_f. rewrite sumn_sub, sumn_mul_l. reflexivity. }
  rewrite (hp_A_value h k m n off rows cols vals x pw ps ga mu); auto; [|intros; apply S3; lia].
  rewrite (hp_B_value h k m n off rows cols vals ps ph ga mu nu); auto.
  - rewrite (sumn_0 h). 2:{ intros r Hr. unfold hp_dM. rewrite Lin by auto. fold M. ring. }
    rewrite (sumn_0 (3 * k + 1)). 2:{ intros c Hc. unfold hp_dC. rewrite S2 by auto. fold M. ring. }
    ring.
  - intros; apply S3; lia.
  - intros j Hj. rewrite P2, !coef_off, !coef_power_vector by (auto; lia). reflexivity.
Qed.
Lemma strat_sat : hp_sat e.
Proof.
  sizes. split; intros i Hi; rewrite EK, ESa, ESb, ESc, ESd in Hi;
    assert (exists j, i = Z.of_nat (S j) /\ (j < K + m)%nat) as [j [-> Hj]] by (exists (Z.to_nat (i - 1)); lia).
  - unfold hp_k0. rewrite EH, Es, vidx_S. destruct (Nat.lt_ge_cases j h) as [Q|Q].
    + rewrite range_in by lia. replace (Z.of_nat (S j) - 1)%Z with (Z.of_nat j) by lia. rewrite fpowZ_nat, S1 by auto.
      field. now apply ss_sub, Nmu.
    + rewrite range_out by lia. ring.
  - unfold hp_k1. rewrite EK, Eh, ss_snoc, vidx_S. destruct (Nat.lt_ge_cases j K) as [Q|Q].
    + rewrite range_in by lia. replace (Z.of_nat (S j) - 1)%Z with (Z.of_nat j) by lia. rewrite fpowZ_nat, P1 by auto.
      field. now apply ss_sub, Nnu.
    + rewrite range_out by lia. ring.
  - unfold hp_k2. rewrite EK, ESa, ESb, ESc, ESd, EH, Es, vidx_S. destruct (Nat.lt_ge_cases j (h + K)) as [Q|Q].
    + rewrite range_out by lia. ring.
    + rewrite S3 by auto. ring.
  - unfold hp_k4. rewrite EK, ESa, ESb, ESc, ESd, Eh, ss_snoc, vidx_S. destruct (Nat.lt_ge_cases j K) as [Q|Q].
    + rewrite !range_out, !vidx_out by lia. ring.
    + rewrite !range_in by lia. rewrite !(vidx_coef _ (Z.of_nat (S j) - 3 * Z.of_nat k - 1) (j - K)) by lia.
      destruct (ss_uw (j - K)) as [N1 [N2 ->]]; [lia|]. rewrite Eu, Ew.
      replace j with (K + (j - K))%nat at 1 by lia. rewrite P2 by lia. field. auto.
  - unfold hp_k5. rewrite EK, ESa, ESb, ESc, ESd, Eu1, !ss_snoc. destruct (Z_le_gt_dec (Z.of_nat (S j)) (vv - Z.of_nat k)) as [Q|Q].
    + rewrite range_out, (vidx_out pw (_ + Z.of_nat k)%Z) by lia. ring.
    + rewrite range_in by lia. set (r := (Z.to_nat (Z.of_nat (S j) - vv + Z.of_nat k) - 1)%nat).
      assert (Er' : Z.of_nat r = (Z.of_nat (S j) - vv + Z.of_nat k - 1)%Z) by (unfold r; lia).
      rewrite (vidx_coef pw _ r), (vidx_coef pw _ (k + r)), (vidx_coef pw _ (2 * k + r)) by lia.
      rewrite <- Had by lia. ring.
  - unfold hp_k6. rewrite EK, ESa, ESb, ESc, ESd, EH, Eu1, Es, Eh, Er, Ev, !ss_snoc, !vidx_S, range_in by lia.
    rewrite R1 by auto. cbn [sumn].
    assert (vidx pr (Z.of_nat (S j) - 1) = sumn j (st_f x pw ps ph vs h k be)) as ->.
    { destruct j as [|j']; [rewrite vidx_out by lia; reflexivity|]. rewrite (vidx_coef pr _ j'), R1 by lia. reflexivity. }
    unfold st_f. ring.
  - unfold hp_k7. rewrite EK, ESa, ESb, ESc, ESd, Er, vidx_S. destruct (Nat.eq_dec (S j) (K + m)) as [Q|Q].
    + rewrite R1, Q, ss_total by auto. ring.
    + rewrite delta_neq by lia. ring.
Qed.
End StratSat.
End Quotient.

Section HPStrategyB.
Context {F G1 G2 GT : Type} {fo : FieldOps F} {fl : FieldLaws F}
        {po : PairingOps F G1 G2 GT} {pl : PairingLaws F G1 G2 GT}.
Add Field Fst : F_th.
Variable gamma : F.
Variables (d : nat) (cs : HPR F) (x : list F).
Let h := h_nrows cs.
Let k := h_ncols cs.
Let sa := length (h_arows cs).
Let sd := length (h_drows cs).
Let m := hp_claimed cs.
Let n := hp_nnz cs.
Let off := (m - n)%nat.
Let K := (3 * k + 1)%nat.
Hypothesis Hga : gamma <> 0.
Hypothesis HL : hp_lengths cs.
Hypothesis Hsh : hpr_shape cs.
Hypothesis Hh1 : (1 <= h)%nat.
Hypothesis Hk1 : (1 <= k)%nat.
Hypothesis Hhm : (h <= m)%nat.
Hypothesis Hn1 : (1 <= n)%nat.
Hypothesis Hnd : (3 * k + n <= d)%nat.
Hypothesis Hd : (5 * k + 2 * m + 2 <= d)%nat.
Hypothesis Hx : (length x <= K + m)%nat.
Variables (g0 : G1) (h0 : G2).
Hypothesis Hg0 : g0 <> v0.
Hypothesis Hh0 : h0 <> v0.

Notation hp_accepts_with := (hp_accepts_with (G1:=G1) (G2:=G2) (GT:=GT) gamma d cs x).
Notation hp_spub := (hp_spub gamma d cs x).
Notation hp_se := (hp_se gamma d cs x).
Let rows := fst (fst (hp_stack cs)).
Let cols := snd (fst (hp_stack cs)).
Let vals := snd (hp_stack cs).
Let uv0 := int_array_to_power_vector rows gamma.
Let wv0 := int_array_to_power_vector cols gamma.
Let yv0 := hadamard_vector uv0 wv0.
Let uv := repeat 0 off ++ uv0.
Let wv := repeat 0 off ++ wv0.
Let yv := repeat 0 off ++ yv0.
Let vs := repeat 0 off ++ vals.
Let M := entries_of (firstn m rows) (firstn m cols) (firstn m vals).

(** a hash function that gives the chosen challenges, whatever the commitments *)
Definition st_H (mu nu beta alpha omega z xi : F) (l : list (item F G1)) : F :=
  match length l with 7 => mu | 8 => nu | 9 => beta | 10 => alpha | 11 => omega | 13 => z | _ => xi end.

Lemma hp_accepts_intro pw ps ph pr pt ph2 ph3 mu nu beta alpha omega z xi :
  Forall (fun p => length p <= d + 1)%nat [pw; ps; ph; pr; pt; ph2; ph3] ->
  let y := peval ph (omega / z) in let y1 := peval pw (omega / z) in
  let q := mkHPCtx hp_spub mu nu beta alpha omega z y y1 in
  hp_divisors q = Ok tt ->
  peval (hp_pg (hp_se pw ps ph pr pt mu nu beta alpha omega) q pw ph ph2 ph3) z = 0 ->
  exists pW pW1, (length pW <= d + 1)%nat /\ (length pW1 <= d + 1)%nat /\ forall tau rnd,
  hp_accepts_with pw ps ph pr pt ph2 ph3 pW pW1 mu nu beta alpha omega z y y1 xi tau rnd.
Proof.
  intros HLe y y1 q D Z. set (pg := hp_pg (hp_se pw ps ph pr pt mu nu beta alpha omega) q pw ph ph2 ph3) in *.
  rewrite Forall_forall in HLe.
  assert (forall p, In p [pw; ps; ph; pr; pt; ph2; ph3] -> (length p <= d + 1)%nat) as HLe' by exact HLe.
  destruct (hp_stack_len cs HL) as [LR [LC LV]]. fold rows in LR. fold cols in LC. fold vals in LV. fold n in LR, LC, LV.
  assert (length uv = Nat.max n m) as Luv by (unfold uv, uv0; rewrite app_length, repeat_length, power_vector_length; unfold off; lia).
  assert (length wv = Nat.max n m) as Lwv by (unfold wv, wv0; rewrite app_length, repeat_length, power_vector_length; unfold off; lia).
  assert (length yv = Nat.max n m) as Lyv by (unfold yv, yv0, uv0, wv0; rewrite app_length, repeat_length, hadamard_length, !power_vector_length; unfold off; lia).
  assert (length vs = Nat.max n m) as Lvs by (unfold vs; rewrite app_length, repeat_length; unfold off; lia).
  assert (length pg <= d + 1)%nat as Lg.
  { unfold pg, hp_pg. repeat (rewrite padd_length || rewrite pscale_length). unfold HPSound.hp_se.
    cbn [hp_s_vec hp_w_vec hp_u_vec hp_y_vec hp_v_vec hp_r_vec_tilde hp_t_vec hp_s2_s1 hp_s3_s2 hp_s4_s3 hp_s5_s4 hp_s6_s5].
    fold m n off rows cols vals uv0 wv0 yv0 uv wv yv vs. rewrite Luv, Lwv, Lyv, Lvs. cbn [length].
    assert (length pw <= d + 1 /\ length ps <= d + 1 /\ length ph <= d + 1 /\ length pr <= d + 1 /\ length pt <= d + 1 /\ length ph2 <= d + 1 /\ length ph3 <= d + 1)%nat
      by (repeat split; apply HLe'; cbn [In]; tauto). lia. }
  destruct (quotient_ex (padd ph (pscale xi pw)) (omega / z)) as [pW [LW EW]].
  destruct (quotient_ex pg z) as [pW1 [LW1 EW1]].
  exists pW, pW1.
  assert (length pW <= d + 1)%nat as LW'.
  { rewrite padd_length, pscale_length in LW. assert (length pw <= d + 1 /\ length ph <= d + 1)%nat by (split; apply HLe'; cbn [In]; tauto). lia. }
  split; auto. split; [lia|]. intros tau rnd.
  set (H := st_H mu nu beta alpha omega z xi).
  pose proof (setup_ok d tau g0 h0 ltac:(lia)) as Hs.
  match type of Hs with _ = Ok ?p => set (pp := p) in * end.
  destruct (hp_index_ok gamma d tau g0 h0 pp cs Hs HL) as [pk [vk Hi]]; [fold n; lia|fold k m; lia|].
  assert (forall p, (length p <= d + 1)%nat -> commit (up_powers_of_g pp) p = Ok (vscale (peval p tau) g0)) as CO.
  { intros p Lp. destruct (kzg_vk_setup d tau g0 h0 pp Hs) as [_ [Hp _]]. rewrite Hp, commit_ok by lia. now rewrite <- peval_poly_value. }
  destruct (hp_index_inv _ _ _ _ _ _ _ _ _ Hs Hi) as [K1 K2 K3 K4 K5 KL K6 Ku Kw Kv Ky K8 K9 Cu Cw Cv Cy].
  fold rows in Ku. fold cols in Kw. fold vals in Kv. fold uv0 in Ku. fold wv0 in Kw. rewrite Ku, Kw in Ky. fold yv0 in Ky.
  rewrite Ku in Cu. rewrite Kw in Cw. rewrite Kv in Cv. rewrite Ky in Cy.
  fold m n off in Cu, Cw, Cv, Cy.
  assert (forall l : list F, fpow tau off * peval l tau = peval (repeat 0 off ++ l) tau) as Po by (intros; now rewrite peval_app, peval_repeat0, repeat_length; ring).
  rewrite Po in Cu, Cw, Cv, Cy. fold uv in Cu. fold wv in Cw. fold vs in Cv. fold yv in Cy.
  assert (hp_pub_of gamma vk x = hp_spub) as EP.
  { unfold hp_pub_of, HPSound.hp_spub. rewrite K4, K5. reflexivity. }
  assert (hp_v_cm_g vk q (vscale (peval pw tau) g0) (vscale (peval ps tau) g0) (vscale (peval ph tau) g0) (vscale (peval pr tau) g0)
    (vscale (peval pt tau) g0) (vscale (peval ph2 tau) g0) (vscale (peval ph3 tau) g0) = vscale (peval pg tau) g0) as EG.
  { unfold pg. rewrite hp_pg_value. unfold hp_v_cm_g. rewrite K3, Cu, Cw, Cv, Cy. cbn [vk_g vk_for].
    pose proof (lin_comb_vscale g0 (hp_v_c_36 q)
      [(peval ps tau, hp_v_c_35 q); (peval ph tau, hp_v_c_37 q); (peval wv tau, hp_v_c_38 q); (peval uv tau, hp_v_c_39 q);
       (peval yv tau, hp_v_c_40 q); (peval pw tau, hp_v_c_41 q); (peval vs tau, hp_v_c_42 q); (peval pr tau, hp_v_c_43 q);
       (peval pt tau, hp_v_c_44 q); (peval ph2 tau, hp_v_c_45 q); (peval ph3 tau, hp_v_c_46 q)]) as E. cbn [map fst snd] in E.
    rewrite E. f_equal. unfold HPSound.hp_se. cbn [hp_s_vec hp_w_vec hp_u_vec hp_y_vec hp_v_vec hp_r_vec_tilde hp_t_vec hp_s2_s1 hp_s3_s2 hp_s4_s3 hp_s5_s4 hp_s6_s5].
    fold m n off rows cols vals uv0 wv0 yv0 uv wv yv vs. cbn [fsum]. ring. }
  exists H, g0, h0, pp, pk, vk. do 9 eexists.
  split; [exact Hg0|]. split; [exact Hh0|]. split; [exact Hs|]. split; [exact Hi|].
  do 7 (split; [apply CO, HLe'; cbn [In]; tauto|]). split; [apply CO; exact LW'|]. split; [apply CO; lia|].
  do 7 (split; [reflexivity|]).
  unfold hp_verify. cbn [hp_cm_w_vec_1 hp_cm_s_vec hp_cm_h_vec hp_cm_r_vec_tilde hp_cm_t_vec hp_cm_h_vec_2 hp_cm_h_vec_3 hp_pf_y hp_pf_y_1 hp_cap_w hp_cap_w_1].
  rewrite EP.
  change (hp_v_ch_mu H vk x _) with mu. change (hp_v_ch_nu H vk x _ _) with nu. change (hp_v_ch_beta H vk x _ _ _) with beta.
  change (hp_v_ch_alpha H vk x _ _ _ _) with alpha. change (hp_v_ch_omega H vk x _ _ _ _ _) with omega. change (hp_v_ch_z H vk x _ _ _ _ _ _ _) with z.
  fold q. rewrite D. cbn [obind]. rewrite EG.
  change (hp_v_ch_rand_xi H vk x _ _ _ _ _ _ _ _ _ _ _ _) with xi. rewrite K3.
  match goal with |- (if ?b then _ else _) = _ => assert (b = true) as -> end; [|reflexivity].
  pose proof (batch_check_dlog tau g0 h0 [peval ph tau; peval pw tau] [peval pg tau] (omega / z) z xi xi [y; y1] [0] (peval pW tau) (peval pW1 tau) rnd Hg0 Hh0 eq_refl eq_refl) as [_ V].
  apply V. clear V. rewrite !poly_value_cons. change (poly_value [] xi) with (0 : F).
  specialize (EW tau). specialize (EW1 tau). rewrite Z in EW1. rewrite !peval_padd, !peval_pscale in EW. fold y y1 in EW.
  transitivity ((peval ph tau + xi * peval pw tau - (y + xi * y1)) - (tau - omega / z) * peval pW tau
     + rnd * ((peval pg tau - 0) - (tau - z) * peval pW1 tau)); [ring|]. rewrite EW, EW1. ring.
Qed.

Theorem hp_strategy pw : (length pw <= K + m)%nat -> hp_enforced cs x pw ->
  hp_prover_wins (G1:=G1) (G2:=G2) (GT:=GT) gamma d cs x pw.
Proof.
  intros Lw HE. apply hp_enforced_iff in HE; auto. destruct HE as [Had Lin]. fold h k m rows cols vals M in Had, Lin.
  unfold hp_prover_wins. fold h k K. cbn zeta.
  destruct (hp_stack_len cs HL) as [LR [LC LV]]. fold rows in LR. fold cols in LC. fold vals in LV. fold n in LR, LC, LV.
  assert (m = sa + sa + sa + sd)%nat as EM by (unfold m, hp_claimed, sa, sd; lia).
  assert (off + Nat.min n m = m)%nat as EO by (unfold off; lia).
  pose proof (hp_stack_shape cs HL Hsh) as MS. fold rows cols vals h k K in MS. apply (in_shape_firstn m) in MS. fold M in MS.
  assert (length uv = Nat.max n m) as Luv by (unfold uv, uv0; rewrite app_length, repeat_length, power_vector_length; unfold off; lia).
  assert (length wv = Nat.max n m) as Lwv by (unfold wv, wv0; rewrite app_length, repeat_length, power_vector_length; unfold off; lia).
  assert (length yv = Nat.max n m) as Lyv by (unfold yv, yv0, uv0, wv0; rewrite app_length, repeat_length, hadamard_length, !power_vector_length; unfold off; lia).
  assert (length vs = Nat.max n m) as Lvs by (unfold vs; rewrite app_length, repeat_length; unfold off; lia).
  intros mu Nmu0 Nmu. set (C := mat_vec (transpose M) h (r1_rinv gamma mu h)).
  set (ps := map (fun i => if (i <? h)%nat then finv (mu - fpow gamma i) else - C (i - h)%nat) (seq 0 (h + K))).
  assert (length ps = h + K)%nat as Ls by (unfold ps; now rewrite map_length, seq_length).
  exists ps. split; [unfold K in *; lia|].
  intros nu Nnu0 Nnu.
  set (ph := map (fun i => if (i <? K)%nat then finv (nu - fpow gamma i) else finv (mu - coef uv (i - K)) * finv (nu - coef wv (i - K))) (seq 0 (K + m))).
  assert (length ph = K + m)%nat as Lp by (unfold ph; now rewrite map_length, seq_length).
  exists ph. split; [unfold K in *; lia|].
  intros beta. set (pr := map (fun i => sumn (S i) (st_f x pw ps ph vs h k beta)) (seq 0 (K + m))).
  assert (length pr = K + m)%nat as Lpr by (unfold pr; now rewrite map_length, seq_length).
  exists pr. split; [unfold K in *; lia|].
  intros alpha. set (e0 := hp_se pw ps ph pr [] mu nu beta alpha 0).
  set (pt := 0 :: hp_t_vec_tail e0).
  assert (length pt = 2 * k + m + 4)%nat as Lt.
  { unfold pt. cbn [length]. unfold hp_t_vec_tail. rewrite expression_vector_length. unfold hp_maxshift.
    change (hp_cap_k e0) with (Z.of_nat k). change (hp_cap_s_a e0) with (Z.of_nat sa).
    change (hp_cap_s_b e0) with (Z.of_nat sa). change (hp_cap_s_c e0) with (Z.of_nat sa). change (hp_cap_s_d e0) with (Z.of_nat sd). lia. }
  exists pt. split; [lia|].
  intros om Ho. set (e := hp_se pw ps ph pr pt mu nu beta alpha om).
  set (D := Z.of_nat (d + 1)).
  set (ph2 := expression_vector (fun i => hp_hK e (i - D)) D). set (ph3 := expression_vector (fun i => hp_hK e (i + 1)) D).
  assert (length ph2 = d + 1)%nat as L2 by (unfold ph2; rewrite expression_vector_length; unfold D; lia).
  assert (length ph3 = d + 1)%nat as L3 by (unfold ph3; rewrite expression_vector_length; unfold D; lia).
  exists ph2, ph3. split; [lia|]. split; [lia|].
  intros z Hz Hz1 Hgo Hoz. set (y := peval ph (om / z)). set (y1 := peval pw (om / z)). exists y, y1.
  intros xi. set (q := mkHPCtx hp_spub mu nu beta alpha om z y y1).
  assert (hp_divisors q = Ok tt) as DV.
  { destruct (hp_divisors_cases q) as [[E _]|[_ [E|[E|[E|E]]]]]; auto; exfalso; auto. }
  assert (hp_sat e) as GS.
  { apply (strat_sat e h k sa sa sa sd off n rows cols vals pw ps ph pr m); auto; change (hp_gamma e) with gamma; change (hp_mu e) with mu; change (hp_nu e) with nu;
      change (hp_beta e) with beta; change (hp_x_vec e) with x; fold uv0 wv0 uv wv vs M K C.
    - intros j Hj. unfold ps. rewrite coef_map_seq, Nat.add_0_l by lia. destruct (Nat.ltb_spec j h); [reflexivity|lia].
    - intros j Hj. unfold ps. rewrite coef_map_seq, Nat.add_0_l by lia. destruct (Nat.ltb_spec (h + j) h); [lia|]. do 2 f_equal. lia.
    - intros i Hi. apply coef_over. lia.
    - intros j Hj. unfold ph. rewrite coef_map_seq, Nat.add_0_l by lia. destruct (Nat.ltb_spec j K); [reflexivity|lia].
    - intros j Hj. unfold ph. rewrite coef_map_seq, Nat.add_0_l by lia. destruct (Nat.ltb_spec (K + j) K); [lia|].
      replace (K + j - K)%nat with j by lia. reflexivity.
    - intros i Hi. unfold pr. rewrite coef_map_seq, Nat.add_0_l by lia. reflexivity. }
  assert (hp_sizes e) as SZ.
  { split; unfold e, HPSound.hp_se, HPSound.hp_spub;
    cbn [hp_cap_h hp_cap_k hp_cap_s_a hp_cap_s_b hp_cap_s_c hp_cap_s_d hp_w_vec_1 hp_h_vec hp_s1_pub hp_s2_s1 hp_s3_s2 hp_s4_s3 hp_s5_s4 hp_s6_s5];
    fold h k sa sd; rewrite ?app_length; cbn [length]; lia. }
  assert (Z.of_nat (length (pw ++ [0%F])) = Z.of_nat (length pw) + 1)%Z as Lu' by (rewrite app_length; cbn [length]; lia).
  assert (Z.of_nat (length (ph ++ [0%F])) = Z.of_nat (length ph) + 1)%Z as Lh' by (rewrite app_length; cbn [length]; lia).
  assert (hp_hK e 1 = 0) as H1.
  { refine (CT_0 _ _ _ _ _ (hp_CT e SZ Ho Hga (2 * (3 * Z.of_nat k + Z.of_nat m + 1) - Z.of_nat k + 1) _ _ _ _));
      [intros i Hi; apply (hp_br_0 e SZ GS); [exists 0; reflexivity|]|..];
      change (hp_cap_h e) with (Z.of_nat h); change (hp_cap_k e) with (Z.of_nat k); change (hp_cap_s_a e) with (Z.of_nat sa);
      change (hp_cap_s_b e) with (Z.of_nat sa); change (hp_cap_s_c e) with (Z.of_nat sa); change (hp_cap_s_d e) with (Z.of_nat sd);
      change (hp_w_vec_1 e) with (pw ++ [0]); change (hp_h_vec e) with (ph ++ [0]); change (hp_x_vec e) with x; unfold K in *; lia. }
  assert (LP D (hp_hK e) z (hp_p_c_35 q * peval (hp_s_vec e) z + hp_p_c_36 q + hp_p_c_37 q * peval (hp_h_vec e) z
   + hp_p_c_38 q * peval (hp_w_vec e) z + hp_p_c_39 q * peval (hp_u_vec e) z
   + hp_p_c_40 q * peval (hp_y_vec e) z + hp_p_c_41 q * peval (hp_w_vec_1 e) z
   + hp_p_c_42 q * peval (hp_v_vec e) z + hp_p_c_43 q * peval (hp_r_vec_tilde e) z
   + hp_p_c_44 q * peval (hp_t_vec e) z)) as L.
  { apply hp_LP; auto; unfold D;
    change (hp_cap_h e) with (Z.of_nat h); change (hp_cap_k e) with (Z.of_nat k); change (hp_cap_s_a e) with (Z.of_nat sa);
    change (hp_cap_s_b e) with (Z.of_nat sa); change (hp_cap_s_c e) with (Z.of_nat sa); change (hp_cap_s_d e) with (Z.of_nat sd);
    change (hp_w_vec_1 e) with (pw ++ [0]); change (hp_h_vec e) with (ph ++ [0]); change (hp_s_vec e) with ps;
    change (hp_r_vec_tilde e) with pr; change (hp_t_vec e) with pt; change (hp_x_vec e) with x;
    change (hp_u_vec e) with uv; change (hp_w_vec e) with wv; change (hp_v_vec e) with vs; change (hp_y_vec e) with yv; unfold K in *; try lia;
    rewrite peval_snoc0; reflexivity. }
  apply LP_halves in L; auto; [|unfold D; lia]. fold ph2 ph3 in L.
  assert (peval (hp_pg e q pw ph ph2 ph3) z = 0) as PZ.
  { rewrite hp_pg_value.
    change (hp_w_vec_1 e) with (pw ++ [0]) in L. change (hp_h_vec e) with (ph ++ [0]) in L. rewrite !peval_snoc0 in L.
    change (hp_v_c_35 q) with (hp_p_c_35 q). change (hp_v_c_36 q) with (hp_p_c_36 q). change (hp_v_c_37 q) with (hp_p_c_37 q).
    change (hp_v_c_38 q) with (hp_p_c_38 q). change (hp_v_c_39 q) with (hp_p_c_39 q). change (hp_v_c_40 q) with (hp_p_c_40 q).
    change (hp_v_c_41 q) with (hp_p_c_41 q). change (hp_v_c_42 q) with (hp_p_c_42 q). change (hp_v_c_43 q) with (hp_p_c_43 q).
    change (hp_v_c_44 q) with (hp_p_c_44 q). change (hp_v_c_46 q) with (- z).
    assert (hp_v_c_45 q = - fpowZ z (- D)) as ->.
    { change (hp_v_c_45 q) with (- power z (- D)%Z). now rewrite Laurent.pw by auto. }
    match type of L with ?a = ?b => transitivity (b - a); [ring|rewrite L; ring] end. }
  destruct (hp_accepts_intro pw ps ph pr pt ph2 ph3 mu nu beta alpha om z xi) as [pW [pW1 [LW [LW1 A]]]]; auto.
  { unfold K in *. repeat constructor; lia. }
  exists pW, pW1. auto.
Qed.
End HPStrategyB.

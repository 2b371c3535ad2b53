(** RPSound.v: soundness of the prover-efficient R1CS argument, round by round. *)
From Verif Require Import Base Spec Tools ToolsProofs MatProofs ToolsProofs2 PermProofs CS CSProofs KZG KZGSpec KZGProofs Snark Laurent Laurent2 SnarkProofs
  SnarkPerm Properties_KZG PovPEConst SparseSum R1Complete RP RPProofs RPConst RPComplete RPTop SoundSpec Sound KZGSound PovSound PartFrac R1Sound RPSoundSpec.
Local Open Scope F_scope.

Section RPSoundA.
Context {F : Type} {fo : FieldOps F} {fl : FieldLaws F}.
Add Field Frs : F_th.

(** the difference between the committed products and the products of the committed assignment *)
Definition rp_dM (M : entries (F:=F)) (k : nat) (zv py : list F) (r : nat) : F := coef py r - mat_vec M k zv r.
(** the difference between the committed combination of the rows and the right one *)
Definition rp_dC (M : entries (F:=F)) (h : nat) (ga mu : F) (pc : list F) (c : nat) : F :=
  coef pc c - mat_vec (transpose M) (3 * h) (r1_rinv ga mu (3 * h)) c.
(** the two inner products combined with beta *)
Definition rp_A (m : nat) (l : nat) (x pw py pr pc : list F) : F :=
  sumn m (fun i => coef pc i * coef (rp_assignment l m x pw) i - coef py i * coef pr i).
Definition rp_B (m : nat) (vals pc pn pt : list F) : F := sumn m (fun i => coef pc i * coef pn i - coef pt i * coef vals i).

Lemma rp_assignment_length l k (x pw : list F) : length (rp_assignment l k x pw) = k.
Proof. unfold rp_assignment. now rewrite map_length, seq_length. Qed.
Lemma coef_assignment l k (x pw : list F) i : (i < k)%nat ->
  coef (rp_assignment l k x pw) i = coef (1 :: x) i + (if (i <=? l)%nat then 0 else coef pw (i - l - 1)).
Proof. intros Hi. unfold rp_assignment. now rewrite coef_map_seq by auto. Qed.

Section SatHolds.
Variable e : rp_s6 F.
Variables (h k sa sb sc l : nat) (rows cols : list nat) (vals x py pw pr pc pn pt : list F).
Let m := (sa + sb + sc)%nat.
Let M := entries_of rows cols vals.
Let zv := rp_assignment l k x pw.
Hypothesis EH : rp_cap_h e = Z.of_nat h.
Hypothesis EK : rp_cap_k e = Z.of_nat k.
Hypothesis ESa : rp_cap_s_a e = Z.of_nat sa.
Hypothesis ESb : rp_cap_s_b e = Z.of_nat sb.
Hypothesis ESc : rp_cap_s_c e = Z.of_nat sc.
Hypothesis EL : rp_ell e = Z.of_nat l.
Hypothesis Hkm : (k <= m)%nat.
Hypothesis H3h : (3 * h <= m)%nat.
Hypothesis Hh1 : (1 <= h)%nat.
Hypothesis Lr : length rows = length vals.
Hypothesis Lc : length cols = length vals.
Hypothesis Lv : length vals = m.
Hypothesis HM : in_shape M (3 * h) k.
Hypothesis Hga : rp_gamma e <> 0.
Hypothesis Ex : rp_x_vec e = x.
Hypothesis Ey1 : rp_y_vec_1 e = py ++ [0].
Hypothesis Ewt : rp_wit_vec e = pw.
Hypothesis Er : rp_r_vec e = pr.
Hypothesis Ec : rp_c_vec e = pc ++ [0].
Hypothesis En : rp_rnu_vec e = pn.
Hypothesis Et : rp_t_vec e = pt ++ [0].
Hypothesis Eu : rp_u_vec e = int_array_to_power_vector rows (rp_gamma e).
Hypothesis Ew : rp_w_vec e = int_array_to_power_vector cols (rp_gamma e).
Hypothesis Ev : rp_v_vec e = vals.
Hypothesis Ey : rp_y_vec e = hadamard_vector (rp_u_vec e) (rp_w_vec e).
Notation mu := (rp_mu e).
Notation nu := (rp_nu e).
Notation ga := (rp_gamma e).
Hypothesis Nmu : ~ bad_frac (fpow ga) (rp_dM M k zv py) (3 * h) mu.
Hypothesis Nnu : ~ bad_frac (fpow ga) (rp_dC M h ga mu pc) k nu.
Hypothesis Nbe : ~ ((rp_A m l x pw py pr pc <> 0 \/ rp_B m vals pc pn pt <> 0) /\
  rp_A m l x pw py pr pc + rp_beta e * rp_B m vals pc pn pt = 0).
Hypothesis G : rp_sat e.

Notation vv := (Z.of_nat sa + Z.of_nat sb + Z.of_nat sc)%Z.
Lemma ps_m : Z.of_nat m = vv. Proof. unfold m. lia. Qed.
Lemma ps_snoc (v p : list F) i (j : nat) : v = p ++ [0] -> i = Z.of_nat (S j) -> vidx v i = coef p j.
Proof. intros -> ->. rewrite vidx_S. apply coef_snoc0. Qed.
Lemma ps_list (v p : list F) i (j : nat) : v = p -> i = Z.of_nat (S j) -> vidx v i = coef p j.
Proof. intros -> ->. now rewrite vidx_S. Qed.

(** the committed rows and columns *)
Lemma ps_mu j : (j < 3 * h)%nat -> mu - fpow ga j <> 0 /\ coef pr j = finv (mu - fpow ga j).
Proof.
  intros Hj. apply prod_1. pose proof ps_m as Em.
  pose proof (rps_k0 e G (Z.of_nat (S j))) as K. unfold rp_k0 in K. rewrite ESa, ESb, ESc, EH in K. specialize (K ltac:(lia)).
  rewrite range_in, (ps_list _ _ _ j Er) in K by lia.
  replace (Z.of_nat (S j) - 1)%Z with (Z.of_nat j) in K by lia. rewrite fpowZ_nat in K.
  apply fsub_0_eq. rewrite <- K. ring.
Qed.
Lemma ps_nu j : (j < k)%nat -> nu - fpow ga j <> 0 /\ coef pn j = finv (nu - fpow ga j).
Proof.
  intros Hj. apply prod_1. pose proof ps_m as Em.
  pose proof (rps_k1 e G (Z.of_nat (S j))) as K. unfold rp_k1 in K. rewrite EK, ESa, ESb, ESc in K. specialize (K ltac:(lia)).
  rewrite range_in, (ps_list _ _ _ j En) in K by lia.
  replace (Z.of_nat (S j) - 1)%Z with (Z.of_nat j) in K by lia. rewrite fpowZ_nat in K.
  apply fsub_0_eq. rewrite <- K. ring.
Qed.
Lemma ps_uw j : (j < m)%nat ->
  coef pt j = finv (mu - fpow ga (nth j rows 0%nat)) * finv (nu - fpow ga (nth j cols 0%nat)).
Proof.
  intros Hj. pose proof ps_m as Em.
  destruct (in_shape_nth rows cols vals (3 * h) k j) as [H1 H2]; auto; [lia|].
  destruct (ps_mu _ H1) as [N1 _]. destruct (ps_nu _ H2) as [N2 _].
  pose proof (rps_k6 e G (Z.of_nat (S j))) as K. unfold rp_k6 in K. rewrite ESa, ESb, ESc in K. specialize (K ltac:(lia)).
  rewrite !range_in, (ps_snoc _ _ _ j Et), Ey, !vidx_S in K by lia.
  rewrite coef_hadamard, Eu, Ew, !power_vector_length, Lr, Lc, Lv, Nat.min_id, !coef_power_vector in K by (auto; lia).
  destruct (Nat.ltb_spec j m); [|lia].
  set (a := mu - fpow ga (nth j rows 0%nat)) in *. set (b := nu - fpow ga (nth j cols 0%nat)) in *.
  assert (coef pt j * (a * b) = 1) as E.
  { apply fsub_0_eq. refine (eq_trans _ K). unfold a, b. ring. }
  transitivity (coef pt j * (a * b) * (finv a * finv b)); [field; auto|]. rewrite E. ring.
Qed.
Lemma ps_pad_r i : (3 * h <= i < m)%nat -> coef pr i = 0.
Proof.
  intros Hi. pose proof ps_m as Em.
  pose proof (rps_k2 e G (Z.of_nat (S i))) as K. unfold rp_k2 in K. rewrite ESa, ESb, ESc, EH in K. specialize (K ltac:(lia)).
  rewrite range_in, (ps_list _ _ _ i Er) in K by lia. rewrite <- K. ring.
Qed.
Lemma ps_pad_c i : (k <= i < m)%nat -> coef pc i = 0.
Proof.
  intros Hi. pose proof ps_m as Em.
  pose proof (rps_k4 e G (Z.of_nat (S i))) as K. unfold rp_k4 in K. rewrite EK, ESa, ESb, ESc in K. specialize (K ltac:(lia)).
  rewrite range_in, (ps_snoc _ _ _ i Ec) in K by lia. rewrite <- K. ring.
Qed.
Lemma ps_z i : (i < m)%nat -> rp_z e (Z.of_nat (S i)) = coef (rp_assignment l m x pw) i.
Proof.
  intros Hi. rewrite coef_assignment by auto. unfold rp_z. rewrite Ex, Ewt, EL. f_equal.
  - destruct i as [|i].
    + rewrite vidx_out by lia. cbn. ring.
    + rewrite (vidx_coef x _ i), delta_neq by lia. change (coef (1 :: x) (S i)) with (coef x i). ring.
  - destruct (Nat.leb_spec i l); [now rewrite vidx_out by lia|]. apply vidx_coef. lia.
Qed.

(** the running sum *)
Lemma ps_AB : rp_A m l x pw py pr pc = 0 /\ rp_B m vals pc pn pt = 0.
Proof.
  pose proof ps_m as Em.
  assert (rp_A m l x pw py pr pc + rp_beta e * rp_B m vals pc pn pt = 0) as E.
  { pose proof (rps_k10 e G vv) as K. unfold rp_k10, delta in K. rewrite ESa, ESb, ESc, Z.eqb_refl in K. specialize (K ltac:(lia)).
    transitivity (vidx (rp_r_vec_tilde e) vv); [|rewrite <- K; ring].
    set (f := fun p => vidx (rp_c_vec e) p * rp_z e p - vidx (rp_y_vec_1 e) p * vidx (rp_r_vec e) p
      + rp_beta e * (vidx (rp_c_vec e) p * vidx (rp_rnu_vec e) p - vidx (rp_t_vec e) p * vidx (rp_v_vec e) p)).
    transitivity (sumn m (fun i => f (Z.of_nat (S i)))).
    - unfold f, rp_A, rp_B. rewrite <- sumn_mul_l, <- sumn_add. apply sumn_ext. intros i Hi.
      rewrite ps_z, (ps_snoc _ _ _ i Ey1), (ps_snoc _ _ _ i Ec), (ps_snoc _ _ _ i Et), (ps_list _ _ _ i Er), (ps_list _ _ _ i En), Ev, vidx_S by auto. ring.
    - rewrite (telescope f (vidx (rp_r_vec_tilde e)) m); [f_equal; lia|apply vidx_out; lia|].
      intros i Hi. pose proof (rps_k9 e G i) as K7. unfold rp_k9 in K7. rewrite ESa, ESb, ESc in K7. specialize (K7 ltac:(lia)).
      rewrite range_in in K7 by lia. apply fsub_0_eq. rewrite <- K7. unfold f. ring. }
  destruct (feq_dec (rp_A m l x pw py pr pc) 0) as [QA|QA], (feq_dec (rp_B m vals pc pn pt) 0) as [QB|QB]; try (exfalso; apply Nbe; auto; fail).
  split; auto.
Qed.

Notation ri := (r1_rinv ga mu (3 * h)).
Lemma ps_ri r : (r < 3 * h)%nat -> coef ri r = finv (mu - fpow ga r).
Proof. intros Hr. unfold r1_rinv. now rewrite coef_map_seq by auto. Qed.
Notation C := (mat_vec (transpose M) (3 * h) ri).
Lemma ps_inner_2 : sumn k (fun c => finv (nu - fpow ga c) * C c) = sumn m (fun j => coef pt j * coef vals j).
Proof.
  unfold mat_vec.
  rewrite (sumn_ext k _ (fun c => finv (nu - fpow ga c) * sumn (3 * h) (fun r => mat_at M r c * coef ri r))).
  2:{ intros c Hc. f_equal. apply sumn_ext. intros r Hr. now rewrite mat_at_transpose. }
  rewrite (mat_bilinear M (3 * h) k) by auto. unfold M.
  rewrite (entries_sum rows cols vals (fun r c x => coef ri r * finv (nu - fpow ga c) * x)) by auto.
  rewrite Lv. apply sumn_ext. intros j Hj.
  destruct (in_shape_nth rows cols vals (3 * h) k j) as [H1 H2]; auto; [lia|].
  rewrite ps_ri, ps_uw by auto. ring.
Qed.
Lemma ps_trunc (a b : nat -> F) : (a = coef pc) -> sumn m (fun i => a i * b i) = sumn k (fun i => a i * b i).
Proof.
  intros ->. replace m with (k + (m - k))%nat by lia. rewrite sumn_split, (sumn_0 (m - k)); [ring|].
  intros i Hi. rewrite (ps_pad_c (k + i)) by lia. ring.
Qed.
Lemma ps_C c : (c < k)%nat -> coef pc c = C c.
Proof.
  destruct ps_AB as [_ HB].
  assert (sumn k (fun c => finv (nu - fpow ga c) * rp_dC M h ga mu pc c) = 0) as E.
  { unfold rp_dC. rewrite (sumn_ext k _ (fun c => coef pc c * coef pn c - finv (nu - fpow ga c) * C c)).
    2:{ intros i Hi. destruct (ps_nu i Hi) as [_ ->]. ring. }
    rewrite sumn_sub, ps_inner_2, <- HB. unfold rp_B. rewrite sumn_sub, (ps_trunc (coef pc) (coef pn)) by auto. ring. }
  intros Hc. destruct (feq_dec (rp_dC M h ga mu pc c) 0) as [Q|Q].
  - now apply fsub_0_eq.
  - exfalso. apply Nnu. split; [eauto|]. split; auto. intros i Hi E'. destruct (ps_nu i Hi) as [N _]. apply N. rewrite E'. ring.
Qed.
Lemma ps_M r : (r < 3 * h)%nat -> coef py r = mat_vec M k zv r.
Proof.
  destruct ps_AB as [HA _].
  assert (sumn (3 * h) (fun r => finv (mu - fpow ga r) * rp_dM M k zv py r) = 0) as E.
  { unfold rp_dM. rewrite (sumn_ext (3 * h) _ (fun r => coef py r * coef pr r - coef ri r * mat_vec M k zv r)).
    2:{ intros i Hi. rewrite ps_ri by auto. destruct (ps_mu i Hi) as [_ ->]. ring. }
    rewrite sumn_sub, (mat_vec_adjoint M (3 * h) k ri).
    transitivity (- rp_A m l x pw py pr pc); [|rewrite HA; ring]. unfold rp_A.
    rewrite sumn_sub, (ps_trunc (coef pc) (coef (rp_assignment l m x pw))) by auto.
    rewrite (sumn_ext k (fun i => coef pc i * coef (rp_assignment l m x pw) i) (fun c => coef zv c * C c)).
    2:{ intros i Hi. unfold zv. rewrite !coef_assignment, ps_C by lia. ring. }
    replace m with (3 * h + (m - 3 * h))%nat by lia. rewrite sumn_split.
    rewrite (sumn_0 (m - 3 * h)). 2:{ intros i Hi. rewrite (ps_pad_r (3 * h + i)) by lia. ring. }
    ring. }
  intros Hr. destruct (feq_dec (rp_dM M k zv py r) 0) as [Q|Q].
  - now apply fsub_0_eq.
  - exfalso. apply Nmu. split; [eauto|]. split; auto. intros i Hi E'. destruct (ps_mu i Hi) as [N _]. apply N. rewrite E'. ring.
Qed.
(** what the constraints say about the committed assignment *)
Lemma rp_sat_holds r : (r < h)%nat -> mat_vec M k zv r * mat_vec M k zv (r + 2 * h) = mat_vec M k zv (r + h).
Proof.
  pose proof ps_m as Em. intros Hr. rewrite <- !ps_M by lia.
  pose proof (rps_k8 e G (Z.of_nat (S (r + 2 * h)))%Z) as K. unfold rp_k8 in K. rewrite ESa, ESb, ESc, EH in K. specialize (K ltac:(lia)).
  rewrite range_in, (ps_snoc _ _ _ r Ey1), (ps_snoc _ _ _ (r + 2 * h) Ey1), (ps_snoc _ _ _ (r + h) Ey1) in K by lia.
  apply fsub_0_eq. rewrite <- K. ring.
Qed.
End SatHolds.
End RPSoundA.

Section RPSoundB.
Context {F G1 G2 GT : Type} {fo : FieldOps F} {fl : FieldLaws F}
        {po : PairingOps F G1 G2 GT} {pl : PairingLaws F G1 G2 GT}.
Add Field Frs2 : F_th.

(** the constraint for power j of alpha at position i *)
Definition rp_kk (e : rp_s6 F) (i : Z) (j : nat) : F :=
  match j with 0 => rp_k0 e i | 1 => rp_k1 e i | 2 => rp_k2 e i | 3 => rp_k3 e i | 4 => rp_k4 e i | 5 => 0
  | 6 => rp_k6 e i | 7 => rp_k7 e i | 8 => rp_k8 e i | 9 => rp_k9 e i | _ => rp_k10 e i end.
Definition rp_bad_alpha (N : nat) (e : rp_s6 F) (al : F) : Prop :=
  exists i, (i < N)%nat /\ (exists j, (j < 11)%nat /\ rp_kk e (1 + Z.of_nat i) j <> 0) /\
    sumn 11 (fun j => fpow al j * rp_kk e (1 + Z.of_nat i) j) = 0.
Lemma dec_rp_bad_alpha N e al : rp_bad_alpha N e al \/ ~ rp_bad_alpha N e al.
Proof. apply dec_ex. intros i _. apply dec_sumn. destruct (feq_dec (sumn 11 (fun j => fpow al j * rp_kk e (1 + Z.of_nat i) j)) 0); auto. Qed.
Lemma cnt_rp_bad_alpha N e : cnt (N * 10) (rp_bad_alpha N e).
Proof.
  apply (cnt_ex N 10 (fun i al => (exists j, (j < 11)%nat /\ rp_kk e (1 + Z.of_nat i) j <> 0) /\ sumn 11 (fun j => fpow al j * rp_kk e (1 + Z.of_nat i) j) = 0)).
  - intros i al _. apply dec_sumn. destruct (feq_dec (sumn 11 (fun j => fpow al j * rp_kk e (1 + Z.of_nat i) j)) 0); auto.
  - intros i _. apply (cnt_sumn 11 (rp_kk e (1 + Z.of_nat i))).
Qed.

(** the polynomial behind the combined commitment *)
Definition rp_pg (e : rp_s6 F) (q : rp_ctx F) (py pc ph1 ph2 : list F) : list F :=
  (padd (pscale (rp_v_c_36 q) (rp_r_vec e))
  (padd (pscale (rp_v_c_38 q) (rp_rnu_vec e))
  (padd (pscale (rp_v_c_39 q) pc)
  (padd (pscale (rp_v_c_40 q) (rp_w_vec e))
  (padd (pscale (rp_v_c_41 q) (rp_u_vec e))
  (padd (pscale (rp_v_c_42 q) (rp_y_vec e))
  (padd (pscale (rp_v_c_43 q) py)
  (padd (pscale (rp_v_c_44 q) (rp_wit_vec e))
  (padd (pscale (rp_v_c_45 q) (rp_v_vec e))
  (padd (pscale (rp_v_c_46 q) (rp_r_vec_tilde e))
  (padd (pscale (rp_v_c_47 q) (rp_t_vec_1 e))
  (padd (pscale (rp_v_c_48 q) ph1)
  (padd (pscale (rp_v_c_49 q) ph2)
  [rp_v_c_37 q]))))))))))))).
Lemma rp_pg_value e q py pc ph1 ph2 x : peval (rp_pg e q py pc ph1 ph2) x =
  rp_v_c_36 q * peval (rp_r_vec e) x + rp_v_c_38 q * peval (rp_rnu_vec e) x + rp_v_c_39 q * peval pc x + rp_v_c_40 q * peval (rp_w_vec e) x + rp_v_c_41 q * peval (rp_u_vec e) x + rp_v_c_42 q * peval (rp_y_vec e) x + rp_v_c_43 q * peval py x + rp_v_c_44 q * peval (rp_wit_vec e) x + rp_v_c_45 q * peval (rp_v_vec e) x + rp_v_c_46 q * peval (rp_r_vec_tilde e) x + rp_v_c_47 q * peval (rp_t_vec_1 e) x + rp_v_c_48 q * peval ph1 x + rp_v_c_49 q * peval ph2 x + rp_v_c_37 q.
Proof. unfold rp_pg. rewrite !peval_padd, !peval_pscale. cbn [peval]. ring. Qed.

Section Main.
Variable gamma : F.
Variables (d : nat) (cs : R1CS F) (x : list F).
Let h := r_nrows cs.
Let k := r_ncols cs.
Let l := r_input_size cs.
Let sa := length (r_arows cs).
Let sb := length (r_brows cs).
Let sc := length (r_crows cs).
Let m := r1_nnz cs.
Hypothesis Hga : gamma <> 0.
Hypothesis Hdr : distinct_powers gamma (3 * h).
Hypothesis Hdc : distinct_powers gamma k.
Hypothesis HL : r1_lengths cs.
Hypothesis Hsh : r1cs_shape cs.
Hypothesis Hh1 : (1 <= h)%nat.
Hypothesis H3h : (3 * h <= m)%nat.
Hypothesis Hkm : (k <= m)%nat.
Hypothesis Hlk : (l + 1 <= k)%nat.
Hypothesis Hd : (2 * h + m <= d)%nat.

Notation rp_accepts_with := (rp_accepts_with (G1:=G1) (G2:=G2) (GT:=GT) gamma d cs x).
Definition rp_spub : rp_pub F :=
  mkRPPub (Z.of_nat h) (Z.of_nat k) (Z.of_nat sa) (Z.of_nat sb) (Z.of_nat sc) (Z.of_nat l) (Z.of_nat (d + 1)) gamma x.
Let rows := fst (fst (rp_stack cs)).
Let cols := snd (fst (rp_stack cs)).
Let vals := snd (rp_stack cs).
Let uv := int_array_to_power_vector rows gamma.
Let wv := int_array_to_power_vector cols gamma.
Let yv := hadamard_vector uv wv.
Let M := entries_of rows cols vals.
(** a run with the given vectors *)
Definition rp_se (py pw pr pc pn pt prt pt1 : list F) mu nu beta alpha omega : rp_s6 F :=
  mkRPS6 (mkRPS5 (mkRPS4 (mkRPS3 (mkRPS2 (mkRPS1 rp_spub uv wv vals yv (py ++ [0]) pw) mu) pr (pc ++ [0]) nu) pn (pt ++ [0]) beta) prt alpha) pt1 omega.

Lemma rp_accepts_batch py pw pr pc pn pt prt pt1 ph1 ph2 pW pW1 mu nu beta alpha omega z y y1 y2 xi tau rnd :
  Forall (fun p => length p <= d + 1)%nat [py; pw; pr; pc; pn; pt; prt; pt1; ph1; ph2; pW; pW1] ->
  rp_accepts_with py pw pr pc pn pt prt pt1 ph1 ph2 pW pW1 mu nu beta alpha omega z y y1 y2 xi tau rnd ->
  let q := mkRPCtx rp_spub mu nu beta alpha omega z y y1 y2 in
  rp_divisors q = Ok tt /\ exists (g : G1) (h : G2) xi2, g <> v0 /\ h <> v0 /\
  batch_check (vk_for tau g h) (map (fun f => vscale (peval f tau) g) [pt; py; pc])
    [vscale (peval (rp_pg (rp_se py pw pr pc pn pt prt pt1 mu nu beta alpha omega) q py pc ph1 ph2) tau) g] (omega / z) z xi xi2 [y; y1; y2] [0]
    (vscale (peval pW tau) g) (vscale (peval pW1 tau) g) rnd = true.
Proof.
  intros HLe [H [g [h0 [pp [pk [vk [cy [cw [cr [cc [cn [ct [crt [ct1 [ch1 [ch2 [cW [cW1 A]]]]]]]]]]]]]]]]]].
  destruct A as [Hg [Hh [Hs [Hi [C1 [C2 [C3 [C4 [C5 [C6 [C7 [C8 [C9 [C10 [C11 [C12 [E1 [E2 [E3 [E4 [E5 [E6 [E7 V]]]]]]]]]]]]]]]]]]]]]]].
  intros q. destruct (rp_index_inv _ _ _ _ _ _ _ _ _ Hs Hi) as
    [K1 K2 K3 K4 K5 KL K6 Ku Kw Kv Ky K8 K9 Cu Cw Cv Cy].
  fold rows in Ku. fold cols in Kw. fold vals in Kv. fold uv in Ku. fold wv in Kw. rewrite Ku, Kw in Ky. fold yv in Ky.
  rewrite Ku in Cu. rewrite Kw in Cw. rewrite Kv in Cv. rewrite Ky in Cy.
  destruct (kzg_vk_setup d tau g h0 pp Hs) as [_ [Hp _]]. rewrite Hp in *.
  rewrite Forall_forall in HLe.
  apply poly_commit in C1, C2, C3, C4, C5, C6, C7, C8, C9, C10, C11, C12; auto; try lia; try (apply HLe; cbn [In]; tauto).
  assert (rp_pub_of gamma vk x = rp_spub) as EP.
  { unfold rp_pub_of, rp_spub. rewrite K4, K5. reflexivity. }
  unfold rp_verify in V. cbn [rp_cm_y_vec_1 rp_cm_w_vec rp_cm_r_vec rp_cm_c_vec rp_cm_rnu_vec rp_cm_t_vec rp_cm_r_vec_tilde rp_cm_t_vec_1 rp_cm_h_vec_1 rp_cm_h_vec_2 rp_pf_y rp_pf_y_1 rp_pf_y_2 rp_cap_w rp_cap_w_1] in V.
  rewrite EP, E1, E2, E3, E4, E5, E6 in V. fold q in V. apply obind_ok in V. destruct V as [[] [D V]]. split; [exact D|].
  rewrite EP in E7. fold q in E7. rewrite E7 in V.
  match type of V with (if ?b then _ else _) = _ => destruct b eqn:B; [clear V|discriminate] end.
  rewrite K3 in B. eexists g, h0, _. split; auto. split; auto. cbn [map].
  replace (vscale (peval (rp_pg (rp_se py pw pr pc pn pt prt pt1 mu nu beta alpha omega) q py pc ph1 ph2) tau) g) with (rp_v_cm_g vk q cy cw cr cc cn ct crt ct1 ch1 ch2).
  { rewrite <- C1, <- C4, <- C6, <- C11, <- C12. exact B. }
  rewrite rp_pg_value. unfold rp_v_cm_g. rewrite K3, Cu, Cw, Cv, Cy. cbn [vk_g vk_for].
  pose proof (lin_comb_vscale g (rp_v_c_37 q)
    [(peval pr tau, rp_v_c_36 q); (peval pn tau, rp_v_c_38 q); (peval pc tau, rp_v_c_39 q); (peval wv tau, rp_v_c_40 q); (peval uv tau, rp_v_c_41 q); (peval yv tau, rp_v_c_42 q); (peval py tau, rp_v_c_43 q); (peval pw tau, rp_v_c_44 q); (peval vals tau, rp_v_c_45 q); (peval prt tau, rp_v_c_46 q); (peval pt1 tau, rp_v_c_47 q); (peval ph1 tau, rp_v_c_48 q); (peval ph2 tau, rp_v_c_49 q)]) as E. cbn [map fst snd] in E.
  rewrite <- C1, <- C2, <- C3, <- C4, <- C5, <- C7, <- C8, <- C9, <- C10 in E. rewrite E. f_equal.
  unfold rp_se. cbn [rp_r_vec rp_c_vec rp_rnu_vec rp_wit_vec rp_w_vec rp_u_vec rp_y_vec rp_v_vec rp_r_vec_tilde rp_t_vec_1 rp_s2_s1 rp_s3_s2 rp_s4_s3 rp_s5_s4 rp_s6_s5]. cbn [fsum]. ring.
Qed.

Lemma rp_sound py pw : (length py <= d + 1)%nat -> (length pw <= d + 1)%nat ->
  most (3 * h) (fun mu => forall pr pc, (length pr <= d + 1)%nat -> (length pc <= d + 1)%nat ->
  most k (fun nu => forall pn pt, (length pn <= d + 1)%nat -> (length pt <= d + 1)%nat ->
  most 1 (fun beta => forall prt, (length prt <= d + 1)%nat ->
  most (10 * m) (fun alpha => forall pt1, (length pt1 <= d + 1)%nat ->
  most (d + m + 2 * h + 2) (fun omega =>
  forall ph1 ph2, (length ph1 <= d + 1)%nat -> (length ph2 <= d + 1)%nat ->
  most (2 * (d + 2 * h + l + length x + 2)) (fun z => forall y y1 y2, most 2 (fun xi =>
  forall pW pW1, (length pW <= d + 1)%nat -> (length pW1 <= d + 1)%nat -> most (2 * (d + 1)) (fun tau => most 1 (fun rnd =>
  rp_accepts_with py pw pr pc pn pt prt pt1 ph1 ph2 pW pW1 mu nu beta alpha omega z y y1 y2 xi tau rnd ->
  r1cs_holds (entries_of (r_arows cs) (r_acols cs) (r_avals cs)) (entries_of (r_brows cs) (r_bcols cs) (r_bvals cs))
             (entries_of (r_crows cs) (r_ccols cs) (r_cvals cs)) h k (rp_assignment l k x pw)))))))))).
Proof.
  intros Lu Lpw.
  destruct (rp_stack_len cs HL) as [LR [LC LV]]. fold rows in LR. fold cols in LC. fold vals in LV. fold m in LR, LC, LV.
  assert (m = sa + sb + sc)%nat as EM by (unfold m, r1_nnz, sa, sb, sc; lia).
  pose proof (rp_stack_shape cs HL Hsh) as MS. fold rows cols vals M h k in MS.
  assert (length uv = m) as Luv by (unfold uv; now rewrite power_vector_length).
  assert (length wv = m) as Lwv by (unfold wv; now rewrite power_vector_length).
  assert (length yv = m) as Lyv by (unfold yv; rewrite hadamard_length, Luv, Lwv; lia).
  set (zv := rp_assignment l k x pw).
  apply (most_intro _ (bad_frac (fpow gamma) (rp_dM M k zv py) (3 * h))); [now apply cnt_bad_frac|apply dec_bad_frac|].
  intros mu Nmu pr pc Lpr Lpc.
  apply (most_intro _ (bad_frac (fpow gamma) (rp_dC M h gamma mu pc) k)); [now apply cnt_bad_frac|apply dec_bad_frac|].
  intros nu Nnu pn pt Lpn Lpt.
  apply (most_intro _ (fun beta => (rp_A m l x pw py pr pc <> 0 \/ rp_B m vals pc pn pt <> 0) /\
    rp_A m l x pw py pr pc + beta * rp_B m vals pc pn pt = 0)); [apply cnt_linear|apply dec_linear|].
  intros beta Nbe prt Lprt. set (e0 := rp_se py pw pr pc pn pt prt [] mu nu beta 0 0).
  apply (most_intro _ (rp_bad_alpha m e0)).
  { replace (10 * m)%nat with (m * 10)%nat by lia. apply cnt_rp_bad_alpha. }
  { apply dec_rp_bad_alpha. }
  intros alpha Na pt1 Lt. set (e1 := rp_se py pw pr pc pn pt prt pt1 mu nu beta alpha 0).
  set (N := (d + m + 2 * h + 2)%nat).
  apply (most_intro _ (fun om => om = 0 \/ (exists i, (i < N)%nat /\ rp_br e1 (1 + Z.of_nat i) <> 0) /\
    sumZ 1 N (fun i => fpowZ om (i - 1) * rp_br e1 i) = 0)).
  { replace N with (1 + (N - 1))%nat at 1 by lia. apply cnt_or; [intros om; destruct (feq_dec om 0); auto|apply cnt_eq|apply cnt_CT]. }
  { intros om. destruct (feq_dec om 0) as [|Q0]; [tauto|].
    destruct (dec_ex N (fun i => rp_br e1 (1 + Z.of_nat i) <> 0)) as [Q1|Q1].
    - intros i _. destruct (feq_dec (rp_br e1 (1 + Z.of_nat i)) 0); auto.
    - destruct (feq_dec (sumZ 1 N (fun i => fpowZ om (i - 1) * rp_br e1 i)) 0); tauto.
    - tauto. }
  intros om No ph1 ph2 L1 L2. set (e := rp_se py pw pr pc pn pt prt pt1 mu nu beta alpha om).
  set (Mz := Z.of_nat (d + 2 * h + l + length x + 2)).
  set (f := fun K => rp_hK e K - (vidx ph1 (minus_i64 K (1 - Z.of_nat (d + 1))) + vidx ph2 (minus_i64 K 2))).
  apply (most_intro _ (fun z => z <> 0 /\ ~ lzero Mz f /\ lsum Mz f z = 0)).
  { replace (2 * (d + 2 * h + l + length x + 2))%nat with (Z.to_nat (2 * Mz)) by (unfold Mz; lia). apply cnt_laurent. unfold Mz. lia. }
  { intros z. destruct (feq_dec z 0), (lzero_dec Mz f), (feq_dec (lsum Mz f z) 0); tauto. }
  intros z Nzz y y1 y2. set (q := mkRPCtx rp_spub mu nu beta alpha om z y y1 y2).
  assert (Z.of_nat (length (py ++ [0%F])) = Z.of_nat (length py) + 1)%Z as Ly' by (rewrite app_length; cbn [length]; lia).
  assert (Z.of_nat (length (pc ++ [0%F])) = Z.of_nat (length pc) + 1)%Z as Lc' by (rewrite app_length; cbn [length]; lia).
  assert (Z.of_nat (length (pt ++ [0%F])) = Z.of_nat (length pt) + 1)%Z as Lt' by (rewrite app_length; cbn [length]; lia).
  eapply most_weaken; [| |apply (kzg_batch_sound (d + 1) [pt; py; pc] [y; y1; y2] (rp_pg e q py pc ph1 ph2) (om / z) z)]; [cbn [length]; lia| |reflexivity| |].
  2:{ cbn [In]. intros p [<-|[<-|[<-|[]]]]; lia. }
  2:{ unfold rp_pg. repeat (rewrite padd_length || rewrite pscale_length). unfold e, rp_se.
      cbn [rp_r_vec rp_c_vec rp_rnu_vec rp_wit_vec rp_w_vec rp_u_vec rp_y_vec rp_v_vec rp_r_vec_tilde rp_t_vec_1 rp_s2_s1 rp_s3_s2 rp_s4_s3 rp_s5_s4 rp_s6_s5 length]. lia. }
  cbn beta. intros xi HX pW pW1 LW LW1. specialize (HX pW pW1 ltac:(lia) ltac:(lia)).
  revert HX. apply most_weaken; [lia|]. intros tau. apply most_weaken; [lia|]. intros rnd HX HA.
  assert (Forall (fun p : list F => (length p <= d + 1)%nat) [py; pw; pr; pc; pn; pt; prt; pt1; ph1; ph2; pW; pW1]) as HLe by (repeat constructor; auto).
  destruct (rp_accepts_batch _ _ _ _ _ _ _ _ _ _ _ _ _ _ _ _ _ _ _ _ _ _ _ _ HLe HA) as [D [g [h0 [xi2 [Hg [Hh B]]]]]]. clear HA.
  fold e q in B, D. specialize (HX g h0 xi2 Hg Hh B). clear B. destruct HX as [Hy Hg0].
  pose proof (Hy 0%nat ltac:(cbn; lia)) as Hy0. pose proof (Hy 1%nat ltac:(cbn; lia)) as Hy1. pose proof (Hy 2%nat ltac:(cbn; lia)) as Hy2. cbn [nth] in Hy0, Hy1, Hy2. clear Hy.
  change (coef [y; y1; y2] 0) with y in Hy0. change (coef [y; y1; y2] 1) with y1 in Hy1. change (coef [y; y1; y2] 2) with y2 in Hy2.
  destruct (rp_divisors_cases q) as [[_ [Hz [Hz1 [Hgo Hoz]]]]|[D1 _]]; [|rewrite D in D1; discriminate].
  change (rp_q_z q) with z in *. change (rp_q_omega q) with om in *. change (rp_gamma q) with gamma in *.
  destruct (feq_dec om 0) as [|Ho]; [exfalso; auto|].
  assert (rp_sizes e) as SZ.
  { split; unfold e, rp_se, rp_spub;
    cbn [rp_cap_h rp_cap_k rp_cap_s_a rp_cap_s_b rp_cap_s_c rp_ell rp_u_vec rp_w_vec rp_v_vec rp_y_vec rp_y_vec_1 rp_c_vec rp_t_vec rp_s1_pub rp_s2_s1 rp_s3_s2 rp_s4_s3 rp_s5_s4 rp_s6_s5];
    try lia. }
  (* the combined polynomial vanishes at z, so the identity holds as one of polynomials *)
  assert (lsum Mz f z = 0) as LS.
  { assert (LP Mz (rp_hK e) z (rp_p_c_36 q * peval (rp_r_vec e) z + rp_p_c_37 q + rp_p_c_38 q * peval (rp_rnu_vec e) z + rp_p_c_39 q * peval (rp_c_vec e) z + rp_p_c_40 q * peval (rp_w_vec e) z + rp_p_c_41 q * peval (rp_u_vec e) z + rp_p_c_42 q * peval (rp_y_vec e) z + rp_p_c_43 q * peval (rp_y_vec_1 e) z + rp_p_c_44 q * peval (rp_wit_vec e) z + rp_p_c_45 q * peval (rp_v_vec e) z + rp_p_c_46 q * peval (rp_r_vec_tilde e) z + rp_p_c_47 q * peval (rp_t_vec_1 e) z)) as L.
    { apply rp_LP; auto; unfold Mz;
      change (rp_cap_h e) with (Z.of_nat h); change (rp_cap_s_a e) with (Z.of_nat sa);
      change (rp_cap_s_b e) with (Z.of_nat sb); change (rp_cap_s_c e) with (Z.of_nat sc); change (rp_ell e) with (Z.of_nat l);
      change (rp_y_vec_1 e) with (py ++ [0]); change (rp_c_vec e) with (pc ++ [0]); change (rp_t_vec e) with (pt ++ [0]);
      change (rp_r_vec e) with pr; change (rp_rnu_vec e) with pn; change (rp_wit_vec e) with pw;
      change (rp_r_vec_tilde e) with prt; change (rp_t_vec_1 e) with pt1; change (rp_x_vec e) with x; try lia.
      - rewrite peval_snoc0. symmetry. exact Hy0.
      - rewrite peval_snoc0. symmetry. exact Hy1.
      - rewrite peval_snoc0. symmetry. exact Hy2. }
    assert (LP Mz f z 0) as [_ LF]; [|exact LF].
    eapply LP_val; [|unfold f; apply LP_sub; [exact L|apply LP_add; apply LP_list; auto; unfold Mz; lia]].
    refine (eq_trans _ Hg0). rewrite rp_pg_value. change (rp_y_vec_1 e) with (py ++ [0]). change (rp_c_vec e) with (pc ++ [0]). rewrite !peval_snoc0.
    change (rp_v_c_36 q) with (rp_p_c_36 q).
    change (rp_v_c_37 q) with (rp_p_c_37 q).
    change (rp_v_c_38 q) with (rp_p_c_38 q).
    change (rp_v_c_39 q) with (rp_p_c_39 q).
    change (rp_v_c_40 q) with (rp_p_c_40 q).
    change (rp_v_c_41 q) with (rp_p_c_41 q).
    change (rp_v_c_42 q) with (rp_p_c_42 q).
    change (rp_v_c_43 q) with (rp_p_c_43 q).
    change (rp_v_c_44 q) with (rp_p_c_44 q).
    change (rp_v_c_45 q) with (rp_p_c_45 q).
    change (rp_v_c_46 q) with (rp_p_c_46 q).
    change (rp_v_c_47 q) with (rp_p_c_47 q).
    change (rp_v_c_49 q) with (- z).
    assert (rp_v_c_48 q = - fpowZ z (1 - Z.of_nat (d + 1) - 1)) as ->.
    { change (rp_v_c_48 q) with (- power z (- Z.of_nat (d + 1))%Z). rewrite Laurent.pw by auto. do 2 f_equal. lia. }
    replace (fpowZ z (2 - 1)) with z by (change (2 - 1)%Z with 1%Z; now rewrite fpowZ_1). ring. }
  assert (lzero Mz f) as LZ by (destruct (lzero_dec Mz f); auto; exfalso; apply Nzz; auto).
  assert (rp_hK e 1 = 0) as H1.
  { pose proof (LZ 1%Z ltac:(unfold Mz; lia)) as Z1. unfold f in Z1. unfold minus_i64 in Z1.
    rewrite (vidx_coef ph1 _ (d + 1)), coef_over, (vidx_out ph2) in Z1 by lia.
    rewrite <- Z1. ring. }
  (* the constant term vanishes, so every position is fine *)
  assert (CT om N (rp_hK e 1) (rp_br e)) as HC.
  { replace N with (Z.to_nat (Z.of_nat N)) by lia. apply rp_CT; auto; unfold N;
      change (rp_cap_h e) with (Z.of_nat h); change (rp_cap_s_a e) with (Z.of_nat sa);
      change (rp_cap_s_b e) with (Z.of_nat sb); change (rp_cap_s_c e) with (Z.of_nat sc);
      change (rp_y_vec_1 e) with (py ++ [0]); change (rp_c_vec e) with (pc ++ [0]); change (rp_t_vec e) with (pt ++ [0]); lia. }
  assert (forall i, (i < N)%nat -> rp_br e1 (1 + Z.of_nat i) = 0) as HB.
  { apply not_ex_0. intros X. apply No. right. split; auto. unfold CT in HC. rewrite H1 in HC. symmetry. exact HC. }
  (* every power of alpha *)
  assert (forall i, (i < m)%nat -> forall j, (j < 11)%nat -> rp_kk e0 (1 + Z.of_nat i) j = 0) as HK.
  { intros i Hi. apply not_ex_0. intros X. apply Na. exists i. split; auto. split; auto.
    specialize (HB i ltac:(unfold N; lia)). refine (eq_trans _ HB). unfold rp_br.
    change (rp_cap_s_a e1) with (Z.of_nat sa).
    change (rp_cap_s_b e1) with (Z.of_nat sb). change (rp_cap_s_c e1) with (Z.of_nat sc).
    rewrite (range_out (Z.of_nat sa + Z.of_nat sb + Z.of_nat sc + 1)) by lia.
    change (rp_alpha e1) with alpha. cbn [sumn rp_kk].
    rewrite !pw_pos by lia.
    change (Pos.to_nat 2) with 2%nat. change (Pos.to_nat 3) with 3%nat. change (Pos.to_nat 4) with 4%nat. change (Pos.to_nat 6) with 6%nat. change (Pos.to_nat 7) with 7%nat. change (Pos.to_nat 8) with 8%nat. change (Pos.to_nat 9) with 9%nat. change (Pos.to_nat 10) with 10%nat.
    change (rp_k0 e1) with (rp_k0 e0). change (rp_k1 e1) with (rp_k1 e0). change (rp_k2 e1) with (rp_k2 e0). change (rp_k3 e1) with (rp_k3 e0). change (rp_k4 e1) with (rp_k4 e0). change (rp_k6 e1) with (rp_k6 e0). change (rp_k7 e1) with (rp_k7 e0). change (rp_k8 e1) with (rp_k8 e0). change (rp_k9 e1) with (rp_k9 e0). change (rp_k10 e1) with (rp_k10 e0).
    cbn [fpow]. ring. }
  assert (rp_sat e0) as GS.
  { split; intros i Hi;
      change (rp_cap_s_a e0) with (Z.of_nat sa) in Hi;
      change (rp_cap_s_b e0) with (Z.of_nat sb) in Hi; change (rp_cap_s_c e0) with (Z.of_nat sc) in Hi;
      replace i with (1 + Z.of_nat (Z.to_nat (i - 1)))%Z by lia; specialize (HK (Z.to_nat (i - 1)) ltac:(lia)).
    - exact (HK 0%nat ltac:(lia)).
    - exact (HK 1%nat ltac:(lia)).
    - exact (HK 2%nat ltac:(lia)).
    - exact (HK 3%nat ltac:(lia)).
    - exact (HK 4%nat ltac:(lia)).
    - exact (HK 6%nat ltac:(lia)).
    - exact (HK 7%nat ltac:(lia)).
    - exact (HK 8%nat ltac:(lia)).
    - exact (HK 9%nat ltac:(lia)).
    - exact (HK 10%nat ltac:(lia)).
  }
  rewrite EM in Nbe.
  pose proof (rp_sat_holds e0 h k sa sb sc l rows cols vals x py pw pr pc pn pt) as R2.
  intros r Hr. fold M zv in R2. specialize (R2 eq_refl eq_refl eq_refl eq_refl eq_refl eq_refl ltac:(lia) ltac:(lia) ltac:(lia) ltac:(lia) ltac:(lia) ltac:(lia) MS Hga
    eq_refl eq_refl eq_refl eq_refl eq_refl eq_refl eq_refl eq_refl eq_refl eq_refl eq_refl Nmu Nnu Nbe GS r Hr).
  destruct (rp_stack_rows cs zv r HL Hsh Hr) as [S1 [S2 S3]]. fold rows cols vals M h k in S1, S2, S3.
  rewrite S1, S2, S3 in R2. exact R2.
Qed.
End Main.
End RPSoundB.

(** R1Sound.v: soundness of the R1CS argument, round by round. *)
From Verif Require Import Base Spec Tools ToolsProofs MatProofs ToolsProofs2 PermProofs CS CSProofs KZG KZGSpec KZGProofs Snark Laurent Laurent2 SnarkProofs
  SnarkPerm Properties_KZG PovPEConst SparseSum R1 R1Proofs R1Const R1Complete R1Top SoundSpec Sound KZGSound PovSound PartFrac R1SoundSpec.
Local Open Scope F_scope.

Section R1SoundA.
Context {F : Type} {fo : FieldOps F} {fl : FieldLaws F}.
Add Field Frs : F_th.

(** *** What a challenge can go wrong with *)
(** the row values r -> 1 / (mu - gamma^r) *)
Definition r1_rinv (ga mu : F) (n : nat) : list F := map (fun r => finv (mu - fpow ga r)) (seq 0 n).
(** the difference between the committed products and the products of the committed assignment *)
Definition r1_dM (M : entries (F:=F)) (h k : nat) (pu : list F) (r : nat) : F :=
  coef pu r - mat_vec M k (row pu (3 * h) k) r.
(** the difference between the committed combination of the rows and the right one *)
Definition r1_dC (M : entries (F:=F)) (h : nat) (ga mu : F) (ps : list F) (c : nat) : F :=
  coef ps (3 * h + c) + mat_vec (transpose M) (3 * h) (r1_rinv ga mu (3 * h)) c.
(** the two inner products combined with beta *)
Definition r1_A (vv : nat) (pu ps : list F) : F := sumn vv (fun i => coef pu i * coef ps i).
Definition r1_B (h k : nat) (vals ps ph : list F) (vv : nat) : F :=
  sumn vv (fun i => vidx ph (Z.of_nat (S i) - 3 * Z.of_nat h) * coef ps i + coef ph i * vidx vals (Z.of_nat (S i) - Z.of_nat k)).

Lemma telescope (f r : Z -> F) n : r 0%Z = 0 -> (forall i, (1 <= i <= Z.of_nat n)%Z -> f i = r i - r (i - 1)%Z) ->
  sumn n (fun i => f (Z.of_nat (S i))) = r (Z.of_nat n).
Proof.
  induction n as [|n IH]; intros R0 H; cbn [sumn]; [now symmetry|].
  rewrite IH by (auto; intros; apply H; lia). rewrite H by lia.
  replace (Z.of_nat (S n) - 1)%Z with (Z.of_nat n) by lia. ring.
Qed.
Lemma prod_1 (a b : F) : a * b = 1 -> a <> 0 /\ b = finv a.
Proof.
  intros E. assert (a <> 0) as Ha by (intros ->; apply (f1_neq_0 (F:=F)); rewrite <- E; ring).
  split; auto. transitivity (a * b * finv a); [field; auto|rewrite E; ring].
Qed.

Section SatHolds.
Variable e : r1_s6 F.
Variables (h k sa sb sc l : nat) (rows cols : list nat) (vals pu ps ph : list F).
Let m := (sa + sb + sc)%nat.
Let M := entries_of rows cols vals.
Hypothesis EH : r1_cap_h e = Z.of_nat h.
Hypothesis EK : r1_cap_k e = Z.of_nat k.
Hypothesis ESa : r1_cap_s_a e = Z.of_nat sa.
Hypothesis ESb : r1_cap_s_b e = Z.of_nat sb.
Hypothesis ESc : r1_cap_s_c e = Z.of_nat sc.
Hypothesis EL : r1_ell e = Z.of_nat l.
Hypothesis Hlk : (l + 1 <= k)%nat.
Hypothesis H3h : (3 * h <= m)%nat.
Hypothesis Lr : length rows = length vals.
Hypothesis Lc : length cols = length vals.
Hypothesis Lv : length vals = m.
Hypothesis HM : in_shape M (3 * h) k.
Hypothesis Hga : r1_gamma e <> 0.
Hypothesis Eu1 : r1_u_vec_1 e = pu ++ [0].
Hypothesis Es : r1_s_vec e = ps.
Hypothesis Eh : r1_h_vec e = ph ++ [0].
Hypothesis Eu : r1_u_vec e = int_array_to_power_vector rows (r1_gamma e).
Hypothesis Ew : r1_w_vec e = int_array_to_power_vector cols (r1_gamma e).
Hypothesis Ev : r1_v_vec e = vals.
Hypothesis Ey : r1_y_vec e = hadamard_vector (r1_u_vec e) (r1_w_vec e).
Notation mu := (r1_mu e).
Notation nu := (r1_nu e).
Notation ga := (r1_gamma e).
Hypothesis Nmu : ~ bad_frac (fpow ga) (r1_dM M h k pu) (3 * h) mu.
Hypothesis Nnu : ~ bad_frac (fpow ga) (r1_dC M h ga mu ps) k nu.
Hypothesis Nbe : ~ ((r1_A (k + m) pu ps <> 0 \/ - r1_B h k vals ps ph (k + m) <> 0) /\
  r1_A (k + m) pu ps + r1_beta e * (- r1_B h k vals ps ph (k + m)) = 0).
Hypothesis G : r1_sat e.

Notation vv := (Z.of_nat k + Z.of_nat sa + Z.of_nat sb + Z.of_nat sc)%Z.
Lemma rs_m : Z.of_nat m = (Z.of_nat sa + Z.of_nat sb + Z.of_nat sc)%Z. Proof. unfold m. lia. Qed.
Lemma rs_u1 i (j : nat) : i = Z.of_nat (S j) -> vidx (r1_u_vec_1 e) i = coef pu j.
Proof. intros ->. rewrite vidx_S, Eu1. apply coef_snoc0. Qed.
Lemma rs_h i : vidx (r1_h_vec e) i = vidx ph i.
Proof.
  rewrite Eh. destruct (Z_le_gt_dec i 0); [now rewrite !vidx_out by lia|].
  rewrite !(vidx_coef _ i (Z.to_nat (i - 1))) by lia. apply coef_snoc0.
Qed.
Lemma rs_s i (j : nat) : i = Z.of_nat (S j) -> vidx (r1_s_vec e) i = coef ps j.
Proof. intros ->. rewrite vidx_S, Es. reflexivity. Qed.

(** the committed rows and columns *)
Lemma rs_mu j : (j < 3 * h)%nat -> mu - fpow ga j <> 0 /\ coef ps j = finv (mu - fpow ga j).
Proof.
  intros Hj. apply prod_1. pose proof rs_m as Em.
  pose proof (rs_k0 e G (Z.of_nat (S j))) as K. unfold r1_k0 in K. rewrite EK, ESa, ESb, ESc, EH in K. specialize (K ltac:(lia)).
  rewrite range_in, (rs_s _ j) in K by lia.
  replace (Z.of_nat (S j) - 1)%Z with (Z.of_nat j) in K by lia. rewrite fpowZ_nat in K.
  apply fsub_0_eq. rewrite <- K. ring.
Qed.
Lemma rs_nu j : (j < k)%nat -> nu - fpow ga j <> 0 /\ coef ph j = finv (nu - fpow ga j).
Proof.
  intros Hj. apply prod_1. pose proof rs_m as Em.
  pose proof (rs_k1 e G (Z.of_nat (S j))) as K. unfold r1_k1 in K. rewrite EK, ESa, ESb, ESc in K. specialize (K ltac:(lia)).
  rewrite range_in, rs_h, vidx_S in K by lia.
  replace (Z.of_nat (S j) - 1)%Z with (Z.of_nat j) in K by lia. rewrite fpowZ_nat in K.
  apply fsub_0_eq. rewrite <- K. ring.
Qed.
Lemma rs_uw j : (j < m)%nat ->
  coef ph (k + j) = finv (mu - fpow ga (nth j rows 0%nat)) * finv (nu - fpow ga (nth j cols 0%nat)).
Proof.
  intros Hj. pose proof rs_m as Em.
  destruct (in_shape_nth rows cols vals (3 * h) k j) as [H1 H2]; auto; [lia|].
  destruct (rs_mu _ H1) as [N1 _]. destruct (rs_nu _ H2) as [N2 _].
  pose proof (rs_k4 e G (Z.of_nat (S (k + j)))) as K. unfold r1_k4 in K. rewrite EK, ESa, ESb, ESc in K. specialize (K ltac:(lia)).
  rewrite !range_in, rs_h, vidx_S, Ey in K by lia.
  rewrite !(vidx_coef _ (Z.of_nat (S (k + j)) - Z.of_nat k) j) in K by lia.
  rewrite coef_hadamard, Eu, Ew, !power_vector_length, Lr, Lc, Lv, Nat.min_id, !coef_power_vector in K by (auto; lia).
  destruct (Nat.ltb_spec j m); [|lia].
  set (a := mu - fpow ga (nth j rows 0%nat)) in *. set (b := nu - fpow ga (nth j cols 0%nat)) in *.
  assert (coef ph (k + j) * (a * b) = 1) as E.
  { apply fsub_0_eq. refine (eq_trans _ K). unfold a, b. ring. }
  transitivity (coef ph (k + j) * (a * b) * (finv a * finv b)); [field; auto|]. rewrite E. ring.
Qed.
Lemma rs_pad i : (3 * h + k <= i < k + m)%nat -> coef ps i = 0.
Proof.
  intros Hi. pose proof rs_m as Em.
  pose proof (rs_k2 e G (Z.of_nat (S i))) as K. unfold r1_k2 in K. rewrite EK, ESa, ESb, ESc, EH in K. specialize (K ltac:(lia)).
  rewrite range_in, (rs_s _ i) in K by lia. rewrite <- K. ring.
Qed.

(** the running sum *)
Lemma rs_AB : r1_A (k + m) pu ps = 0 /\ r1_B h k vals ps ph (k + m) = 0.
Proof.
  pose proof rs_m as Em.
  assert (r1_A (k + m) pu ps + r1_beta e * (- r1_B h k vals ps ph (k + m)) = 0) as E.
  { pose proof (rs_k8 e G vv) as K. unfold r1_k8, delta in K. rewrite EK, ESa, ESb, ESc, Z.eqb_refl in K. specialize (K ltac:(lia)).
    transitivity (vidx (r1_r_vec_tilde e) vv); [|rewrite <- K; ring].
    set (f := fun p => vidx (r1_u_vec_1 e) p * vidx (r1_s_vec e) p
      - r1_beta e * (vidx (r1_h_vec e) (p - 3 * Z.of_nat h) * vidx (r1_s_vec e) p + vidx (r1_h_vec e) p * vidx (r1_v_vec e) (p - Z.of_nat k))).
    transitivity (sumn (k + m) (fun i => f (Z.of_nat (S i)))).
    - unfold f, r1_A, r1_B. rewrite <- sumn_opp, <- sumn_mul_l, <- sumn_add. apply sumn_ext. intros i Hi.
      rewrite (rs_u1 _ i), (rs_s _ i), !rs_h, Ev, vidx_S by lia. ring.
    - rewrite (telescope f (vidx (r1_r_vec_tilde e)) (k + m)); [f_equal; lia|apply vidx_out; lia|].
      intros i Hi. pose proof (rs_k7 e G i) as K7. unfold r1_k7 in K7. rewrite EK, ESa, ESb, ESc, EH in K7. specialize (K7 ltac:(lia)).
      rewrite range_in in K7 by lia. apply fsub_0_eq. rewrite <- K7. unfold f. ring. }
  destruct (feq_dec (r1_A (k + m) pu ps) 0) as [QA|QA], (feq_dec (- r1_B h k vals ps ph (k + m)) 0) as [QB|QB]; try (exfalso; apply Nbe; auto; fail).
  split; auto. transitivity (- - r1_B h k vals ps ph (k + m)); [ring|rewrite QB; ring].
Qed.

Notation ri := (r1_rinv ga mu (3 * h)).
Lemma rs_ri r : (r < 3 * h)%nat -> coef ri r = finv (mu - fpow ga r).
Proof. intros Hr. unfold r1_rinv. now rewrite coef_map_seq by auto. Qed.
Notation C := (mat_vec (transpose M) (3 * h) ri).
Lemma rs_inner_2 : sumn k (fun c => finv (nu - fpow ga c) * C c) = sumn m (fun j => coef ph (k + j) * coef vals j).
Proof.
  unfold mat_vec.
  rewrite (sumn_ext k _ (fun c => finv (nu - fpow ga c) * sumn (3 * h) (fun r => mat_at M r c * coef ri r))).
  2:{ intros c Hc. f_equal. apply sumn_ext. intros r Hr. now rewrite mat_at_transpose. }
  rewrite (mat_bilinear M (3 * h) k) by auto. unfold M.
  rewrite (entries_sum rows cols vals (fun r c x => coef ri r * finv (nu - fpow ga c) * x)) by auto.
  rewrite Lv. apply sumn_ext. intros j Hj.
  destruct (in_shape_nth rows cols vals (3 * h) k j) as [H1 H2]; auto; [lia|].
  rewrite rs_ri, rs_uw by auto. ring.
Qed.
Lemma rs_C c : (c < k)%nat -> coef ps (3 * h + c) = - C c.
Proof.
  destruct rs_AB as [_ HB].
  assert (sumn k (fun c => finv (nu - fpow ga c) * r1_dC M h ga mu ps c) = 0) as E.
  { unfold r1_dC. rewrite (sumn_ext k _ (fun c => finv (nu - fpow ga c) * coef ps (3 * h + c) + finv (nu - fpow ga c) * C c)) by (intros; ring).
    rewrite sumn_add, rs_inner_2, <- HB. unfold r1_B. rewrite sumn_add. f_equal.
    - replace (k + m)%nat with (3 * h + (k + (m - 3 * h)))%nat by lia. rewrite !sumn_split.
      rewrite (sumn_0 (3 * h)). 2:{ intros i Hi. rewrite (vidx_out ph) by lia. ring. }
      rewrite (sumn_0 (m - 3 * h)). 2:{ intros i Hi. rewrite (rs_pad (3 * h + (k + i))) by lia. ring. }
      transitivity (sumn k (fun i => vidx ph (Z.of_nat (S (3 * h + i)) - 3 * Z.of_nat h) * coef ps (3 * h + i))); [|ring].
      apply sumn_ext. intros i Hi. rewrite (vidx_coef ph _ i) by lia. destruct (rs_nu i Hi) as [_ ->]. reflexivity.
    - rewrite sumn_split. rewrite (sumn_0 k). 2:{ intros i Hi. rewrite (vidx_out vals) by lia. ring. }
      transitivity (sumn m (fun i => coef ph (k + i) * vidx vals (Z.of_nat (S (k + i)) - Z.of_nat k))); [|ring].
      apply sumn_ext. intros i Hi. now rewrite (vidx_coef vals _ i) by lia. }
  intros Hc. destruct (feq_dec (r1_dC M h ga mu ps c) 0) as [Q|Q].
  - unfold r1_dC in Q. match type of Q with ?a + ?b = _ => transitivity (a + b - b); [ring|rewrite Q; ring] end.
  - exfalso. apply Nnu. split; [eauto|]. split; auto. intros i Hi E'. destruct (rs_nu i Hi) as [N _]. apply N. rewrite E'. ring.
Qed.
Lemma rs_M r : (r < 3 * h)%nat -> coef pu r = mat_vec M k (row pu (3 * h) k) r.
Proof.
  destruct rs_AB as [HA _].
  assert (sumn (3 * h) (fun r => finv (mu - fpow ga r) * r1_dM M h k pu r) = 0) as E.
  { unfold r1_dM. rewrite (sumn_ext (3 * h) _ (fun r => finv (mu - fpow ga r) * coef pu r - coef ri r * mat_vec M k (row pu (3 * h) k) r)).
    2:{ intros i Hi. rewrite rs_ri by auto. ring. }
    rewrite sumn_sub, (mat_vec_adjoint M (3 * h) k ri), <- HA. unfold r1_A.
    replace (k + m)%nat with (3 * h + (k + (m - 3 * h)))%nat by lia. rewrite !sumn_split.
    rewrite (sumn_0 (m - 3 * h)). 2:{ intros i Hi. rewrite (rs_pad (3 * h + (k + i))) by lia. ring. }
    rewrite (sumn_ext (3 * h) (fun i => coef pu i * coef ps i) (fun r => finv (mu - fpow ga r) * coef pu r)).
    2:{ intros i Hi. destruct (rs_mu i Hi) as [_ ->]. ring. }
    rewrite (sumn_ext k (fun i => coef pu (3 * h + i) * coef ps (3 * h + i)) (fun c => - (coef (row pu (3 * h) k) c * C c))).
    2:{ intros i Hi. rewrite rs_C, coef_row by auto. ring. }
    rewrite sumn_opp. ring. }
  intros Hr. destruct (feq_dec (r1_dM M h k pu r) 0) as [Q|Q].
  - now apply fsub_0_eq.
  - exfalso. apply Nmu. split; [eauto|]. split; auto. intros i Hi E'. destruct (rs_mu i Hi) as [N _]. apply N. rewrite E'. ring.
Qed.
(** what the constraints say about the committed assignment *)
Lemma r1_sat_holds :
  (forall i, (i <= l)%nat -> coef (row pu (3 * h) k) i = coef (1 :: r1_x_vec e) i) /\
  (forall r, (r < h)%nat -> mat_vec M k (row pu (3 * h) k) r * mat_vec M k (row pu (3 * h) k) (r + h)
                            = mat_vec M k (row pu (3 * h) k) (r + 2 * h)).
Proof.
  pose proof rs_m as Em. split.
  - intros i Hi. rewrite coef_row by lia.
    pose proof (rs_k6 e G (Z.of_nat (S (3 * h + i)))) as K. unfold r1_k6 in K. rewrite EK, ESa, ESb, ESc, EH, EL in K. specialize (K ltac:(lia)).
    rewrite range_in, (rs_u1 _ (3 * h + i)) in K by lia. apply fsub_0_eq. rewrite <- K. unfold delta.
    destruct i as [|i].
    + replace (Z.of_nat (S (3 * h + 0)) - 3 * Z.of_nat h =? 1)%Z with true by (symmetry; apply Z.eqb_eq; lia).
      rewrite vidx_out by lia. cbn. ring.
    + replace (Z.of_nat (S (3 * h + S i)) - 3 * Z.of_nat h =? 1)%Z with false by (symmetry; apply Z.eqb_neq; lia).
      rewrite (vidx_coef (r1_x_vec e) _ i) by lia. change (coef (1 :: r1_x_vec e) (S i)) with (coef (r1_x_vec e) i). ring.
  - intros r Hr. rewrite <- !rs_M by lia.
    pose proof (rs_k5 e G (vv - Z.of_nat h + Z.of_nat (S r))%Z) as K. unfold r1_k5 in K. rewrite EK, ESa, ESb, ESc, EH in K. specialize (K ltac:(lia)).
    rewrite range_in, (rs_u1 _ r), (rs_u1 _ (r + h)), (rs_u1 _ (r + 2 * h)) in K by lia.
    apply fsub_0_eq. rewrite <- K. ring.
Qed.
End SatHolds.
End R1SoundA.

Section R1SoundB.
Context {F G1 G2 GT : Type} {fo : FieldOps F} {fl : FieldLaws F}
        {po : PairingOps F G1 G2 GT} {pl : PairingLaws F G1 G2 GT}.
Add Field Frs2 : F_th.

(** the constraint for power j of alpha at position i *)
Definition r1_kk (e : r1_s6 F) (i : Z) (j : nat) : F :=
  match j with 0 => r1_k0 e i | 1 => r1_k1 e i | 2 => r1_k2 e i | 3 => 0 | 4 => r1_k4 e i | 5 => r1_k5 e i
  | 6 => r1_k6 e i | 7 => r1_k7 e i | _ => r1_k8 e i end.
Definition r1_bad_alpha (N : nat) (e : r1_s6 F) (al : F) : Prop :=
  exists i, (i < N)%nat /\ (exists j, (j < 9)%nat /\ r1_kk e (1 + Z.of_nat i) j <> 0) /\
    sumn 9 (fun j => fpow al j * r1_kk e (1 + Z.of_nat i) j) = 0.
Lemma dec_r1_bad_alpha N e al : r1_bad_alpha N e al \/ ~ r1_bad_alpha N e al.
Proof. apply dec_ex. intros i _. apply dec_sumn. destruct (feq_dec (sumn 9 (fun j => fpow al j * r1_kk e (1 + Z.of_nat i) j)) 0); auto. Qed.
Lemma cnt_r1_bad_alpha N e : cnt (N * 8) (r1_bad_alpha N e).
Proof.
  apply (cnt_ex N 8 (fun i al => (exists j, (j < 9)%nat /\ r1_kk e (1 + Z.of_nat i) j <> 0) /\ sumn 9 (fun j => fpow al j * r1_kk e (1 + Z.of_nat i) j) = 0)).
  - intros i al _. apply dec_sumn. destruct (feq_dec (sumn 9 (fun j => fpow al j * r1_kk e (1 + Z.of_nat i) j)) 0); auto.
  - intros i _. apply (cnt_sumn 9 (r1_kk e (1 + Z.of_nat i))).
Qed.

(** the polynomial behind the combined commitment *)
Definition r1_pg (e : r1_s6 F) (q : r1_ctx F) (pu ph ph2 ph3 : list F) : list F :=
  padd (pscale (r1_v_c_35 q) (r1_s_vec e)) (padd [r1_v_c_36 q] (padd (pscale (r1_v_c_37 q) ph)
  (padd (pscale (r1_v_c_38 q) (r1_w_vec e)) (padd (pscale (r1_v_c_39 q) (r1_u_vec e)) (padd (pscale (r1_v_c_40 q) (r1_y_vec e))
  (padd (pscale (r1_v_c_41 q) pu) (padd (pscale (r1_v_c_42 q) (r1_v_vec e)) (padd (pscale (r1_v_c_43 q) (r1_r_vec_tilde e))
  (padd (pscale (r1_v_c_44 q) (r1_t_vec e)) (padd (pscale (r1_v_c_45 q) ph2) (pscale (r1_v_c_46 q) ph3))))))))))).
Lemma r1_pg_value e q pu ph ph2 ph3 x : peval (r1_pg e q pu ph ph2 ph3) x =
  r1_v_c_35 q * peval (r1_s_vec e) x + r1_v_c_36 q + r1_v_c_37 q * peval ph x
   + r1_v_c_38 q * peval (r1_w_vec e) x + r1_v_c_39 q * peval (r1_u_vec e) x
   + r1_v_c_40 q * peval (r1_y_vec e) x + r1_v_c_41 q * peval pu x
   + r1_v_c_42 q * peval (r1_v_vec e) x + r1_v_c_43 q * peval (r1_r_vec_tilde e) x
   + r1_v_c_44 q * peval (r1_t_vec e) x + r1_v_c_45 q * peval ph2 x + r1_v_c_46 q * peval ph3 x.
Proof. unfold r1_pg. rewrite !peval_padd, !peval_pscale. cbn [peval]. ring. Qed.

Section Main.
Variable gamma : F.
Variables (d : nat) (cs : R1CS F) (x : list F).
Let h := r_nrows cs.
Let k := r_ncols cs.
Let l := r_input_size cs.
Let sa := length (r_arows cs).
Let sb := length (r_brows cs).
Let sc := length (r_crows cs).
Let m := r1_nnz cs.
Hypothesis Hga : gamma <> 0.
Hypothesis Hdr : distinct_powers gamma (3 * h).
Hypothesis Hdc : distinct_powers gamma k.
Hypothesis HL : r1_lengths cs.
Hypothesis Hsh : r1cs_shape cs.
Hypothesis Hh1 : (1 <= h)%nat.
Hypothesis H3h : (3 * h <= m)%nat.
Hypothesis Hlk : (l + 1 <= k)%nat.
Hypothesis Hd : (2 * k + 2 * m <= d + h)%nat.

Notation r1_accepts_with := (r1_accepts_with (G1:=G1) (G2:=G2) (GT:=GT) gamma d cs x).
Definition r1_spub : r1_pub F :=
  mkR1Pub (Z.of_nat h) (Z.of_nat k) (Z.of_nat sa) (Z.of_nat sb) (Z.of_nat sc) (Z.of_nat l) (Z.of_nat (d + 1)) gamma x.
Let rows := fst (fst (r1_stack cs)).
Let cols := snd (fst (r1_stack cs)).
Let vals := snd (r1_stack cs).
Let uv := int_array_to_power_vector rows gamma.
Let wv := int_array_to_power_vector cols gamma.
Let yv := hadamard_vector uv wv.
Let M := entries_of rows cols vals.
(** a run with the given vectors *)
Definition r1_se (pu ps ph pr pt : list F) mu nu beta alpha omega : r1_s6 F :=
  mkR1S6 (mkR1S5 (mkR1S4 (mkR1S3 (mkR1S2 (mkR1S1 r1_spub uv wv vals yv (pu ++ [0])) mu) ps nu) (ph ++ [0]) beta) pr alpha) pt omega.

Lemma r1_accepts_batch pu ps ph pr pt ph2 ph3 pW pW1 mu nu beta alpha omega z y y1 xi tau rnd :
  Forall (fun p => length p <= d + 1)%nat [pu; ps; ph; pr; pt; ph2; ph3; pW; pW1] ->
  r1_accepts_with pu ps ph pr pt ph2 ph3 pW pW1 mu nu beta alpha omega z y y1 xi tau rnd ->
  let q := mkR1Ctx r1_spub mu nu beta alpha omega z y y1 in
  r1_divisors q = Ok tt /\ exists (g : G1) (h : G2) xi2, g <> v0 /\ h <> v0 /\
  batch_check (vk_for tau g h) (map (fun f => vscale (peval f tau) g) [ph; pu])
    [vscale (peval (r1_pg (r1_se pu ps ph pr pt mu nu beta alpha omega) q pu ph ph2 ph3) tau) g] (omega / z) z xi xi2 [y; y1] [0]
    (vscale (peval pW tau) g) (vscale (peval pW1 tau) g) rnd = true.
Proof.
  intros HLe [H [g [h0 [pp [pk [vk [cu [cs' [ch [cr [ct [ch2 [ch3 [cW [cW1 A]]]]]]]]]]]]]]].
  destruct A as [Hg [Hh [Hs [Hi [C1 [C2 [C3 [C4 [C5 [C6 [C7 [C8 [C9 [E1 [E2 [E3 [E4 [E5 [E6 [E7 V]]]]]]]]]]]]]]]]]]]].
  intros q. destruct (r1_index_inv _ _ _ _ _ _ _ _ _ Hs Hi) as
    [K1 K2 K3 K4 K5 KL K6 Ku Kw Kv Ky K8 K9 Cu Cw Cv Cy].
  fold rows in Ku. fold cols in Kw. fold vals in Kv. fold uv in Ku. fold wv in Kw. rewrite Ku, Kw in Ky. fold yv in Ky.
  rewrite Ku in Cu. rewrite Kw in Cw. rewrite Kv in Cv. rewrite Ky in Cy.
  destruct (kzg_vk_setup d tau g h0 pp Hs) as [_ [Hp _]]. rewrite Hp in *.
  rewrite Forall_forall in HLe.
  apply poly_commit in C1, C2, C3, C4, C5, C6, C7, C8, C9; auto; try lia; try (apply HLe; cbn [In]; tauto).
  assert (r1_pub_of gamma vk x = r1_spub) as EP.
  { unfold r1_pub_of, r1_spub. rewrite K4, K5. reflexivity. }
  unfold r1_verify in V. cbn [r1_cm_u_vec_1 r1_cm_s_vec r1_cm_h_vec r1_cm_r_vec_tilde r1_cm_t_vec r1_cm_h_vec_2 r1_cm_h_vec_3 r1_pf_y r1_pf_y_1 r1_cap_w r1_cap_w_1] in V.
  rewrite EP, E1, E2, E3, E4, E5, E6 in V. fold q in V. apply obind_ok in V. destruct V as [[] [D V]]. split; [exact D|].
  rewrite EP in E7. fold q in E7. rewrite E7 in V.
  match type of V with (if ?b then _ else _) = _ => destruct b eqn:B; [clear V|discriminate] end.
  rewrite K3 in B. eexists g, h0, _. split; auto. split; auto. cbn [map].
  replace (vscale (peval (r1_pg (r1_se pu ps ph pr pt mu nu beta alpha omega) q pu ph ph2 ph3) tau) g) with (r1_v_cm_g vk q cu cs' ch cr ct ch2 ch3).
  { rewrite <- C1, <- C3, <- C8, <- C9. exact B. }
  rewrite r1_pg_value. unfold r1_v_cm_g. rewrite K3, Cu, Cw, Cv, Cy. cbn [vk_g vk_for].
  pose proof (lin_comb_vscale g (r1_v_c_36 q)
    [(peval ps tau, r1_v_c_35 q); (peval ph tau, r1_v_c_37 q); (peval wv tau, r1_v_c_38 q); (peval uv tau, r1_v_c_39 q);
     (peval yv tau, r1_v_c_40 q); (peval pu tau, r1_v_c_41 q); (peval vals tau, r1_v_c_42 q); (peval pr tau, r1_v_c_43 q);
     (peval pt tau, r1_v_c_44 q); (peval ph2 tau, r1_v_c_45 q); (peval ph3 tau, r1_v_c_46 q)]) as E. cbn [map fst snd] in E.
  rewrite <- C1, <- C2, <- C3, <- C4, <- C5, <- C6, <- C7 in E. rewrite E. f_equal.
  unfold r1_se. cbn [r1_s_vec r1_w_vec r1_u_vec r1_y_vec r1_v_vec r1_r_vec_tilde r1_t_vec r1_s2_s1 r1_s3_s2 r1_s4_s3 r1_s5_s4 r1_s6_s5]. cbn [fsum]. ring.
Qed.

Lemma r1_sound pu : (length pu <= d + 1)%nat ->
  most (3 * h) (fun mu => forall ps, (length ps <= d + 1)%nat ->
  most k (fun nu => forall ph, (length ph <= d + 1)%nat ->
  most 1 (fun beta => forall pr, (length pr <= d + 1)%nat ->
  most (8 * (k + m)) (fun alpha => forall pt, (length pt <= d + 1)%nat ->
  most (d + k + m + 3 * h + 2) (fun omega =>
  forall ph2 ph3, (length ph2 <= d + 1)%nat -> (length ph3 <= d + 1)%nat ->
  most (2 * (d + 3 * h + length x + 2)) (fun z => forall y y1, most 1 (fun xi =>
  forall pW pW1, (length pW <= d + 1)%nat -> (length pW1 <= d + 1)%nat -> most (2 * (d + 1)) (fun tau => most 1 (fun rnd =>
  r1_accepts_with pu ps ph pr pt ph2 ph3 pW pW1 mu nu beta alpha omega z y y1 xi tau rnd ->
  (forall i, (i <= l)%nat -> coef (row pu (3 * h) k) i = coef (1 :: x) i) /\
  r1cs_holds (entries_of (r_arows cs) (r_acols cs) (r_avals cs)) (entries_of (r_brows cs) (r_bcols cs) (r_bvals cs))
             (entries_of (r_crows cs) (r_ccols cs) (r_cvals cs)) h k (row pu (3 * h) k)))))))))).
Proof.
  intros Lu.
  destruct (r1_stack_len cs HL) as [LR [LC LV]]. fold rows in LR. fold cols in LC. fold vals in LV. fold m in LR, LC, LV.
  assert (m = sa + sb + sc)%nat as EM by (unfold m, r1_nnz, sa, sb, sc; lia).
  pose proof (r1_stack_shape cs HL Hsh) as MS. fold rows cols vals M h k in MS.
  assert (length uv = m) as Luv by (unfold uv; now rewrite power_vector_length).
  assert (length wv = m) as Lwv by (unfold wv; now rewrite power_vector_length).
  assert (length yv = m) as Lyv by (unfold yv; rewrite hadamard_length, Luv, Lwv; lia).
  apply (most_intro _ (bad_frac (fpow gamma) (r1_dM M h k pu) (3 * h))); [now apply cnt_bad_frac|apply dec_bad_frac|].
  intros mu Nmu ps Ls.
  apply (most_intro _ (bad_frac (fpow gamma) (r1_dC M h gamma mu ps) k)); [now apply cnt_bad_frac|apply dec_bad_frac|].
  intros nu Nnu ph Lph.
  apply (most_intro _ (fun beta => (r1_A (k + m) pu ps <> 0 \/ - r1_B h k vals ps ph (k + m) <> 0) /\
    r1_A (k + m) pu ps + beta * (- r1_B h k vals ps ph (k + m)) = 0)); [apply cnt_linear|apply dec_linear|].
  intros beta Nbe pr Lpr. set (e0 := r1_se pu ps ph pr [] mu nu beta 0 0).
  apply (most_intro _ (r1_bad_alpha (k + m) e0)).
  { replace (8 * (k + m))%nat with ((k + m) * 8)%nat by lia. apply cnt_r1_bad_alpha. }
  { apply dec_r1_bad_alpha. }
  intros alpha Na pt Lt. set (e1 := r1_se pu ps ph pr pt mu nu beta alpha 0).
  set (N := (d + k + m + 3 * h + 2)%nat).
  apply (most_intro _ (fun om => om = 0 \/ (exists i, (i < N)%nat /\ r1_br e1 (1 + Z.of_nat i) <> 0) /\
    sumZ 1 N (fun i => fpowZ om (i - 1) * r1_br e1 i) = 0)).
  { replace N with (1 + (N - 1))%nat at 1 by lia. apply cnt_or; [intros om; destruct (feq_dec om 0); auto|apply cnt_eq|apply cnt_CT]. }
  { intros om. destruct (feq_dec om 0) as [|Q0]; [tauto|].
    destruct (dec_ex N (fun i => r1_br e1 (1 + Z.of_nat i) <> 0)) as [Q1|Q1].
    - intros i _. destruct (feq_dec (r1_br e1 (1 + Z.of_nat i)) 0); auto.
    - destruct (feq_dec (sumZ 1 N (fun i => fpowZ om (i - 1) * r1_br e1 i)) 0); tauto.
    - tauto. }
  intros om No ph2 ph3 L1 L2. set (e := r1_se pu ps ph pr pt mu nu beta alpha om).
  set (Mz := Z.of_nat (d + 3 * h + length x + 2)).
  set (f := fun K => r1_hK e K - (vidx ph2 (minus_i64 K (1 - Z.of_nat (d + 1))) + vidx ph3 (minus_i64 K 2))).
  apply (most_intro _ (fun z => z <> 0 /\ ~ lzero Mz f /\ lsum Mz f z = 0)).
  { replace (2 * (d + 3 * h + length x + 2))%nat with (Z.to_nat (2 * Mz)) by (unfold Mz; lia). apply cnt_laurent. unfold Mz. lia. }
  { intros z. destruct (feq_dec z 0), (lzero_dec Mz f), (feq_dec (lsum Mz f z) 0); tauto. }
  intros z Nzz y y1. set (q := mkR1Ctx r1_spub mu nu beta alpha om z y y1).
  assert (Z.of_nat (length (pu ++ [0%F])) = Z.of_nat (length pu) + 1)%Z as Lu' by (rewrite app_length; cbn [length]; lia).
  assert (Z.of_nat (length (ph ++ [0%F])) = Z.of_nat (length ph) + 1)%Z as Lh' by (rewrite app_length; cbn [length]; lia).
  eapply most_weaken; [| |apply (kzg_batch_sound (d + 1) [ph; pu] [y; y1] (r1_pg e q pu ph ph2 ph3) (om / z) z)]; [cbn [length]; lia| |reflexivity| |].
  2:{ cbn [In]. intros p [<-|[<-|[]]]; lia. }
  2:{ unfold r1_pg. repeat (rewrite padd_length || rewrite pscale_length). unfold e, r1_se.
      cbn [r1_s_vec r1_w_vec r1_u_vec r1_y_vec r1_v_vec r1_r_vec_tilde r1_t_vec r1_s2_s1 r1_s3_s2 r1_s4_s3 r1_s5_s4 r1_s6_s5 length]. lia. }
  cbn beta. intros xi HX pW pW1 LW LW1. specialize (HX pW pW1 ltac:(lia) ltac:(lia)).
  revert HX. apply most_weaken; [lia|]. intros tau. apply most_weaken; [lia|]. intros rnd HX HA.
  assert (Forall (fun p : list F => (length p <= d + 1)%nat) [pu; ps; ph; pr; pt; ph2; ph3; pW; pW1]) as HLe by (repeat constructor; auto).
  destruct (r1_accepts_batch _ _ _ _ _ _ _ _ _ _ _ _ _ _ _ _ _ _ _ _ HLe HA) as [D [g [h0 [xi2 [Hg [Hh B]]]]]]. clear HA.
  fold e q in B, D. specialize (HX g h0 xi2 Hg Hh B). clear B. destruct HX as [Hy Hg0].
  pose proof (Hy 0%nat ltac:(cbn; lia)) as Hy0. pose proof (Hy 1%nat ltac:(cbn; lia)) as Hy1. cbn [nth] in Hy0, Hy1. clear Hy.
  change (coef [y; y1] 0) with y in Hy0. change (coef [y; y1] 1) with y1 in Hy1.
  destruct (r1_divisors_cases q) as [[_ [Hz [Hz1 [Hgo Hoz]]]]|[D1 _]]; [|rewrite D in D1; discriminate].
  change (r1_q_z q) with z in *. change (r1_q_omega q) with om in *. change (r1_gamma q) with gamma in *.
  destruct (feq_dec om 0) as [|Ho]; [exfalso; auto|].
  assert (r1_sizes e) as SZ.
  { split; unfold e, r1_se, r1_spub;
    cbn [r1_cap_h r1_cap_k r1_cap_s_a r1_cap_s_b r1_cap_s_c r1_ell r1_u_vec r1_w_vec r1_v_vec r1_y_vec r1_u_vec_1 r1_h_vec r1_s1_pub r1_s2_s1 r1_s3_s2 r1_s4_s3 r1_s5_s4 r1_s6_s5];
    try lia. }
  (* the combined polynomial vanishes at z, so the identity holds as one of polynomials *)
  assert (lsum Mz f z = 0) as LS.
  { assert (LP Mz (r1_hK e) z (r1_p_c_35 q * peval (r1_s_vec e) z + r1_p_c_36 q + r1_p_c_37 q * peval (r1_h_vec e) z
   + r1_p_c_38 q * peval (r1_w_vec e) z + r1_p_c_39 q * peval (r1_u_vec e) z
   + r1_p_c_40 q * peval (r1_y_vec e) z + r1_p_c_41 q * peval (r1_u_vec_1 e) z
   + r1_p_c_42 q * peval (r1_v_vec e) z + r1_p_c_43 q * peval (r1_r_vec_tilde e) z
   + r1_p_c_44 q * peval (r1_t_vec e) z)) as L.
    { apply r1_LP; auto; unfold Mz;
      change (r1_cap_h e) with (Z.of_nat h); change (r1_cap_k e) with (Z.of_nat k); change (r1_cap_s_a e) with (Z.of_nat sa);
      change (r1_cap_s_b e) with (Z.of_nat sb); change (r1_cap_s_c e) with (Z.of_nat sc);
      change (r1_u_vec_1 e) with (pu ++ [0]); change (r1_h_vec e) with (ph ++ [0]); change (r1_s_vec e) with ps;
      change (r1_r_vec_tilde e) with pr; change (r1_t_vec e) with pt; change (r1_x_vec e) with x; try lia.
      - rewrite peval_snoc0. symmetry. exact Hy0.
      - rewrite peval_snoc0. symmetry. exact Hy1. }
    assert (LP Mz f z 0) as [_ LF]; [|exact LF].
    eapply LP_val; [|unfold f; apply LP_sub; [exact L|apply LP_add; apply LP_list; auto; unfold Mz; lia]].
    refine (eq_trans _ Hg0). rewrite r1_pg_value. change (r1_u_vec_1 e) with (pu ++ [0]). change (r1_h_vec e) with (ph ++ [0]). rewrite !peval_snoc0.
    change (r1_v_c_35 q) with (r1_p_c_35 q). change (r1_v_c_36 q) with (r1_p_c_36 q). change (r1_v_c_37 q) with (r1_p_c_37 q).
    change (r1_v_c_38 q) with (r1_p_c_38 q). change (r1_v_c_39 q) with (r1_p_c_39 q). change (r1_v_c_40 q) with (r1_p_c_40 q).
    change (r1_v_c_41 q) with (r1_p_c_41 q). change (r1_v_c_42 q) with (r1_p_c_42 q). change (r1_v_c_43 q) with (r1_p_c_43 q).
    change (r1_v_c_44 q) with (r1_p_c_44 q). change (r1_v_c_46 q) with (- z).
    assert (r1_v_c_45 q = - fpowZ z (1 - Z.of_nat (d + 1) - 1)) as ->.
    { change (r1_v_c_45 q) with (- power z (- Z.of_nat (d + 1))%Z). rewrite Laurent.pw by auto. do 2 f_equal. lia. }
    replace (fpowZ z (2 - 1)) with z by (change (2 - 1)%Z with 1%Z; now rewrite fpowZ_1). ring. }
  assert (lzero Mz f) as LZ by (destruct (lzero_dec Mz f); auto; exfalso; apply Nzz; auto).
  assert (r1_hK e 1 = 0) as H1.
  { pose proof (LZ 1%Z ltac:(unfold Mz; lia)) as Z1. unfold f in Z1. unfold minus_i64 in Z1.
    rewrite (vidx_coef ph2 _ (d + 1)), coef_over, (vidx_out ph3) in Z1 by lia.
    rewrite <- Z1. ring. }
  (* the constant term vanishes, so every position is fine *)
  assert (CT om N (r1_hK e 1) (r1_br e)) as HC.
  { replace N with (Z.to_nat (Z.of_nat N)) by lia. apply r1_CT; auto; unfold N;
      change (r1_cap_h e) with (Z.of_nat h); change (r1_cap_k e) with (Z.of_nat k); change (r1_cap_s_a e) with (Z.of_nat sa);
      change (r1_cap_s_b e) with (Z.of_nat sb); change (r1_cap_s_c e) with (Z.of_nat sc);
      change (r1_u_vec_1 e) with (pu ++ [0]); change (r1_h_vec e) with (ph ++ [0]); lia. }
  assert (forall i, (i < N)%nat -> r1_br e1 (1 + Z.of_nat i) = 0) as HB.
  { apply not_ex_0. intros X. apply No. right. split; auto. unfold CT in HC. rewrite H1 in HC. symmetry. exact HC. }
  (* every power of alpha *)
  assert (forall i, (i < k + m)%nat -> forall j, (j < 9)%nat -> r1_kk e0 (1 + Z.of_nat i) j = 0) as HK.
  { intros i Hi. apply not_ex_0. intros X. apply Na. exists i. split; auto. split; auto.
    specialize (HB i ltac:(unfold N; lia)). refine (eq_trans _ HB). unfold r1_br.
    change (r1_cap_k e1) with (Z.of_nat k). change (r1_cap_s_a e1) with (Z.of_nat sa).
    change (r1_cap_s_b e1) with (Z.of_nat sb). change (r1_cap_s_c e1) with (Z.of_nat sc).
    rewrite (range_out (Z.of_nat k + Z.of_nat sa + Z.of_nat sb + Z.of_nat sc + 1)) by lia.
    change (r1_alpha e1) with alpha. cbn [sumn r1_kk].
    rewrite !pw_pos by lia. change (Pos.to_nat 2) with 2%nat. change (Pos.to_nat 4) with 4%nat. change (Pos.to_nat 5) with 5%nat.
    change (Pos.to_nat 6) with 6%nat. change (Pos.to_nat 7) with 7%nat. change (Pos.to_nat 8) with 8%nat.
    change (r1_k0 e1) with (r1_k0 e0). change (r1_k1 e1) with (r1_k1 e0). change (r1_k2 e1) with (r1_k2 e0).
    change (r1_k4 e1) with (r1_k4 e0). change (r1_k5 e1) with (r1_k5 e0).
    change (r1_k6 e1) with (r1_k6 e0). change (r1_k7 e1) with (r1_k7 e0). change (r1_k8 e1) with (r1_k8 e0).
    cbn [fpow]. ring. }
  assert (r1_sat e0) as GS.
  { split; intros i Hi;
      change (r1_cap_k e0) with (Z.of_nat k) in Hi; change (r1_cap_s_a e0) with (Z.of_nat sa) in Hi;
      change (r1_cap_s_b e0) with (Z.of_nat sb) in Hi; change (r1_cap_s_c e0) with (Z.of_nat sc) in Hi;
      replace i with (1 + Z.of_nat (Z.to_nat (i - 1)))%Z by lia; specialize (HK (Z.to_nat (i - 1)) ltac:(lia)).
    - exact (HK 0%nat ltac:(lia)).
    - exact (HK 1%nat ltac:(lia)).
    - exact (HK 2%nat ltac:(lia)).
    - exact (HK 4%nat ltac:(lia)).
    - exact (HK 5%nat ltac:(lia)).
    - exact (HK 6%nat ltac:(lia)).
    - exact (HK 7%nat ltac:(lia)).
    - exact (HK 8%nat ltac:(lia)). }
  rewrite EM in Nbe.
  destruct (r1_sat_holds e0 h k sa sb sc l rows cols vals pu ps ph) as [R1 R2]; auto; try lia.
  split; [exact R1|]. intros r Hr. fold M in R2. specialize (R2 r Hr).
  destruct (r1_stack_rows cs (row pu (3 * h) k) r HL Hsh Hr) as [S1 [S2 S3]]. fold rows cols vals M h k in S1, S2, S3.
  rewrite S1, S2, S3 in R2. exact R2.
Qed.
End Main.
End R1SoundB.

(** KZGSound.v: batch openings bind the prover to the polynomials behind the commitments. *)
From Verif Require Import Base Spec Tools ToolsProofs ToolsProofs2 KZG KZGSpec KZGProofs Properties_KZG SnarkProofs Sound SoundSpec.
Local Open Scope F_scope.

Section KZGSound.
Context {F G1 G2 GT : Type} {fo : FieldOps F} {fl : FieldLaws F}
        {po : PairingOps F G1 G2 GT} {pl : PairingLaws F G1 G2 GT}.
Add Field Fks : F_th.

(** sum of xi^i f_i *)
Fixpoint plin (xi : F) (fs : list (list F)) : list F :=
  match fs with [] => [] | f :: fs' => padd f (pscale xi (plin xi fs')) end.
Lemma plin_length D xi fs : (forall f, In f fs -> length f <= D)%nat -> (length (plin xi fs) <= D)%nat.
Proof.
  induction fs as [|f fs IH]; intros H; cbn [plin length]; [lia|]. rewrite padd_length, pscale_length.
  specialize (IH (fun f Hf => H f (or_intror Hf))). specialize (H f (or_introl eq_refl)). lia.
Qed.
Lemma plin_value xi fs x : peval (plin xi fs) x = poly_value (map (fun f => peval f x) fs) xi.
Proof.
  induction fs as [|f fs IH]; cbn [plin map peval]; [reflexivity|].
  rewrite peval_padd, peval_pscale, IH, poly_value_cons. reflexivity.
Qed.
(** f - y - (X - z) w *)
Definition kzg_err (f : list F) (y z : F) (w : list F) : list F :=
  padd (padd f [- y]) (padd (pscale z w) (pscale (- (1)) (0 :: w))).
Lemma kzg_err_value f y z w x : peval (kzg_err f y z w) x = peval f x - y - (x - z) * peval w x.
Proof. unfold kzg_err. rewrite !peval_padd, !peval_pscale. cbn [peval]. ring. Qed.
Lemma kzg_err_length D f y z w : (length f <= D)%nat -> (length w <= D)%nat -> (length (kzg_err f y z w) <= D + 1)%nat.
Proof. intros H1 H2. unfold kzg_err. rewrite !padd_length, !pscale_length. cbn [length]. lia. Qed.

Lemma kzg_batch_sound (D : nat) (fs : list (list F)) (ys : list F) (pg : list F) z1 z2 :
  length ys = length fs -> (forall f, In f fs -> length f <= D)%nat -> (length pg <= D)%nat ->
  most (length fs - 1) (fun xi => forall pW pW1, (length pW <= D)%nat -> (length pW1 <= D)%nat ->
  most (2 * D) (fun beta => most 1 (fun rnd => forall (g : G1) (h : G2) xi2, g <> v0 -> h <> v0 ->
  batch_check (vk_for beta g h) (map (fun f => vscale (peval f beta) g) fs) [vscale (peval pg beta) g] z1 z2 xi xi2 ys [0]
    (vscale (peval pW beta) g) (vscale (peval pW1 beta) g) rnd = true ->
  (forall i, (i < length fs)%nat -> peval (nth i fs []) z1 = coef ys i) /\ peval pg z2 = 0))).
Proof.
  intros Ly Lf Lg. set (df := fun i => peval (nth i fs []) z1 - coef ys i).
  apply (most_intro _ (fun xi => (exists i, (i < length fs)%nat /\ df i <> 0) /\ sumn (length fs) (fun i => fpow xi i * df i) = 0)).
  { apply cnt_sumn. }
  { intros xi. apply dec_sumn. destruct (feq_dec (sumn (length fs) (fun i => fpow xi i * df i)) 0); auto. }
  intros xi Nxi pW pW1 LW LW1.
  set (E1 := kzg_err (plin xi fs) (poly_value ys xi) z1 pW). set (E2 := kzg_err pg 0 z2 pW1).
  assert (length E1 <= D + 1)%nat as L1 by (apply kzg_err_length; auto using plin_length).
  assert (length E2 <= D + 1)%nat as L2 by (apply kzg_err_length; auto).
  apply (most_intro _ (fun b => ((exists i, coef E1 i <> 0) /\ peval E1 b = 0) \/ ((exists i, coef E2 i <> 0) /\ peval E2 b = 0))).
  { replace (2 * D)%nat with (D + D)%nat by lia. apply cnt_or; [apply dec_roots|apply cnt_roots; lia|apply cnt_roots; lia]. }
  { intros b. destruct (dec_roots E1 b), (dec_roots E2 b); tauto. }
  intros beta Nb.
  apply (most_intro _ (fun rnd => (peval E1 beta <> 0 \/ peval E2 beta <> 0) /\ peval E1 beta + rnd * peval E2 beta = 0)).
  { apply cnt_linear. }
  { apply dec_linear. }
  intros rnd Nr g h xi2 Hg Hh HB.
  assert (peval E1 beta + rnd * peval E2 beta = 0) as E.
  { pose proof (batch_check_dlog beta g h (map (fun f => peval f beta) fs) [peval pg beta] z1 z2 xi xi2 ys [0] (peval pW beta) (peval pW1 beta) rnd Hg Hh) as [V _].
    { now rewrite map_length. } { reflexivity. }
    rewrite map_map in V. specialize (V HB). refine (eq_trans _ V). unfold E1, E2. rewrite !kzg_err_value, plin_value.
    rewrite !poly_value_cons. change (poly_value [] xi2) with (0 : F). ring. }
  assert (peval E1 beta = 0 /\ peval E2 beta = 0) as [B1 B2].
  { destruct (feq_dec (peval E1 beta) 0), (feq_dec (peval E2 beta) 0); auto; exfalso; apply Nr; split; auto. }
  assert (forall i, coef E1 i = 0) as Z1 by (destruct (nonzero_dec E1); auto; exfalso; apply Nb; auto).
  assert (forall i, coef E2 i = 0) as Z2 by (destruct (nonzero_dec E2); auto; exfalso; apply Nb; auto).
  pose proof (peval_over E1 z1 Z1) as V1. pose proof (peval_over E2 z2 Z2) as V2. unfold E1, E2 in V1, V2. rewrite kzg_err_value in V1, V2.
  split; [|refine (eq_trans _ V2); ring].
  assert (sumn (length fs) (fun i => fpow xi i * df i) = 0) as S0.
  { refine (eq_trans _ V1). rewrite plin_value. unfold poly_value. rewrite map_length, Ly.
    transitivity (sumn (length fs) (fun i => coef (map (fun f => peval f z1) fs) i * fpow xi i) -
      sumn (length fs) (fun i => coef ys i * fpow xi i)); [|ring]. rewrite <- sumn_sub. apply sumn_ext. intros i Hi.
    unfold df. replace (coef (map (fun f => peval f z1) fs) i) with (peval (nth i fs []) z1); [ring|].
    unfold coef. rewrite (nth_indep _ 0 (peval [] z1)) by (now rewrite map_length). symmetry. exact (map_nth (fun f => peval f z1) fs [] i). }
  intros i Hi. apply fsub_0_eq. destruct (feq_dec (df i) 0) as [|N]; auto. exfalso. apply Nxi. split; eauto.
Qed.

(** *** The same through the API *)
Lemma poly_commit n beta (g : G1) (p : list F) cm : (1 <= n)%nat -> (length p <= n)%nat ->
  commit (srs n beta g) p = Ok cm -> cm = vscale (peval p beta) g.
Proof. intros Hn H E. rewrite commit_ok in E by auto. injection E as <-. now rewrite <- peval_poly_value. Qed.
Lemma poly_commits n beta (g : G1) (fs : list (list F)) cms : (1 <= n)%nat -> (forall f, In f fs -> (length f <= n)%nat) ->
  map (fun f => commit (srs n beta g) f) fs = map Ok cms -> cms = map (fun f => vscale (peval f beta) g) fs.
Proof.
  intros Hn. revert cms. induction fs as [|f fs IH]; intros [|cm cms] HL E; cbn [map] in *; try discriminate; auto.
  injection E as E1 E2. f_equal; [|apply IH; auto; intros; apply HL; now right].
  apply (poly_commit n) in E1; auto. apply HL. now left.
Qed.
Lemma kzg_batch_sound_api d (fs : list (list F)) (ys : list F) (pg : list F) z1 z2 :
  length ys = length fs -> (forall f, In f fs -> (length f <= d + 1)%nat) -> (length pg <= d + 1)%nat ->
  most (length fs - 1) (fun xi =>
  forall pW pW1, (length pW <= d + 1)%nat -> (length pW1 <= d + 1)%nat ->
  most (2 * (d + 1)) (fun beta => most 1 (fun rnd =>
  forall (g : G1) (h : G2) pp vk cms cg cW cW1 xi2, g <> v0 -> h <> v0 ->
    setup d beta g h = Ok pp -> kzg_vk pp = Ok vk ->
    map (fun f => commit (up_powers_of_g pp) f) fs = map Ok cms -> commit (up_powers_of_g pp) pg = Ok cg ->
    commit (up_powers_of_g pp) pW = Ok cW -> commit (up_powers_of_g pp) pW1 = Ok cW1 ->
    batch_check vk cms [cg] z1 z2 xi xi2 ys [0] cW cW1 rnd = true ->
    map (fun f => poly_value f z1) fs = ys /\ poly_value pg z2 = 0))).
Proof.
  intros Ly Lf Lg. generalize (kzg_batch_sound (d + 1) fs ys pg z1 z2 Ly Lf Lg). apply most_weaken; auto.
  intros xi HX pW pW1 LW LW1. generalize (HX pW pW1 LW LW1). apply most_weaken; auto. intros beta. apply most_weaken; auto.
  intros rnd HY g h pp vk cms cg cW cW1 xi2 Hg Hh Hs Hv C1 C2 C3 C4 B.
  destruct (kzg_vk_setup d beta g h pp Hs) as [_ [Hp Hv']]. rewrite Hv' in Hv. injection Hv as <-. rewrite Hp in *.
  apply poly_commits in C1; auto; [|lia]. apply poly_commit in C2, C3, C4; auto; try lia. subst.
  destruct (HY g h xi2 Hg Hh B) as [Y1 Y2]. rewrite <- peval_poly_value. split; auto.
  apply (list_eq_nth _ _ _ (0 : F)); rewrite map_length; auto. intros i Hi.
  rewrite (nth_indep _ 0 (poly_value [] z1)) by (now rewrite map_length).
  rewrite (map_nth (fun f => poly_value f z1)). rewrite <- peval_poly_value. now apply Y1.
Qed.
Lemma kzg_single_sound d (p pW : list F) z y : (length p <= d + 1)%nat -> (length pW <= d + 1)%nat ->
  most (d + 1) (fun beta => forall (g : G1) (h : G2) pp vk cm cW, g <> v0 -> h <> v0 ->
    setup d beta g h = Ok pp -> kzg_vk pp = Ok vk ->
    commit (up_powers_of_g pp) p = Ok cm -> commit (up_powers_of_g pp) pW = Ok cW ->
    check vk cm z y cW = true -> poly_value p z = y).
Proof.
  intros Lp LW. set (E := kzg_err p y z pW).
  assert (length E <= (d + 1) + 1)%nat as LE by (apply kzg_err_length; auto).
  apply (most_intro _ (fun b => (exists i, coef E i <> 0) /\ peval E b = 0)); [apply cnt_roots; lia|apply dec_roots|].
  intros beta NB g h pp vk cm cW Hg Hh Hs Hv C1 C2 HC.
  destruct (kzg_vk_setup d beta g h pp Hs) as [_ [Hp Hv']]. rewrite Hv' in Hv. injection Hv as <-. rewrite Hp in *.
  apply poly_commit in C1, C2; auto; try lia. subst.
  apply check_iff in HC; auto. rewrite vs_sub, <- vscale_mul in HC. apply (vscale_inj (F:=F)) in HC; auto.
  assert (peval E beta = 0) as B0 by (unfold E; rewrite kzg_err_value, HC; ring).
  assert (forall i, coef E i = 0) as Z0 by (destruct (nonzero_dec E); auto; exfalso; apply NB; auto).
  pose proof (peval_over E z Z0) as V. unfold E in V. rewrite kzg_err_value in V. rewrite <- peval_poly_value.
  apply fsub_0_eq. refine (eq_trans _ V). ring.
Qed.
End KZGSound.

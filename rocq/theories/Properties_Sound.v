(** Properties_Sound.v: what an accepted proof proves.  The statements follow the protocol round by
    round: polynomials and values the prover chooses are universally quantified, and every challenge
    that comes after them is allowed a bounded number of exceptions ([most k P]: at most k field
    elements violate P).  The trapdoor beta comes last, because the prover does not know it; the
    commitments of a proof are commitments to polynomials that do not depend on it. *)
From Verif Require Import Base Spec Tools ToolsProofs ToolsProofs2 R1CSPov PermProofs CS POVProofs KZG KZGSpec KZGProofs Properties_KZG Snark SnarkProofs Pov SoundSpec KZGSound
  PovSoundSpec PovSound Properties_Tools Properties_Circuit Properties_Snark Properties_Pov.
Local Open Scope F_scope.

Section Sq.
Context {F : Type} {fo : FieldOps F} {fl : FieldLaws F}.
Add Field Fps : F_th.
Lemma sq_diff (x y : F) : (x - y) * (x - - y) = x * x - y * y.
Proof. ring. Qed.
End Sq.

Section S.
Context {F G1 G2 GT : Type} {fo : FieldOps F} {fl : FieldLaws F}
        {po : PairingOps F G1 G2 GT} {pl : PairingLaws F G1 G2 GT}.

(** ** C47: openings bind the prover to the committed polynomials *)
(** For all but d+1 trapdoors, an accepted opening of a commitment to p at z shows the value p(z). *)
Theorem c47_opening_binds d (p pW : list F) z y : (length p <= d + 1)%nat -> (length pW <= d + 1)%nat ->
  most (d + 1) (fun beta => forall (g : G1) (h : G2) pp vk cm cW, g <> v0 -> h <> v0 ->
    setup d beta g h = Ok pp -> kzg_vk pp = Ok vk ->
    commit (up_powers_of_g pp) p = Ok cm -> commit (up_powers_of_g pp) pW = Ok cW ->
    check vk cm z y cW = true -> poly_value p z = y).
Proof. apply kzg_single_sound. Qed.
(** The batch opening used by the arguments: several polynomials at z1, one at z2 with value 0. *)
Theorem c47_batch_opening_binds d (fs : list (list F)) (ys : list F) (pg : list F) z1 z2 :
  length ys = length fs -> (forall f, In f fs -> (length f <= d + 1)%nat) -> (length pg <= d + 1)%nat ->
  most (length fs - 1) (fun xi =>
  forall pW pW1, (length pW <= d + 1)%nat -> (length pW1 <= d + 1)%nat ->
  most (2 * (d + 1)) (fun beta => most 1 (fun rnd =>
  forall (g : G1) (h : G2) pp vk cms cg cW cW1 xi2, g <> v0 -> h <> v0 ->
    setup d beta g h = Ok pp -> kzg_vk pp = Ok vk ->
    map (fun f => commit (up_powers_of_g pp) f) fs = map Ok cms -> commit (up_powers_of_g pp) pg = Ok cg ->
    commit (up_powers_of_g pp) pW = Ok cW -> commit (up_powers_of_g pp) pW1 = Ok cW1 ->
    batch_check vk cms [cg] z1 z2 xi xi2 ys [0] cW cW1 rnd = true ->
    map (fun f => poly_value f z1) fs = ys /\ poly_value pg z2 = 0))).
Proof. apply kzg_batch_sound_api. Qed.

(** ** C48: soundness of the argument for arithmetic circuits (voproof_pov) *)
(** For a circuit whose wires contain no cycle and public positions that are distinct and inside the
    circuit: up to bounded numbers of unlucky challenges, an accepted proof means that the first 3n
    coefficients of the first committed polynomial are values that satisfy the circuit and the
    public values. *)
Theorem c48_sound gamma d (cs : POV F) pos vals pw :
  let n := ps_n (pov_get_size cs) in
  gamma <> 0 -> distinct_powers gamma (3 * n) ->
  pairs_below (3 * n) (p_wires cs) -> forest (p_wires cs) ->
  (1 <= length (p_consts cs))%nat -> (6 * n - p_nmul cs <= d)%nat ->
  NoDup pos -> length pos = length vals -> (forall i, In i pos -> (i < 3 * n)%nat) ->
  (length pw <= d + 1)%nat ->
  most (9 * n * n) (fun zeta => most (3 * n) (fun zeta_1 =>
  forall pr, (length pr <= d + 1)%nat -> most (15 * n) (fun alpha =>
  forall pt, (length pt <= d + 1)%nat -> most (d + 3 * n + 2) (fun omega =>
  forall ph1 ph2, (length ph1 <= d + 1)%nat -> (length ph2 <= d + 1)%nat -> most (2 * (d + n + 2)) (fun z =>
  forall y y2, most 1 (fun xi =>
  forall pW pW1, (length pW <= d + 1)%nat -> (length pW1 <= d + 1)%nat -> most (2 * (d + 1)) (fun beta => most 1 (fun rnd =>
  pv_accepts_with (G1:=G1) (G2:=G2) (GT:=GT) gamma d cs pos vals
    pw pr pt ph1 ph2 pW pW1 zeta zeta_1 alpha omega z y y2 xi beta rnd ->
  pov_holds (p_consts cs) (p_wires cs) (p_nmul cs) (p_nadd cs) pos vals (row pw 0 n) (row pw n n) (row pw (2 * n) n))))))))).
Proof.
  intros n Hga Hdp Hb Hf Hc Hd Hnd Hl Hpos Lw. apply pv_sound_gen; auto. now apply pv_sound_forest.
Qed.
(** Without the condition on the wires: gates and public values hold, and the values are invariant
    under the permutation in the keys. *)
Theorem c48_sound_permutation gamma d (cs : POV F) pos vals pw sigma :
  let n := ps_n (pov_get_size cs) in
  gamma <> 0 -> distinct_powers gamma (3 * n) ->
  permutation_vector_from_wires (E:=error) gamma (p_wires cs) (3 * n) = Ok sigma ->
  (1 <= length (p_consts cs))%nat -> (6 * n - p_nmul cs <= d)%nat ->
  NoDup pos -> length pos = length vals -> (forall i, In i pos -> (i < 3 * n)%nat) ->
  (length pw <= d + 1)%nat ->
  most (9 * n * n) (fun zeta => most (3 * n) (fun zeta_1 =>
  forall pr, (length pr <= d + 1)%nat -> most (15 * n) (fun alpha =>
  forall pt, (length pt <= d + 1)%nat -> most (d + 3 * n + 2) (fun omega =>
  forall ph1 ph2, (length ph1 <= d + 1)%nat -> (length ph2 <= d + 1)%nat -> most (2 * (d + n + 2)) (fun z =>
  forall y y2, most 1 (fun xi =>
  forall pW pW1, (length pW <= d + 1)%nat -> (length pW1 <= d + 1)%nat -> most (2 * (d + 1)) (fun beta => most 1 (fun rnd =>
  pv_accepts_with (G1:=G1) (G2:=G2) (GT:=GT) gamma d cs pos vals
    pw pr pt ph1 ph2 pW pW1 zeta zeta_1 alpha omega z y y2 xi beta rnd ->
  pov_holds (p_consts cs) [] (p_nmul cs) (p_nadd cs) pos vals (row pw 0 n) (row pw n n) (row pw (2 * n) n) /\
  perm_invariant gamma (3 * n) sigma (row pw 0 (3 * n)))))))))).
Proof.
  intros n Hga Hdp Es Hc Hd Hnd Hl Hpos Lw. apply pv_sound_gen; auto.
  - now apply (SnarkPerm.sigma_at _ _ _ _ Es).
  - intros H1 H2. split; auto. now apply pv_sound_perm.
Qed.
End S.

(** Examples and limits. *)
(** Of the 101 elements exactly two violate x*x <> 4. *)
Example c47_example : most 2 (fun x : F101 => x * x <> f101 4) /\ ~ most 1 (fun x : F101 => x * x <> f101 4).
Proof.
  assert (Hr : forall x : F101, x * x = f101 4 -> In x [f101 2; f101 99]).
  { intros x Hx. assert (E : (x - f101 2) * (x - - f101 2) = 0).
    { rewrite sq_diff, Hx. vm_compute. reflexivity. }
    destruct (fmul_integral _ _ E) as [E'|E']; apply fsub_0_eq in E'; subst x; [left; reflexivity|right; left].
    vm_compute. reflexivity. }
  split.
  - intros l Hl H. apply (NoDup_incl_length (l' := [f101 2; f101 99]) Hl). intros x Hx. apply Hr.
    destruct (feqb (x * x) (f101 4)) eqn:E; [now apply feqb_eq|]. destruct (H x Hx). intros E'. apply feqb_eq in E'. congruence.
  - intros H. specialize (H [f101 2; f101 99]). cbn [length] in H. enough (2 <= 1)%nat by lia. apply H.
    + repeat constructor; cbn; intuition discriminate.
    + intros x [<-|[<-|[]]] Hx; apply Hx; vm_compute; reflexivity.
Qed.
(** A run that meets all hypotheses of [c48_sound], with the challenges of a hash function. *)
Example c48_example :
  let n := ps_n (pov_get_size pov1) in
  f101 2 <> 0 /\ distinct_powers (f101 2) (3 * n) /\ pairs_below (3 * n) (p_wires pov1) /\ forest (p_wires pov1) /\
  (1 <= length (p_consts pov1))%nat /\ (6 * n - p_nmul pov1 <= 17)%nat /\
  pv_accepts_with (G1:=F101) (G2:=F101) (GT:=F101) (f101 2) 17 pov1 [7; 8]%nat (l101 [11; 5]%Z)
    (l101 [2; 6; 0; 3; 5; 0; 6; 11; 5; 21]%Z) (l101 [1; 37; 37; 37; 53; 53; 26; 26; 1; 22]%Z)
    (l101 [23; 25; 0; 18; 55; 0; 25; 0; 0; 0; 0]%Z)
    (l101 [0; 0; 0; 0; 0; 0; 2; 73; 73; 78; 39; 29; 70; 95; 11; 48; 1; 41]%Z)
    (l101 [32; 33; 55; 57; 93; 3; 49; 95; 0; 0; 0; 0; 0; 0; 0; 0; 0]%Z)
    (l101 [72; 78; 2; 31; 39; 24; 38; 82; 18]%Z)
    (l101 [51; 0; 10; 19; 100; 74; 73; 59; 11; 67; 58; 45; 72; 84; 74; 59; 89]%Z)
    (f101 100) (f101 99) (f101 43) (f101 13) (f101 86) (f101 77) (f101 39) (f101 32) (f101 7) (f101 77).
Proof.
  cbn zeta. split; [vm_compute; discriminate|]. split; [apply distinct_powers_check; vm_compute; reflexivity|].
  split. { intros x y [H|[H|[]]]; injection H as <- <-; cbn; lia. }
  split.
  { apply (forest_snoc [(6%nat, 1%nat)] 8 4).
    - apply (forest_snoc [] 6 1); [constructor|]. intros C. assert (6%nat = 1%nat) as X; [|discriminate].
      apply (connected_inv (fun x y => x = y) []) in C; auto; intros; subst; auto. destruct H.
    - intros C. apply (connected_inv (fun x y => (x = y) \/ (x < 7 /\ y < 7)%nat) [(6%nat, 1%nat)]) in C; try lia.
      intros x y [H|[]]. injection H as <- <-. lia. }
  split; [cbn; lia|]. split; [cbn; lia|].
  exists H101, (f101 3), (f101 5).
  destruct (setup101 17) as [pp| |] eqn:Ep; [|vm_compute in Ep; discriminate..].
  destruct (pv_index (GT:=F101) (f101 2) pp pov1) as [[pk vk]| |] eqn:Ei.
  2: { vm_compute in Ep. injection Ep as <-. vm_compute in Ei. discriminate. }
  2: { vm_compute in Ep. injection Ep as <-. vm_compute in Ei. discriminate. }
  vm_compute in Ep. injection Ep as <-. vm_compute in Ei. injection Ei as <- <-.
  eexists _, _, _, _, _, _, _, _, _, _.
  repeat match goal with |- _ /\ _ => split end; try (vm_compute; (reflexivity || discriminate)).
Qed.
(** A wire listed twice in a row is not in the keys: the circuits with and without it have the same
    keys, so no verifier can tell them apart. *)
Theorem c48_repeated_wire_refuted {F G1 G2 GT} {fo : FieldOps F} {fl : FieldLaws F} {po : PairingOps F G1 G2 GT}
  gamma (pp : universal_params G1 G2) consts l i j nm na : gamma <> 0 ->
  let n := (nm + na + length consts)%nat in pairs_below (3 * n) l -> (i < 3 * n)%nat -> (j < 3 * n)%nat ->
  pv_index gamma pp (mkPOV (F:=F) consts (l ++ [(i, j); (i, j)]) nm na) = pv_index gamma pp (mkPOV consts l nm na).
Proof.
  intros Hg n Hl Hi Hj. unfold pv_index, pov_get_size. cbn zeta. cbn [p_consts p_wires p_nmul p_nadd ps_n ps_nmul ps_nadd].
  match goal with |- context [permutation_vector_from_wires gamma _ (Z.to_nat ?k)] => replace (Z.to_nat k) with (3 * n)%nat by (unfold n; lia) end.
  rewrite (c10_duplicate_cancels gamma l i j (3 * n) Hi Hj Hl). reflexivity.
Qed.
Lemma F101_all (f : F101 -> bool) : forallb (fun v => f (f101 v)) (map Z.of_nat (seq 0 101)) = true -> forall x, f x = true.
Proof.
  intros H x. rewrite forallb_forall in H. pose proof (zval_range 101 prime_101 x) as Hr.
  replace x with (f101 (zval 101 x)).
  - apply H. apply in_map_iff. exists (Z.to_nat (zval 101 x)). split; [lia|]. apply in_seq. lia.
  - apply zp_eq. unfold f101, zof. cbn [zval]. apply Z.mod_small. exact Hr.
Qed.
(** A public position given twice, with two different values: no values satisfy the circuit, and
    yet a dishonest prover finds a proof that is accepted. *)
Theorem c48_duplicate_position_refuted : exists pp pk vk (pf : @pv_proof F101 F101),
  setup101 17 = Ok pp /\ pv_index (GT:=F101) (f101 2) pp pov1 = Ok (pk, vk) /\
  (forall a b c, ~ pov_holds (p_consts pov1) (p_wires pov1) (p_nmul pov1) (p_nadd pov1) [6; 6]%nat (l101 [7; 8]%Z) a b c) /\
  (forall rnd, pv_verify (GT:=F101) H101 (f101 2) vk ([6; 6]%nat, l101 [7; 8]%Z) pf rnd = Ok tt).
Proof.
  destruct (setup101 17) as [pp| |] eqn:Ep; [|vm_compute in Ep; discriminate..].
  destruct (pv_index (GT:=F101) (f101 2) pp pov1) as [[pk vk]| |] eqn:Ei.
  2: { vm_compute in Ep. injection Ep as <-. vm_compute in Ei. discriminate. }
  2: { vm_compute in Ep. injection Ep as <-. vm_compute in Ei. discriminate. }
  exists pp, pk, vk, (mkPVProof (f101 43) (f101 48) (f101 68) (f101 42) (f101 90) (f101 76) (f101 64) (f101 54) (f101 86)).
  vm_compute in Ep. injection Ep as <-. vm_compute in Ei. injection Ei as <- <-.
  split; [reflexivity|]. split; [reflexivity|]. split.
  - intros a b c (_ & _ & _ & _ & Hp). pose proof (Hp 0%nat) as H0. pose proof (Hp 1%nat) as H1.
    destruct H0 as [_ H0]; [cbn; lia..|]. destruct H1 as [_ H1]; [cbn; lia..|]. cbn [nth] in *. rewrite H0 in H1.
    vm_compute in H1. discriminate.
  - intros rnd.
    match goal with |- @pv_verify ?F ?G1 ?G2 ?GT ?fo ?po ?c ?d ?e ?x ?p rnd = _ =>
      pose proof (F101_all (fun r => match @pv_verify F G1 G2 GT fo po c d e x p r with Ok _ => true | _ => false end)) as Ha end.
    lapply Ha; [|vm_compute; reflexivity]. clear Ha. intros Ha. specialize (Ha rnd). cbn beta in Ha.
    destruct (pv_verify _ _ _ _ _ rnd) as [[]| |]; auto; discriminate.
Qed.
Print Assumptions c47_opening_binds.
Print Assumptions c47_batch_opening_binds.
Print Assumptions c48_sound.
Print Assumptions c48_sound_permutation.
Print Assumptions c48_repeated_wire_refuted.
Print Assumptions c48_duplicate_position_refuted.

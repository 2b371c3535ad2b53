(** Properties_PESound.v: what an accepted proof of the prover-efficient POV argument proves, and
    what it does not (C49).  Same conventions as Properties_Sound.v. *)
From Verif Require Import Base Spec Tools ToolsProofs ToolsProofs2 R1CSPov PermProofs CS POVProofs KZG KZGSpec KZGProofs Properties_KZG Snark SnarkProofs PovPE SoundSpec KZGSound
  PovPESoundSpec PovPEAttack PovPESound Properties_Tools Properties_Circuit Properties_Snark Properties_Sound.
Local Open Scope F_scope.

Section S.
Context {F G1 G2 GT : Type} {fo : FieldOps F} {fl : FieldLaws F}
        {po : PairingOps F G1 G2 GT} {pl : PairingLaws F G1 G2 GT}.

(** ** C49: what voproof_pov_prover_efficient enforces *)
(** Up to bounded numbers of unlucky challenges, an accepted proof means that the two committed
    polynomials contain wire values that respect the wires, the public values, and those
    multiplication gates whose right input is not zero. *)
Theorem c49_sound gamma d (cs : POV F) pos vals pu pv :
  let n := ps_n (pov_get_size cs) in
  gamma <> 0 -> distinct_powers gamma (3 * n) ->
  pairs_below (3 * n) (p_wires cs) -> forest (p_wires cs) ->
  (1 <= length (p_consts cs))%nat -> (p_nmul cs + 4 * n <= d)%nat ->
  NoDup pos -> length pos = length vals ->
  (forall i, In i pos -> (i < 2 * n + p_nmul cs + p_nadd cs)%nat) ->
  (length pu <= d + 1)%nat -> (length pv <= d + 1)%nat ->
  most (9 * n * n) (fun zeta => most (3 * n) (fun zeta_1 =>
  forall pr, (length pr <= d + 1)%nat -> most (12 * n) (fun alpha =>
  forall pt, (length pt <= d + 1)%nat -> most (d + n + 2) (fun omega =>
  forall ph1 ph2, (length ph1 <= d + 1)%nat -> (length ph2 <= d + 1)%nat -> most (2 * (d + 2 * n + 2)) (fun z =>
  forall y y2, most 1 (fun xi =>
  forall pW pW1, (length pW <= d + 1)%nat -> (length pW1 <= d + 1)%nat -> most (2 * (d + 1)) (fun beta => most 1 (fun rnd =>
  pe_accepts_with (G1:=G1) (G2:=G2) (GT:=GT) gamma d cs pos vals
    pu pv pr pt ph1 ph2 pW pW1 zeta zeta_1 alpha omega z y y2 xi beta rnd ->
  let W := pe_values cs pu pv in
  pe_enforced (p_wires cs) (p_nmul cs) pos vals (row W 0 n) (row W n n) (row W (2 * n) n))))))))).
Proof.
  intros n Hga Hdp Hb Hf Hc Hd Hnd Hl Hpos Lu Lv. apply pe_sound_gen; auto. now apply (pe_sound_forest d).
Qed.

(** Nothing else is enforced.  Whatever values respect the wires, the public values and the
    multiplications with a non-zero right input -- the outputs of addition gates and constant gates
    may be arbitrary -- a prover who deviates only in its first two vectors obtains a proof that is
    accepted whatever randomness the verifier uses, or hits one of the unlucky events and retries. *)
Theorem c49_nothing_else (H : list (item F G1) -> F) gamma d beta (g : G1) (h : G2) pp cs pk vk pos vals a b c d0 d1 d2 d3 :
  g <> v0 -> h <> v0 ->
  setup d beta g h = Ok pp -> pe_index gamma pp cs = Ok (pk, vk) ->
  length a = ps_n (pov_get_size cs) -> length b = ps_n (pov_get_size cs) -> length c = ps_n (pov_get_size cs) ->
  pe_enforced (p_wires cs) (p_nmul cs) pos vals a b c ->
  NoDup pos -> length pos = length vals ->
  (forall p, In p pos -> (p < 2 * ps_n (pov_get_size cs) + p_nmul cs + p_nadd cs)%nat) ->
  (exists pf, pe_cheat H gamma cs pk (pos, vals) (a, b, c) d0 d1 d2 d3 = Ok pf /\
     forall rnd, pe_verify H gamma vk (pos, vals) pf rnd = Ok tt) \/
  (pe_cheat H gamma cs pk (pos, vals) (a, b, c) d0 d1 d2 d3 = Panic /\
   pe_cheat_unlucky H gamma cs pk (pos, vals) (a, b, c) d0 d1 d2 d3).
Proof. apply pe_forge. Qed.
End S.

(** A run that meets all hypotheses of [c49_sound]. *)
Example c49_example :
  let n := ps_n (pov_get_size pov1) in
  f101 2 <> 0 /\ distinct_powers (f101 2) (3 * n) /\ pairs_below (3 * n) (p_wires pov1) /\ forest (p_wires pov1) /\
  (1 <= length (p_consts pov1))%nat /\ (p_nmul pov1 + 4 * n <= 13)%nat /\
  pe_accepts_with (G1:=F101) (G2:=F101) (GT:=F101) (f101 2) 13 pov1 [0; 3; 7]%nat (l101 [2; 3; 12]%Z)
    (l101 [2; 6; 0; 3; 0; 0; 0; 1; 0; 3]%Z) (l101 [5; 0; 6; 11; 0; 0; 0; 0; 0; 4]%Z)
    (l101 [1; 81; 81; 81; 70; 70; 47; 47; 1; 5]%Z) (l101 [6; 30; 0; 0; 0; 0; 0]%Z)
    (l101 [0; 0; 70; 8; 57; 68; 49; 15; 92; 7; 64; 91; 95; 76]%Z)
    (l101 [3; 99; 37; 5; 34; 70; 23; 74; 9; 91; 0; 100; 31]%Z)
    (l101 [68; 73; 40; 47; 13; 14; 21; 3; 74]%Z)
    (l101 [86; 75; 45; 19; 13; 100; 5; 31; 22; 87; 84; 16; 5]%Z)
    (f101 88) (f101 71) (f101 29) (f101 38) (f101 88) (f101 57) (f101 42) (f101 95) (f101 7) (f101 77).
Proof.
  destruct c48_example as [A1 [A2 [A3 [A4 [A5 _]]]]]. cbn zeta in *.
  split; [exact A1|]. split; [exact A2|]. split; [exact A3|]. split; [exact A4|]. split; [exact A5|].
  split; [cbn; lia|].
  exists H101, (f101 3), (f101 5).
  destruct (setup101 13) as [pp| |] eqn:Ep; [|vm_compute in Ep; discriminate..].
  destruct (pe_index (GT:=F101) (f101 2) pp pov1) as [[pk vk]| |] eqn:Ei.
  2: { vm_compute in Ep. injection Ep as <-. vm_compute in Ei. discriminate. }
  2: { vm_compute in Ep. injection Ep as <-. vm_compute in Ei. discriminate. }
  vm_compute in Ep. injection Ep as <-. vm_compute in Ei. injection Ei as <- <-.
  eexists _, _, _, _, _, _, _, _, _, _, _.
  repeat match goal with |- _ /\ _ => split end; try (vm_compute; (reflexivity || discriminate)).
Qed.

(** The circuit 2*3+5 with public inputs 2 and 3: no values make the public output 12, and yet a
    proof of it is accepted, whatever randomness the verifier uses. *)
Theorem c49_false_statement_accepted_refuted : exists pp pk vk (pf : pe_proof F101 F101),
  setup101 13 = Ok pp /\ pe_index (GT:=F101) (f101 2) pp pov1 = Ok (pk, vk) /\
  (forall a b c, length a = 3%nat -> length b = 3%nat -> length c = 3%nat ->
     ~ pov_holds (p_consts pov1) (p_wires pov1) (p_nmul pov1) (p_nadd pov1) [0; 3; 7]%nat (l101 [2; 3; 12]%Z) a b c) /\
  (forall rnd, pe_verify (GT:=F101) H101 (f101 2) vk ([0; 3; 7]%nat, l101 [2; 3; 12]%Z) pf rnd = Ok tt).
Proof.
  destruct (setup101 13) as [pp| |] eqn:Ep; [|vm_compute in Ep; discriminate..].
  destruct (pe_index (GT:=F101) (f101 2) pp pov1) as [[pk vk]| |] eqn:Ei.
  2: { vm_compute in Ep. injection Ep as <-. vm_compute in Ei. discriminate. }
  2: { vm_compute in Ep. injection Ep as <-. vm_compute in Ei. discriminate. }
  exists pp, pk, vk, (mkPEProof (f101 52) (f101 92) (f101 40) (f101 42) (f101 69) (f101 10) (f101 57) (f101 42) (f101 22) (f101 88)).
  vm_compute in Ep. injection Ep as <-. vm_compute in Ei. injection Ei as <- <-.
  split; [reflexivity|]. split; [reflexivity|]. split.
  - intros a b c La Lb Lc (Hm & Ha & Hc & Hw & Hp).
    destruct a as [|a0 [|a1 [|a2 [|]]]]; try discriminate. destruct b as [|b0 [|b1 [|b2 [|]]]]; try discriminate.
    destruct c as [|c0 [|c1 [|c2 [|]]]]; try discriminate.
    pose proof (Hm 0%nat ltac:(cbn; lia)) as M. pose proof (Ha 1%nat ltac:(cbn; lia)) as A. pose proof (Hc 0%nat ltac:(cbn; lia)) as C.
    destruct (Hw 6%nat 1%nat ltac:(cbn; tauto)) as [_ [_ W1]]. destruct (Hw 8%nat 4%nat ltac:(cbn; tauto)) as [_ [_ W2]].
    destruct (Hp 0%nat ltac:(cbn; lia) ltac:(cbn; lia)) as [_ P0]. destruct (Hp 1%nat ltac:(cbn; lia) ltac:(cbn; lia)) as [_ P1].
    destruct (Hp 2%nat ltac:(cbn; lia) ltac:(cbn; lia)) as [_ P2].
    cbn [coef nth app Nat.add p_nmul p_nadd p_consts pov1 l101 map] in *. unfold coef in *. cbn [nth app] in *.
    rewrite <- W1, <- W2, M, C, P0, P1, P2 in A. vm_compute in A. discriminate.
  - intros rnd.
    match goal with |- @pe_verify ?F ?G1 ?G2 ?GT ?fo ?po ?c ?d ?e ?x ?p rnd = _ =>
      pose proof (F101_all (fun r => match @pe_verify F G1 G2 GT fo po c d e x p r with Ok _ => true | _ => false end)) as Ha end.
    lapply Ha; [|vm_compute; reflexivity]. clear Ha. intros Ha. specialize (Ha rnd). cbn beta in Ha.
    destruct (pe_verify _ _ _ _ _ rnd) as [[]| |]; auto; discriminate.
Qed.
Print Assumptions c49_sound.
Print Assumptions c49_nothing_else.
Print Assumptions c49_false_statement_accepted_refuted.

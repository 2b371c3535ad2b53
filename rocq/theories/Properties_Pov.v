(** Properties_Pov.v: the argument for arithmetic circuits (voproof_pov).
    [H] is an arbitrary function from transcripts to challenges, the randomizers, trapdoor and
    generators are arbitrary, and the groups are arbitrary one-dimensional spaces with a
    non-degenerate pairing. *)
From Verif Require Import Base Spec Tools CS POVProofs KZG KZGProofs Snark Pov PovComplete PovTop Properties_Snark.
Local Open Scope F_scope.

Section S.
Context {F G1 G2 GT : Type} {fo : FieldOps F} {fl : FieldLaws F}
        {po : PairingOps F G1 G2 GT} {pl : PairingLaws F G1 G2 GT}.
Variable H : list (item F G1) -> F.
Variable gamma : F.

(** ** C45: completeness *)
(** Whatever witness the prover was run with, a proof it returns is accepted by the verifier for the
    same instance, for every random scalar of the verifier. *)
Theorem c45_returned_proofs_are_accepted d beta (g : G1) (h : G2) pp cs pk vk x w d0 d1 d2 pf rnd :
  g <> v0 -> h <> v0 ->
  setup d beta g h = Ok pp -> pv_index gamma pp cs = Ok (pk, vk) ->
  pv_prove H gamma pk x w d0 d1 d2 = Ok pf -> pv_verify H gamma vk x pf rnd = Ok tt.
Proof. apply pv_accepts. Qed.
(** For a satisfied circuit with distinct public positions (anywhere in the circuit), the prover
    returns a proof that is accepted, unless one of the events listed in [pv_unlucky] happened. *)
Theorem c45_complete d beta (g : G1) (h : G2) pp cs pk vk pos vals a b c d0 d1 d2 :
  g <> v0 -> h <> v0 ->
  setup d beta g h = Ok pp -> pv_index gamma pp cs = Ok (pk, vk) ->
  length a = ps_n (pov_get_size cs) -> length b = ps_n (pov_get_size cs) -> length c = ps_n (pov_get_size cs) ->
  pov_holds (p_consts cs) (p_wires cs) (p_nmul cs) (p_nadd cs) pos vals a b c ->
  NoDup pos -> length pos = length vals ->
  (exists pf, pv_prove H gamma pk (pos, vals) (a, b, c) d0 d1 d2 = Ok pf /\
     forall rnd, pv_verify H gamma vk (pos, vals) pf rnd = Ok tt) \/
  pv_unlucky H gamma pk (pos, vals) (a, b, c) d0 d1 d2.
Proof. apply pv_complete. Qed.
(** ... and the keys exist as soon as the parameters are large enough, gamma is not zero, the wires
    stay inside the circuit and there is at least one constant gate. *)
Theorem c45_index_ok d beta (g : G1) (h : G2) pp cs :
  setup d beta g h = Ok pp -> gamma <> 0 -> pairs_below (3 * ps_n (pov_get_size cs)) (p_wires cs) ->
  (1 <= length (p_consts cs))%nat -> (6 * ps_n (pov_get_size cs) - p_nmul cs <= d)%nat ->
  exists pk vk, pv_index gamma pp cs = Ok (pk, vk).
Proof. apply pv_index_ok. Qed.
(** ** C46: where this argument and the satisfaction check disagree *)
Theorem c46_no_constants_panics d beta (g : G1) (h : G2) pp cs :
  setup d beta g h = Ok pp -> p_consts cs = [] -> pv_index gamma pp cs = Panic.
Proof. apply pv_index_no_consts. Qed.
End S.

(** ** Non-vacuity and counterexamples: integers modulo 101, pairing e(a,b) = ab, a small hash *)
Definition pv_run cs x w d : outcome error unit :=
  let! pp := setup101 d in
  let! kv := pv_index (GT:=F101) (f101 2) pp cs in
  let! pf := pv_prove (GT:=F101) H101 (f101 2) (fst kv) x w (f101 21) (f101 22) (f101 23) in
  pv_verify (GT:=F101) H101 (f101 2) (snd kv) x pf (f101 77).
Example c45_example :
  f101 3 <> v0 /\ f101 5 <> v0 /\ length (fst (fst wit1)) = ps_n (pov_get_size pov1) /\
  pov_holds (p_consts pov1) (p_wires pov1) (p_nmul pov1) (p_nadd pov1) [7; 8]%nat [f101 11; f101 5] (fst (fst wit1)) (snd (fst wit1)) (snd wit1) /\
  NoDup [7; 8]%nat /\ pv_run pov1 ([7; 8]%nat, [f101 11; f101 5]) wit1 17 = Ok tt.
Proof.
  split; [intros E; apply (f_equal (zval 101)) in E; vm_compute in E; discriminate|].
  split; [intros E; apply (f_equal (zval 101)) in E; vm_compute in E; discriminate|].
  split; [reflexivity|]. split.
  { destruct (pov_satisfy_spec (E:=error) pov1 [7; 8]%nat [f101 11; f101 5] (fst (fst wit1)) (snd (fst wit1)) (snd wit1)) as [r [E [Hr _]]];
      try reflexivity. apply Hr. vm_compute in E. congruence. }
  split; [repeat constructor; cbn; intuition discriminate|]. vm_compute. reflexivity.
Qed.
(** a wrong witness is refused by the prover's own check *)
Example c45_example_wrong_witness :
  pv_run pov1 ([7]%nat, [f101 11]) (l101 [2; 6; 0]%Z, l101 [3; 4; 0]%Z, l101 [6; 11; 5]%Z) 17 = Err PolynomialEvaluationUnexpected.
Proof. vm_compute. reflexivity. Qed.
(** A position listed twice: the check passes, the argument fails. *)
Theorem c46_duplicate_position_refuted : exists (cs : POV F101) x w d,
  pov_satisfy (E:=error) cs x w = Ok true /\ pv_run cs x w d = Err PolynomialEvaluationUnexpected.
Proof. exists pov1, ([7; 7]%nat, l101 [11; 11]%Z), wit1, 17%nat. split; vm_compute; reflexivity. Qed.

Print Assumptions c45_returned_proofs_are_accepted.
Print Assumptions c45_complete.
Print Assumptions c45_index_ok.
Print Assumptions c46_no_constants_panics.
Print Assumptions c46_duplicate_position_refuted.

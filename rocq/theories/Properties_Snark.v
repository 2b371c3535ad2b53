(** Properties_Snark.v: the arguments built on KZG.
    [H] is an arbitrary function from transcripts to challenges, the randomizers, trapdoor and
    generators are arbitrary, and the groups are arbitrary one-dimensional spaces with a
    non-degenerate pairing. *)
From Verif Require Import Base Spec Tools CS POVProofs KZG KZGProofs Snark PovPE PovPEComplete PovPETop.
Local Open Scope F_scope.

Section S.
Context {F G1 G2 GT : Type} {fo : FieldOps F} {fl : FieldLaws F}
        {po : PairingOps F G1 G2 GT} {pl : PairingLaws F G1 G2 GT}.
Variable H : list (item F G1) -> F.
Variable gamma : F.

(** ** C32: prover-efficient argument for arithmetic circuits *)
(** Whatever witness the prover was run with, a proof it returns is accepted by the verifier for the
    same instance, for every random scalar of the verifier. *)
Theorem c32_returned_proofs_are_accepted d beta (g : G1) (h : G2) pp cs pk vk x w d0 d1 d2 d3 pf rnd :
  g <> v0 -> h <> v0 ->
  setup d beta g h = Ok pp -> pe_index gamma pp cs = Ok (pk, vk) ->
  pe_prove H gamma pk x w d0 d1 d2 d3 = Ok pf -> pe_verify H gamma vk x pf rnd = Ok tt.
Proof. apply pe_accepts. Qed.
(** For a satisfied circuit with distinct public positions, none of them the output of a constant
    gate, the prover returns a proof that is accepted; otherwise it aborts, and then one of the
    events listed in [pe_unlucky] happened. *)
Theorem c32_complete d beta (g : G1) (h : G2) pp cs pk vk pos vals a b c d0 d1 d2 d3 :
  g <> v0 -> h <> v0 ->
  setup d beta g h = Ok pp -> pe_index gamma pp cs = Ok (pk, vk) ->
  length a = ps_n (pov_get_size cs) -> length b = ps_n (pov_get_size cs) -> length c = ps_n (pov_get_size cs) ->
  pov_holds (p_consts cs) (p_wires cs) (p_nmul cs) (p_nadd cs) pos vals a b c ->
  NoDup pos -> length pos = length vals ->
  (forall p, In p pos -> (p < 2 * ps_n (pov_get_size cs) + p_nmul cs + p_nadd cs)%nat) ->
  (exists pf, pe_prove H gamma pk (pos, vals) (a, b, c) d0 d1 d2 d3 = Ok pf /\
     forall rnd, pe_verify H gamma vk (pos, vals) pf rnd = Ok tt) \/
  (pe_prove H gamma pk (pos, vals) (a, b, c) d0 d1 d2 d3 = Panic /\
   pe_unlucky H gamma pk (pos, vals) (a, b, c) d0 d1 d2 d3).
Proof. apply pe_complete. Qed.
(** ... and the keys exist as soon as the parameters are large enough, gamma is not zero, the wires
    stay inside the circuit and there is at least one constant gate. *)
Theorem c32_index_ok d beta (g : G1) (h : G2) pp cs :
  setup d beta g h = Ok pp -> gamma <> 0 -> pairs_below (3 * ps_n (pov_get_size cs)) (p_wires cs) ->
  (1 <= length (p_consts cs))%nat -> (p_nmul cs + 4 * ps_n (pov_get_size cs) <= d)%nat ->
  exists pk vk, pe_index gamma pp cs = Ok (pk, vk).
Proof. apply pe_index_ok. Qed.
(** ** C33: where the circuit argument and the satisfaction check disagree *)
(** Without constant gates the indexer aborts, although such circuits can be satisfied. *)
Theorem c33_no_constants_panics d beta (g : G1) (h : G2) pp cs :
  setup d beta g h = Ok pp -> p_consts cs = [] -> pe_index gamma pp cs = Panic.
Proof. apply pe_index_no_consts. Qed.
End S.

(** ** Non-vacuity and counterexamples: integers modulo 101, pairing e(a,b) = ab, a small hash *)
Definition item_val (i : item F101 F101) : Z :=
  match i with
  | IF a => zval 101 a
  | IG c => 7 + zval 101 c
  | INs l => fold_left (fun s k => 5 * s + Z.of_nat k + 1) l 3
  | IFs l => fold_left (fun s k => 11 * s + zval 101 k + 2) l 4
  end%Z.
Definition H101 (l : list (item F101 F101)) : F101 := f101 (fold_left (fun s i => 17 * s + item_val i + 1)%Z l 1%Z).
Definition l101 := map f101.
(** gate 0: 2*3=6, gate 1: 6+5=11, gate 2: constant 5 *)
Definition pov1 : POV F101 := mkPOV [f101 5] [(6, 1); (8, 4)]%nat 1 1.
Definition wit1 : POVWitness (F:=F101) := (l101 [2; 6; 0]%Z, l101 [3; 5; 0]%Z, l101 [6; 11; 5]%Z).
Definition setup101 (d : nat) := setup (F:=F101) (G1:=F101) (G2:=F101) (GT:=F101) d (f101 7) (f101 3) (f101 5).
Definition pe_run cs x w d : outcome error unit :=
  let! pp := setup101 d in
  let! kv := pe_index (GT:=F101) (f101 2) pp cs in
  let! pf := pe_prove (GT:=F101) H101 (f101 2) (fst kv) x w (f101 21) (f101 22) (f101 23) (f101 24) in
  pe_verify (GT:=F101) H101 (f101 2) (snd kv) x pf (f101 77).
Example c32_example :
  f101 3 <> v0 /\ f101 5 <> v0 /\ length (fst (fst wit1)) = ps_n (pov_get_size pov1) /\
  pov_holds (p_consts pov1) (p_wires pov1) (p_nmul pov1) (p_nadd pov1) [7]%nat [f101 11] (fst (fst wit1)) (snd (fst wit1)) (snd wit1) /\
  NoDup [7]%nat /\ pe_run pov1 ([7]%nat, [f101 11]) wit1 13 = Ok tt.
Proof.
  split; [intros E; apply (f_equal (zval 101)) in E; vm_compute in E; discriminate|].
  split; [intros E; apply (f_equal (zval 101)) in E; vm_compute in E; discriminate|].
  split; [reflexivity|]. split.
  { destruct (pov_satisfy_spec (E:=error) pov1 [7]%nat [f101 11] (fst (fst wit1)) (snd (fst wit1)) (snd wit1)) as [r [E [Hr _]]];
      try reflexivity. apply Hr. vm_compute in E. congruence. }
  split; [repeat constructor; cbn; tauto|]. vm_compute. reflexivity.
Qed.
(** a wrong witness is refused by the prover's own check *)
Example c32_example_wrong_witness :
  pe_run pov1 ([7]%nat, [f101 11]) (l101 [2; 6; 0]%Z, l101 [3; 4; 0]%Z, l101 [6; 11; 5]%Z) 13 = Err PolynomialEvaluationUnexpected.
Proof. vm_compute. reflexivity. Qed.
(** A position listed twice: the check passes, the argument fails. *)
Theorem c33_duplicate_position_refuted : exists (cs : POV F101) x w d,
  pov_satisfy (E:=error) cs x w = Ok true /\ pe_run cs x w d = Err PolynomialEvaluationUnexpected.
Proof. exists pov1, ([7; 7]%nat, l101 [11; 11]%Z), wit1, 13%nat. split; vm_compute; reflexivity. Qed.
(** The output of a constant gate as a public position: the check passes, the argument fails. *)
Theorem c33_public_constant_refuted : exists (cs : POV F101) x w d,
  NoDup (fst x) /\ pov_satisfy (E:=error) cs x w = Ok true /\ pe_run cs x w d = Err PolynomialEvaluationUnexpected.
Proof.
  exists pov1, ([8]%nat, l101 [5]%Z), wit1, 13%nat. split; [repeat constructor; cbn; tauto|].
  split; vm_compute; reflexivity.
Qed.

Print Assumptions c32_returned_proofs_are_accepted.
Print Assumptions c32_complete.
Print Assumptions c32_index_ok.
Print Assumptions c33_no_constants_panics.
Print Assumptions c33_duplicate_position_refuted.
Print Assumptions c33_public_constant_refuted.

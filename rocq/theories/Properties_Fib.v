(** Properties_Fib.v: the generalised Fibonacci argument (snarks/fibonacci.rs).
    [H] is an arbitrary function from transcripts to challenges; the randomizers, trapdoor and
    generators are arbitrary; the groups are arbitrary one-dimensional spaces with a non-degenerate
    pairing. *)
From Verif Require Import Base Spec SnarkSpec Tools KZG KZGProofs Snark Fib FibTop Properties_Snark.
Local Open Scope F_scope.

Section S.
Context {F G1 G2 GT : Type} {fo : FieldOps F} {fl : FieldLaws F}
        {po : PairingOps F G1 G2 GT} {pl : PairingLaws F G1 G2 GT}.
Add Field Fpf : F_th.
Variable H : list (item F G1) -> F.

(** ** C30: completeness *)
(** A proof returned by the prover, whatever its input, is accepted for the same instance. *)
Theorem c30_returned_proofs_are_accepted d beta (g : G1) (h : G2) pp cs pk vk x w d0 d1 d2 pf rnd :
  g <> v0 -> h <> v0 ->
  setup d beta g h = Ok pp -> fb_index pp cs = Ok (pk, vk) -> length (fib_t cs) = fib_n cs ->
  fb_prove H pk x w d0 d1 d2 = Ok pf -> fb_verify H vk x pf rnd = Ok tt.
Proof. apply fb_accepts. Qed.
(** For a true statement about at least two steps the prover returns a proof that is accepted; the
    exceptions are a zero challenge omega and the aborts listed in [fb_unlucky]. *)
Theorem c30_complete d beta (g : G1) (h : G2) pp cs pk vk a b c w d0 d1 d2 :
  g <> v0 -> h <> v0 ->
  setup d beta g h = Ok pp -> fb_index pp cs = Ok (pk, vk) -> length (fib_t cs) = fib_n cs -> (2 <= fib_n cs)%nat ->
  fib_holds a b c (fib_t cs) w ->
  (exists pf, fb_prove H pk (mkFibIns a b c) w d0 d1 d2 = Ok pf /\
     forall rnd, fb_verify H vk (mkFibIns a b c) pf rnd = Ok tt) \/
  (fb_prove H pk (mkFibIns a b c) w d0 d1 d2 = Panic /\ fb_unlucky H pk (mkFibIns a b c) w d0 d1 d2) \/
  fb_omega_zero H pk (mkFibIns a b c) w d0 d1 d2.
Proof. apply fb_complete. Qed.
Theorem c30_index_ok d beta (g : G1) (h : G2) pp cs :
  setup d beta g h = Ok pp -> length (fib_t cs) = fib_n cs -> (1 <= fib_n cs)%nat -> (fib_n cs + 2 <= d)%nat ->
  exists pk vk, fb_index pp cs = Ok (pk, vk).
Proof. apply fb_index_ok. Qed.

(** ** C31: the public instance is not bound *)
(** Every proof accepted for (a, b, c) is, for arbitrary b' and c', also accepted for (a', b', c')
    with a suitable a' that does not depend on the verifier's randomness. *)
Theorem c31_instance_malleable_refuted vk a b c pf b' c' :
  exists a', forall rnd, fb_verify H vk (mkFibIns a' b' c') pf rnd = fb_verify H vk (mkFibIns a b c) pf rnd.
Proof. apply fb_malleable. Qed.

(** ** C43: what the prover checks *)
(** A returned proof means that the sequence follows the recurrence up to its last but one member;
    the last recurrence and the claimed result are only checked in combination, so that a false
    statement slips through for at most two values of the challenge alpha. *)
Theorem c43_prover_checks d beta (g : G1) (h : G2) pp cs pk vk x w d0 d1 d2 pf :
  setup d beta g h = Ok pp -> fb_index pp cs = Ok (pk, vk) -> length (fib_t cs) = fib_n cs -> (2 <= fib_n cs)%nat ->
  fb_prove H pk x w d0 d1 d2 = Ok pf ->
  let al := fb_p_ch_alpha H vk (fb_cm_w_vec pf) (fb_cm_r_vec pf) in
  let wv := w ++ repeat 0 (fib_n cs - length w) in
  let ww := fib_walk (fib_a x) (fib_b x) (fib_t cs) in
  al = 0 \/
  (length w <= fib_n cs)%nat /\ removelast wv = removelast ww /\
  (if (fib_n cs =? 2)%nat then (last wv 0 - last ww 0) + al * (last wv 0 - fib_c x) = 0
   else (last wv 0 - fib_c x) + al * (last wv 0 - last ww 0) = 0).
Proof. apply fb_prover_checks. Qed.
Theorem c43_false_statement d beta (g : G1) (h : G2) pp cs pk vk x w :
  setup d beta g h = Ok pp -> fb_index pp cs = Ok (pk, vk) -> length (fib_t cs) = fib_n cs -> (2 <= fib_n cs)%nat ->
  last (fib_walk (fib_a x) (fib_b x) (fib_t cs)) 0 <> fib_c x ->
  exists k, forall d0 d1 d2 pf, fb_prove H pk x w d0 d1 d2 = Ok pf ->
    let al := fb_p_ch_alpha H vk (fb_cm_w_vec pf) (fb_cm_r_vec pf) in al = 0 \/ al = k.
Proof.
  intros Hs Hi Lt HN Hf.
  set (wv := w ++ repeat 0 (fib_n cs - length w)). set (ww := fib_walk (fib_a x) (fib_b x) (fib_t cs)) in *.
  exists (if (fib_n cs =? 2)%nat then (last ww 0 - last wv 0) / (last wv 0 - fib_c x)
     else (fib_c x - last wv 0) / (last wv 0 - last ww 0)).
  intros d0 d1 d2 pf Hp al. pose proof (fb_prover_checks H _ _ _ _ _ _ _ _ _ _ _ _ _ _ Hs Hi Lt HN Hp) as [E|[_ [_ E]]]; [now left|right].
  fold al wv ww in E. destruct (fib_n cs =? 2)%nat.
  - assert (last wv 0 - fib_c x <> 0) as Hn.
    { intros E0. rewrite E0 in E. apply Hf. apply fsub_0_eq.
      transitivity ((last wv 0 - fib_c x) - ((last wv 0 - last ww 0) + al * 0)); [ring|]. rewrite E, E0. ring. }
    apply fmul_cancel_l with (a := last wv 0 - fib_c x); auto.
    transitivity ((last wv 0 - last ww 0 + al * (last wv 0 - fib_c x)) - (last wv 0 - last ww 0)); [ring|]. rewrite E. field. auto.
  - assert (last wv 0 - last ww 0 <> 0) as Hn.
    { intros E0. rewrite E0 in E. apply Hf. apply fsub_0_eq.
      transitivity (((last wv 0 - fib_c x) + al * 0) - (last wv 0 - last ww 0)); [ring|]. rewrite E, E0. ring. }
    apply fmul_cancel_l with (a := last wv 0 - last ww 0); auto.
    transitivity ((last wv 0 - fib_c x + al * (last wv 0 - last ww 0)) - (last wv 0 - fib_c x)); [ring|]. rewrite E. field. auto.
Qed.

(** ** C44: sequences of length one *)
(** With a single step the prover can only succeed if its own randomizers happen to satisfy an
    equation that has nothing to do with the statement; with the smallest parameters accepted by the
    indexer it never succeeds. *)
Theorem c44_single_step_refuted d beta (g : G1) (h : G2) pp cs pk vk x w d0 d1 d2 pf :
  setup d beta g h = Ok pp -> fb_index pp cs = Ok (pk, vk) -> length (fib_t cs) = 1%nat -> fib_n cs = 1%nat ->
  fb_prove H pk x w d0 d1 d2 = Ok pf ->
  let al := fb_p_ch_alpha H vk (fb_cm_w_vec pf) (fb_cm_r_vec pf) in
  (4 <= d)%nat /\ al * al * (d0 - d1 - fib_b x) = al * al * (al * al * (d0 - d1)).
Proof. apply fb_single. Qed.
End S.

(** ** Non-vacuity and counterexamples: integers modulo 101 *)
Definition fb_keys d cs := let! pp := setup101 d in fb_index (GT:=F101) pp cs.
Definition fb_get_proof d cs x w : outcome error (fb_proof F101 F101) :=
  let! kv := fb_keys d cs in fb_prove (GT:=F101) H101 (fst kv) x w (f101 21) (f101 22) (f101 23).
Definition fb_run d cs x w x' : outcome error unit :=
  let! kv := fb_keys d cs in
  let! pf := fb_prove (GT:=F101) H101 (fst kv) x w (f101 21) (f101 22) (f101 23) in
  fb_verify (GT:=F101) H101 (snd kv) x' pf (f101 77).
Definition fib4 : fib_cs F101 := mkFibCS 4 (l101 [2; 3; 1; 4]%Z).
Definition ins4 := mkFibIns (f101 1) (f101 2) (f101 4).
Example c30_example :
  length (fib_t fib4) = fib_n fib4 /\ fib_holds (f101 1) (f101 2) (f101 4) (fib_t fib4) (l101 [5; 17; 22; 4]%Z) /\
  (exists pp pk vk, setup101 7 = Ok pp /\ fb_index (GT:=F101) pp fib4 = Ok (pk, vk)) /\
  fb_run 7 fib4 ins4 (l101 [5; 17; 22; 4]%Z) ins4 = Ok tt.
Proof.
  split; [reflexivity|]. split; [split; vm_compute; reflexivity|]. split; [|vm_compute; reflexivity].
  destruct (setup101 7) as [pp| |] eqn:E; [|vm_compute in E; discriminate|vm_compute in E; discriminate].
  destruct (c30_index_ok (GT:=F101) 7 (f101 7) (f101 3) (f101 5) pp fib4 E) as [pk [vk E2]]; try reflexivity; try (cbn; lia).
  exists pp, pk, vk. auto.
Qed.
(** wrong sequences and wrong results are refused by the prover *)
Example c43_example_wrong :
  fb_run 7 fib4 ins4 (l101 [5; 17; 23; 4]%Z) ins4 = Panic /\
  fb_run 7 fib4 (mkFibIns (f101 1) (f101 2) (f101 5)) (l101 [5; 17; 22; 4]%Z) (mkFibIns (f101 1) (f101 2) (f101 5)) <> Ok tt /\
  last (fib_walk (f101 1) (f101 2) (fib_t fib4)) f0 <> f101 5.
Proof. split; [vm_compute; reflexivity|]. split; intros E; vm_compute in E; discriminate. Qed.
Definition all101 : list F101 := map (fun k => f101 (Z.of_nat k)) (seq 0 101).
(** A proof made for the true statement (1, 2, 4) is accepted, for every randomness of the verifier,
    for the false statement (a', 2, 50). *)
Theorem c31_false_statement_accepted_refuted : exists (cs : fib_cs F101) x w (a' b' c' : F101) pf,
  fib_holds (fib_a x) (fib_b x) (fib_c x) (fib_t cs) w /\
  fb_get_proof 7 cs x w = Ok pf /\
  last (fib_walk a' b' (fib_t cs)) f0 <> c' /\
  forallb (fun r => match (let! kv := fb_keys 7 cs in fb_verify (GT:=F101) H101 (snd kv) (mkFibIns a' b' c') pf r) with Ok tt => true | _ => false end) all101 = true.
Proof.
  destruct (fb_get_proof 7 fib4 ins4 (l101 [5; 17; 22; 4]%Z)) as [pf| |] eqn:E; [|vm_compute in E; discriminate|vm_compute in E; discriminate].
  exists fib4, ins4, (l101 [5; 17; 22; 4]%Z), (f101 44), (f101 2), (f101 50), pf.
  split; [split; vm_compute; reflexivity|]. split; [exact E|].
  split; [intros X; vm_compute in X; discriminate|].
  vm_compute in E. injection E as <-. vm_compute. reflexivity.
Qed.
(** one step: 1 + 2 * 2 = 5 is true, the prover aborts *)
Example c44_example :
  fib_holds (f101 1) (f101 2) (f101 5) (l101 [2]%Z) (l101 [5]%Z) /\
  fb_run 5 (mkFibCS 1 (l101 [2]%Z)) (mkFibIns (f101 1) (f101 2) (f101 5)) (l101 [5]%Z) (mkFibIns (f101 1) (f101 2) (f101 5)) = Panic.
Proof. split; [split; vm_compute; reflexivity|vm_compute; reflexivity]. Qed.

Print Assumptions c30_returned_proofs_are_accepted.
Print Assumptions c30_complete.
Print Assumptions c30_index_ok.
Print Assumptions c31_instance_malleable_refuted.
Print Assumptions c31_false_statement_accepted_refuted.
Print Assumptions c43_prover_checks.
Print Assumptions c43_false_statement.
Print Assumptions c44_single_step_refuted.

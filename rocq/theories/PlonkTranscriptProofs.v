(** PlonkTranscriptProofs.v: proof facts about the transcript of plonk-core. *)
From Verif Require Import Base Spec Tools ToolsProofs KZG SnarkProofs Plonk PlonkSpec PlonkPI PlonkProver PlonkQuot PlonkVerify PlonkVerifySpec PlonkTranscript PlonkTranscriptSpec.
From Coq Require Import String List.
Import ListNotations.
Local Open Scope F_scope.
Local Open Scope string_scope.
Local Open Scope list_scope.

Section PlonkTranscriptProofs.
Context {F : Type} {fo : FieldOps F} {po : PrimeFieldOps F}.
Implicit Types (hash : hash_fn F) (tr : transcript F) (pf : proof F).

Lemma draw_app hash l l' tr c tr' : draw hash l l' tr = (c, tr') -> tr' = tr ++ [(l, MChallenge); (l', MScalar c)].
Proof. unfold draw, challenge. intros H. injection H as <- <-. now rewrite <- app_assoc. Qed.
Lemma draw_det hash l l' tr c tr' tr2 c2 tr2' : draw hash l l' tr = (c, tr') -> tr = tr2 -> draw hash l l' tr2 = (c2, tr2') -> c = c2 /\ tr' = tr2'.
Proof. intros E <- E2. rewrite E in E2. now injection E2 as <- <-. Qed.
Lemma app_tail {A} (a a' b b' : list A) : a ++ b = a' ++ b' -> List.length b = List.length b' -> a = a' /\ b = b'.
Proof.
  intros E L. assert (List.length a = List.length a') as La by (apply (f_equal (@List.length A)) in E; rewrite !app_length in E; lia).
  revert a' La E. induction a as [|x a IH]; intros [|x' a'] La E; try discriminate La; [auto|]. cbn in E. injection E as -> E. destruct (IH a' ltac:(now injection La) E) as [-> ->]. auto.
Qed.

Lemma agree_rounds hash tr0 pub p q : agree p q -> verifier_rounds hash tr0 pub p = verifier_rounds hash tr0 pub q.
Proof.
  intros [W [A1 [A2 [A3 [A4 [T [B1 [B2 [B3 [B4 [B5 [B6 [B7 [B8 [B9 [B10 [B11 [B12 [B13 [B14 B15]]]]]]]]]]]]]]]]]]]]. unfold verifier_rounds. cbv zeta.
  rewrite !W, A1, A2, A3, A4, B1, B2, B3, B4, B5, B6, B7, B8, B9, B10, B11, B12, B13, B14, B15.
  rewrite (T 0%nat), (T 1%nat), (T 2%nat), (T 3%nat), (T 4%nat), (T 5%nat), (T 6%nat), (T 7%nat) by lia. reflexivity.
Qed.
Lemma map_scalar_inj (l l' : list (string * F)) : map (fun p => (fst p, MScalar (snd p))) l = map (fun p => (fst p, MScalar (snd p))) l' -> l = l'.
Proof. revert l'. induction l as [|[a b] l IH]; intros [|[a' b'] l'] H; try discriminate H; [reflexivity|]. cbn in H. injection H as -> -> H. f_equal. now apply IH. Qed.
Ltac peel H := apply app_tail in H; [|reflexivity]; let T := fresh "T" in destruct H as [H T]; injection T; clear T; intros.
Ltac step E := match type of E with context [draw ?h ?l ?l' ?t] => let c := fresh "c" in let t' := fresh "tr" in let Q := fresh "Q" in destruct (draw h l l' t) as [c t'] eqn:Q; apply draw_app in Q end.
Lemma rounds_length hash tr0 pub p : List.length (snd (verifier_rounds hash tr0 pub p)) = (List.length tr0 + 55 + List.length (e_custom (pf_evals p)))%nat.
Proof.
  destruct (verifier_rounds hash tr0 pub p) as [[ch x] tr] eqn:E. cbn [snd]. unfold verifier_rounds in E. cbv zeta in E.
  do 12 step E. injection E as _ _ <-. subst. rewrite !app_length, map_length. cbn [List.length]. lia.
Qed.
Lemma rounds_agree hash tr0 pub pub' p q : snd (verifier_rounds hash tr0 pub p) = snd (verifier_rounds hash tr0 pub' q) -> pub = pub' /\ agree p q.
Proof.
  intros H. assert (List.length (e_custom (pf_evals p)) = List.length (e_custom (pf_evals q))) as LC by (pose proof (f_equal (@List.length _) H) as L; rewrite !rounds_length in L; lia).
  destruct (verifier_rounds hash tr0 pub p) as [[ch x] tr] eqn:E. destruct (verifier_rounds hash tr0 pub' q) as [[ch' x'] tr'] eqn:E'. cbn [snd] in H.
  unfold verifier_rounds in E, E'. cbv zeta in E, E'. do 12 step E. do 12 step E'. injection E as _ _ <-. injection E' as _ _ <-. subst.
  apply app_tail in H; [|rewrite !map_length; exact LC]. destruct H as [H T]. apply map_scalar_inj in T.
  repeat (peel H). subst. split; [first [assumption|reflexivity|symmetry; assumption]|].
  unfold agree. cbv zeta. split; [intros []; assumption|]. repeat (split; [first [assumption|intros i Hi; do 8 (destruct i as [|i]; [assumption|]); lia]|]). assumption.
Qed.
Ltac draw1 E := match type of E with context [draw ?h ?l ?l' ?t] => let c := fresh "c" in let t' := fresh "tr" in let Q := fresh "Q" in destruct (draw h l l' t) as [c t'] eqn:Q end.
Ltac unlift H := match type of H with lift ?o = _ => let a := fresh "a" in let Q := fresh "E" in destruct o as [a| |] eqn:Q; [|discriminate H|discriminate H]; cbn [lift] in H; injection H as -> end.
Ltac bind1 H x E := apply obind_ok in H; destruct H as [x [E H]]; cbv beta in H.
(** A proof is made of the polynomials and the quotient for the challenges, which the verifier derives again. *)
Lemma prove_fs_ok (ca cd : F) hash (omega g : F) eta n (c : composer F) (k : key F) (sg : column -> list F) tr0 pf (ch : chal F) x aw saw :
  prove_fs ca cd hash omega g eta n c k sg tr0 = Ok (pf, (ch, x, aw, saw)) ->
  verifier_challenges hash tr0 (c_pi c) pf = (ch, x, aw, saw) /\
  exists P t, prover_polys omega n c sg ch = Ok P /\ quotient ca cd omega g eta n ch k P = Ok t /\ prove_evals ca cd omega n k P t ch x = Ok pf.
Proof.
  unfold prove_fs. cbv zeta. intros H. bind1 H ws A0. unlift A0. draw1 H. bind1 H u1 A1. bind1 H r A2. unlift A2. destruct r as [[[t f] h1] h2].
  draw1 H. draw1 H. draw1 H. draw1 H. bind1 H u2 A3. bind1 H z A4. unlift A4. bind1 H z2 A5. unlift A5. bind1 H pi A6. unlift A6.
  do 6 draw1 H. bind1 H q A7. draw1 H. bind1 H l A8. unlift A8.
  match type of H with context [opening_challenges ?h ?t] => destruct (opening_challenges h t) as [aw' saw'] eqn:EO end.
  injection H as <- <- <- <- <-. split.
  - unfold verifier_challenges, verifier_rounds. cbv zeta. cbn [pf_w pf_f pf_h1 pf_h2 pf_z pf_t pf_evals P_w P_f P_h1 P_h2 P_z].
    repeat match goal with Q : draw ?h ?l ?l' ?t = _ |- context [draw ?h ?l ?l' ?t] => rewrite Q end. rewrite EO. reflexivity.
  - eexists _, q. split.
    + unfold prover_polys. cbn [ch_zeta ch_beta ch_gamma ch_delta ch_eps]. cbv zeta. rewrite E. cbn [lift obind]. rewrite A1. cbn [obind]. rewrite E0. cbn [lift obind].
      rewrite A3. cbn [obind]. rewrite E1. cbn [lift obind]. rewrite E2. cbn [lift obind]. rewrite E3. cbn [lift obind]. reflexivity.
    + split; [exact A7|]. unfold prove_evals. cbv zeta. rewrite E4. reflexivity.
Qed.
End PlonkTranscriptProofs.

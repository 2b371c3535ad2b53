(** PlonkVerify2.v: proof facts about the two opening checks, the table, and the outcomes of the verifier of plonk-core. *)
From Verif Require Import Base Spec Tools ToolsProofs KZG KZGSpec KZGProofs SoundSpec Sound Plonk PlonkSpec PlonkPI PlonkProver PlonkGPSpec PlonkGP PlonkLookupSpec PlonkLookup PlonkLookup4
  PlonkQuot PolyDom PlonkQuotSpec PlonkQuotProofs PlonkVerify PlonkVerifySpec PlonkVerifyProofs.
From Coq Require Import String List.
Import ListNotations.
Notation get := PlonkVerify.get.
Local Open Scope F_scope.

Section PlonkVerify2.
Context {F : Type} {fo : FieldOps F} {fl : FieldLaws F} {po : PrimeFieldOps F} {pl : PrimeFieldLaws F}.
Add Field Fplonkverify2 : F_th.
Variables (ca cd : F).
Implicit Types (k : key F) (P : polys F) (ch : chal F) (e : evals F) (u : custom F) (pf : proof F).

(** *** openings *)
Lemma pc_true comms x values r : map (fun l => peval l x) comms = values -> pc_check comms x values r = true.
Proof using fl. intros <-. unfold pc_check. apply feqb_eq. reflexivity. Qed.
Lemma nth_dec (a b : list F) m : (forall i, (i < m)%nat -> nth i a 0 = nth i b 0) \/ exists i, (i < m)%nat /\ nth i a 0 <> nth i b 0.
Proof using fl.
  induction m as [|m [IH|[i [Hi N]]]].
  - left. intros i Hi. lia.
  - destruct (feq_dec (nth m a 0) (nth m b 0)) as [E|N]; [left|right; exists m; split; [lia|exact N]].
    intros i Hi. destruct (Nat.eq_dec i m) as [->|]; [exact E|apply IH; lia].
  - right. exists i. split; [lia|exact N].
Qed.
Lemma pc_most comms x values m : length comms = S m -> length values = S m ->
  map (fun l => peval l x) comms <> values -> most m (fun r => pc_check comms x values r = false).
Proof using fl.
  intros L1 L2 N. set (a := map (fun l => peval l x) comms) in *. assert (length a = S m) as La by (unfold a; now rewrite map_length).
  set (d := padd a (pscale (- (1)) values)).
  assert (forall y, peval d y = peval a y - peval values y) as V by (intros y; unfold d; rewrite peval_padd, peval_pscale; ring).
  assert (length d <= m + 1)%nat as Ld by (unfold d; rewrite padd_length, pscale_length; lia).
  assert (exists i, coef d i <> 0) as NZ.
  { destruct (nth_dec a values (S m)) as [H|[i [Hi H]]].
    - exfalso. apply N. apply (list_eq_nth F a values 0); [congruence|]. intros i Hi. apply H. lia.
    - exists i. unfold d. rewrite coef_padd, coef_pscale. unfold coef. intros E. apply H. apply fsub_0_eq. etransitivity; [|exact E]. ring. }
  apply (most_intro _ (fun y => (exists i, coef d i <> 0) /\ peval d y = 0)); [now apply cnt_roots|apply dec_roots|].
  intros r NB. unfold pc_check. fold a. destruct (feqb (peval a r) (peval values r)) eqn:E; auto. apply feqb_eq in E. exfalso. apply NB. split; auto. rewrite V, E. ring.
Qed.

(** *** the table *)
Lemma table_poly omega n table tables zeta : domain_of omega n -> table_polys omega n table = Ok tables ->
  forall y, peval (multi_scalar_mul (combine [1; zeta; zeta * zeta; zeta * zeta * zeta] tables)) y = peval (ifft omega n (map (combined zeta) (padded_table n table))) y.
Proof using fl pl.
  intros D H y. unfold table_polys in H. destruct (is_power_of_two n) eqn:P2.
  - rewrite map_out_cols in H by auto. cbn [obind] in H. injection H as <-. set (rows := padded_table n table).
    apply (poly_agree n _ _ (map (fpow omega) (seq 0 n))).
    + unfold table_columns. cbn [map combine multi_scalar_mul fold_right fst snd]. rewrite !padd_length, !pscale_length, !ifft_length. cbn [length]. lia.
    + rewrite ifft_length. auto.
    + apply D.
    + rewrite map_length, seq_length. auto.
    + intros x Hx. apply in_map_iff in Hx. destruct Hx as [i [<- Hi]]. apply in_seq in Hi. rewrite peval_msm. unfold table_columns. cbn [map combine fold_right fst snd].
      rewrite !ifft_value by (auto; lia).
      destruct (Nat.lt_ge_cases i (length rows)) as [Hr|Hr].
      * assert (forall f : F * F * F * F -> F, nth i (map f rows) 0 = f (nth i rows (0, 0, 0, 0))) as MN by (intros f; rewrite (nth_indep _ 0 (f (0, 0, 0, 0))) by (rewrite map_length; auto); apply map_nth).
        rewrite !MN.
        destruct (nth i rows (0, 0, 0, 0)) as [[[a b] c] d]. unfold combined. cbn [fst snd fpow]. ring.
      * rewrite !nth_overflow by (rewrite map_length; auto). ring.
  - unfold table_columns in H. cbn [map_out] in H. unfold pad_set at 1 in H. rewrite P2 in H. discriminate H.
Qed.

(** *** the labels *)
Lemma get_ok {E} label (l : list (string * F)) : (exists y, get label l = Ok y :> outcome E F) \/ get label l = (Panic : outcome E F) /\ ~ In label (map fst l).
Proof.
  unfold PlonkVerify.get. destruct (find (fun p => String.eqb (fst p) label) l) as [p|] eqn:Q; [left; eauto|right]. split; [reflexivity|]. intros I. apply in_map_iff in I. destruct I as [p [Hp I]].
  apply (find_none _ _ Q) in I. rewrite Hp, String.eqb_refl in I. discriminate I.
Qed.
Lemma get_in {E} label (l : list (string * F)) y : get label l = Ok y :> outcome E F -> In label (map fst l).
Proof.
  unfold PlonkVerify.get. destruct (find (fun p => String.eqb (fst p) label) l) as [p|] eqn:Q; [|discriminate]. intros _. apply find_some in Q. destruct Q as [I S1]. apply String.eqb_eq in S1. subst label.
  now apply in_map.
Qed.
Lemma read_custom_dec {E} (l : list (string * F)) :
  (exists u, read_custom l = Ok u :> outcome E (custom F)) /\ (forall a, In a labels -> In a (map fst l)) \/
  read_custom l = (Panic : outcome E (custom F)) /\ exists a, In a labels /\ ~ In a (map fst l).
Proof.
  assert (forall a, In a labels -> get a l = (Panic : outcome E F) /\ ~ In a (map fst l) -> exists a, In a labels /\ ~ In a (map fst l)) as X by (intros a Ha [_ N]; eauto).
  unfold read_custom.
  destruct (@get_ok E "q_arith_eval"%string l) as [[y1 E1]|N]; [rewrite E1|right; rewrite (proj1 N); split; [reflexivity|eapply X; [|exact N]; cbn; tauto]].
  destruct (@get_ok E "q_c_eval"%string l) as [[y2 E2]|N]; [rewrite E2|right; rewrite (proj1 N); split; [reflexivity|eapply X; [|exact N]; cbn; tauto]].
  destruct (@get_ok E "q_l_eval"%string l) as [[y3 E3]|N]; [rewrite E3|right; rewrite (proj1 N); split; [reflexivity|eapply X; [|exact N]; cbn; tauto]].
  destruct (@get_ok E "q_r_eval"%string l) as [[y4 E4]|N]; [rewrite E4|right; rewrite (proj1 N); split; [reflexivity|eapply X; [|exact N]; cbn; tauto]].
  destruct (@get_ok E "a_next_eval"%string l) as [[y5 E5]|N]; [rewrite E5|right; rewrite (proj1 N); split; [reflexivity|eapply X; [|exact N]; cbn; tauto]].
  destruct (@get_ok E "b_next_eval"%string l) as [[y6 E6]|N]; [rewrite E6|right; rewrite (proj1 N); split; [reflexivity|eapply X; [|exact N]; cbn; tauto]].
  destruct (@get_ok E "d_next_eval"%string l) as [[y7 E7]|N]; [rewrite E7|right; rewrite (proj1 N); split; [reflexivity|eapply X; [|exact N]; cbn; tauto]].
  left. split; [eexists; reflexivity|]. apply get_in in E1, E2, E3, E4, E5, E6, E7. intros a Ha. cbn [labels In] in Ha.
  destruct Ha as [<-|[<-|[<-|[<-|[<-|[<-|[<-|[]]]]]]]]; auto.
Qed.

(** *** outcomes *)
Lemma distinct_b ch : distinct_challenges ch /\
    negb (feqb (ch_beta ch) (ch_gamma ch) || feqb (ch_beta ch) (ch_delta ch) || feqb (ch_beta ch) (ch_eps ch) || feqb (ch_gamma ch) (ch_delta ch) || feqb (ch_gamma ch) (ch_eps ch) || feqb (ch_delta ch) (ch_eps ch)) = true \/
  ~ distinct_challenges ch /\
    negb (feqb (ch_beta ch) (ch_gamma ch) || feqb (ch_beta ch) (ch_delta ch) || feqb (ch_beta ch) (ch_eps ch) || feqb (ch_gamma ch) (ch_delta ch) || feqb (ch_gamma ch) (ch_eps ch) || feqb (ch_delta ch) (ch_eps ch)) = false.
Proof using fl.
  unfold distinct_challenges.
  assert (forall x y : F, x <> y /\ feqb x y = false \/ x = y /\ feqb x y = true) as X.
  { intros x y. destruct (feqb x y) eqn:Q; [right; split; auto; now apply feqb_eq|left; split; auto]. intros E. apply feqb_eq in E. congruence. }
  destruct (X (ch_beta ch) (ch_gamma ch)) as [[N1 ->]|[N1 ->]]; [|right; split; [tauto|reflexivity]].
  destruct (X (ch_beta ch) (ch_delta ch)) as [[N2 ->]|[N2 ->]]; [|right; split; [tauto|reflexivity]].
  destruct (X (ch_beta ch) (ch_eps ch)) as [[N3 ->]|[N3 ->]]; [|right; split; [tauto|reflexivity]].
  destruct (X (ch_gamma ch) (ch_delta ch)) as [[N4 ->]|[N4 ->]]; [|right; split; [tauto|reflexivity]].
  destruct (X (ch_gamma ch) (ch_eps ch)) as [[N5 ->]|[N5 ->]]; [|right; split; [tauto|reflexivity]].
  destruct (X (ch_delta ch) (ch_eps ch)) as [[N6 ->]|[N6 ->]]; [|right; split; [tauto|reflexivity]].
  left. split; [tauto|reflexivity].
Qed.

Section Checks.
Variables (omega : F) (n : nat) (k : key F) (tables : list (list F)) (pub : list (nat * F)) (pf : proof F) (ch : chal F) (x : F).
Let e := pf_evals pf.
Let table := multi_scalar_mul (combine [1; ch_zeta ch; ch_zeta ch * ch_zeta ch; ch_zeta ch * ch_zeta ch * ch_zeta ch] tables).
Definition check1 (lin : list F) (r0 aw : F) : bool :=
  pc_check [lin; k_sigma k Left; k_sigma k Right; k_sigma k Output; pf_f pf; pf_h2 pf; table; pf_w pf Left; pf_w pf Right; pf_w pf Output; pf_w pf Fourth]
         x [- r0; e_sl e; e_sr e; e_so e; e_f e; e_h2 e; e_t e; e_a e; e_b e; e_c e; e_d e] aw.
Definition check2 (u : custom F) (saw : F) : bool :=
  pc_check [pf_z pf; pf_w pf Left; pf_w pf Right; pf_w pf Fourth; pf_h1 pf; pf_z2 pf; table]
         (x * omega) [e_perm e; u_an u; u_bn u; u_dn u; e_h1n e; e_z2n e; e_tn e] saw.
Lemma verify_run l1 pi u lin aw saw : distinct_challenges ch -> first_lagrange n (fpow x n - 1) x = Ok l1 :> outcome verify_error F -> pi_evals pub n = Ok pi ->
  read_custom (e_custom e) = Ok u :> outcome verify_error (custom F) -> linearisation_commitment ca cd n k pf u ch x l1 = Ok lin ->
  verify ca cd (Some omega) n k tables pub pf ch x aw saw
  = if check1 lin (compute_r0 omega n pi ch x l1 e) aw then if check2 u saw then Ok tt else Err ProofVerificationError else Err ProofVerificationError.
Proof using fl.
  intros HD E1 EP EU EL. unfold verify. destruct (distinct_b ch) as [[_ ->]|[N _]]; [|contradiction]. cbn [assert_ obind]. rewrite E1. cbn [obind]. rewrite EP. cbn [lift obind].
  fold e. rewrite EU. cbn [obind]. rewrite EL. cbn [lift obind]. reflexivity.
Qed.
Lemma verify_outcomes aw saw : domain_of omega n ->
  verify ca cd (Some omega) n k tables pub pf ch x aw saw = Panic /\
    (~ distinct_challenges ch \/ x = 1 \/ (forall pi, pi_evals pub n <> Ok pi) \/ (exists a, In a labels /\ ~ In a (map fst (e_custom e))) \/ ch_zeta ch = 0 \/ ch_zeta ch = 1) \/
  verify ca cd (Some omega) n k tables pub pf ch x aw saw <> Panic /\ distinct_challenges ch /\ x <> 1 /\ ch_zeta ch <> 0 /\ ch_zeta ch <> 1 /\ (forall a, In a labels -> In a (map fst (e_custom e))) /\
  exists l1 pi u lin, first_lagrange n (fpow x n - 1) x = Ok l1 :> outcome verify_error F /\ pi_evals pub n = Ok pi /\
    read_custom (e_custom e) = Ok u :> outcome verify_error (custom F) /\ linearisation_commitment ca cd n k pf u ch x l1 = Ok lin.
Proof using fl pl.
  intros D. destruct (distinct_b ch) as [[HD EB]|[ND EB]]; [|left; split; [|auto]; unfold verify; rewrite EB; reflexivity].
  destruct (feq_dec x 1) as [E1|N1].
  { left. split; [|auto]. unfold verify. rewrite EB. cbn [assert_ obind]. rewrite E1. rewrite (first_lagrange_1 omega n D). reflexivity. }
  assert (exists l1, first_lagrange n (fpow x n - 1) x = Ok l1 :> outcome verify_error F) as [l1 E1].
  { unfold first_lagrange. rewrite inverse_Some; [cbn [unwrap_opt obind]; eauto|]. apply fmul_neq_0; [exact (domain_size omega n D)|]. intros E. apply fsub_0_eq in E. contradiction. }
  destruct (pi_evals pub n) as [pi| |] eqn:EP.
  2,3: left; split; [unfold verify; rewrite EB; cbn [assert_ obind]; rewrite E1; cbn [obind]; rewrite EP; reflexivity|right; right; left; intros pi; discriminate].
  destruct (@read_custom_dec verify_error (e_custom e)) as [[[u EU] HL]|[EU [a Ha]]].
  2: left; split; [unfold verify; rewrite EB; cbn [assert_ obind]; rewrite E1; cbn [obind]; rewrite EP; cbn [lift obind]; fold e; rewrite EU; reflexivity|right; right; right; left; eauto].
  destruct (feq_dec (ch_zeta ch) 0) as [Z0|Z0]; [|destruct (feq_dec (ch_zeta ch) 1) as [Z1|Z1]].
  1,2: left; split; [unfold verify; rewrite EB; cbn [assert_ obind]; rewrite E1; cbn [obind]; rewrite EP; cbn [lift obind]; fold e; rewrite EU; cbn [obind]; rewrite lin_comm_panic by auto; reflexivity|tauto].
  destruct (lin_comm_ok ca cd n k pf u ch x l1 Z0 Z1) as [lin [EL _]].
  right. split; [rewrite (verify_run l1 pi u lin aw saw HD E1 EP EU EL); destruct (check1 _ _ _); [destruct (check2 _ _)|]; discriminate|].
  split; [exact HD|]. split; [exact N1|]. split; [exact Z0|]. split; [exact Z1|]. split; [exact HL|]. exists l1, pi, u, lin. auto.
Qed.
End Checks.

(** a proof whose opened evaluations are right is accepted if and only if the equation at the point holds *)
Definition polys_of (pf : proof F) (pi t : list F) : polys F := mk_polys (pf_w pf) pi (pf_z pf) (pf_z2 pf) (pf_f pf) t (pf_h1 pf) (pf_h2 pf).
Section Right.
Variables (omega : F) (n : nat) (k : key F) (table : list (F * F * F * F)) (tables : list (list F)) (pub : list (nat * F)) (pi : list F) (pf : proof F) (ch : chal F) (x : F) (u : custom F).
Hypotheses (D : domain_of omega n) (HD : distinct_challenges ch) (Hx : fpow x n <> 1) (Z0 : ch_zeta ch <> 0) (Z1 : ch_zeta ch <> 1)
  (EP : pi_evals pub n = Ok pi) (EU : read_custom (e_custom (pf_evals pf)) = Ok u :> outcome verify_error (custom F)) (ET : table_polys omega n table = Ok tables).
Let T := ifft omega n (map (combined (ch_zeta ch)) (padded_table n table)).
Let P := polys_of pf (ifft omega n pi) T.
Let tb := multi_scalar_mul (combine [1; ch_zeta ch; ch_zeta ch * ch_zeta ch; ch_zeta ch * ch_zeta ch * ch_zeta ch] tables).
Let l1 := peval (l1_poly omega n) x.
Definition gap : F := lin_at ca cd n k pf u ch x l1 x + compute_r0 omega n pi ch x l1 (pf_evals pf).
Lemma verify_run2 aw saw : exists lin, peval lin x = lin_at ca cd n k pf u ch x l1 x /\ verify ca cd (Some omega) n k tables pub pf ch x aw saw
  = if check1 k tables pf ch x lin (compute_r0 omega n pi ch x l1 (pf_evals pf)) aw then if check2 omega tables pf ch x u saw then Ok tt else Err ProofVerificationError else Err ProofVerificationError.
Proof using fl pl D HD Hx Z0 Z1 EP EU.
  destruct (lin_comm_ok ca cd n k pf u ch x l1 Z0 Z1) as [lin [EL V]]. exists lin. split; [apply V|]. apply verify_run; auto. now apply first_lagrange_ok.
Qed.
Lemma check2_right saw : right_evals omega k P x (pf_evals pf) u -> check2 omega tables pf ch x u saw = true.
Proof using fl pl D ET.
  intros [A1 [A2 [A3 [A4 [A5 [A6 [A7 [A8 [A9 [A10 [A11 [A12 [A13 [A14 [A15 [A16 A17]]]]]]]]]]]]]]]].
  unfold check2. apply pc_true. cbn [map]. rewrite (table_poly omega n table tables (ch_zeta ch) D ET). fold T. cbn [P polys_of P_w P_z P_z2 P_h1 P_t] in *. congruence.
Qed.
Lemma check1_right lin aw : right_evals omega k P x (pf_evals pf) u -> peval lin x = lin_at ca cd n k pf u ch x l1 x ->
  check1 k tables pf ch x lin (compute_r0 omega n pi ch x l1 (pf_evals pf)) aw = feqb gap 0.
Proof using fl pl D ET.
  intros [A1 [A2 [A3 [A4 [A5 [A6 [A7 [A8 [A9 [A10 [A11 [A12 [A13 [A14 [A15 [A16 A17]]]]]]]]]]]]]]]] EL.
  unfold check1, pc_check. cbn [map]. rewrite (table_poly omega n table tables (ch_zeta ch) D ET). fold T. cbn [P polys_of P_w P_z P_z2 P_f P_h1 P_h2 P_t] in *.
  rewrite EL, <- A1, <- A2, <- A3, <- A4, <- A5, <- A6, <- A7, <- A11, <- A12, <- A13. unfold gap. set (r0 := compute_r0 omega n pi ch x l1 (pf_evals pf)). set (la := lin_at ca cd n k pf u ch x l1 x).
  match goal with |- feqb (peval (_ :: ?l) _) _ = _ => set (rest := l) end. cbn [peval].
  destruct (feqb (la + r0) 0) eqn:Q.
  - apply feqb_eq in Q. apply feqb_eq. assert (la = - r0) as -> by (transitivity (la + r0 - r0); [ring|rewrite Q; ring]). reflexivity.
  - destruct (feqb (la + aw * peval rest aw) (- r0 + aw * peval rest aw)) eqn:R; auto. apply feqb_eq in R. assert (la + r0 = 0) as E; [|apply feqb_eq in E; congruence].
    transitivity (la + aw * peval rest aw - (- r0 + aw * peval rest aw)); [ring|rewrite R; ring].
Qed.
Lemma verify_right aw saw : right_evals omega k P x (pf_evals pf) u ->
  verify ca cd (Some omega) n k tables pub pf ch x aw saw = if feqb gap 0 then Ok tt else Err ProofVerificationError.
Proof using fl pl D HD Hx Z0 Z1 EP EU ET.
  intros R. destruct (verify_run2 aw saw) as [lin [EL ->]]. rewrite (check1_right lin aw R EL), (check2_right saw R). reflexivity.
Qed.
(** if the evaluations are fixed before the opening challenges, wrong ones are rejected *)
Lemma verify_wrong : ~ (right_evals omega k P x (pf_evals pf) u /\ gap = 0) ->
  most 10 (fun aw => most 6 (fun saw => verify ca cd (Some omega) n k tables pub pf ch x aw saw <> Ok tt)).
Proof using fl pl D HD Hx Z0 Z1 EP EU ET.
  intros NR. set (e := pf_evals pf) in *.
  destruct (lin_comm_ok ca cd n k pf u ch x l1 Z0 Z1) as [lin [EL V]]. specialize (V x).
  assert (forall aw saw, verify ca cd (Some omega) n k tables pub pf ch x aw saw
    = if check1 k tables pf ch x lin (compute_r0 omega n pi ch x l1 e) aw then if check2 omega tables pf ch x u saw then Ok tt else Err ProofVerificationError else Err ProofVerificationError) as RUN
    by (intros aw saw; apply verify_run; auto; now apply first_lagrange_ok).
  pose (C1 := [lin; k_sigma k Left; k_sigma k Right; k_sigma k Output; pf_f pf; pf_h2 pf; tb; pf_w pf Left; pf_w pf Right; pf_w pf Output; pf_w pf Fourth]).
  pose (V1 := [- compute_r0 omega n pi ch x l1 e; e_sl e; e_sr e; e_so e; e_f e; e_h2 e; e_t e; e_a e; e_b e; e_c e; e_d e]).
  pose (C2 := [pf_z pf; pf_w pf Left; pf_w pf Right; pf_w pf Fourth; pf_h1 pf; pf_z2 pf; tb]).
  pose (V2 := [e_perm e; u_an u; u_bn u; u_dn u; e_h1n e; e_z2n e; e_tn e]).
  destruct (list_eq_dec feq_dec (map (fun l => peval l x) C1) V1) as [Q1|Q1].
  - destruct (list_eq_dec feq_dec (map (fun l => peval l (x * omega)) C2) V2) as [Q2|Q2].
    + exfalso. apply NR. unfold C1, V1, C2, V2 in Q1, Q2. cbn [map] in Q1, Q2. rewrite V in Q1.
      injection Q1 as B0 B1 B2 B3 B4 B5 B6 B7 B8 B9 B10. injection Q2 as G1 G2 G3 G4 G5 G6 G7.
      unfold tb in B6, G7. rewrite (table_poly omega n table tables (ch_zeta ch) D ET) in B6, G7. fold T in B6, G7. split.
      * unfold right_evals, P, polys_of. cbn [P_w P_z P_z2 P_f P_t P_h1 P_h2]. repeat split; auto.
      * unfold gap. fold e. rewrite B0. ring.
    + apply (most_intro _ (fun _ => False)); [apply (cnt_weaken 0 10 (fun _ => False)); [lia|auto|apply cnt_false; tauto]|tauto|]. intros aw _.
      eapply most_weaken; [apply Nat.le_refl| |exact (pc_most C2 (x * omega) V2 6 eq_refl eq_refl Q2)]. cbv beta. intros saw E. rewrite RUN.
      change (check2 omega tables pf ch x u saw) with (pc_check C2 (x * omega) V2 saw). rewrite E. destruct (check1 _ _ _ _ _ _ _ _); discriminate.
  - eapply most_weaken; [apply Nat.le_refl| |exact (pc_most C1 x V1 10 eq_refl eq_refl Q1)]. cbv beta. intros aw E.
    apply (most_intro _ (fun _ => False)); [apply (cnt_weaken 0 6 (fun _ => False)); [lia|auto|apply cnt_false; tauto]|tauto|]. intros saw _. rewrite RUN.
    change (check1 k tables pf ch x lin (compute_r0 omega n pi ch x l1 e) aw) with (pc_check C1 x V1 aw). rewrite E. discriminate.
Qed.
End Right.
End PlonkVerify2.

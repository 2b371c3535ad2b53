(** PlonkGP.v: the permutation argument of plonk-core. *)
From Verif Require Import Base Tools KZG IntProofs SnarkProofs SoundSpec Sound ProdPoly Plonk PlonkSpec PlonkPI PlonkSigmaSpec PlonkSigma PlonkProver PlonkGPSpec.
From Coq Require Import Permutation.
Local Open Scope F_scope.

Section PlonkGP.
Context {F : Type} {fo : FieldOps F} {fl : FieldLaws F} {po : PrimeFieldOps F}.
Add Field Fplonkgp : F_th.

(** *** products over the gates and over the wires *)
Fixpoint nprod (n : nat) (f : nat -> F) : F := match n with O => 1 | S k => nprod k f * f k end.
Lemma nprod_ext n f g : (forall i, (i < n)%nat -> f i = g i) -> nprod n f = nprod n g.
Proof. induction n as [|n IH]; cbn; intros H; auto. rewrite IH, H; auto. Qed.
Lemma nprod_mul n f g : nprod n (fun i => f i * g i) = nprod n f * nprod n g.
Proof. induction n as [|n IH]; cbn; [ring|]. rewrite IH. ring. Qed.
Lemma nprod_list n (f : nat -> F) : lprod (map f (seq 0 n)) = nprod n f.
Proof. induction n as [|n IH]; auto. rewrite seq_S, map_app, lprod_app, IH. cbn. ring. Qed.
Lemma nprod_zero n f : nprod n f = 0 -> exists i, (i < n)%nat /\ f i = 0.
Proof.
  induction n as [|n IH]; cbn; intros H; [now apply f1_neq_0 in H|]. apply fmul_integral in H. destruct H as [H|H]; [|eauto].
  destruct (IH H) as [i [Hi E]]. eauto.
Qed.
Lemma lprod_positions n (f : wire -> F) : lprod (map f (positions n)) = nprod n (fun i => over_columns (fun col => f (col, i))).
Proof.
  unfold positions, over_columns. cbn [flat_map]. rewrite !map_app, !lprod_app, !map_map, !nprod_list, !nprod_mul. cbn. ring.
Qed.
Lemma positions_length n : length (positions n) = (4 * n)%nat.
Proof. unfold positions. cbn [flat_map]. rewrite !app_length, !map_length, !seq_length. cbn. lia. Qed.

Section Row.
Variables (omega : F) (n : nat) (beta gamma : F).
Implicit Types (w sg : column -> nat -> F) (z : nat -> F).
Definition num w i := over_columns (fun col => w col i + beta * (factor col * fpow omega i) + gamma).
Definition den w sg i := over_columns (fun col => w col i + beta * sg col i + gamma).
Lemma telescope w sg z : (forall i, (i < n)%nat -> z (S i) * den w sg i = z i * num w i) -> z n * nprod n (den w sg) = z 0%nat * nprod n (num w).
Proof.
  induction n as [|m IH]; cbn [nprod]; intros H; [ring|].
  transitivity (z (S m) * den w sg m * nprod m (den w sg)); [ring|]. rewrite H by lia.
  transitivity (z m * nprod m (den w sg) * num w m); [ring|]. rewrite IH by auto. ring.
Qed.
Lemma closed w sg z : (0 < n)%nat -> grand_product omega n beta gamma w sg z -> nprod n (den w sg) = nprod n (num w).
Proof.
  intros P [Z0 H]. pose (z' := fun i => if (i =? n)%nat then z 0%nat else z i).
  assert (z' n * nprod n (den w sg) = z' 0%nat * nprod n (num w)) as T.
  { apply telescope. intros i Hi. specialize (H i Hi). unfold z'. destruct (Nat.eqb_spec i n) as [|_]; [lia|]. fold (num w i) (den w sg i) in H.
    destruct (Nat.eqb_spec (S i) n) as [E|N].
    - replace (i + 1)%nat with n in H by lia. now rewrite Nat.mod_same in H by lia.
    - replace (i + 1)%nat with (S i) in H by lia. now rewrite Nat.mod_small in H by lia. }
  unfold z' in T. rewrite Nat.eqb_refl in T. destruct (Nat.eqb_spec 0 n) as [|_]; [lia|]. rewrite Z0 in T.
  transitivity (1 * nprod n (den w sg)); [ring|]. rewrite T. ring.
Qed.
(** *** the products and the permutation *)
Definition term w (p : wire) : F := w (fst p) (snd p) + beta * wire_id omega p.
Definition term' w (s : sigmas) (p : wire) : F := w (fst p) (snd p) + beta * wire_id omega (sigma_at s p).
Lemma num_shifts w : nprod n (num w) = shifts (map (term w) (positions n)) gamma.
Proof.
  unfold shifts. rewrite map_map, (lprod_positions n (fun p => gamma + term w p)). apply nprod_ext. intros i _. unfold num, over_columns, term, wire_id. cbn [fst snd]. ring.
Qed.
Lemma den_shifts w s : nprod n (den w (sigma_values omega s)) = shifts (map (term' w s) (positions n)) gamma.
Proof.
  unfold shifts. rewrite map_map, (lprod_positions n (fun p => gamma + term' w s p)). apply nprod_ext. intros i _. unfold den, over_columns, term', sigma_values. cbn [fst snd]. ring.
Qed.
Lemma copies_product w s : Permutation (map (sigma_at s) (positions n)) (positions n) -> copies s n w ->
  nprod n (den w (sigma_values omega s)) = nprod n (num w).
Proof.
  intros P C. rewrite den_shifts, num_shifts. unfold shifts. apply lprod_perm, Permutation_map.
  transitivity (map (term w) (map (sigma_at s) (positions n))).
  - rewrite map_map. apply Permutation_refl'. apply map_ext_in. intros p Hp. unfold term, term'. now rewrite (C p Hp).
  - now apply Permutation_map.
Qed.
End Row.

(** *** soundness *)
(* the challenges beta for which a wire with another value can take the place of p *)
Definition clash (omega : F) (w : column -> nat -> F) (p p' : wire) (l : list wire) (beta : F) : Prop :=
  exists q, In q l /\ wire_id omega q <> wire_id omega p' /\ beta = (w (fst p) (snd p) - w (fst q) (snd q)) / (wire_id omega q - wire_id omega p').
Lemma clash_dec omega w p p' l beta : clash omega w p p' l beta \/ ~ clash omega w p p' l beta.
Proof.
  induction l as [|q l [IH|IH]].
  - right. intros [q [[] _]].
  - left. destruct IH as [q' [H H']]. exists q'. split; auto. now right.
  - destruct (feq_dec (wire_id omega q) (wire_id omega p')) as [E|E].
    { right. intros [q' [[<-|H] [H1 H2]]]; [auto|]. apply IH. exists q'. auto. }
    destruct (feq_dec beta ((w (fst p) (snd p) - w (fst q) (snd q)) / (wire_id omega q - wire_id omega p'))) as [E'|E'].
    { left. exists q. split; [now left|auto]. }
    right. intros [q' [[<-|H] [H1 H2]]]; [auto|]. apply IH. exists q'. auto.
Qed.
Lemma clash_cnt omega w p p' l : cnt (length l) (clash omega w p p' l).
Proof.
  induction l as [|q l IH].
  - apply cnt_false. intros x [q [[] _]].
  - apply (cnt_weaken (1 + length l) _ (fun x => x = (w (fst p) (snd p) - w (fst q) (snd q)) / (wire_id omega q - wire_id omega p') \/ clash omega w p p' l x)); auto.
    + intros x [q' [[<-|H] [H1 H2]]]; [now left|]. right. exists q'. auto.
    + apply cnt_or; [|apply cnt_eq|exact IH]. intros x. destruct (feq_dec x ((w (fst p) (snd p) - w (fst q) (snd q)) / (wire_id omega q - wire_id omega p'))); auto.
Qed.
Theorem gp_sound omega n s w : Permutation (map (sigma_at s) (positions n)) (positions n) -> ids_distinct omega n ->
  ~ copies s n w ->
  most (4 * n - 1) (fun beta => most (4 * n - 1) (fun gamma => forall z, ~ grand_product omega n beta gamma w (sigma_values omega s) z)).
Proof.
  intros P D NC.
  assert (exists p, In p (positions n) /\ w (fst (sigma_at s p)) (snd (sigma_at s p)) <> w (fst p) (snd p)) as [p [Hp NE]].
  { assert (forall l, (exists p, In p l /\ w (fst (sigma_at s p)) (snd (sigma_at s p)) <> w (fst p) (snd p)) \/
      (forall p, In p l -> w (fst (sigma_at s p)) (snd (sigma_at s p)) = w (fst p) (snd p))) as X.
    { induction l as [|a l [[q [H1 H2]]|IH]]; [right; intros ? []|left; exists q; split; [now right|auto]|].
      destruct (feq_dec (w (fst (sigma_at s a)) (snd (sigma_at s a))) (w (fst a) (snd a))) as [E|E].
      - right. intros q [<-|H]; auto.
      - left. exists a. split; [now left|auto]. }
    destruct (X (positions n)) as [H|H]; auto. exfalso. now apply NC. }
  set (p' := sigma_at s p) in *.
  assert (In p' (positions n)) as Hp' by (apply (Permutation_in _ P), in_map; auto).
  assert (0 < n)%nat as Hn by (apply in_positions in Hp; lia).
  assert (forall q, In q (positions n) -> wire_id omega q = wire_id omega p' -> q = p') as INJ.
  { unfold ids_distinct in D. revert D Hp'. clear. induction (positions n) as [|a l IH]; cbn; intros D Hp' q Hq E; [tauto|]. inversion D as [|? ? N D']; subst.
    destruct Hp' as [->|Hp'], Hq as [->|Hq]; auto.
    - exfalso. apply N. rewrite <- E. now apply in_map.
    - exfalso. apply N. rewrite E. now apply in_map. }
  apply in_split in Hp'. destruct Hp' as [l1 [l2 EL]].
  apply (most_intro _ (clash omega w p p' (l1 ++ l2))).
  - apply (cnt_weaken (length (l1 ++ l2)) _ (clash omega w p p' (l1 ++ l2))); auto; [|apply clash_cnt].
    pose proof (positions_length n) as L. rewrite EL in L. rewrite app_length in *. cbn in L. lia.
  - apply clash_dec.
  - intros beta NB.
    assert (~ In (term' omega beta w s p) (map (term omega beta w) (positions n))) as NI.
    { intros H. apply in_map_iff in H. destruct H as [q [E Hq]]. unfold term, term' in E. fold p' in E.
      destruct (feq_dec (wire_id omega q) (wire_id omega p')) as [EI|EI].
      - apply INJ in EI; auto. subst q. apply NE. transitivity (w (fst p') (snd p') + beta * wire_id omega p' - beta * wire_id omega p'); [ring|]. rewrite E. ring.
      - apply NB. exists q. split.
        + rewrite EL in Hq. apply in_app_iff in Hq. apply in_app_iff. destruct Hq as [Hq|[<-|Hq]]; auto. congruence.
        + split; auto. assert (wire_id omega q - wire_id omega p' <> 0) as NZ by (intros Z; apply EI; now apply fsub_0_eq).
          assert (beta * (wire_id omega q - wire_id omega p') = w (fst p) (snd p) - w (fst q) (snd q)) as Q.
          { transitivity (w (fst q) (snd q) + beta * wire_id omega q - w (fst q) (snd q) - beta * wire_id omega p'); [ring|]. rewrite E. ring. }
          rewrite <- Q. field. exact NZ. }
    set (lt := map (term omega beta w) (positions n)) in *. set (lt' := map (term' omega beta w s) (positions n)).
    assert (length lt' = length lt) as LL by (unfold lt, lt'; now rewrite !map_length).
    assert (length lt' = (4 * n)%nat) as L4 by (unfold lt'; now rewrite map_length, positions_length).
    rewrite <- L4. eapply most_weaken; [apply Nat.le_refl| |exact (shifts_most lt' lt LL)].
    intros gamma H z G. apply (closed omega n beta gamma) in G; auto. rewrite den_shifts, num_shifts in G. apply H in G.
    apply NI. apply (Permutation_in _ G). unfold lt'. now apply in_map.
Qed.
(** *** the prover *)
Lemma map_out_ok {E A B} (f : A -> outcome E B) d : forall l ys, map_out f l = Ok ys <-> length ys = length l /\ forall i x, nth_error l i = Some x -> f x = Ok (nth i ys d).
Proof.
  induction l as [|x l IH]; intros ys; cbn [map_out].
  - split.
    + intros [= <-]. split; auto. intros [|i] x H; discriminate H.
    + intros [H _]. destruct ys; [reflexivity|discriminate H].
  - split.
    + intros H. destruct (f x) as [y|e|] eqn:E1; try discriminate H. cbn [obind] in H. destruct (map_out f l) as [ys'|e|] eqn:E2; try discriminate H. cbn [obind] in H.
      injection H as <-. destruct (proj1 (IH ys') eq_refl) as [L H]. split; [cbn; now rewrite L|]. intros [|i] z Hz; cbn in *; [congruence|]. now apply H.
    + intros [L H]. destruct ys as [|y ys]; [discriminate L|]. rewrite (H 0%nat x eq_refl). cbn [obind nth].
      rewrite (proj2 (IH ys)); [reflexivity|]. split; [now injection L|]. intros i z Hz. exact (H (S i) z Hz).
Qed.
Lemma map_out_seq {E B} (f : nat -> outcome E B) n ys d : map_out f (seq 0 n) = Ok ys <-> length ys = n /\ forall i, (i < n)%nat -> f i = Ok (nth i ys d).
Proof.
  rewrite (map_out_ok f d), seq_length. split; intros [L H]; split; auto.
  - intros i Hi. apply H. rewrite (List.nth_error_nth' _ 0%nat) by now rewrite seq_length. now rewrite seq_nth.
  - intros i x Hx. assert (i < n)%nat as Hi by (rewrite <- (seq_length n 0); apply nth_error_Some; congruence).
    rewrite (List.nth_error_nth' _ 0%nat) in Hx by now rewrite seq_length. rewrite seq_nth in Hx by auto. injection Hx as <-. auto.
Qed.
Lemma map_out_panic {E A B} (f : A -> outcome E B) l x : In x l -> f x = Panic -> (forall y, In y l -> exists r, f y = Ok r \/ f y = Panic) -> map_out f l = Panic.
Proof.
  induction l as [|a l IH]; cbn [map_out]; [intros []|]. intros Hx Px Hl. destruct (Hl a (or_introl eq_refl)) as [r [E1|E1]]; rewrite E1; cbn [obind]; auto.
  destruct Hx as [->|Hx]; [congruence|]. rewrite IH; auto. intros y Hy. apply Hl. now right.
Qed.
Lemma accumulate_length : forall l a, length (accumulate a l) = S (length l).
Proof. induction l as [|s l IH]; intros a; cbn; auto. Qed.
Lemma accumulate_nth : forall l a i, (i <= length l)%nat -> nth i (accumulate a l) 0 = a * nprod i (fun j => nth j l 0).
Proof.
  assert (forall (f : nat -> F) i, f 0%nat * nprod i (fun j => f (S j)) = nprod (S i) f) as SH.
  { intros f i. induction i as [|i IH]; [cbn; ring|]. cbn [nprod] in *. rewrite <- IH. ring. }
  induction l as [|s l IH]; intros a i Hi; destruct i as [|i]; cbn [accumulate nth nprod length] in *; try ring; try lia.
  rewrite IH by lia. rewrite <- (SH (fun j => nth j (s :: l) 0) i) || idtac. cbn [nth].
  transitivity (a * (nth 0 (s :: l) 0 * nprod i (fun j => nth (S j) (s :: l) 0))); [cbn [nth]; ring|]. now rewrite (SH (fun j => nth j (s :: l) 0) i).
Qed.
Lemma lagrange_ok omega n l : (forall x, In x l -> (snd x < n)%nat) -> compute_permutation_lagrange omega n l = Ok (map (wire_id omega) l).
Proof.
  intros H. unfold compute_permutation_lagrange. apply (map_out_ok _ 0). rewrite map_length. split; auto. intros i [col j] E.
  assert (j < n)%nat as Hj by exact (H _ (nth_error_In _ _ E)). cbn [fst snd]. destruct (Nat.ltb_spec j n) as [_|]; [|lia].
  rewrite (nth_error_nth (map (wire_id omega) l) i 0 (x := wire_id omega (col, j))) by (now rewrite nth_error_map, E).
  unfold wire_id. cbn [fst snd]. destruct col; cbn [factor coset]; try reflexivity. f_equal. ring.
Qed.
Lemma sigma_poly_ok omega n s : (forall col, length (s col) = n) -> (forall col x, In x (s col) -> (snd x < n)%nat) ->
  exists sg, compute_sigma_polynomials omega n s = Ok sg /\ (forall col, length (sg col) = n) /\ forall col i, (i < n)%nat -> at_wire sg col i = sigma_values omega s col i.
Proof.
  intros L R. unfold compute_sigma_polynomials. rewrite !L, Nat.eqb_refl. cbn [andb assert_ obind].
  rewrite !lagrange_ok by (intros x; apply R). cbn [obind]. eexists. split; [reflexivity|].
  split; [intros []; now rewrite map_length|]. intros col i Hi.
  assert (forall c, nth i (map (wire_id omega) (s c)) 0 = wire_id omega (sigma_at s (c, i))) as X.
  { intros c. unfold sigma_at. cbn [fst snd]. rewrite (nth_indep _ 0 (wire_id omega (c, i))) by (now rewrite map_length, L). apply map_nth. }
  unfold at_wire, sigma_values. destruct col; apply X.
Qed.
(** the factor of a gate *)
Lemma product4 f : product (map f columns) = over_columns f.
Proof. unfold product, columns, over_columns. cbn. ring. Qed.
Lemma ratio_eq omega beta gamma ws sg i : gate_ratio omega beta gamma ws sg i =
  if feqb (den beta gamma (at_wire ws) (at_wire sg) i) 0 then Panic
  else Ok (num omega beta gamma (at_wire ws) i * finv (den beta gamma (at_wire ws) (at_wire sg) i)).
Proof.
  unfold gate_ratio. rewrite !product4. unfold denominator_irreducible, numerator_irreducible.
  change (over_columns (fun col => nth i (ws col) 0 + beta * nth i (sg col) 0 + gamma)) with (den beta gamma (at_wire ws) (at_wire sg) i).
  unfold inverse, is_zero. destruct (feqb (den beta gamma (at_wire ws) (at_wire sg) i) 0); cbn [unwrap_opt obind]; [reflexivity|]. do 2 f_equal.
  unfold num, over_columns, at_wire. change (@coset F fo po) with (@factor F fo po). ring.
Qed.
Lemma min_all n : fold_left Nat.min [n; n; n; n] n = n.
Proof. cbn. lia. Qed.
Lemma prover_eq omega n ws beta gamma sg : (forall col, length (ws col) = n) -> (forall col, length (sg col) = n) ->
  compute_permutation_poly omega n ws beta gamma sg =
  let! rs := map_out (gate_ratio omega beta gamma ws sg) (seq 0 n) in Ok (firstn n (accumulate 1 rs)).
Proof.
  intros L1 L2. unfold compute_permutation_poly. cbn [columns map]. rewrite !L1, !L2, Nat.min_id, min_all.
  destruct (map_out (gate_ratio omega beta gamma ws sg) (seq 0 n)) as [rs|e|] eqn:E; cbn [obind]; auto.
  apply (map_out_seq _ _ _ 0) in E. destruct E as [L _]. rewrite accumulate_length, L.
  destruct (Nat.ltb_spec n (S n)) as [_|]; [|lia]. rewrite (skipn_all2 (n := (n + 1)%nat)) by (rewrite accumulate_length, L; lia).
  rewrite app_nil_r, firstn_length, accumulate_length, L. replace (Nat.min n (S n)) with n by lia. now rewrite Nat.eqb_refl.
Qed.
Theorem prover_ok omega n ws beta gamma sg : (forall col, length (ws col) = n) -> (forall col, length (sg col) = n) ->
  ((forall i, (i < n)%nat -> den beta gamma (at_wire ws) (at_wire sg) i <> 0) ->
   exists z, compute_permutation_poly omega n ws beta gamma sg = Ok z /\ length z = n /\
     forall i, (i < n)%nat -> nth i z 0 * nprod i (den beta gamma (at_wire ws) (at_wire sg)) = nprod i (num omega beta gamma (at_wire ws))) /\
  (forall i, (i < n)%nat -> den beta gamma (at_wire ws) (at_wire sg) i = 0 -> compute_permutation_poly omega n ws beta gamma sg = Panic).
Proof.
  intros L1 L2. rewrite prover_eq by auto. set (w := at_wire ws). set (s := at_wire sg). split.
  - intros NZ. set (rs := map (fun i => num omega beta gamma w i * finv (den beta gamma w s i)) (seq 0 n)).
    assert (map_out (gate_ratio omega beta gamma ws sg) (seq 0 n) = Ok rs) as E.
    { apply (map_out_seq _ _ _ 0). unfold rs. split; [now rewrite map_length, seq_length|]. intros i Hi. rewrite ratio_eq. fold w s.
      destruct (feqb (den beta gamma w s i) 0) eqn:Z; [apply feqb_eq in Z; now apply NZ in Z|]. now rewrite nth_map_seq by auto. }
    rewrite E. cbn [obind]. eexists. split; [reflexivity|].
    assert (length rs = n) as LR by (unfold rs; now rewrite map_length, seq_length).
    split; [rewrite firstn_length, accumulate_length, LR; lia|]. intros i Hi.
    rewrite nth_firstn_lt || idtac. rewrite <- (firstn_skipn n (accumulate 1 rs)) at 1.
    assert (nth i (firstn n (accumulate 1 rs)) 0 = nth i (accumulate 1 rs) 0) as EN.
    { rewrite <- (firstn_skipn n (accumulate 1 rs)) at 2. rewrite app_nth1; auto. rewrite firstn_length, accumulate_length, LR. lia. }
    rewrite firstn_skipn, EN, accumulate_nth by lia.
    transitivity (nprod i (fun j => nth j rs 0 * den beta gamma w s j)); [rewrite nprod_mul; ring|]. apply nprod_ext. intros j Hj.
    unfold rs. rewrite nth_map_seq by lia. cbn [Nat.add]. field. apply NZ. lia.
  - intros i Hi Z. rewrite (map_out_panic _ _ i); auto.
    + apply in_seq. lia.
    + rewrite ratio_eq. fold w s. rewrite Z. now rewrite (proj2 (feqb_eq 0 0) eq_refl).
    + intros j _. exists (num omega beta gamma w j * finv (den beta gamma w s j)). rewrite ratio_eq. fold w s. destruct (feqb (den beta gamma w s j) 0); auto.
Qed.
(** the recurrence, and when it closes *)
Lemma prover_recurrence omega n ws beta gamma sg z : (0 < n)%nat -> (forall col, length (ws col) = n) -> (forall col, length (sg col) = n) ->
  compute_permutation_poly omega n ws beta gamma sg = Ok z ->
  length z = n /\ (grand_product omega n beta gamma (at_wire ws) (at_wire sg) (fun i => nth i z 0) <->
    nprod n (den beta gamma (at_wire ws) (at_wire sg)) = nprod n (num omega beta gamma (at_wire ws))).
Proof.
  intros Hn L1 L2 H. destruct (prover_ok omega n ws beta gamma sg L1 L2) as [A B]. set (w := at_wire ws) in *. set (s := at_wire sg) in *.
  assert (forall i, (i < n)%nat -> den beta gamma w s i <> 0) as NZ.
  { intros i Hi Z. rewrite (B i Hi Z) in H. discriminate H. }
  destruct (A NZ) as [z' [E [L R]]]. rewrite H in E. injection E as <-. split; [exact L|]. split.
  - intros G. exact (closed omega n beta gamma w s _ Hn G).
  - intros C. assert (forall i, (i <= n)%nat -> nprod i (den beta gamma w s) <> 0) as NP.
    { intros i Hi Z. apply nprod_zero in Z. destruct Z as [j [Hj Z]]. apply (NZ j); auto. lia. }
    split; [pose proof (R 0%nat Hn) as R0; cbn [nprod] in R0; refine (eq_trans _ R0); ring|].
    intros i Hi. fold (num omega beta gamma w i) (den beta gamma w s i).
    apply (fmul_cancel_l (nprod i (den beta gamma w s))); [apply NP; lia|].
    transitivity (nth ((i + 1) mod n) z 0 * nprod (S i) (den beta gamma w s)); [cbn [nprod]; ring|].
    transitivity (nth i z 0 * nprod i (den beta gamma w s) * num omega beta gamma w i); [|ring]. rewrite R by auto.
    destruct (Nat.eq_dec (i + 1) n) as [En|Nn].
    + rewrite En, Nat.mod_same by lia. replace (S i) with n by lia. rewrite C.
      pose proof (R 0%nat Hn) as R0. cbn [nprod] in R0. rewrite <- En. replace (i + 1)%nat with (S i) by lia. cbn [nprod].
      transitivity (nth 0 z 0 * 1 * (nprod i (num omega beta gamma w) * num omega beta gamma w i)); [ring|]. rewrite R0. ring.
    + rewrite Nat.mod_small by lia. replace (i + 1)%nat with (S i) by lia. rewrite R by lia. cbn [nprod]. ring.
Qed.
(** the challenges gamma for which the prover panics *)
Lemma panic_most omega n ws beta sg : (forall col, length (ws col) = n) -> (forall col, length (sg col) = n) ->
  most (4 * n) (fun gamma => exists z, compute_permutation_poly omega n ws beta gamma sg = Ok z).
Proof.
  intros L1 L2. set (l := map (fun p : wire => - (at_wire ws (fst p) (snd p) + beta * at_wire sg (fst p) (snd p))) (positions n)).
  assert (length l = (4 * n)%nat) as LL by (unfold l; now rewrite map_length, positions_length). rewrite <- LL.
  apply (most_intro _ (fun x => In x l)).
  - intros r ND I. apply NoDup_incl_length; auto.
  - intros x. destruct (in_dec feq_dec x l); auto.
  - intros gamma NI. destruct (proj1 (prover_ok omega n ws beta gamma sg L1 L2)) as [z [E _]]; [|eauto].
    intros i Hi Z. assert (forall col, at_wire ws col i + beta * at_wire sg col i + gamma <> 0) as X.
    { intros col Zc. apply NI. unfold l. apply in_map_iff. exists (col, i). split; [|apply in_positions; exact Hi]. cbn [fst snd].
      transitivity (- (at_wire ws col i + beta * at_wire sg col i + gamma) + gamma); [ring|]. rewrite Zc. ring. }
    unfold den, over_columns in Z. apply fmul_integral in Z. destruct Z as [Z|Z]; [|now apply X in Z].
    apply fmul_integral in Z. destruct Z as [Z|Z]; [|now apply X in Z]. apply fmul_integral in Z. destruct Z as [Z|Z]; now apply X in Z.
Qed.
(** *** the cosets *)
Lemma fpow_add x a b : fpow x (a + b) = fpow x a * fpow x b.
Proof. induction a as [|a IH]; cbn; [ring|]. rewrite IH. ring. Qed.
Lemma fpow_mul x a b : fpow x (a * b) = fpow (fpow x a) b.
Proof. induction b as [|b IH]; [now rewrite Nat.mul_0_r|]. rewrite Nat.mul_succ_r, fpow_add, IH. cbn. ring. Qed.
Lemma fpow_mul_l x y a : fpow (x * y) a = fpow x a * fpow y a.
Proof. induction a as [|a IH]; cbn; [ring|]. rewrite IH. ring. Qed.
Lemma fpow_1 a : fpow (1 : F) a = 1.
Proof. induction a as [|a IH]; cbn; [reflexivity|]. rewrite IH. ring. Qed.
Theorem cosets_distinct omega n : fpow omega n = 1 -> (forall i, (0 < i < n)%nat -> fpow omega i <> 1) ->
  (forall col, factor col <> 0) -> (forall a b, a <> b -> fpow (factor a) n <> fpow (factor b) n) -> ids_distinct omega n.
Proof.
  intros Hn Hi Hz Hc. unfold ids_distinct.
  assert (forall p q, In p (positions n) -> In q (positions n) -> wire_id omega p = wire_id omega q -> p = q) as INJ.
  { intros [a i] [b j] Hp Hq E. apply in_positions in Hp, Hq. cbn [fst snd] in *. unfold wire_id in E. cbn [fst snd] in E.
    assert (fpow (factor a) n = fpow (factor b) n) as EC.
    { assert (forall col k, fpow (factor col * fpow omega k) n = fpow (factor col) n) as X.
      { intros col k. rewrite fpow_mul_l, <- fpow_mul, Nat.mul_comm, fpow_mul, Hn, fpow_1. ring. }
      rewrite <- (X a i), <- (X b j). now rewrite E. }
    assert (a = b) as <- by (destruct a, b; try reflexivity; exfalso; revert EC; apply Hc; discriminate).
    apply fmul_cancel_l in E; auto. f_equal. clear EC.
    assert (forall i j, (i < n)%nat -> (j < n)%nat -> (i <= j)%nat -> fpow omega i = fpow omega j -> i = j) as X.
    { clear - fl Hn Hi. intros i j Li Lj Lij E. destruct (Nat.eq_dec i j) as [|N]; auto. exfalso. apply (Hi (j - i)%nat); [lia|].
      assert (fpow omega i <> 0) as NZ.
      { intros Z. apply (@f1_neq_0 F fo fl). rewrite <- Hn. replace n with (i + (n - i))%nat by lia. rewrite fpow_add, Z. ring. }
      apply (fmul_cancel_l (fpow omega i)); auto. rewrite <- fpow_add. replace (i + (j - i))%nat with j by lia. rewrite <- E. ring. }
    destruct (Nat.le_ge_cases i j); [|symmetry]; apply X; auto. }
  pose proof (positions_nodup n) as ND.
  revert ND INJ. induction (positions n) as [|p l IH]; cbn; intros ND INJ; constructor.
  - intros H. apply in_map_iff in H. destruct H as [q [E Hq]]. assert (q = p) as -> by (apply INJ; auto). inversion ND; contradiction.
  - inversion ND; subst. apply IH; auto.
Qed.
End PlonkGP.

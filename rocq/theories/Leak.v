(** Leak.v: the test accepts the committed vector, and a different vector only at few points. *)
From Verif Require Import Base Spec Tools ToolsProofs CS KZG KZGProofs Snark Laurent SnarkProofs SnarkPerm PovPEComplete SoundSpec Sound PovSound LeakSpec.
Local Open Scope F_scope.

Section Leak.
Context {F G1 G2 GT : Type} {fo : FieldOps F} {fl : FieldLaws F} {po : PairingOps F G1 G2 GT} {pl : PairingLaws F G1 G2 GT}.
Add Field Fks : F_th.
Implicit Types u v p : list F.

Lemma peval_pad (u : list F) k d r : peval (u ++ repeat 0 k ++ [d]) r = peval (u ++ repeat 0 k) r + fpow r (length u + k) * d.
Proof.
  rewrite app_assoc, peval_app, app_length, repeat_length. cbn [peval]. ring.
Qed.

Lemma guess_test_true powers n c r y u k d : r <> 0 -> (length u + k = n)%nat ->
  commit_vector powers (u ++ repeat 0 k ++ [d]) (Z.of_nat n + 1) = Ok c ->
  y = peval (u ++ repeat 0 k ++ [d]) r -> guess_test powers n c r y u = true.
Proof.
  intros Hr Hk HC ->. unfold guess_test, zero_pad. destruct (Nat.ltb_spec n (length u)); [lia|].
  replace (n - length u)%nat with k by lia. rewrite peval_pad, Hk.
  assert (fpow r n <> 0) by now apply fpow_neq_0.
  replace ((peval (u ++ repeat 0 k) r + fpow r n * d - peval (u ++ repeat 0 k) r) / fpow r n) with d by (field; auto).
  rewrite <- app_assoc, HC. now apply veqb_eq.
Qed.

(** the points at which the test accepts v although u is committed *)
Definition confusing (n : nat) (tau : F) (u v : list F) (r : F) : Prop :=
  fpow tau n * (peval u r - peval v r) = fpow r n * (peval u tau - peval v tau).

Lemma peval_pad0 u k r : peval (u ++ repeat 0 k) r = peval u r.
Proof. rewrite peval_app, peval_repeat0. ring. Qed.

Lemma guess_test_confusing N n tau (g : G1) c r y u v k d : g <> v0 -> r <> 0 -> (length u + k = n)%nat ->
  commit_vector (srs N tau g) (u ++ repeat 0 k ++ [d]) (Z.of_nat n + 1) = Ok c ->
  y = peval (u ++ repeat 0 k ++ [d]) r -> guess_test (srs N tau g) n c r y v = true -> confusing n tau u v r.
Proof.
  intros Hg Hr Hk HC -> HT. unfold guess_test, zero_pad in HT. destruct (Nat.ltb_spec n (length v)); [discriminate|].
  apply commit_vector_inv0 in HC; [|rewrite !app_length, repeat_length; cbn [length]; lia].
  destruct HC as [_ [_ ->]].
  destruct (commit_vector _ _ _) as [c'| |] eqn:EC in HT; try discriminate.
  apply commit_vector_inv0 in EC; [|rewrite !app_length, repeat_length; cbn [length]; lia].
  destruct EC as [_ [_ ->]]. apply veqb_eq in HT. apply vscale_inj in HT; auto.
  rewrite <- app_assoc, !peval_pad, Hk, !peval_pad0 in HT. replace (length v + (n - length v))%nat with n in HT by lia.
  unfold confusing. assert (fpow r n <> 0) as Hp by now apply fpow_neq_0.
  set (A := peval u r) in *. set (B := peval v r) in *. set (A' := peval u tau) in *. set (B' := peval v tau) in *.
  set (T := fpow tau n) in *. set (R := fpow r n) in *.
  assert (B' * R + T * (A + R * d - B) = (A' + T * d) * R) as E.
  { rewrite <- HT. field. auto. }
  transitivity (B' * R + T * (A + R * d - B) - B' * R - T * R * d); [ring|]. rewrite E. ring.
Qed.

Lemma confusing_few n tau u v : tau <> 0 -> (length u <= n)%nat -> (length v <= n)%nat -> ~ same_vector u v ->
  cnt n (confusing n tau u v).
Proof.
  intros Ht Hu Hv Hd.
  set (l := map (fun i => fpow tau n * (coef u i - coef v i)) (seq 0 n) ++ [- (peval u tau - peval v tau)]).
  assert (exists i, coef l i <> 0) as Hn.
  { destruct (nonzero_dec (map (fun i => coef u i - coef v i) (seq 0 n))) as [[i Hi]|H0].
    - exists i. unfold l. destruct (Nat.ltb_spec i n).
      + unfold coef in *. rewrite app_nth1 by (rewrite map_length, seq_length; auto).
        intros E. apply Hi. revert E. fold (coef (map (fun i => fpow tau n * (nth i u 0 - nth i v 0)) (seq 0 n)) i).
        fold (coef (map (fun i => nth i u 0 - nth i v 0) (seq 0 n)) i).
        rewrite !coef_map_seq by auto. rewrite ?Nat.add_0_l. intros E. apply fmul_integral in E. destruct E as [E|E]; auto.
        exfalso. revert E. now apply fpow_neq_0.
      + exfalso. apply Hi. apply coef_over. rewrite map_length, seq_length. auto.
    - exfalso. apply Hd. intros i. destruct (Nat.ltb_spec i n).
      + specialize (H0 i). rewrite coef_map_seq in H0 by auto. rewrite Nat.add_0_l in H0.
        transitivity (coef u i - coef v i + coef v i); [ring|]. rewrite H0. ring.
      + rewrite !coef_over; auto; lia. }
  apply (cnt_weaken n _ (fun r => (exists i, coef l i <> 0) /\ peval l r = 0)); auto.
  - intros r Hr. split; auto. unfold l. rewrite peval_app, map_length, seq_length. cbn [peval].
    assert (peval (map (fun i => fpow tau n * (coef u i - coef v i)) (seq 0 n)) r = fpow tau n * (peval u r - peval v r)) as ->.
    { rewrite peval_map_seq, (peval_sumn u r n), (peval_sumn v r n) by auto. rewrite <- sumn_sub, <- sumn_mul_l. apply sumn_ext. intros i _. rewrite Nat.add_0_l. ring. }
    unfold confusing in Hr. rewrite Hr. ring.
  - apply cnt_roots. unfold l. rewrite app_length, map_length, seq_length. cbn [length]. lia.
Qed.

(** from a description of the proofs *)
Lemma testable_intro {W Pf : Type} N n tau (g : G1) (powers : list G1) (differ : W -> W -> Prop) (proves : (list (item F G1) -> F) -> W -> Pf -> Prop)
  (point : (list (item F G1) -> F) -> Pf -> F) (cm : Pf -> G1) (val : Pf -> F) (secret : W -> option (list F)) test :
  g <> v0 -> tau <> 0 -> powers = srs N tau g ->
  (forall H pf w, test H pf w = match secret w with Some u => guess_test powers n (cm pf) (point H pf) (val pf) u | None => false end) ->
  (forall w w' u u', secret w = Some u -> secret w' = Some u' -> differ w w' -> ~ same_vector u u') ->
  (forall H w pf, proves H w pf -> exists u d k, secret w = Some u /\ (length u + k = n)%nat /\
    commit_vector powers (u ++ repeat 0 k ++ [d]) (Z.of_nat n + 1) = Ok (cm pf) /\
    (point H pf <> 0 -> val pf = peval (u ++ repeat 0 k ++ [d]) (point H pf))) ->
  guesses_testable n differ proves point test.
Proof.
  intros Hg Ht -> ET HD HP. split.
  - intros H w pf Hp Hr. rewrite ET. destruct (HP _ _ _ Hp) as [u [d [k [-> [Hk [HC HV]]]]]].
    now apply (guess_test_true _ _ _ _ _ _ k d); auto.
  - intros w w' Hd. destruct (secret w) as [u|] eqn:Eu.
    2:{ apply (most_intro n (fun _ => False)); [intros [|x l] _ Hb; [cbn; lia|destruct (Hb x); left; auto]|auto|].
        intros r _ H pf Hp _ _. destruct (HP _ _ _ Hp) as [u [d [k [E _]]]]. congruence. }
    destruct (secret w') as [u'|] eqn:Eu'.
    2:{ apply (most_intro n (fun _ => False)); [intros [|x l] _ Hb; [cbn; lia|destruct (Hb x); left; auto]|auto|].
        intros r _ H pf Hp _ _. now rewrite ET, Eu'. }
    destruct (le_lt_dec (length u) n) as [Lu|Lu].
    2:{ apply (most_intro n (fun _ => False)); [intros [|x l] _ Hb; [cbn; lia|destruct (Hb x); left; auto]|auto|].
        intros r _ H pf Hp _ _. destruct (HP _ _ _ Hp) as [u0 [d [k [E [Hk _]]]]]. rewrite Eu in E. injection E as <-. lia. }
    destruct (le_lt_dec (length u') n) as [Lu'|Lu'].
    2:{ apply (most_intro n (fun _ => False)); [intros [|x l] _ Hb; [cbn; lia|destruct (Hb x); left; auto]|auto|].
        intros r _ H pf Hp _ _. rewrite ET, Eu'. unfold guess_test, zero_pad. destruct (Nat.ltb_spec n (length u')); [auto|lia]. }
    apply (most_intro n (confusing n tau u u')).
    + apply confusing_few; auto. apply (HD w w'); auto.
    + intros r. unfold confusing. match goal with |- ?a = ?b \/ _ => destruct (feq_dec a b); auto end.
    + intros r Hb H pf Hp Hr Hr0. rewrite ET, Eu'. destruct (guess_test _ _ _ _ _ _) eqn:E; auto. exfalso. apply Hb.
      destruct (HP _ _ _ Hp) as [u0 [d [k [E0 [Hk [HC HV]]]]]]. rewrite Eu in E0. injection E0 as <-. rewrite Hr in *.
      now apply (guess_test_confusing N n tau g (cm pf) r (val pf) u u' k d); auto.
Qed.
End Leak.

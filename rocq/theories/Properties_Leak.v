(** Properties_Leak.v: proofs let anyone test guesses of the witness (C63).  Each prover hides the
    vector of its witness behind one random scalar, and reveals the value of the extended polynomial at
    one point.  The value determines the scalar, and the commitment then confirms or refutes a guess. *)
From Verif Require Import Base Spec Tools ToolsProofs MatProofs CS CSExtra KZG KZGProofs Snark SnarkProofs PovPE PovPEComplete Pov PovComplete
  R1 R1Complete RP RPComplete HP HPComplete SoundSpec PovSound LeakSpec Leak LeakProt Properties_Snark Properties_HP.
Local Open Scope F_scope.

Section S.
Context {F G1 G2 GT : Type} {fo : FieldOps F} {fl : FieldLaws F}
        {po : PairingOps F G1 G2 GT} {pl : PairingLaws F G1 G2 GT}.
Add Field Fplk : F_th.
Implicit Types (g : G1) (h : G2) (tau gamma : F).

Lemma rows_times_length (h k : nat) M (x w : list F) v : rows_times h k M x w = Some v -> length v = (3 * h)%nat.
Proof.
  unfold rows_times. destruct M as [[rows cols] vals].
  destruct (sparse_mvp _ _ _ _ _ _) as [u| |] eqn:E; try discriminate. intros [= <-].
  apply sparse_mvp_iff in E. destruct E as [_ [_ [_ [_ ->]]]]. rewrite map_length, seq_length. lia.
Qed.

Lemma same_vector_length (u v : list F) : length u = length v -> same_vector u v -> u = v.
Proof. intros L E. apply (nth_ext _ _ 0 0 L). intros i _. apply E. Qed.

(** The witness vectors (the three lists one after the other, up to trailing zeros) can be told apart. *)
Theorem c63_pov_guesses_testable gamma (d : nat) tau g h pp cs (pk : pv_pk F G1 G2) vk x :
  g <> v0 -> tau <> 0 -> setup d tau g h = Ok pp -> pv_index gamma pp cs = Ok (pk, vk) ->
  guesses_testable (3 * ps_n (pov_get_size cs))
    (fun w w' => let '(a, b, c) := w in let '(a', b', c') := w' in ~ same_vector (a ++ b ++ c) (a' ++ b' ++ c'))
    (fun H w pf => exists d0 d1 d2 : F, pv_prove (GT:=GT) H gamma pk x w d0 d1 d2 = Ok pf)
    (fun H pf => pv_point H vk x pf) (pv_test pk x).
Proof.
  intros Hg Ht Hs Hi. destruct (pv_index_inv _ _ _ _ _ _ _ _ _ Hs Hi) as [K1 [K2 [_ [K4 _]]]].
  apply (testable_intro (d + 1) _ tau g (pv_pk_powers pk) _ _ _ pv_cm_w_vec pv_pf_y
    (fun w => let '(a, b, c) := w in Some (a ++ b ++ c))); auto.
  - intros H pf [[a b] c]. unfold pv_test. rewrite K1, K4. reflexivity.
  - intros [[a b] c] [[a' b'] c'] u u' [= <-] [= <-]. auto.
  - intros H [[a b] c] pf [d0 [d1 [d2 E]]]. apply pv_reveals in E. cbv zeta in E. rewrite K1, K4 in E.
    destruct E as [k [Hk [HC HV]]]. exists (a ++ b ++ c), d0, k. auto.
Qed.

(** The left operands of the gates, and the right operands of the multiplication gates. *)
Theorem c63_pov_pe_guesses_testable gamma (d : nat) tau g h pp cs (pk : pe_pk F G1 G2) vk x :
  g <> v0 -> tau <> 0 -> setup d tau g h = Ok pp -> pe_index gamma pp cs = Ok (pk, vk) ->
  guesses_testable (3 * ps_n (pov_get_size cs))
    (fun w w' => ~ same_vector (pe_left (pov_get_size cs) w) (pe_left (pov_get_size cs) w'))
    (fun H w pf => exists d0 d1 d2 d3 : F, pe_prove (GT:=GT) H gamma pk x w d0 d1 d2 d3 = Ok pf)
    (fun H pf => pe_point H vk x pf) (pe_test pk x).
Proof.
  intros Hg Ht Hs Hi. destruct (pe_index_inv _ _ _ _ _ _ _ _ _ Hs Hi) as [K1 [K2 [_ [K4 _]]]].
  apply (testable_intro (d + 1) _ tau g (pe_pk_powers pk) _ _ _ pe_cm_u_vec pe_pf_y
    (fun w => Some (pe_left (pov_get_size cs) w))); auto.
  - intros H pf w. unfold pe_test. rewrite K1, K4. reflexivity.
  - intros w w' u u' [= <-] [= <-]. auto.
  - intros H w pf [d0 [d1 [d2 [d3 E]]]]. apply pe_reveals in E. cbv zeta in E. rewrite K1, K4 in E.
    destruct E as [k [Hk [HC HV]]]. exists (pe_left (pov_get_size cs) w), d0, k. auto.
Qed.

(** The private part of the assignment, whole. *)
Theorem c63_r1cs_guesses_testable gamma (d : nat) tau g h pp cs (pk : r1_pk F G1 G2) vk x :
  g <> v0 -> tau <> 0 -> setup d tau g h = Ok pp -> r1_index gamma pp cs = Ok (pk, vk) ->
  guesses_testable (r_ncols cs + length (r_arows cs) + length (r_brows cs) + length (r_crows cs))
    (fun w w' => ~ same_vector w w')
    (fun H w pf => exists d0 d1 d2 : F, r1_prove (GT:=GT) H gamma pk x w d0 d1 d2 = Ok pf)
    (fun H pf => r1_point H vk x pf) (r1_test pk x).
Proof.
  intros Hg Ht Hs Hi. destruct (r1_index_inv _ _ _ _ _ _ _ _ _ Hs Hi) as [K1 K2 _ K4 _ _ _ _ _ _ _ _ _ _ _ _ _].
  apply (testable_intro (d + 1) _ tau g (r1_pk_powers pk) _ _ _ r1_cm_u_vec_1 r1_pf_y_1
    (fun w => match rows_times (r_nrows cs) (r_ncols cs) (r1_pk_cap_m_mat pk) x w with Some v => Some (v ++ [1] ++ x ++ w) | None => None end)); auto.
  - intros H pf w. unfold r1_test. rewrite K1, K4. cbn [rs_nrows rs_ncols rs_adensity rs_bdensity rs_cdensity r1_size_of].
    destruct (rows_times _ _ _ _ _); reflexivity.
  - intros w w' u u' E E' HD HS. apply HD. intros i.
    destruct (rows_times _ _ _ x w) as [v|] eqn:Ev; [|discriminate]. destruct (rows_times _ _ _ x w') as [v'|] eqn:Ev'; [|discriminate].
    injection E as <-. injection E' as <-. apply rows_times_length in Ev, Ev'.
    specialize (HS (Nat.add (length (v ++ [1] ++ x)) i)). unfold coef in HS.
    replace (v ++ 1 :: x ++ w) with ((v ++ [1] ++ x) ++ w) in HS by (rewrite <- !app_assoc; reflexivity).
    replace (v' ++ 1 :: x ++ w') with ((v' ++ [1] ++ x) ++ w') in HS by (rewrite <- !app_assoc; reflexivity).
    rewrite app_nth2_plus in HS. replace (length (v ++ [1] ++ x)) with (length (v' ++ [1] ++ x)) in HS by (rewrite !app_length; lia).
    rewrite app_nth2_plus in HS. exact HS.
  - intros H w pf [d0 [d1 [d2 E]]]. apply r1_reveals in E. cbv zeta in E. rewrite K1, K4 in E.
    cbn [rs_nrows rs_ncols rs_adensity rs_bdensity rs_cdensity r1_size_of] in E.
    destruct E as [v [k [Ev [Hk [HC HV]]]]]. rewrite Ev. exists (v ++ [1] ++ x ++ w), d0, k. auto.
Qed.

(** The products of the rows of the matrices with the assignment. *)
Theorem c63_r1cs_pe_guesses_testable gamma (d : nat) tau g h pp cs (pk : rp_pk F G1 G2) vk x :
  g <> v0 -> tau <> 0 -> setup d tau g h = Ok pp -> rp_index gamma pp cs = Ok (pk, vk) ->
  guesses_testable (length (r_arows cs) + length (r_brows cs) + length (r_crows cs))
    (fun w w' => rows_times (r_nrows cs) (r_ncols cs) (rp_pk_cap_m_mat pk) x w <>
                 rows_times (r_nrows cs) (r_ncols cs) (rp_pk_cap_m_mat pk) x w')
    (fun H w pf => exists d0 d1 d2 d3 : F, rp_prove (GT:=GT) H gamma pk x w d0 d1 d2 d3 = Ok pf)
    (fun H pf => rp_point H vk x pf) (rp_test pk x).
Proof.
  intros Hg Ht Hs Hi. destruct (rp_index_inv _ _ _ _ _ _ _ _ _ Hs Hi) as [K1 K2 _ K4 _ _ _ _ _ _ _ _ _ _ _ _ _].
  apply (testable_intro (d + 1) _ tau g (rp_pk_powers pk) _ _ _ rp_cm_y_vec_1 rp_pf_y_1
    (fun w => rows_times (r_nrows cs) (r_ncols cs) (rp_pk_cap_m_mat pk) x w)); auto.
  - intros H pf w. unfold rp_test. rewrite K1, K4. cbn [rs_nrows rs_ncols rs_adensity rs_bdensity rs_cdensity r1_size_of].
    destruct (rows_times _ _ _ _ _); reflexivity.
  - intros w w' u u' E E' HD HS. apply HD. rewrite E, E'. f_equal.
    apply rows_times_length in E, E'. apply same_vector_length; auto; lia.
  - intros H w pf [d0 [d1 [d2 [d3 E]]]]. apply rp_reveals in E. cbv zeta in E. rewrite K1, K4 in E.
    cbn [rs_nrows rs_ncols rs_adensity rs_bdensity rs_cdensity r1_size_of] in E.
    destruct E as [v [k [Ev [Hk [HC HV]]]]]. exists v, d0, k. auto.
Qed.

(** The three witness vectors, one after the other. *)
Theorem c63_hpr_guesses_testable gamma (d : nat) tau g h pp cs (pk : hp_pk F G1 G2) vk x :
  g <> v0 -> tau <> 0 -> setup d tau g h = Ok pp -> hp_index gamma pp cs = Ok (pk, vk) ->
  guesses_testable (3 * h_ncols cs + hp_claimed cs + 1)
    (fun w w' => let '(a, b, c) := w in let '(a', b', c') := w' in ~ same_vector (a ++ b ++ c) (a' ++ b' ++ c'))
    (fun H w pf => exists d0 d1 d2 : F, hp_prove (GT:=GT) H gamma pk x w d0 d1 d2 = Ok pf)
    (fun H pf => hp_point H vk x pf) (hp_test pk x).
Proof.
  intros Hg Ht Hs Hi. destruct (hp_index_inv _ _ _ _ _ _ _ _ _ Hs Hi) as [K1 K2 _ K4 _ _ _ _ _ _ _ _ _ _ _ _ _].
  assert (forall size, size = hp_size_of cs -> (3 * hs_ncols size + hs_adensity size + hs_bdensity size + hs_cdensity size + hs_ddensity size + 1 = 3 * h_ncols cs + hp_claimed cs + 1)%nat) as EN.
  { intros size ->. unfold hp_claimed. cbn [hs_ncols hs_adensity hs_bdensity hs_cdensity hs_ddensity hp_size_of]. lia. }
  apply (testable_intro (d + 1) _ tau g (hp_pk_powers pk) _ _ _ hp_cm_w_vec_1 hp_pf_y_1
    (fun w => let '(a, b, c) := w in Some (a ++ b ++ c))); auto.
  - intros H pf [[a b] c]. unfold hp_test. rewrite K1, (EN _ K4). reflexivity.
  - intros [[a b] c] [[a' b'] c'] u u' [= <-] [= <-]. auto.
  - intros H [[a b] c] pf [d0 [d1 [d2 E]]]. apply hp_reveals in E. cbv zeta in E. rewrite K1, (EN _ K4) in E.
    destruct E as [k [Hk [HC HV]]]. exists (a ++ b ++ c), d0, k. auto.
Qed.
End S.

(** Two witnesses of the same instance, a proof of each, and the guesses of each. *)
Definition hp_guess cs x w guess d : outcome error (bool * bool) :=
  let! pp := setup101 d in
  let! kv := hp_index (GT:=F101) (f101 2) pp cs in
  let! pf := hp_prove (GT:=F101) H101 (f101 2) (fst kv) x w (f101 21) (f101 22) (f101 23) in
  Ok (feqb (hp_point H101 (snd kv) x pf) 0, hp_test (fst kv) x H101 pf guess).
Example c63_example :
  let x := l101 [30]%Z in
  let w := (l101 [2]%Z, l101 [3]%Z, l101 [6]%Z) in let w' := (l101 [0]%Z, l101 [13]%Z, l101 [0]%Z) in
  hp_run hpr_one x w 15 = Ok tt /\ hp_run hpr_one x w' 15 = Ok tt /\
  hp_guess hpr_one x w w 15 = Ok (false, true) /\ hp_guess hpr_one x w w' 15 = Ok (false, false) /\
  hp_guess hpr_one x w' w' 15 = Ok (false, true) /\ hp_guess hpr_one x w' w 15 = Ok (false, false).
Proof.
  split; [vm_cast_no_check (@eq_refl (outcome error unit) (Ok tt))|]. split; [vm_cast_no_check (@eq_refl (outcome error unit) (Ok tt))|].
  split; [vm_cast_no_check (@eq_refl (outcome error (bool * bool)) (Ok (false, true)))|].
  split; [vm_cast_no_check (@eq_refl (outcome error (bool * bool)) (Ok (false, false)))|].
  split; [vm_cast_no_check (@eq_refl (outcome error (bool * bool)) (Ok (false, true)))|].
  vm_cast_no_check (@eq_refl (outcome error (bool * bool)) (Ok (false, false))).
Qed.

Print Assumptions c63_pov_guesses_testable.
Print Assumptions c63_pov_pe_guesses_testable.
Print Assumptions c63_r1cs_guesses_testable.
Print Assumptions c63_r1cs_pe_guesses_testable.
Print Assumptions c63_hpr_guesses_testable.

(** FibValue.v: the checks of the Fibonacci prover succeed exactly when all constraint sums vanish,
    and the value of its combined polynomial. *)
From Verif Require Import Base Spec Tools ToolsProofs ToolsProofs2 CS KZG KZGProofs Snark Laurent SnarkProofs SnarkPerm PovPEConst Fib FibProofs.
Local Open Scope F_scope.

Section EVmore.
Context {F : Type} {fo : FieldOps F} {fl : FieldLaws F}.
Add Field Fev : F_th.
Lemma EV_val N x (f : Z -> F) a b : a = b -> EV N x f a -> EV N x f b.
Proof. intros ->; auto. Qed.
Lemma EV_ext N x (f k : Z -> F) a : (forall i, f i = k i) -> EV N x k a -> EV N x f a.
Proof. intros E <-. unfold EV. rewrite !eval_vector_expression_sum. apply sumn_ext. intros; now rewrite E. Qed.
Lemma EV_opp N x (f : Z -> F) a : EV N x f a -> EV N x (fun i => - f i) (- a).
Proof. unfold EV. intros <-. rewrite !eval_vector_expression_sum, <- sumn_opp. apply sumn_ext. intros; ring. Qed.
Lemma EV_sub N x (f k : Z -> F) a b : EV N x f a -> EV N x k b -> EV N x (fun i => f i - k i) (a - b).
Proof. unfold EV. intros <- <-. rewrite !eval_vector_expression_sum, <- sumn_sub. apply sumn_ext. intros; ring. Qed.
Lemma EV_scale_r N x (f : Z -> F) a c : EV N x f a -> EV N x (fun i => f i * c) (a * c).
Proof. unfold EV. intros <-. rewrite !eval_vector_expression_sum, <- sumn_mul_r. apply sumn_ext. intros; ring. Qed.
Lemma EV_delta N x (k : Z) : (1 <= k <= N)%Z -> EV N x (fun i => delta i k : F) (fpow x (Z.to_nat (k - 1))).
Proof.
  intros Hk. unfold EV. rewrite eval_vector_expression_sum. rewrite (sumn_single _ (Z.to_nat (k - 1))); [|lia|].
  - replace (Z.of_nat (S (Z.to_nat (k - 1)))) with k by lia. unfold delta. rewrite Z.eqb_refl. ring.
  - intros i Hi Hn. rewrite delta_neq by lia. ring.
Qed.
(** a range s..t seen through the index [E i = i - o] *)
Lemma EV_range N x (s u o : Z) E : (forall i, E i = i - o)%Z -> (1 <= s + o)%Z -> (s <= u + 1)%Z -> (u + o <= N)%Z ->
  EV N x (fun i => range_index s u (E i) : F) (fpow x (Z.to_nat (s + o - 1)) * geo x (Z.to_nat (u - s + 1))).
Proof.
  intros HE H1 H2 H3. unfold EV. rewrite eval_vector_expression_sum.
  replace (Z.to_nat N) with (Z.to_nat (s + o - 1) + (Z.to_nat (u - s + 1) + Z.to_nat (N - u - o)))%nat by lia.
  rewrite sumn_split, (sumn_0 (Z.to_nat (s + o - 1))) by (intros i Hi; rewrite HE, range_out by lia; ring).
  rewrite sumn_split, (sumn_0 (Z.to_nat (N - u - o))) by (intros i Hi; rewrite HE, range_out by lia; ring).
  unfold geo. rewrite <- sumn_mul_l.
  match goal with |- 0 + (?a + 0) = ?b => transitivity a; [ring|] end.
  apply sumn_ext. intros i Hi. rewrite HE, range_in by lia. rewrite fpow_add. ring.
Qed.
Lemma EV_one N x (f : Z -> F) : (1 <= N)%Z -> (forall i, (2 <= i <= N)%Z -> f i = 0) -> EV N x f (f 1%Z).
Proof.
  intros HN H. unfold EV. rewrite eval_vector_expression_sum. rewrite (sumn_single _ 0); [|lia|].
  - cbn [fpow]. ring_simplify. reflexivity.
  - intros i Hi Hn. rewrite H by lia. ring.
Qed.
Lemma peval_add_expr (u : list F) f x v : EV (Z.of_nat (length u)) x f v ->
  peval (add_expression_vector_to_vector u f) x = peval u x + v.
Proof.
  intros <-. rewrite eval_vector_expression_sum, Nat2Z.id.
  rewrite (peval_sumn (add_expression_vector_to_vector u f) x (length u)) by (rewrite add_expression_vector_length; auto).
  rewrite (peval_sumn u x (length u)), <- sumn_add by auto. apply sumn_ext. intros i Hi.
  rewrite coef_add_expression_vector by auto. ring.
Qed.
Lemma vidx_add_expr (u : list F) f i : (1 <= i <= Z.of_nat (length u))%Z ->
  vidx (add_expression_vector_to_vector u f) i = vidx u i + f i.
Proof.
  intros Hi. replace i with (Z.of_nat (S (Z.to_nat (i - 1)))) at 1 2 by lia. rewrite !vidx_S.
  rewrite coef_add_expression_vector by lia. do 2 f_equal. lia.
Qed.
Lemma assert_feqb_ok {E} (a b : F) : a = b -> assert_ (E:=E) (feqb a b) = Ok tt.
Proof. intros ->. now rewrite feqb_refl. Qed.
End EVmore.

Section FibValue.
Context {F : Type} {fo : FieldOps F} {fl : FieldLaws F}.
Add Field Ffv : F_th.
Section Alg.
Variable e : fb_s3 F.
Hypothesis SZ : fb_sizes e.
Notation n := (fb_n e).
Notation al := (fb_alpha e).
Notation om := (fb_omega e).
Notation w := (fb_w_vec e).
Notation r := (fb_r_vec e).
Notation t := (fb_pk_t_vec e).
Notation t1 := (fb_t_vec_1 e).
Notation NN := (n + 3)%Z.

(** the constraint sum at position i *)
Definition fb_sum_at (i : Z) : F := fb_sum_vec_add_1 e i + fb_sum_vec_add_2 e i + fb_sum_vec_add_3 e i
  + fb_sum_vec_add_4 e i + fb_sum_vec_add_5 e i + fb_sum_vec_add_6 e i + fb_sum_vec_add_7 e i.

Lemma fb_sum_len : length (fb_sum_vec_7 e) = Z.to_nat NN.
Proof.
  unfold fb_sum_vec_7, fb_sum_vec_6, fb_sum_vec_5, fb_sum_vec_4, fb_sum_vec_3, fb_sum_vec_2, fb_sum_vec_1, fb_sum_vec_0.
  rewrite !add_expression_vector_length, repeat_length, fb_M. reflexivity.
Qed.
Lemma fb_sum_coef i : (1 <= i <= NN)%Z -> vidx (fb_sum_vec_7 e) i = fb_sum_at i.
Proof.
  intros Hi. unfold fb_sum_at, fb_sum_vec_7, fb_sum_vec_6, fb_sum_vec_5, fb_sum_vec_4, fb_sum_vec_3, fb_sum_vec_2, fb_sum_vec_1, fb_sum_vec_0.
  rewrite !vidx_add_expr by (rewrite ?add_expression_vector_length, repeat_length, fb_M; lia).
  replace (vidx (repeat 0 (Z.to_nat (fb_maxshift e + fb_n_1 e + 1))) i) with (0 : F); [ring|].
  symmetry. rewrite vidx_in by lia. apply coef_repeat_0.
Qed.
Lemma fb_check_9_iff : fb_check_9 e = Ok tt <-> forall i, (1 <= i <= NN)%Z -> fb_sum_at i = 0.
Proof.
  unfold fb_check_9. split.
  - intros H i Hi. apply check_vector_eq_inv in H. rewrite <- fb_sum_coef by auto. rewrite H, vidx_in by lia. apply coef_repeat_0.
  - intros H. apply check_vector_eq_ok; rewrite fb_sum_len; [rewrite repeat_length; reflexivity|].
    intros i Hi. rewrite coef_repeat_0, <- vidx_S, fb_sum_coef by lia. apply H. lia.
Qed.
(** the constant term of the product polynomial *)
Hypothesis Hom : om <> 0.
Lemma fb_const : fb_at_sum e NN = sumZ 1 (Z.to_nat NN) (fun i => fpowZ om (i - 1) * fb_sum_at i).
Proof.
  assert (1 <= NN <= 2 * NN - 1)%Z as Hi by (destruct SZ; lia). unfold fb_at_sum.
  rewrite <- (proj2 (fb_conv_1 e SZ Hom)), <- (proj2 (fb_conv_2 e SZ Hom)), <- (proj2 (fb_conv_3 e SZ Hom)), <- (proj2 (fb_conv_4 e SZ Hom)),
    <- (proj2 (fb_conv_5 e SZ Hom)), <- (proj2 (fb_conv_6 e SZ Hom)), <- (proj2 (fb_conv_7 e SZ Hom)) by auto.
  unfold fb_abnaive_vec, fb_abnaive_vec_1, fb_abnaive_vec_2, fb_abnaive_vec_3, fb_abnaive_vec_4, fb_abnaive_vec_5, fb_abnaive_vec_6.
  rewrite !fb_M. rewrite !vidx_in by (destruct SZ; lia). rewrite !conv_coef.
  2-22: auto; try (destruct SZ; lia); intros i Hii.
  2: apply fb_t1_out; auto; unfold minus_i64, fb_n_1; destruct SZ; lia.
  2: unfold fb_abnaive_vec_5_right, minus_i64; rewrite range_out, !delta_neq by (destruct SZ; lia); ring.
  2-3: apply delta_neq; destruct SZ; lia.
  2: apply vidx_out; unfold minus_i64; destruct SZ; lia.
  2: unfold fb_abnaive_vec_1_right, minus_i64; rewrite range_out by (destruct SZ; lia); auto.
  2: apply delta_neq; destruct SZ; lia.
  rewrite <- !sumZ_add. apply sumZ_ext. intros i Hii.
  replace (i + Z.of_nat (Z.to_nat (NN - 1)) - NN + 1)%Z with i by lia.
  unfold fb_sum_at, fb_sum_vec_add_1, fb_sum_vec_add_2, fb_sum_vec_add_3, fb_sum_vec_add_4, fb_sum_vec_add_5, fb_sum_vec_add_6, fb_sum_vec_add_7,
    fb_abnaive_vec_left, fb_abnaive_vec_1_left, fb_abnaive_vec_2_left, fb_abnaive_vec_3_left, fb_abnaive_vec_4_left, fb_abnaive_vec_5_left, fb_abnaive_vec_6_left,
    fb_abnaive_vec_right, fb_abnaive_vec_1_right, fb_abnaive_vec_2_right, fb_abnaive_vec_3_right, fb_abnaive_vec_4_right, fb_abnaive_vec_5_right, fb_abnaive_vec_6_right.
  ring.
Qed.
Lemma fb_osum : fb_h_osum e = sumZ 1 (Z.to_nat NN) (fun i => fpowZ om (i - 1) * fb_sum_at i).
Proof.
  unfold fb_h_osum, fb_osum_1, fb_osum_2, fb_osum_3, fb_osum_4, fb_osum_5, fb_osum_6, fb_osum_7. rewrite fb_M.
  rewrite !eval_vector_expression_sum. unfold sumZ.
  match goal with |- 0 + ?a + ?b + ?c + ?d + ?x + ?y + ?z = _ => transitivity (a + b + c + d + x + y + z); [ring|] end.
  rewrite <- !sumn_add. apply sumn_ext. intros i Hi.
  replace (Z.of_nat (S i)) with (1 + Z.of_nat i)%Z by lia.
  replace (1 + Z.of_nat i - 1)%Z with (Z.of_nat i) by lia. rewrite fpowZ_nat.
  unfold fb_sum_at. change (fb_osum_at_1 e) with (fb_sum_vec_add_1 e). change (fb_osum_at_2 e) with (fb_sum_vec_add_2 e).
  change (fb_osum_at_3 e) with (fb_sum_vec_add_3 e). change (fb_osum_at_4 e) with (fb_sum_vec_add_4 e).
  change (fb_osum_at_5 e) with (fb_sum_vec_add_5 e). change (fb_osum_at_6 e) with (fb_sum_vec_add_6 e).
  change (fb_osum_at_7 e) with (fb_sum_vec_add_7 e). ring.
Qed.
Lemma fb_hcheck i : (1 <= i <= 2 * NN - 1)%Z -> vidx (fb_hcheck_vec_7 e) i = fb_at_sum e i.
Proof.
  intros Hi. unfold fb_hcheck_vec_7, fb_hcheck_vec_6, fb_hcheck_vec_5, fb_hcheck_vec_4, fb_hcheck_vec_3, fb_hcheck_vec_2, fb_hcheck_vec_1, add_vector_to_vector.
  rewrite !vidx_add_expr by (rewrite ?add_expression_vector_length; unfold fb_hcheck_vec_0; rewrite repeat_length, fb_2M; lia).
  unfold fb_at_sum.
  rewrite <- (proj2 (fb_conv_1 e SZ Hom)), <- (proj2 (fb_conv_2 e SZ Hom)), <- (proj2 (fb_conv_3 e SZ Hom)), <- (proj2 (fb_conv_4 e SZ Hom)),
    <- (proj2 (fb_conv_5 e SZ Hom)), <- (proj2 (fb_conv_6 e SZ Hom)), <- (proj2 (fb_conv_7 e SZ Hom)) by auto.
  unfold fb_hcheck_vec_0. rewrite (vidx_in (repeat _ _)) by lia. rewrite coef_repeat_0. ring.
Qed.
Lemma fb_h1_at i : fb_h_vec_1_at e i = fb_at_sum e i.
Proof. change (fb_h_vec_1_at e i) with (fb_h_vec_at e i). apply fb_h_at_sum. Qed.
Lemma fb_h2_at i : fb_h_vec_2_at e i = fb_at_sum e (i + NN).
Proof.
  transitivity (fb_h_vec_at e (i + NN)); [|apply fb_h_at_sum].
  assert (i + NN - fb_maxshift e - fb_n_1 e = i + 1)%Z as E by (unfold fb_maxshift, fb_n_1; lia).
  unfold fb_h_vec_at. rewrite E. reflexivity.
Qed.
Lemma fb_assert_12 : fb_assert_12_l e = fb_at_sum e NN.
Proof.
  transitivity (fb_h_vec_at e NN); [|apply fb_h_at_sum].
  assert (NN - fb_maxshift e - fb_n_1 e = 1)%Z as E by (unfold fb_maxshift, fb_n_1; lia).
  unfold fb_h_vec_at. rewrite E. reflexivity.
Qed.
Lemma fb_h_len : length (fb_h_vec e) = Z.to_nat (2 * NN - 1).
Proof. unfold fb_h_vec. now rewrite expression_vector_length, fb_2M. Qed.
Lemma fb_h1_len : length (fb_h_vec_1 e) = Z.to_nat (NN - 1).
Proof. unfold fb_h_vec_1. rewrite expression_vector_length. unfold fb_maxshift, fb_n_1. f_equal. lia. Qed.
Lemma fb_h2_len : length (fb_h_vec_2 e) = Z.to_nat (NN - 1).
Proof. unfold fb_h_vec_2. rewrite expression_vector_length. unfold fb_maxshift, fb_n_1. f_equal. lia. Qed.

(** *** The first group of checks *)
Lemma fb_checks_1_ok : (forall i, (1 <= i <= NN)%Z -> fb_sum_at i = 0) -> fb_checks_1 e = Ok tt.
Proof.
  intros G. assert (fb_at_sum e NN = 0) as G0.
  { rewrite fb_const. apply sumZ_0. intros i Hi. rewrite G by lia. ring. }
  unfold fb_checks_1.
  rewrite (proj1 (fb_conv_1 e SZ Hom)), (proj1 (fb_conv_2 e SZ Hom)), (proj1 (fb_conv_3 e SZ Hom)), (proj1 (fb_conv_4 e SZ Hom)),
    (proj1 (fb_conv_5 e SZ Hom)), (proj1 (fb_conv_6 e SZ Hom)), (proj1 (fb_conv_7 e SZ Hom)). cbn [obind].
  unfold fb_check_8, fb_assert_8_l, fb_assert_8_r. rewrite assert_feqb_ok by (rewrite fb_osum, <- fb_const; auto). cbn [obind].
  rewrite (proj2 fb_check_9_iff G). cbn [obind].
  assert (1 <= NN)%Z as HN by (destruct SZ; lia).
  assert (fb_check_10 e = Ok tt) as ->.
  { unfold fb_check_10. apply check_vector_eq_ok.
    - rewrite fb_h_len. unfold fb_hcheck_vec_7, fb_hcheck_vec_6, fb_hcheck_vec_5, fb_hcheck_vec_4, fb_hcheck_vec_3, fb_hcheck_vec_2, fb_hcheck_vec_1, fb_hcheck_vec_0, add_vector_to_vector.
      rewrite !add_expression_vector_length, repeat_length, fb_2M. reflexivity.
    - rewrite fb_h_len. intros i Hi. rewrite <- !vidx_S, fb_hcheck by lia. rewrite vidx_S. unfold fb_h_vec.
      rewrite nth_expression_vector by (rewrite fb_2M; lia). apply fb_h_at_sum. }
  cbn [obind].
  assert (fb_check_11 e = Ok tt) as ->.
  { unfold fb_check_11, vector_concat. cbn [concat]. rewrite app_nil_r. apply check_vector_eq_ok.
    - rewrite fb_h_len, !app_length, fb_h1_len, fb_h2_len. cbn [length]. lia.
    - rewrite fb_h_len. intros i Hi. rewrite coef_app, fb_h1_len. unfold fb_h_vec.
      rewrite nth_expression_vector by (rewrite fb_2M; lia). rewrite fb_h_at_sum.
      destruct (Nat.ltb_spec i (Z.to_nat (NN - 1))) as [Hl|Hl].
      + unfold fb_h_vec_1. rewrite nth_expression_vector by (unfold fb_maxshift, fb_n_1; lia). now rewrite fb_h1_at.
      + rewrite coef_app. cbn [length]. destruct (Nat.ltb_spec (i - Z.to_nat (NN - 1)) 1).
        * replace (i - Z.to_nat (NN - 1))%nat with 0%nat by lia. cbn [coef nth].
          replace (Z.of_nat (S i)) with NN by lia. exact G0.
        * unfold fb_h_vec_2. rewrite nth_expression_vector by (unfold fb_maxshift, fb_n_1; lia).
          rewrite fb_h2_at. f_equal. lia. }
  cbn [obind]. unfold fb_check_12, fb_assert_12_r. rewrite assert_feqb_ok by (rewrite fb_assert_12; exact G0). reflexivity.
Qed.
Lemma fb_checks_1_inv : fb_checks_1 e = Ok tt -> forall i, (1 <= i <= NN)%Z -> fb_sum_at i = 0.
Proof.
  intros H. unfold fb_checks_1 in H. do 8 (apply obind_ok in H; destruct H as [[] [_ H]]).
  apply obind_ok in H. destruct H as [[] [H _]]. now apply fb_check_9_iff.
Qed.

(** *** Values at the evaluation point *)
Variable z : F.
Hypothesis Hz : z <> 0.
Hypothesis Hz1 : z <> 1.
Hypothesis Hoz : om <> z.
Notation x := (om / z).
Notation q := (fb_ctx_of e z).

Ltac ev_leaf :=
  lazymatch goal with
  | |- EV _ _ (fun i => delta i _) _ => apply EV_delta
  | |- EV _ _ (fun i => range_index _ _ (minus_i64 i ?b0)) _ => apply EV_range with (o := (b0 - 1)%Z); [unfold minus_i64; intros; lia|..]
  | |- EV _ _ (fun i => vidx _ (minus_i64 i ?b0)) _ => apply EV_shift with (o := Z.to_nat (b0 - 1)); [|unfold minus_i64; intros; lia]
  | |- EV _ _ (fun i => vidx _ i) _ => apply EV_list
  end.
Ltac ev_tree := repeat first [ apply EV_add | apply EV_sub | apply EV_scale | apply EV_scale_r | apply EV_opp ]; ev_leaf.
Ltac ev_go := eapply EV_val; [|ev_tree; try lia].

Lemma fb_x : x <> 0.
Proof. intros E. apply Hom. transitivity (x * z); [field; auto|rewrite E; ring]. Qed.
Lemma fb_yv : fb_y e z = peval w x /\ fb_y_1 e z = peval t x /\ fb_y_2 e z = peval r x.
Proof. destruct SZ. unfold fb_y, fb_y_1, fb_y_2, fb_n_1. rewrite !eval_vidx by lia. auto. Qed.
Notation y := (peval w x).
Notation y1 := (peval t x).
Notation y2 := (peval r x).

Lemma fb_A1 : EV NN x (fb_abnaive_vec_left e) (- fb_a e - fb_b e * y1 + y).
Proof.
  destruct SZ. unfold fb_abnaive_vec_left, fb_c_2. ev_go. change (Z.to_nat (1 - 1)) with 0%nat. cbn [fpow]. ring.
Qed.
Lemma fb_A2 : EV NN x (fb_abnaive_vec_1_left e) (al * y2).
Proof. destruct SZ. unfold fb_abnaive_vec_1_left. ev_go. change (Z.to_nat (1 - 1)) with 0%nat. cbn [fpow]. ring. Qed.
Lemma fb_A3 : EV NN x (fb_abnaive_vec_2_left e) (- al * x * y).
Proof. destruct SZ. unfold fb_abnaive_vec_2_left, fb_c_1. ev_go. change (Z.to_nat (2 - 1)) with 1%nat. cbn [fpow]. ring. Qed.
Lemma fb_A4 : EV NN x (fb_abnaive_vec_3_left e) (power al 2 * (- fb_b e * x + y - y2)).
Proof.
  destruct SZ. unfold fb_abnaive_vec_3_left, fb_c_4, fb_c_5. ev_go.
  change (Z.to_nat (2 - 1)) with 1%nat. change (Z.to_nat (1 - 1)) with 0%nat. cbn [fpow]. ring.
Qed.
Lemma fb_A5 : EV NN x (fb_abnaive_vec_4_left e) (power al 3 * (- fb_c e * fpow x (Z.to_nat (n - 1)) + y)).
Proof.
  destruct SZ. unfold fb_abnaive_vec_4_left, fb_c_6. ev_go. change (Z.to_nat (1 - 1)) with 0%nat. cbn [fpow]. ring.
Qed.
Lemma fb_A6 : EV NN x (fb_abnaive_vec_5_left e) (power al 4 * (y - y2 - x * x * y)).
Proof.
  destruct SZ. unfold fb_abnaive_vec_5_left, fb_c_7, fb_c_8. ev_go. change (Z.to_nat (1 - 1)) with 0%nat. change (Z.to_nat (3 - 1)) with 2%nat. cbn [fpow]. ring.
Qed.
Lemma fb_A7 : EV NN x (fb_abnaive_vec_6_left e) (- (fpow x (Z.to_nat n) * geo x 3)).
Proof.
  destruct SZ. unfold fb_abnaive_vec_6_left, fb_maxshift, fb_n_1. ev_go. change (Z.to_nat (2 + 1 - 1 + 1)) with 3%nat.
  do 3 f_equal. lia.
Qed.
Lemma fb_t1_delta i : vidx t1 i = vidx t1 1 * delta i 1.
Proof.
  unfold delta. destruct (Z.eqb_spec i 1) as [->|]; [ring|]. rewrite (fb_t1_out e SZ i) by lia. ring.
Qed.
Lemma fb_t1_val v : peval t1 v = vidx t1 1.
Proof.
  rewrite <- (eval_vidx t1 v 5) by (rewrite (fb_t1_len e SZ); lia).
  apply (EV_one 5 v (fun i => vidx t1 i)); [lia|]. intros i Hi. apply (fb_t1_out e SZ). lia.
Qed.
Lemma fb_B1 D : (1 <= D)%Z -> EV D z (fb_abnaive_vec_right e) 1.
Proof. intros. unfold fb_abnaive_vec_right. ev_go. reflexivity. Qed.
Lemma fb_B2 D : (n <= D)%Z -> EV D z (fb_abnaive_vec_1_right e) (geo z (Z.to_nat n)).
Proof. intros. destruct SZ. unfold fb_abnaive_vec_1_right. ev_go. change (Z.to_nat (1 + (1 - 1) - 1)) with 0%nat. cbn [fpow].
  replace (n - 1 + 1)%Z with n by lia. ring. Qed.
Lemma fb_B3 D : (n <= D)%Z -> EV D z (fb_abnaive_vec_2_right e) (peval t z).
Proof. intros. destruct SZ. unfold fb_abnaive_vec_2_right. ev_go. change (Z.to_nat (1 - 1)) with 0%nat. cbn [fpow]. ring. Qed.
Lemma fb_B4 D : (2 <= D)%Z -> EV D z (fb_abnaive_vec_3_right e) z.
Proof. intros. unfold fb_abnaive_vec_3_right. ev_go. change (Z.to_nat (2 - 1)) with 1%nat. cbn [fpow]. ring. Qed.
Lemma fb_B5 D : (n <= D)%Z -> EV D z (fb_abnaive_vec_4_right e) (fpow z (Z.to_nat (n - 1))).
Proof. intros. destruct SZ. unfold fb_abnaive_vec_4_right. ev_go. reflexivity. Qed.
Lemma fb_B6 D : (n <= D)%Z -> EV D z (fb_abnaive_vec_5_right e) (geo z (Z.to_nat n) - z - 1).
Proof. intros. destruct SZ. unfold fb_abnaive_vec_5_right. ev_go. change (Z.to_nat (1 + (1 - 1) - 1)) with 0%nat.
  change (Z.to_nat (2 - 1)) with 1%nat. change (Z.to_nat (1 - 1)) with 0%nat. cbn [fpow].
  replace (n - 1 + 1)%Z with n by lia. ring. Qed.
Lemma fb_B7 D : (n <= D)%Z -> EV D z (fb_abnaive_vec_6_right e) (fpow z (Z.to_nat (n - 1)) * peval t1 z).
Proof.
  intros. destruct SZ. rewrite fb_t1_val. apply EV_ext with (k := fun i => vidx t1 1 * delta i n).
  - intros i. unfold fb_abnaive_vec_6_right. rewrite fb_t1_delta. unfold minus_i64, fb_n_1. f_equal.
    unfold delta. destruct (Z.eqb_spec i (fb_n e)) as [H1|H1], (Z.eqb_spec (i - fb_n e + 1) 1) as [H2|H2]; auto; lia.
  - ev_go. ring.
Qed.
(** the value of the product polynomial *)
Definition fb_val : F :=
  (- fb_a e - fb_b e * y1 + y) * 1 + al * y2 * geo z (Z.to_nat n) + - al * x * y * peval t z
  + power al 2 * (- fb_b e * x + y - y2) * z
  + power al 3 * (- fb_c e * fpow x (Z.to_nat (n - 1)) + y) * fpow z (Z.to_nat (n - 1))
  + power al 4 * (y - y2 - x * x * y) * (geo z (Z.to_nat n) - z - 1)
  + - (fpow x (Z.to_nat n) * geo x 3) * (fpow z (Z.to_nat (n - 1)) * peval t1 z).
Lemma fb_h_val : peval (fb_h_vec e) z = fpow z (Z.to_nat (NN - 1)) * fb_val.
Proof.
  assert (1 <= NN)%Z as HN by (destruct SZ; lia).
  assert (forall A B a b, EV NN x A a -> EV NN z B b ->
    peval (vector_poly_mul (expression_vector A NN) (expression_vector B NN) om) z = fpow z (Z.to_nat (NN - 1)) * (a * b)) as P.
  { intros A B a b HA HB. apply fmul_cancel_l with (a := z); auto. rewrite peval_vector_poly_mul by auto.
    rewrite !peval_expression_vector, expression_vector_length. unfold EV in HA, HB. rewrite HA, HB.
    replace (Z.to_nat NN) with (S (Z.to_nat (NN - 1))) by lia. cbn [fpow]. ring. }
  transitivity (peval (fb_abnaive_vec e) z + peval (fb_abnaive_vec_1 e) z + peval (fb_abnaive_vec_2 e) z + peval (fb_abnaive_vec_3 e) z
    + peval (fb_abnaive_vec_4 e) z + peval (fb_abnaive_vec_5 e) z + peval (fb_abnaive_vec_6 e) z).
  - rewrite (peval_sumn (fb_h_vec e) z (Z.to_nat (2 * NN - 1))) by (rewrite fb_h_len; auto).
    assert (forall A B, (length (vector_poly_mul (expression_vector A NN) (expression_vector B NN) om) <= Z.to_nat (2 * NN - 1))%nat) as L.
    { intros A B. pose proof (poly_mul_length_le (expression_vector A NN) (expression_vector B NN) om) as L.
      rewrite !expression_vector_length in L. lia. }
    rewrite (peval_sumn (fb_abnaive_vec e) z (Z.to_nat (2 * NN - 1))), (peval_sumn (fb_abnaive_vec_1 e) z (Z.to_nat (2 * NN - 1))),
      (peval_sumn (fb_abnaive_vec_2 e) z (Z.to_nat (2 * NN - 1))), (peval_sumn (fb_abnaive_vec_3 e) z (Z.to_nat (2 * NN - 1))),
      (peval_sumn (fb_abnaive_vec_4 e) z (Z.to_nat (2 * NN - 1))), (peval_sumn (fb_abnaive_vec_5 e) z (Z.to_nat (2 * NN - 1))),
      (peval_sumn (fb_abnaive_vec_6 e) z (Z.to_nat (2 * NN - 1)));
      try (unfold fb_abnaive_vec, fb_abnaive_vec_1, fb_abnaive_vec_2, fb_abnaive_vec_3, fb_abnaive_vec_4, fb_abnaive_vec_5, fb_abnaive_vec_6; rewrite fb_M; apply L).
    rewrite <- !sumn_add. apply sumn_ext. intros i Hi. rewrite <- !vidx_S.
    rewrite (proj2 (fb_conv_1 e SZ Hom)), (proj2 (fb_conv_2 e SZ Hom)), (proj2 (fb_conv_3 e SZ Hom)), (proj2 (fb_conv_4 e SZ Hom)),
      (proj2 (fb_conv_5 e SZ Hom)), (proj2 (fb_conv_6 e SZ Hom)), (proj2 (fb_conv_7 e SZ Hom)) by lia.
    rewrite vidx_S. unfold fb_h_vec. rewrite nth_expression_vector by (rewrite fb_2M; lia). rewrite fb_h_at_sum. unfold fb_at_sum. ring.
  - unfold fb_abnaive_vec, fb_abnaive_vec_1, fb_abnaive_vec_2, fb_abnaive_vec_3, fb_abnaive_vec_4, fb_abnaive_vec_5, fb_abnaive_vec_6. rewrite !fb_M.
    assert (2 <= n)%Z as H2 by (destruct SZ; lia).
    rewrite (P _ _ _ _ fb_A1 (fb_B1 NN ltac:(lia))), (P _ _ _ _ fb_A2 (fb_B2 NN ltac:(lia))), (P _ _ _ _ fb_A3 (fb_B3 NN ltac:(lia))),
      (P _ _ _ _ fb_A4 (fb_B4 NN ltac:(lia))), (P _ _ _ _ fb_A5 (fb_B5 NN ltac:(lia))), (P _ _ _ _ fb_A6 (fb_B6 NN ltac:(lia))),
      (P _ _ _ _ fb_A7 (fb_B7 NN ltac:(lia))). unfold fb_val. ring.
Qed.
Lemma fb_powm (v : F) (k : Z) : v <> 0 -> (0 <= k)%Z -> fpow v (Z.to_nat k) = fpowZ v k.
Proof. intros Hv Hk. now rewrite fpowZ_nonneg. Qed.
Lemma fb_halves : fb_at_sum e NN = 0 -> peval (fb_h_vec e) z = peval (fb_h_vec_1 e) z + fpow z (Z.to_nat NN) * peval (fb_h_vec_2 e) z.
Proof.
  intros G0. assert (1 <= NN)%Z as HN by (destruct SZ; lia).
  transitivity (peval (fb_h_vec_1 e ++ [0] ++ fb_h_vec_2 e) z).
  - apply peval_ext. intros i. rewrite coef_app, coef_app, fb_h1_len. cbn [length].
    destruct (Nat.lt_ge_cases i (Z.to_nat (2 * NN - 1))) as [Hi|Hi].
    + unfold fb_h_vec. rewrite nth_expression_vector by (rewrite fb_2M; lia). rewrite fb_h_at_sum.
      destruct (Nat.ltb_spec i (Z.to_nat (NN - 1))) as [Hl|Hl].
      * unfold fb_h_vec_1. rewrite nth_expression_vector by (unfold fb_maxshift, fb_n_1; lia). now rewrite fb_h1_at.
      * destruct (Nat.ltb_spec (i - Z.to_nat (NN - 1)) 1).
        -- replace (i - Z.to_nat (NN - 1))%nat with 0%nat by lia. cbn [coef nth].
          replace (Z.of_nat (S i)) with NN by lia. exact G0.
        -- unfold fb_h_vec_2. rewrite nth_expression_vector by (unfold fb_maxshift, fb_n_1; lia).
          rewrite fb_h2_at. f_equal. lia.
    + rewrite coef_over by (rewrite fb_h_len; lia). destruct (Nat.ltb_spec i (Z.to_nat (NN - 1))) as [Hl|Hl]; [lia|].
      destruct (Nat.ltb_spec (i - Z.to_nat (NN - 1)) 1); [lia|]. now rewrite coef_over by (rewrite fb_h2_len; lia).
  - rewrite !peval_app, fb_h1_len. cbn [length peval fpow]. replace (Z.to_nat NN) with (S (Z.to_nat (NN - 1))) by lia. cbn [fpow]. ring.
Qed.
(** *** The second group of checks *)
Lemma fb_geo3 : geo x 3 = 1 + x + x * x.
Proof. unfold geo. cbn [sumn fpow]. ring. Qed.
Lemma fb_c22_val : fb_c_22 e q = - (fpow x (Z.to_nat n) * geo x 3).
Proof.
  assert (2 <= n)%Z by (destruct SZ; lia). unfold fb_c_22. cbn [fb_q_z fb_ctx_of].
  rewrite fb_geo3, (pw x), fb_powm by (try apply fb_x; lia). rewrite !pw_pos. cbn [Pos.to_nat Pos.iter_op Nat.add fpow].
  change (Pos.to_nat 3) with 3%nat. change (Pos.to_nat 2) with 2%nat. cbn [fpow].
  assert (om - z <> 0) as N1 by (intros E; now apply Hoz, fsub_0_eq).
  generalize (fpowZ x n). intros. field. split; assumption.
Qed.
Lemma fb_checks_2_ok : fb_at_sum e NN = 0 -> fb_checks_2 e q = Ok tt.
Proof.
  intros G0. unfold fb_checks_2. cbn [fb_q_z fb_q_omega fb_ctx_of]. rewrite nonzero_ok by auto. cbn [obind].
  destruct fb_yv as [Y [Y1 Y2]]. assert (2 <= n)%Z as H2 by (destruct SZ; lia).
  assert (fb_check_13 e q = Ok tt) as ->.
  { unfold fb_check_13, fb_assert_13_l, fb_assert_13_r. cbn [fb_q_z fb_ctx_of fb_q_y fb_q_y_1]. rewrite fb_M, Y, Y1.
    apply assert_feqb_ok. symmetry. refine (eq_trans fb_A1 _). ring. }
  assert (fb_check_14 e q = Ok tt) as ->.
  { unfold fb_check_14, fb_assert_14_l, fb_assert_14_r. cbn [fb_q_z fb_ctx_of fb_q_y_2]. rewrite fb_M, Y2.
    apply assert_feqb_ok. symmetry. refine (eq_trans fb_A2 _). ring. }
  assert (fb_check_15 e q = Ok tt) as ->.
  { unfold fb_check_15, fb_assert_15_l, fb_assert_15_r. cbn [fb_q_z fb_ctx_of fb_q_y]. rewrite fb_M, Y.
    apply assert_feqb_ok. symmetry. refine (eq_trans fb_A3 _). field. auto. }
  assert (fb_check_16 e q = Ok tt) as ->.
  { unfold fb_check_16, fb_assert_16_l, fb_assert_16_r. cbn [fb_q_z fb_ctx_of fb_q_y fb_q_y_2]. rewrite fb_M, Y, Y2.
    apply assert_feqb_ok. symmetry. refine (eq_trans fb_A4 _). field. auto. }
  assert (fb_check_17 e q = Ok tt) as ->.
  { unfold fb_check_17, fb_assert_17_l, fb_assert_17_r. cbn [fb_q_z fb_ctx_of fb_q_y]. rewrite fb_M, Y.
    apply assert_feqb_ok. symmetry. refine (eq_trans fb_A5 _).
    rewrite (pw x), fb_powm by (try apply fb_x; lia). ring. }
  assert (fb_check_18 e q = Ok tt) as ->.
  { unfold fb_check_18, fb_assert_18_l, fb_assert_18_r. cbn [fb_q_z fb_ctx_of fb_q_y fb_q_y_2]. rewrite fb_M, Y, Y2.
    apply assert_feqb_ok. symmetry. refine (eq_trans fb_A6 _).
    rewrite !(pw_pos z), !(pw_pos om). change (Pos.to_nat 2) with 2%nat. cbn [fpow]. field. auto. }
  cbn [obind]. rewrite nonzero_ok.
  2:{ rewrite (pw_pos z). change (Pos.to_nat 2) with 2%nat. cbn [fpow]. repeat apply fmul_neq_0; auto; [apply f1_neq_0|].
      intros E. apply Hoz. apply fsub_0_eq. rewrite <- E. ring. }
  cbn [obind].
  assert (fb_check_19 e q = Ok tt) as ->.
  { unfold fb_check_19, fb_assert_19_l, fb_assert_19_r. apply assert_feqb_ok.
    transitivity (fb_c_22 e q); [reflexivity|]. rewrite fb_c22_val. symmetry. rewrite fb_M. cbn [fb_q_z fb_ctx_of]. exact fb_A7. }
  cbn [obind].
  assert (fb_check_20 e q = Ok tt) as ->; [|reflexivity].
  unfold fb_check_20, fb_assert_20_l, fb_assert_20_r, linear_combination. cbn [fold_left fst snd fb_q_z fb_ctx_of]. rewrite fb_M.
  apply assert_feqb_ok. rewrite eval_vector_as_poly_peval, fb_h_val.
  pose proof fb_A1 as A1. pose proof fb_A2 as A2. pose proof fb_A3 as A3. pose proof fb_A4 as A4. pose proof fb_A5 as A5.
  pose proof fb_A6 as A6. pose proof fb_A7 as A7.
  pose proof (fb_B1 NN ltac:(lia)) as B1. pose proof (fb_B2 NN ltac:(lia)) as B2. pose proof (fb_B3 NN ltac:(lia)) as B3.
  pose proof (fb_B4 NN ltac:(lia)) as B4. pose proof (fb_B5 NN ltac:(lia)) as B5. pose proof (fb_B6 NN ltac:(lia)) as B6.
  pose proof (fb_B7 NN ltac:(lia)) as B7. unfold EV in *.
  unfold fb_abnaive_vec_left, fb_abnaive_vec_1_left, fb_abnaive_vec_2_left, fb_abnaive_vec_3_left, fb_abnaive_vec_4_left, fb_abnaive_vec_5_left, fb_abnaive_vec_6_left,
    fb_abnaive_vec_right, fb_abnaive_vec_1_right, fb_abnaive_vec_2_right, fb_abnaive_vec_3_right, fb_abnaive_vec_4_right, fb_abnaive_vec_5_right, fb_abnaive_vec_6_right in *.
  rewrite A1, A2, A3, A4, A5, A6, A7, B1, B2, B3, B4, B5, B6, B7. clear A1 A2 A3 A4 A5 A6 A7 B1 B2 B3 B4 B5 B6 B7.
  rewrite (pw z) by auto. replace (- fb_maxshift e - fb_n_1 e)%Z with (- (NN - 1))%Z by (unfold fb_maxshift, fb_n_1; lia).
  rewrite fpowZ_opp, (fb_powm z (NN - 1)) by (auto; lia). unfold fb_val.
  assert (fpowZ z (NN - 1) <> 0) as P by now apply fpowZ_neq_0. generalize dependent (fpowZ z (NN - 1)). intros p P. field. auto.
Qed.
Lemma fb_divisors_ok : fb_divisors q = Ok tt.
Proof.
  unfold fb_divisors. cbn [fb_q_z fb_q_omega fb_ctx_of]. rewrite (nonzero_ok z) by auto. cbn [obind]. rewrite nonzero_ok.
  2:{ rewrite (pw_pos z). change (Pos.to_nat 2) with 2%nat. cbn [fpow]. repeat apply fmul_neq_0; auto; [apply f1_neq_0|].
      intros E; apply Hz1; symmetry; now apply fsub_0_eq. }
  cbn [obind]. apply nonzero_ok. intros E. apply Hoz. apply fsub_0_eq. rewrite <- E. ring.
Qed.

(** the polynomial computed term by term vanishes *)
Lemma fb_naive_val : fb_at_sum e NN = 0 -> peval (fb_naive_vec_g_9 e q) z = 0.
Proof.
  intros G0. destruct fb_yv as [Y [Y1 Y2]]. assert (2 <= n)%Z as H2 by (destruct SZ; lia). pose proof (fz_d e SZ) as HD.
  set (D := fb_cap_d e) in *.
  assert (length (fb_naive_vec_g_0 e q) = Z.to_nat D) as L0 by (unfold fb_naive_vec_g_0; apply repeat_length).
  unfold fb_naive_vec_g_9.
  erewrite peval_add_expr.
  2:{ instantiate (1 := - z * peval (fb_h_vec_2 e) z).
      unfold fb_naive_vec_g_8, fb_naive_vec_g_7, fb_naive_vec_g_6, fb_naive_vec_g_5, fb_naive_vec_g_4, fb_naive_vec_g_3, fb_naive_vec_g_2, fb_naive_vec_g_1.
      rewrite !add_expression_vector_length, L0. eapply EV_val; [|apply EV_scale_r, EV_list; rewrite fb_h2_len; lia].
      cbn [fb_q_z fb_ctx_of]. ring. }
  unfold fb_naive_vec_g_8.
  erewrite peval_add_expr.
  2:{ instantiate (1 := - fpowZ z (- (NN - 1)) * peval (fb_h_vec_1 e) z).
      unfold fb_naive_vec_g_7, fb_naive_vec_g_6, fb_naive_vec_g_5, fb_naive_vec_g_4, fb_naive_vec_g_3, fb_naive_vec_g_2, fb_naive_vec_g_1.
      rewrite !add_expression_vector_length, L0. eapply EV_val; [|apply EV_scale_r, EV_shift with (o := Z.to_nat (D - (NN - 1)));
        [rewrite fb_h1_len; lia|unfold minus_i64, fb_maxshift, fb_n_1; fold D; intros; lia]].
      cbn [fb_q_z fb_ctx_of]. rewrite (pw z), fb_powm by (auto; lia).
      replace (- (NN - 1))%Z with (- D + (D - (NN - 1)))%Z by lia. rewrite (fpowZ_add z (- D)) by auto. fold D. ring. }
  unfold fb_naive_vec_g_7. erewrite peval_add_expr.
  2:{ instantiate (1 := - (fpow x (Z.to_nat n) * geo x 3) * (fpow z (Z.to_nat (n - 1)) * peval t1 z)).
      unfold fb_naive_vec_g_6, fb_naive_vec_g_5, fb_naive_vec_g_4, fb_naive_vec_g_3, fb_naive_vec_g_2, fb_naive_vec_g_1.
      rewrite !add_expression_vector_length, L0. unfold fb_naive_vec_g_add_7. rewrite fb_c22_val. apply EV_scale. apply fb_B7. lia. }
  unfold fb_naive_vec_g_6. erewrite peval_add_expr.
  2:{ instantiate (1 := power al 4 * (y - y2 - x * x * y) * (geo z (Z.to_nat n) - z - 1)).
      unfold fb_naive_vec_g_5, fb_naive_vec_g_4, fb_naive_vec_g_3, fb_naive_vec_g_2, fb_naive_vec_g_1.
      rewrite !add_expression_vector_length, L0.
      eapply EV_ext; [|apply EV_scale, (fb_B6 (Z.of_nat (Z.to_nat D))); lia].
      intros i. unfold fb_naive_vec_g_add_6, fb_abnaive_vec_5_right, fb_c_21. cbn [fb_q_z fb_q_y fb_q_y_2 fb_ctx_of]. rewrite Y, Y2.
      rewrite !(pw_pos z), !(pw_pos om). change (Pos.to_nat 2) with 2%nat. cbn [fpow]. field. auto. }
  unfold fb_naive_vec_g_5. erewrite peval_add_expr.
  2:{ instantiate (1 := power al 3 * (- fb_c e * fpow x (Z.to_nat (n - 1)) + y) * fpow z (Z.to_nat (n - 1))).
      unfold fb_naive_vec_g_4, fb_naive_vec_g_3, fb_naive_vec_g_2, fb_naive_vec_g_1.
      rewrite !add_expression_vector_length, L0.
      eapply EV_ext; [|apply EV_scale, (fb_B5 (Z.of_nat (Z.to_nat D))); lia].
      intros i. unfold fb_naive_vec_g_add_5, fb_abnaive_vec_4_right. cbn [fb_q_z fb_q_y fb_ctx_of]. rewrite Y.
      rewrite (pw x), fb_powm by (try apply fb_x; lia). ring. }
  unfold fb_naive_vec_g_4. erewrite peval_add_expr.
  2:{ instantiate (1 := power al 2 * (- fb_b e * x + y - y2) * z).
      unfold fb_naive_vec_g_3, fb_naive_vec_g_2, fb_naive_vec_g_1.
      rewrite !add_expression_vector_length, L0.
      eapply EV_ext; [|apply EV_scale, (fb_B4 (Z.of_nat (Z.to_nat D))); lia].
      intros i. unfold fb_naive_vec_g_add_4, fb_abnaive_vec_3_right. cbn [fb_q_z fb_q_y fb_q_y_2 fb_ctx_of]. rewrite Y, Y2. field. auto. }
  unfold fb_naive_vec_g_3. erewrite peval_add_expr.
  2:{ instantiate (1 := - al * x * y * peval t z).
      unfold fb_naive_vec_g_2, fb_naive_vec_g_1.
      rewrite !add_expression_vector_length, L0.
      eapply EV_ext; [|apply EV_scale, (fb_B3 (Z.of_nat (Z.to_nat D))); lia].
      intros i. unfold fb_naive_vec_g_add_3, fb_abnaive_vec_2_right, fb_c_19. cbn [fb_q_z fb_q_y fb_ctx_of]. rewrite Y. field. auto. }
  unfold fb_naive_vec_g_2. erewrite peval_add_expr.
  2:{ instantiate (1 := al * y2 * geo z (Z.to_nat n)).
      unfold fb_naive_vec_g_1. rewrite !add_expression_vector_length, L0.
      eapply EV_ext; [|apply EV_scale, (fb_B2 (Z.of_nat (Z.to_nat D))); lia].
      intros i. unfold fb_naive_vec_g_add_2, fb_abnaive_vec_1_right, fb_c_18. cbn [fb_q_z fb_q_y_2 fb_ctx_of]. rewrite Y2. ring. }
  unfold fb_naive_vec_g_1. erewrite peval_add_expr.
  2:{ instantiate (1 := (- fb_a e - fb_b e * y1 + y) * 1). rewrite L0.
      eapply EV_ext; [|apply EV_scale, (fb_B1 (Z.of_nat (Z.to_nat D))); lia].
      intros i. unfold fb_naive_vec_g_add_1, fb_abnaive_vec_right. cbn [fb_q_z fb_q_y fb_q_y_1 fb_ctx_of]. rewrite Y, Y1. ring. }
  unfold fb_naive_vec_g_0. rewrite peval_repeat0.
  pose proof (fb_halves G0) as E1. rewrite fb_h_val in E1.
  assert (fb_val = fpowZ z (- (NN - 1)) * peval (fb_h_vec_1 e) z + z * peval (fb_h_vec_2 e) z) as E2.
  { apply fmul_cancel_l with (a := fpow z (Z.to_nat (NN - 1))); [now apply fpow_neq_0|]. rewrite E1.
    rewrite fpowZ_opp by auto. rewrite !fb_powm by (auto; lia). replace NN with (NN - 1 + 1)%Z at 1 by lia.
    rewrite (fpowZ_add z (NN - 1)) by auto. assert (fpowZ z (NN - 1) <> 0) as P by now apply fpowZ_neq_0.
    generalize dependent (fpowZ z (NN - 1)). intros p P. rewrite (fpowZ_pos z 1). change (Pos.to_nat 1) with 1%nat. cbn [fpow]. field. auto. }
  match goal with |- ?lhs = 0 => transitivity (fb_val - (fpowZ z (- (NN - 1)) * peval (fb_h_vec_1 e) z + z * peval (fb_h_vec_2 e) z)) end.
  - unfold fb_val. ring.
  - rewrite E2. ring.
Qed.

(** the combined polynomial *)
Lemma fb_g_value gv : fb_g_vec e q = Ok gv ->
  length gv = Z.to_nat (fb_cap_d e) /\
  forall v, peval gv v = fb_p_c_20 q * peval t v + fb_p_c_23 q * peval t1 v
    + fb_p_c_24 q * (fpow v (Z.to_nat (fb_cap_d e - (NN - 1))) * peval (fb_h_vec_1 e) v)
    + fb_p_c_25 q * peval (fb_h_vec_2 e) v + fb_p_c_17 q.
Proof.
  intros HG. apply add_first_inv in HG. destruct HG as [_ [L HG]].
  split; auto. intros v. rewrite HG. f_equal. unfold fb_g_at, linear_combination. cbn [fold_left fst snd].
  pose proof fb_h1_len as L1. pose proof fb_h2_len as L2. pose proof (fb_t1_len e SZ) as L3.
  assert (2 <= n)%Z as Hn by (destruct SZ; lia). assert (NN <= fb_cap_d e)%Z as HD by (destruct SZ; lia).
  assert (Z.of_nat (length t) = n) as Lt by (destruct SZ; lia).
  match goal with |- _ = ?rhs => change (EV (fb_cap_d e) v (fun i => (((0 + fb_p_c_20 q * vidx t i)
    + fb_p_c_23 q * vidx t1 i)
    + fb_p_c_24 q * vidx (fb_h_vec_1 e) (- fb_cap_d e + i + fb_maxshift e + fb_n_1 e)%Z)
    + fb_p_c_25 q * vidx (fb_h_vec_2 e) i) rhs) end.
  repeat apply EV_add; try apply EV_scale; try (apply EV_list; lia).
  - apply EV_ext with (k := fun i => fb_p_c_20 q * vidx t i); [intros; ring|]. apply EV_scale, EV_list. lia.
  - apply (EV_shift (fb_cap_d e) v (fb_h_vec_1 e) _
      (fun i => (- fb_cap_d e + i + fb_maxshift e + fb_n_1 e)%Z)); [rewrite L1; lia|].
    intros i. unfold fb_maxshift, fb_n_1. lia.
Qed.
Lemma fb_g_zero gv : fb_at_sum e NN = 0 -> fb_g_vec e q = Ok gv -> peval gv z = 0.
Proof.
  intros G0 HG. destruct (fb_g_value gv HG) as [_ V]. rewrite V. destruct fb_yv as [Y [Y1 Y2]].
  assert (2 <= n)%Z as H2 by (destruct SZ; lia). assert (NN <= fb_cap_d e)%Z as HD by (destruct SZ; lia).
  pose proof (fb_halves G0) as E1. rewrite fb_h_val in E1.
  assert (fb_val = fpowZ z (- (NN - 1)) * peval (fb_h_vec_1 e) z + z * peval (fb_h_vec_2 e) z) as E2.
  { apply fmul_cancel_l with (a := fpow z (Z.to_nat (NN - 1))); [now apply fpow_neq_0|]. rewrite E1.
    rewrite fpowZ_opp by auto. rewrite !fb_powm by (auto; lia). replace NN with (NN - 1 + 1)%Z at 1 by lia.
    rewrite (fpowZ_add z (NN - 1)) by auto. assert (fpowZ z (NN - 1) <> 0) as P by now apply fpowZ_neq_0.
    generalize dependent (fpowZ z (NN - 1)). intros p P. rewrite (fpowZ_pos z 1). change (Pos.to_nat 1) with 1%nat. cbn [fpow]. field. auto. }
  change (fb_p_c_25 q) with (- z). change (fb_p_c_24 q) with (- power z (- fb_cap_d e)). rewrite (pw z) by auto.
  rewrite (fb_powm z (fb_cap_d e - (NN - 1))) by (auto; lia).
  transitivity (fb_p_c_20 q * peval t z + fb_p_c_23 q * peval t1 z + fb_p_c_17 q
    - (fpowZ z (- (NN - 1)) * peval (fb_h_vec_1 e) z + z * peval (fb_h_vec_2 e) z)).
  { replace (- (NN - 1))%Z with (- fb_cap_d e + (fb_cap_d e - (NN - 1)))%Z by lia. rewrite (fpowZ_add z (- fb_cap_d e)) by auto. ring. }
  rewrite <- E2. clear E1 E2 V HG. unfold fb_p_c_20, fb_p_c_23, fb_p_c_17, fb_val, fb_n_1.
  cbn [fb_q_alpha fb_q_omega fb_q_z fb_q_y fb_q_y_1 fb_q_y_2 fb_ctx_of fb_ctx_pub]. rewrite Y, Y1, Y2, fb_geo3.
  pose proof fb_x as Hx. rewrite !(pw x) by auto. rewrite !(fb_powm x), !(fb_powm z), (geoZ z) by (auto; lia).
  rewrite !(pw z) by auto. rewrite !(pw_pos al), !(pw_pos om), !(pw_pos 1). change (Pos.to_nat 2) with 2%nat. change (Pos.to_nat 3) with 3%nat. change (Pos.to_nat 4) with 4%nat.
  cbn [fpow]. rewrite !(fpowZ_div om z) by auto. fpz.
  assert (fpowZ z n <> 0) as P1 by now apply fpowZ_neq_0. assert (fpowZ om n <> 0) as P2 by now apply fpowZ_neq_0.
  generalize dependent (fpowZ z n). generalize dependent (fpowZ om n). generalize y, y1, y2, (peval t z), (peval t1 z).
  intros.
  assert (om - z <> 0) as N1 by (intros E; now apply Hoz, fsub_0_eq).
  assert (1 - z <> 0) as N3 by (intros E; apply Hz1; symmetry; now apply fsub_0_eq).
  field. repeat split; assumption.
Qed.
End Alg.
End FibValue.

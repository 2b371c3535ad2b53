(** PlonkGates.v: the terms of the quotient for the gates of plonk-core vanish exactly when the gate holds. *)
From Verif Require Import Base Spec Tools KZG IntProofs SnarkProofs SoundSpec Sound Plonk PlonkSpec PlonkProver PlonkGatesSpec.
Local Open Scope F_scope.

Section PlonkGates.
Context {F : Type} {fo : FieldOps F} {fl : FieldLaws F} {po : PrimeFieldOps F} {pl : PrimeFieldLaws F}.
Add Field Fplonkgates : F_th.

Lemma from_Z_sub x y : from_Z (x - y) = from_Z x - (from_Z y : F).
Proof. assert (from_Z (x - y) + from_Z y = (from_Z x : F)) as E by (rewrite <- from_Z_add; f_equal; lia). rewrite <- E. ring. Qed.
Lemma from_Z_zero k : (- modulus (F:=F) < k < modulus (F:=F))%Z -> from_Z k = (0 : F) -> k = 0%Z.
Proof.
  intros H E. assert (forall j, (0 < j < modulus (F:=F))%Z -> from_Z j <> (0 : F)) as N.
  { intros j Hj Z. assert (to_Z (from_Z j : F) = to_Z (from_Z 0 : F)) as T by (now rewrite Z, from_Z_0).
    rewrite !to_from_Z, !Z.mod_small in T by lia. lia. }
  destruct (Z.lt_trichotomy k 0) as [L|[L|L]]; auto; exfalso.
  - apply (N (- k)%Z); [lia|]. assert (from_Z (- k) = from_Z (0 - k) :> F) as -> by (f_equal; lia). rewrite from_Z_sub, E, from_Z_0. ring.
  - apply (N k); auto. lia.
Qed.
(** *** two-bit numbers *)
Lemma delta4_quad f : delta4 f = 0 -> quad f.
Proof.
  unfold delta4, quad. intros H. apply fmul_integral in H. destruct H as [H|H]; [|exists 3%Z; split; [lia|now apply fsub_0_eq]].
  apply fmul_integral in H. destruct H as [H|H]; [|exists 2%Z; split; [lia|now apply fsub_0_eq]].
  apply fmul_integral in H. destruct H as [H|H]; [|exists 1%Z; rewrite from_Z_1; split; [lia|now apply fsub_0_eq]].
  exists 0%Z. rewrite from_Z_0. split; [lia|auto].
Qed.
Lemma quad_delta4 f : quad f -> delta4 f = 0.
Proof.
  intros [k [Hk ->]]. unfold delta4. assert (k = 0 \/ k = 1 \/ k = 2 \/ k = 3)%Z as D by lia.
  destruct D as [->|[->|[->| ->]]]; rewrite ?from_Z_0, ?from_Z_1; ring.
Qed.
Definition zdelta (a b w c q : Z) : Z :=
  (let f := w * (w * (4 * w - 18 * (a + b) + 81) + 18 * (a * a + b * b) - 81 * (a + b) + 83) in
   q * (9 * c - 3 * (a + b)) + (3 * (a + b + c) - 2 * f))%Z.
Lemma zdelta_from a b w c q : delta_xor_and (from_Z a) (from_Z b) (from_Z w) (from_Z c) (from_Z q) = (from_Z (zdelta a b w c q) : F).
Proof. unfold delta_xor_and, zdelta. cbv zeta. repeat (rewrite from_Z_add || rewrite from_Z_sub || rewrite from_Z_mul). ring. Qed.
Lemma range4 x : (0 <= x < 4)%Z -> In x [0; 1; 2; 3]%Z.
Proof. intros H. cbn. lia. Qed.
Lemma zdelta_and x y z : (0 <= x < 4)%Z -> (0 <= y < 4)%Z -> zdelta x y (x * y) z 1 = (12 * (z - Z.land x y))%Z.
Proof. intros Hx Hy. apply range4 in Hx, Hy. destruct Hx as [<-|[<-|[<-|[<-|[]]]]], Hy as [<-|[<-|[<-|[<-|[]]]]]; unfold zdelta; cbn [Z.land Pos.land Pos.Ndouble Pos.Nsucc_double Z.of_N]; lia. Qed.
Lemma zdelta_xor x y z : (0 <= x < 4)%Z -> (0 <= y < 4)%Z -> zdelta x y (x * y) z (- 1) = (6 * (Z.lxor x y - z))%Z.
Proof. intros Hx Hy. apply range4 in Hx, Hy. destruct Hx as [<-|[<-|[<-|[<-|[]]]]], Hy as [<-|[<-|[<-|[<-|[]]]]]; unfold zdelta; cbn [Z.lxor Pos.lxor Pos.Ndouble Pos.Nsucc_double Z.of_N]; lia. Qed.
Lemma from_Z_m1 : from_Z (- 1) = (- (1) : F).
Proof. replace (-1)%Z with (0 - 1)%Z by reflexivity. rewrite from_Z_sub, from_Z_0, from_Z_1. ring. Qed.
Lemma land_range x y : (0 <= x < 4)%Z -> (0 <= y < 4)%Z -> (0 <= Z.land x y < 4)%Z /\ (0 <= Z.lxor x y < 4)%Z.
Proof. intros Hx Hy. apply range4 in Hx, Hy. destruct Hx as [<-|[<-|[<-|[<-|[]]]]], Hy as [<-|[<-|[<-|[<-|[]]]]]; cbn; lia. Qed.

Variables ca cd : F.
(** *** the coefficients of the separation challenges *)
Definition arith_val (s : sel F) (pi : F) (v : vals F) : F := arithmetic_term s v + pi.
Definition odd_poly (c0 : F) (l : list F) : list F := c0 :: flat_map (fun x => [x; 0]) l.
Definition range_list (s : sel F) (v : vals F) : list F :=
  map (fmul (q_range s)) [delta4 (v_c v - from_Z 4 * v_d v); delta4 (v_b v - from_Z 4 * v_c v); delta4 (v_a v - from_Z 4 * v_b v); delta4 (v_d' v - from_Z 4 * v_a v)].
Definition logic_list (s : sel F) (v : vals F) : list F :=
  let a := v_a' v - from_Z 4 * v_a v in let b := v_b' v - from_Z 4 * v_b v in let d := v_d' v - from_Z 4 * v_d v in
  map (fmul (q_logic s)) [delta4 a; delta4 b; delta4 d; v_c v - a * b; delta_xor_and a b (v_c v) d (q_c s)].
Definition fixed_list (s : sel F) (v : vals F) : list F :=
  let bit := v_d' v - v_d v - v_d v in
  let ya := bit * bit * (q_r s - 1) + 1 in
  let xa := q_l s * bit in
  map (fmul (q_fixed s)) [bit * (bit - 1) * (bit + 1); bit * q_c s - v_c v;
    v_a' v + v_a' v * v_c v * v_a v * v_b v * cd - (xa * v_b v + ya * v_a v);
    v_b' v - v_b' v * v_c v * v_a v * v_b v * cd - (ya * v_b v - ca * xa * v_a v)].
Definition var_list (s : sel F) (v : vals F) : list F :=
  map (fmul (q_var s)) [v_a v * v_d v - v_d' v;
    v_d' v + v_b v * v_c v - (v_a' v + v_a' v * cd * v_d' v * (v_b v * v_c v));
    v_b v * v_d v - ca * (v_a v * v_c v) - (v_b' v - v_b' v * cd * v_d' v * (v_b v * v_c v))].
Lemma gate_term_eq r l f w s pi v : gate_term ca cd (mk_seps r l f w) s pi v =
  peval (odd_poly (peval (odd_poly (peval (odd_poly (peval (odd_poly (arith_val s pi v) (range_list s v)) r) (logic_list s v)) l) (fixed_list s v)) f) (var_list s v)) w.
Proof.
  unfold gate_term, arith_val, range_constraints, logic_constraints, fixed_constraints, var_constraints, odd_poly, range_list, logic_list, fixed_list, var_list.
  cbn [s_range s_logic s_fixed s_var map flat_map app peval]. ring.
Qed.
Definition all0 (l : list F) : Prop := forall x, In x l -> x = 0.
Lemma all0_dec l : all0 l \/ ~ all0 l.
Proof.
  induction l as [|x l [IH|IH]]; [left; intros ? []| |right; intros H; apply IH; intros y Hy; apply H; now right].
  destruct (feq_dec x 0) as [->|N]; [left|right; intros H; apply N, H; now left]. intros y [<-|Hy]; auto.
Qed.
Lemma odd_poly_0 c0 l x : all0 l -> peval (odd_poly c0 l) x = c0.
Proof.
  intros H. cbn [odd_poly peval]. assert (peval (flat_map (fun x => [x; 0]) l) x = 0) as ->; [|ring].
  induction l as [|y l IH]; auto. cbn [flat_map app peval]. rewrite IH by (intros z Hz; apply H; now right). rewrite (H y) by now left. ring.
Qed.
Lemma odd_poly_over c0 l i : (2 * length l <= i)%nat -> l <> [] -> coef (odd_poly c0 l) i = 0.
Proof.
  intros Hi Hl. destruct i as [|i]; [destruct l; [congruence|cbn in Hi; lia]|]. cbn [odd_poly]. change (coef (flat_map (fun x => [x; 0]) l) i = 0).
  assert (forall (m : list F) j, (2 * length m <= j + 1)%nat -> coef (flat_map (fun x => [x; 0]) m) j = 0) as G.
  { clear. induction m as [|y m IH]; intros j Hj; [now destruct j|]. cbn [length] in Hj. destruct j as [|[|j]]; [lia|reflexivity|]. apply IH. lia. }
  apply G. lia.
Qed.
Lemma odd_poly_most c0 l k : l <> [] -> (2 * length l <= k + 1)%nat -> c0 <> 0 \/ ~ all0 l -> most k (fun x => peval (odd_poly c0 l) x <> 0).
Proof.
  intros Hl Hk H. assert (exists i, coef (odd_poly c0 l) i <> 0) as NZ.
  { destruct H as [H|H]; [exists 0%nat; exact H|].
    assert (exists i, coef (flat_map (fun x => [x; 0]) l) i <> 0) as [i Hi]; [|exists (S i); exact Hi].
    clear Hk Hl. induction l as [|y l IH]; [destruct H; intros ? []|]. destruct (feq_dec y 0) as [->|N]; [|exists 0%nat; exact N].
    destruct IH as [i Hi]; [|exists (S (S i)); exact Hi]. intros A. apply H. intros z [<-|Hz]; auto. }
  apply (most_intro _ (fun x => (exists i, coef (odd_poly c0 l) i <> 0) /\ peval (odd_poly c0 l) x = 0)).
  - apply cnt_and; [left; exact NZ|]. intros _. apply root_bound; auto. intros i Hi. apply odd_poly_over; auto. lia.
  - intros x. apply dec_roots.
  - intros x N E. apply N. auto.
Qed.

(** *** the coefficients vanish exactly when the gate holds *)
Lemma range_iff s v : all0 (range_list s v) <->
  (q_range s <> 0 -> quad (v_c v - four * v_d v) /\ quad (v_b v - four * v_c v) /\ quad (v_a v - four * v_b v) /\ quad (v_d' v - four * v_a v)).
Proof.
  unfold range_list, all0, four. cbn [map In]. split.
  - intros H N. assert (forall f, In (q_range s * delta4 f) (map (fmul (q_range s)) [delta4 (v_c v - from_Z 4 * v_d v); delta4 (v_b v - from_Z 4 * v_c v); delta4 (v_a v - from_Z 4 * v_b v); delta4 (v_d' v - from_Z 4 * v_a v)]) -> quad f) as X.
    { intros f Hf. apply delta4_quad. apply (fmul_cancel_l (q_range s)); auto. rewrite (H _ Hf). ring. }
    repeat split; apply X; cbn; auto.
  - intros H x Hx. destruct (feq_dec (q_range s) 0) as [Z|N]; [rewrite Z in Hx; intuition (subst; ring)|].
    destruct (H N) as [A [B [C D]]]. apply quad_delta4 in A, B, C, D. rewrite A, B, C, D in Hx. intuition (subst; ring).
Qed.
Lemma logic_complete s v : logic_kind s ->
  (q_logic s <> 0 -> exists x y z, (0 <= x < 4)%Z /\ (0 <= y < 4)%Z /\ (0 <= z < 4)%Z /\
     v_a' v - four * v_a v = from_Z x /\ v_b' v - four * v_b v = from_Z y /\ v_d' v - four * v_d v = from_Z z /\ v_c v = from_Z (x * y) /\
     (q_c s = 1 -> z = Z.land x y) /\ (q_c s = - (1) -> z = Z.lxor x y)) -> all0 (logic_list s v).
Proof.
  intros K H e He. unfold logic_list in He. cbn [map In] in He. unfold four in H.
  destruct (feq_dec (q_logic s) 0) as [Z|N]; [rewrite Z in He; intuition (subst; ring)|].
  destruct (H N) as [x [y [z [Hx [Hy [Hz [Ea [Eb [Ed [Ec [A X]]]]]]]]]]]. rewrite Ea, Eb, Ed, Ec in He.
  assert (delta_xor_and (from_Z x) (from_Z y) (from_Z (x * y)) (from_Z z) (q_c s) = 0) as D.
  { destruct (K N) as [Q|Q].
    - rewrite Q. rewrite <- from_Z_1. rewrite zdelta_from, zdelta_and by auto. rewrite (A Q). rewrite Z.sub_diag, Z.mul_0_r. apply from_Z_0.
    - rewrite Q. rewrite <- from_Z_m1. rewrite zdelta_from, zdelta_xor by auto. rewrite (X Q). rewrite Z.sub_diag, Z.mul_0_r. apply from_Z_0. }
  rewrite D in He. rewrite !quad_delta4 in He by (eexists; eauto). rewrite from_Z_mul in He. intuition (subst; ring).
Qed.
Lemma logic_sound s v : (3 < modulus (F:=F))%Z -> all0 (logic_list s v) ->
  (q_logic s <> 0 -> exists x y z, (0 <= x < 4)%Z /\ (0 <= y < 4)%Z /\ (0 <= z < 4)%Z /\
     v_a' v - four * v_a v = from_Z x /\ v_b' v - four * v_b v = from_Z y /\ v_d' v - four * v_d v = from_Z z /\ v_c v = from_Z (x * y) /\
     (q_c s = 1 -> z = Z.land x y) /\ (q_c s = - (1) -> z = Z.lxor x y)).
Proof.
  intros P H N. unfold logic_list in H. unfold four.
  set (a := v_a' v - from_Z 4 * v_a v) in *. set (b := v_b' v - from_Z 4 * v_b v) in *. set (d := v_d' v - from_Z 4 * v_d v) in *.
  assert (forall f, In (q_logic s * f) (map (fmul (q_logic s)) [delta4 a; delta4 b; delta4 d; v_c v - a * b; delta_xor_and a b (v_c v) d (q_c s)]) -> f = 0) as X.
  { intros f Hf. apply (fmul_cancel_l (q_logic s)); auto. rewrite (H _ Hf). ring. }
  destruct (delta4_quad a) as [x [Hx Ex]]; [apply X; cbn; auto|]. destruct (delta4_quad b) as [y [Hy Ey]]; [apply X; cbn; auto|].
  destruct (delta4_quad d) as [z [Hz Ez]]; [apply X; cbn; auto|]. exists x, y, z.
  assert (v_c v = from_Z (x * y)) as Ec. { rewrite from_Z_mul, <- Ex, <- Ey. apply fsub_0_eq. apply X. cbn; auto. }
  assert (delta_xor_and a b (v_c v) d (q_c s) = 0) as D by (apply X; cbn; auto 6).
  assert (from_Z 2 <> (0 : F) /\ from_Z 3 <> (0 : F)) as [N2 N3].
  { split; intros E; apply from_Z_zero in E; try discriminate E; lia. }
  destruct (land_range x y Hx Hy) as [L1 L2].
  repeat split; try assumption; try lia; intros Q; rewrite Q, Ec, Ex, Ey, Ez in D.
  - rewrite <- from_Z_1, zdelta_from, zdelta_and in D by auto. replace (12 * (z - Z.land x y))%Z with (2 * (2 * (3 * (z - Z.land x y))))%Z in D by ring.
    rewrite !from_Z_mul in D. repeat (apply fmul_integral in D; destruct D as [D|D]; [contradiction|]).
    apply from_Z_zero in D; lia.
  - rewrite <- from_Z_m1, zdelta_from, zdelta_xor in D by auto. replace (6 * (Z.lxor x y - z))%Z with (2 * (3 * (Z.lxor x y - z)))%Z in D by ring.
    rewrite !from_Z_mul in D. repeat (apply fmul_integral in D; destruct D as [D|D]; [contradiction|]).
    apply from_Z_zero in D; lia.
Qed.
Lemma eq_sub (x y : F) : x = y -> x - y = 0.
Proof. intros ->. ring. Qed.
Lemma all0_scaled q l : all0 (map (fmul q) l) <-> (q <> 0 -> all0 l).
Proof.
  unfold all0. split.
  - intros H N x Hx. apply (fmul_cancel_l q); auto. rewrite (H (q * x)) by now apply in_map. ring.
  - intros H x Hx. apply in_map_iff in Hx. destruct Hx as [y [<- Hy]]. destruct (feq_dec q 0) as [->|N]; [ring|]. rewrite (H N y Hy). ring.
Qed.
Lemma fixed_iff s v : all0 (fixed_list s v) <->
  (q_fixed s <> 0 -> let bit := v_d' v - v_d v - v_d v in
     (bit = 0 \/ bit = 1 \/ bit = - (1)) /\ v_c v = bit * q_c s /\
     let xa := q_l s * bit in let ya := bit * bit * (q_r s - 1) + 1 in
     v_a' v * (1 + cd * (v_c v * v_a v * v_b v)) = xa * v_b v + ya * v_a v /\ v_b' v * (1 - cd * (v_c v * v_a v * v_b v)) = ya * v_b v - ca * (xa * v_a v)).
Proof.
  unfold fixed_list. cbv zeta. rewrite all0_scaled. unfold all0. cbn [In]. set (bit := v_d' v - v_d v - v_d v).
  split; intros H N; specialize (H N).
  - split; [|split; [|split]].
    + assert (bit * (bit - 1) * (bit + 1) = 0) as E by (apply H; auto). apply fmul_integral in E. destruct E as [E|E].
      * apply fmul_integral in E. destruct E as [E|E]; [auto|right; left; now apply fsub_0_eq].
      * right; right. apply fsub_0_eq. rewrite <- E. ring.
    + symmetry. apply fsub_0_eq. apply H. auto.
    + apply fsub_0_eq. transitivity (v_a' v + v_a' v * v_c v * v_a v * v_b v * cd - (q_l s * bit * v_b v + (bit * bit * (q_r s - 1) + 1) * v_a v)); [ring|]. apply H. auto.
    + apply fsub_0_eq. transitivity (v_b' v - v_b' v * v_c v * v_a v * v_b v * cd - ((bit * bit * (q_r s - 1) + 1) * v_b v - ca * (q_l s * bit) * v_a v)); [ring|]. apply H. auto.
  - destruct H as [A [B [C D]]]. apply eq_sub in C, D. intros x [<-|[<-|[<-|[<-|[]]]]].
    + destruct A as [->|[->| ->]]; ring.
    + rewrite B. ring.
    + rewrite <- C. ring.
    + rewrite <- D. ring.
Qed.
Lemma var_iff s v : all0 (var_list s v) <->
  (q_var s <> 0 -> v_d' v = v_a v * v_d v /\
     v_a' v * (1 + cd * (v_a v * v_d v * (v_b v * v_c v))) = v_a v * v_d v + v_b v * v_c v /\
     v_b' v * (1 - cd * (v_a v * v_d v * (v_b v * v_c v))) = v_b v * v_d v - ca * (v_a v * v_c v)).
Proof.
  unfold var_list. rewrite all0_scaled. unfold all0. cbn [In]. split; intros H N; specialize (H N).
  - assert (v_a v * v_d v = v_d' v) as E by (apply fsub_0_eq, H; auto). rewrite E. split; [reflexivity|split].
    + symmetry. apply fsub_0_eq. rewrite <- (H (v_d' v + v_b v * v_c v - (v_a' v + v_a' v * cd * v_d' v * (v_b v * v_c v)))) by auto. ring.
    + symmetry. apply fsub_0_eq. rewrite <- (H (v_b v * v_d v - ca * (v_a v * v_c v) - (v_b' v - v_b' v * cd * v_d' v * (v_b v * v_c v)))) by auto. ring.
  - destruct H as [A [B C]]. rewrite <- A in B, C. apply eq_sub in B, C. intros x [<-|[<-|[<-|[]]]].
    + rewrite A. ring.
    + assert (forall y z : F, y - z = 0 -> z - y = 0) as X by (intros y z E; apply fsub_0_eq in E; subst; ring).
      apply X in B. rewrite <- B. ring.
    + assert (forall y z : F, y - z = 0 -> z - y = 0) as X by (intros y z E; apply fsub_0_eq in E; subst; ring).
      apply X in C. rewrite <- C. ring.
Qed.
Lemma arith_eq s pi v : arith_val s pi v = q_arith s * (q_m s * v_a v * v_b v + q_l s * v_a v + q_r s * v_b v + q_o s * v_c v + q_4 s * v_d v +
    q_hl s * fpow (v_a v) 5 + q_hr s * fpow (v_b v) 5 + q_h4 s * fpow (v_d v) 5 + q_c s) + pi.
Proof. unfold arith_val, arithmetic_term. ring. Qed.

Lemma gates_complete s pi v : logic_kind s -> gates_ok ca cd s pi v -> forall r l f w, gate_term ca cd (mk_seps r l f w) s pi v = 0.
Proof.
  intros K [A [R [L [X [V _]]]]] r l f w. cbn [with_lookup q_m q_l q_r q_o q_4 q_c q_hl q_hr q_h4 q_arith q_range q_logic q_fixed q_var q_lookup] in *. rewrite gate_term_eq.
  rewrite (odd_poly_0 _ (var_list s v)) by (apply var_iff; exact V). rewrite (odd_poly_0 _ (fixed_list s v)) by (apply fixed_iff; exact X).
  rewrite (odd_poly_0 _ (logic_list s v)) by (apply logic_complete; [exact K|exact L]). rewrite (odd_poly_0 _ (range_list s v)) by (apply range_iff; exact R).
  rewrite arith_eq. exact A.
Qed.
Lemma most_always k (P : F -> Prop) : (forall x, P x) -> most k P.
Proof. intros H [|x l] _ Hl; [apply Nat.le_0_l|]. exfalso. apply (Hl x); [now left|auto]. Qed.
Lemma gates_dec s pi v : (3 < modulus (F:=F))%Z -> gates_ok ca cd s pi v \/ (arith_val s pi v <> 0 \/ ~ all0 (range_list s v) \/ ~ all0 (logic_list s v) \/ ~ all0 (fixed_list s v) \/ ~ all0 (var_list s v)).
Proof.
  intros P. destruct (feq_dec (arith_val s pi v) 0) as [A|A]; [|tauto]. destruct (all0_dec (range_list s v)) as [R|R]; [|tauto]. destruct (all0_dec (logic_list s v)) as [L|L]; [|tauto].
  destruct (all0_dec (fixed_list s v)) as [X|X]; [|tauto]. destruct (all0_dec (var_list s v)) as [V|V]; [|tauto]. left.
  unfold gates_ok, row_ok. cbn [with_lookup q_m q_l q_r q_o q_4 q_c q_hl q_hr q_h4 q_arith q_range q_logic q_fixed q_var q_lookup].
  split; [rewrite <- arith_eq; exact A|split; [exact (proj1 (range_iff s v) R)|split; [exact (logic_sound s v P L)|split; [exact (proj1 (fixed_iff s v) X)|split; [exact (proj1 (var_iff s v) V)|]]]]].
  intros Z. now destruct Z.
Qed.
Lemma gates_sound_coef s pi v : arith_val s pi v <> 0 \/ ~ all0 (range_list s v) \/ ~ all0 (logic_list s v) \/ ~ all0 (fixed_list s v) \/ ~ all0 (var_list s v) ->
  most 7 (fun r => most 9 (fun l => most 7 (fun f => most 5 (fun w => gate_term ca cd (mk_seps r l f w) s pi v <> 0)))).
Proof.
  intros D.
  assert (forall c0 : F, c0 <> 0 \/ ~ all0 (var_list s v) -> most 5 (fun w => peval (odd_poly c0 (var_list s v)) w <> 0)) as S4.
  { intros c0 H. apply odd_poly_most; auto. discriminate. }
  assert (forall c0 : F, c0 <> 0 \/ ~ all0 (fixed_list s v) \/ ~ all0 (var_list s v) -> most 7 (fun f => most 5 (fun w => peval (odd_poly (peval (odd_poly c0 (fixed_list s v)) f) (var_list s v)) w <> 0))) as S3.
  { intros c0 H. destruct (all0_dec (var_list s v)) as [V|V]; [|apply most_always; auto].
    eapply most_weaken; [apply Nat.le_refl| |apply (odd_poly_most c0 (fixed_list s v) 7); [discriminate|apply Nat.le_refl|tauto]]. intros f Hf. apply S4. auto. }
  assert (forall c0 : F, c0 <> 0 \/ ~ all0 (logic_list s v) \/ ~ all0 (fixed_list s v) \/ ~ all0 (var_list s v) -> most 9 (fun l => most 7 (fun f => most 5 (fun w => peval (odd_poly (peval (odd_poly (peval (odd_poly c0 (logic_list s v)) l) (fixed_list s v)) f) (var_list s v)) w <> 0)))) as S2.
  { intros c0 H. destruct (all0_dec (fixed_list s v)) as [X|X]; [|apply most_always; intros; apply S3; auto]. destruct (all0_dec (var_list s v)) as [V|V]; [|apply most_always; intros; apply S3; auto].
    eapply most_weaken; [apply Nat.le_refl| |apply (odd_poly_most c0 (logic_list s v) 9); [discriminate|apply Nat.le_refl|tauto]]. intros f Hf. apply S3. auto. }
  assert (most 7 (fun r => peval (odd_poly (arith_val s pi v) (range_list s v)) r <> 0 \/ ~ all0 (logic_list s v) \/ ~ all0 (fixed_list s v) \/ ~ all0 (var_list s v))) as S1.
  { destruct D as [D|[D|D]]; [| |apply most_always; intros; right; exact D];
    (eapply most_weaken; [apply Nat.le_refl| |apply (odd_poly_most (arith_val s pi v) (range_list s v) 7); [discriminate|apply Nat.le_refl|auto]]; cbv beta; auto). }
  eapply most_weaken; [apply Nat.le_refl| |exact S1]. cbv beta. intros r Hr.
  eapply most_weaken; [apply Nat.le_refl| |exact (S2 _ Hr)]. cbv beta. intros l Hl.
  eapply most_weaken; [apply Nat.le_refl| |exact Hl]. cbv beta. intros f Hf.
  eapply most_weaken; [apply Nat.le_refl| |exact Hf]. cbv beta. intros w Hw. rewrite gate_term_eq. exact Hw.
Qed.
Lemma gates_sound s pi v : (3 < modulus (F:=F))%Z -> ~ gates_ok ca cd s pi v ->
  most 7 (fun r => most 9 (fun l => most 7 (fun f => most 5 (fun w => gate_term ca cd (mk_seps r l f w) s pi v <> 0)))).
Proof. intros P N. apply gates_sound_coef. destruct (gates_dec s pi v P); [contradiction|auto]. Qed.
End PlonkGates.

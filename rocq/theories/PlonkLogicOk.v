(** PlonkLogicOk.v: when the logic gate succeeds. *)
From Verif Require Import Base Tools KZG SnarkProofs Plonk PlonkSpec PlonkProofs PlonkGadgets PlonkLogic.
Local Open Scope F_scope.

Section PlonkLogicOk.
Context {F : Type} {fo : FieldOps F} {fl : FieldLaws F} {po : PrimeFieldOps F} {pl : PrimeFieldLaws F}.
Add Field Fplo : F_th.
Variables ca cd : F.
Implicit Types (c : composer F) (a : nat -> F).

Lemma map_ok v w c : (v < nvars c)%nat -> exists m, add_variable_to_map v w c = Ok (set_vars (c_vals c) m c) /\ length m = nvars c.
Proof.
  intros H. unfold add_variable_to_map. replace (v <? length (c_map c))%nat with true by (symmetry; now apply Nat.ltb_lt).
  eexists. split; [reflexivity|]. now rewrite upd_length.
Qed.
Lemma quad_ok (bits : list bool) i : (2 * i + 2 <= length bits)%nat -> exists q, quad_at bits i = Ok q /\ (0 <= q < 4)%Z.
Proof.
  intros H. unfold quad_at. destruct (nth_error bits (2 * i)) as [h|] eqn:E1; [|apply nth_error_None in E1; lia].
  destruct (nth_error bits (2 * i + 1)) as [l|] eqn:E2; [|apply nth_error_None in E2; lia].
  cbn [unwrap_opt obind]. eexists. split; [reflexivity|]. destruct h, l; cbn; lia.
Qed.
Lemma below_ok (x : F) q : (4 < modulus (F:=F))%Z -> (0 <= q < 4)%Z -> x = from_Z q -> below_4 x = true.
Proof.
  intros M B ->. unfold below_4. rewrite !to_from_Z, !Z.mod_small by lia. apply Z.ltb_lt. lia.
Qed.
#[local] Opaque add_variable_to_map.
Lemma logic_rows_ok xor (ab bb : list bool) : (4 < modulus (F:=F))%Z ->
  forall m k la ra oa c, (2 * (k + m) <= length ab)%nat -> (2 * (k + m) <= length bb)%nat ->
  exists c', logic_rows xor ab bb (seq k m) la ra oa c = Ok c' /\ (nvars c <= nvars c')%nat.
Proof.
  intros M. induction m as [|m IH]; intros k la ra oa c LA LB; cbn [seq logic_rows]; [exists c; auto|].
  destruct (quad_ok ab k) as [lq [-> BL]]; [lia|]. destruct (quad_ok bb k) as [rq [-> BR]]; [lia|]. cbn [obind].
  rewrite (below_ok _ lq M BL) by ring. rewrite (below_ok _ rq M BR) by ring.
  rewrite (below_ok _ (lop xor lq rq) M (lop_bound xor lq rq BL BR)) by ring.
  cbn [assert_ obind]. unfold add_input.
  match goal with |- context [set_vars ?v ?m (set_vars _ _ (set_vars _ _ (set_vars _ _ c)))] => set (cc := set_vars v m (set_vars _ _ (set_vars _ _ (set_vars _ _ c)))) end.
  assert (nvars cc = (nvars c + 4)%nat) as NC by (unfold nvars, cc; cbn [c_map set_vars]; rewrite !app_length; cbn; lia).
  cbn [set_vars c_vals c_map]. rewrite !app_length. cbn [length]. fold (nvars c).
  destruct (map_ok (nvars c) (Left, c_n cc) cc) as [m1 [-> L1]]; [lia|]. cbn [obind]. set (d1 := set_vars _ m1 cc). assert (nvars d1 = nvars cc) as N1 by exact L1.
  destruct (map_ok (nvars c + 1) (Right, c_n cc) d1) as [m2 [-> L2]]; [lia|]. cbn [obind]. set (d2 := set_vars _ m2 d1). assert (nvars d2 = nvars d1) as N2 by exact L2.
  destruct (map_ok (nvars c + 1 + 1 + 1) (Fourth, c_n cc) d2) as [m3 [-> L3]]; [lia|]. cbn [obind]. set (d3 := set_vars _ m3 d2). assert (nvars d3 = nvars d2) as N3 by exact L3.
  destruct (map_ok (nvars c + 1 + 1) (Output, (c_n cc - 1)%nat) d3) as [m4 [-> L4]]; [lia|]. cbn [obind]. set (d4 := set_vars _ m4 d3). assert (nvars d4 = nvars d3) as N4 by exact L4.
  match goal with |- context [logic_rows _ _ _ _ ?x ?y ?z ?u] => destruct (IH (S k) x y z u) as [c' [E L]]; [lia|lia|] end.
  exists c'. split; [exact E|]. change (nvars d4 <= nvars c')%nat in L. lia.
Qed.
Theorem logic_gate_ok size x y nb xor c : (4 < modulus (F:=F))%Z -> wf c ->
  (exists r, logic_gate size x y nb xor c = Ok r) <->
  (x < nvars c)%nat /\ (y < nvars c)%nat /\ (nb mod 2 = 0)%nat /\ (nb <= 256)%nat /\ (nb = 0 \/ 256 <= size)%nat.
Proof.
  intros M W. split.
  - intros [[out c'] H]. apply (logic_gate_inv ca cd) in H; auto; [|lia]. cbv zeta in H. destruct H as [E [L1 [L2 [L3 [L4 _]]]]].
    repeat split; auto; [|lia]. rewrite E, Nat.mul_comm. apply Nat.mod_mul. lia.
  - intros [Lx [Ly [E [L1 L2]]]]. unfold logic_gate. rewrite E. cbn [Nat.eqb assert_ obind].
    rewrite (value_ok c x W Lx), (value_ok c y W Ly).
    cbn [obind]. unfold high_bits. replace (256 <? nb)%nat with false by (symmetry; apply Nat.ltb_ge; lia).
    assert (forall v : F, (nb <= length (skipn (256 - nb) (rev (to_bits_le size v))))%nat) as LB.
    { intros v. rewrite skipn_length, rev_length. unfold to_bits_le. rewrite map_length, seq_length. lia. }
    rewrite (proj2 (Nat.leb_le _ _) (LB (values c x))), (proj2 (Nat.leb_le _ _) (LB (values c y))). cbn [assert_ obind].
    pose proof (wf_zero _ W) as Z.
    destruct (map_ok (c_zero c) (Left, c_n c) c) as [m1 [-> N1]]; [lia|]. cbn [obind]. set (d1 := set_vars _ m1 c). change (nvars d1 = nvars c) in N1.
    destruct (map_ok (c_zero c) (Right, c_n c) d1) as [m2 [-> N2]]; [lia|]. cbn [obind]. set (d2 := set_vars _ m2 d1). change (nvars d2 = nvars d1) in N2.
    destruct (map_ok (c_zero c) (Fourth, c_n c) d2) as [m3 [-> N3]]; [lia|]. cbn [obind]. set (d3 := set_vars _ m3 d2). change (nvars d3 = nvars d2) in N3.
    pose proof (Nat.div_mod nb 2 ltac:(lia)) as DM.
    match goal with |- context [logic_rows _ ?ab ?bb _ ?p ?q ?r ?u] => destruct (logic_rows_ok xor ab bb M (nb / 2) 0 p q r u) as [c5 [E5 L5]] end.
    { specialize (LB (values c x)). lia. } { specialize (LB (values c y)). lia. }
    rewrite E5. cbn [obind]. change (nvars d3 <= nvars c5)%nat in L5.
    destruct (map_ok (c_zero c) (Output, (c_n c5 - 1)%nat) c5) as [m4 [-> N4]]; [lia|]. cbn [obind]. eexists. reflexivity.
Qed.
End PlonkLogicOk.

(** PoseidonPlonk.v: the arithmetic of the gates of the Poseidon hash. *)
From Verif Require Import Base Tools KZG SnarkProofs Plonk PlonkSpec PlonkProofs PlonkGadgets PlonkSelect PlonkBuilt Poseidon PoseidonSpec PoseidonProofs Properties_Plonk.
Local Open Scope F_scope.

Section PoseidonPlonk.
Context {F : Type} {fo : FieldOps F} {fl : FieldLaws F} {po : PrimeFieldOps F} {pl : PrimeFieldLaws F}.
Add Field Fposp : F_th.
Variables (ca cd : F) (size : nat) (chk : F * F -> bool).
Hypothesis odd_field : (2 < modulus (F:=F))%Z.
Notation total := (total ca cd).
Notation built := (built ca cd size chk).
Implicit Types c : composer F.

Definition rd (a : nat -> F) (v : nat) : F := a v.
Definition exists_in c (v : nat) : Prop := (v < nvars c)%nat.
Definition grows c c' (Q : (nat -> F) -> Prop) : Prop := total c c' Q /\ built c'.

Lemma total_refl c : wf c -> total c c (fun _ => True).
Proof. intros W. split; auto; try tauto. intros a Ha. exists a. split; auto. intros v _. reflexivity. Qed.
Lemma grows_refl c : built c -> grows c c (fun _ => True).
Proof using fl pl odd_field. intros B. split; auto. apply total_refl. exact (bwf ca cd size chk c odd_field B). Qed.
Lemma grows_trans c c1 c2 Q1 Q2 : grows c c1 Q1 -> grows c1 c2 Q2 -> grows c c2 (fun a => Q1 a /\ Q2 a).
Proof using. intros [A _] [B C]. split; auto. now apply total_trans with c1. Qed.
Lemma grows_weak c c' (Q Q' : (nat -> F) -> Prop) : grows c c' Q -> (forall a, Q a -> Q' a) -> grows c c' Q'.
Proof using. intros [A B] H. split; auto. apply total_weak with (1 := A). auto. Qed.
Lemma grows_built c c' Q : grows c c' Q -> built c'.
Proof using. intros [_ B]. exact B. Qed.
Lemma grows_known c c' Q v : grows c c' Q -> exists_in c v -> exists_in c' v.
Proof using. intros [A _] H. unfold exists_in in *. pose proof (t_n _ _ _ _ _ A). lia. Qed.
Lemma grows_zero c : built c -> exists z c', o_zero (plonk (F:=F)) c = Ok (z, c') /\ grows c c' (fun a => rd a z = 0) /\ exists_in c' z.
Proof using fl pl odd_field.
  intros B. pose proof (bwf ca cd size chk c odd_field B) as W. exists (c_zero c), c. split; [reflexivity|]. split.
  - split; auto. pose proof (total_refl c W) as T. apply total_weak with (1 := T). intros a Ha _. exact (satisfies_zero ca cd c a W Ha).
  - apply (wf_zero _ W).
Qed.
Lemma grows_arithmetic g x y c (f : (nat -> F) -> F) : built c -> g_witness g = Some (x, y, None) -> g_out g = - (1) -> g_fan_in_3 g = None ->
  exists_in c x -> exists_in c y -> (forall a, a (c_zero c) = 0 -> g_lin c g x y a = f a) ->
  exists o c', arithmetic_gate g c = Ok (o, c') /\ grows c c' (fun a => rd a o = f a) /\ exists_in c' o.
Proof using fl pl odd_field.
  intros B E1 E2 E3 X Y H. pose proof (bwf ca cd size chk c odd_field B) as W.
  destruct (arithmetic_ok g x y None c W E1 X Y) as [o [c' E]]; [discriminate|rewrite E3; discriminate|].
  exists o, c'. split; auto. pose proof (arithmetic_total ca cd _ _ _ _ _ _ W E1 E2 E) as [T [O [N _]]]. split.
  - split; [|exact (built_arithmetic _ _ _ _ _ _ _ _ B E)]. apply total_weak with (1 := T). intros a Ha Q. unfold rd. rewrite Q. apply H.
    rewrite <- (t_zero _ _ _ _ _ T). exact (satisfies_zero ca cd c' a (t_wf _ _ _ _ _ T) Ha).
  - unfold exists_in. lia.
Qed.
Ltac glin := unfold g_lin, g_in4; cbn [o_add o_addi o_mul o_muli plonk g_mul g_add g_const g_pi g_out g_fan_in_3 with_mul with_add with_const with_fan_in_3 gate_of fst snd pi_val].
Lemma grows_zero_var c : built c -> exists_in c (c_zero c).
Proof using fl pl odd_field. intros B. apply (wf_zero _ (bwf ca cd size chk c odd_field B)). Qed.
Lemma grows_add x y c : built c -> exists_in c x -> exists_in c y ->
  exists o c', o_add (plonk (F:=F)) x y c = Ok (o, c') /\ grows c c' (fun a => rd a o = rd a x + rd a y) /\ exists_in c' o.
Proof using fl pl odd_field. intros B X Y. apply (grows_arithmetic _ x y); auto. intros a Z. unfold rd. glin. rewrite ?Z. ring. Qed.
Lemma grows_addi x k c : built c -> exists_in c x ->
  exists o c', o_addi (plonk (F:=F)) x k c = Ok (o, c') /\ grows c c' (fun a => rd a o = rd a x + k) /\ exists_in c' o.
Proof using fl pl odd_field. intros B X. apply (grows_arithmetic _ x (c_zero c)); auto; [now apply grows_zero_var|]. intros a Z. unfold rd. glin. rewrite ?Z. ring. Qed.
Lemma grows_mul x y c : built c -> exists_in c x -> exists_in c y ->
  exists o c', o_mul (plonk (F:=F)) x y c = Ok (o, c') /\ grows c c' (fun a => rd a o = rd a x * rd a y) /\ exists_in c' o.
Proof using fl pl odd_field. intros B X Y. apply (grows_arithmetic _ x y); auto. intros a Z. unfold rd. glin. rewrite ?Z. ring. Qed.
Lemma grows_muli x k c : built c -> exists_in c x ->
  exists o c', o_muli (plonk (F:=F)) x k c = Ok (o, c') /\ grows c c' (fun a => rd a o = rd a x * k) /\ exists_in c' o.
Proof using fl pl odd_field. intros B X. apply (grows_arithmetic _ x (c_zero c)); auto; [now apply grows_zero_var|]. intros a Z. unfold rd. glin. rewrite ?Z. ring. Qed.

Theorem plonk_hash_ok h c W : let pc := h_constants h in
  built c -> Forall (exists_in c) (h_elements h) -> length (h_elements h) = W -> (2 <= W)%nat -> square W (pc_m pc) -> h_off h = 0%nat ->
  (1 <= pc_half pc)%nat -> (1 <= pc_partial pc)%nat -> ((2 * pc_half pc + pc_partial pc) * W <= length (pc_rc pc))%nat ->
  exists y h' c', output_hash (plonk (F:=F)) h c = Ok (y, h', c') /\ exists_in c' y /\ Forall (exists_in c') (h_elements h') /\
    h_off h' = ((2 * pc_half pc + pc_partial pc) * W)%nat /\ length (h_elements h') = W /\ h_pos h' = h_pos h /\ h_constants h' = pc /\
    grows c c' (fun a => forall s, holds rd W a (h_elements h) s ->
      rd a y = permutation W (pc_half pc) (pc_partial pc) (entry (pc_m pc)) (round_key W (pc_rc pc)) s 1).
Proof using fl pl odd_field.
  exact (output_hash_ok (plonk (F:=F)) rd built exists_in grows grows_refl grows_trans grows_weak grows_built grows_known
    grows_zero grows_add grows_addi grows_mul grows_muli h c W).
Qed.

(** *** the affine gates (zprize_constraints.rs) *)
Lemma minus1_neq : - (1) <> (0 : F).
Proof using fl. intros K. apply (f1_neq_0 (F:=F)). transitivity (- - (1) : F); [ring|]. rewrite K. ring. Qed.
Lemma affine_full_ok x y z s0 s1 s2 s3 c : built c -> exists_in c x -> exists_in c y -> exists_in c z ->
  exists o c', full_affine_transform_gate (x, y, z) (s0, s1, s2, s3, - (1)) c = Ok (o, c') /\ exists_in c' o /\
    grows c c' (fun a => rd a o = s0 * fifth (rd a x) + s1 * fifth (rd a y) + s2 * fifth (rd a z) + s3).
Proof using fl pl odd_field.
  intros B X Y Z. pose proof (bwf ca cd size chk c odd_field B) as W.
  assert (exists o c', full_affine_transform_gate (x, y, z) (s0, s1, s2, s3, - (1)) c = Ok (o, c')) as [o [c' E]].
  { unfold full_affine_transform_gate. rewrite !value_ok by auto. cbn [obind]. unfold div_or_panic.
    destruct (feqb (- - (1)) 0) eqn:E0; [apply feqb_eq in E0; exfalso; apply (f1_neq_0 (F:=F)); rewrite <- E0; ring|]. cbn [obind].
    match goal with |- context [add_input ?v c] => set (v0 := v) end.
    pose proof (add_input_nvars v0 c) as N. pose proof (add_input_wf v0 c W) as W1. destruct (add_input v0 c) as [o c1] eqn:EI.
    cbn [snd] in *. assert (o = nvars c) as -> by (unfold add_input in EI; unfold nvars; congruence). unfold exists_in in *.
    edestruct (add_gate_ok x y (nvars c) z) as [c2 ->]; eauto; try lia. cbn [obind]. eauto. }
  exists o, c'. split; auto. pose proof E as E'. apply (full_total ca cd) in E; auto. destruct E as [T [O [N _]]]. split; [unfold exists_in; lia|].
  split; [|exact (built_full _ _ _ _ _ _ _ _ _ B E')]. apply total_weak with (1 := T). intros a _ Q. unfold rd. rewrite Q. unfold fifth. cbn [fpow].
  field. exact minus1_neq.
Qed.
Lemma affine_partial_ok x y z s0 s1 s2 s3 c : built c -> exists_in c x -> exists_in c y -> exists_in c z ->
  exists o c', partial_affine_transform_gate (x, y, z) (s0, s1, s2, s3, - (1)) c = Ok (o, c') /\ exists_in c' o /\
    grows c c' (fun a => rd a o = s0 * fifth (rd a x) + s1 * rd a y + s2 * rd a z + s3).
Proof using fl pl odd_field.
  intros B X Y Z. pose proof (bwf ca cd size chk c odd_field B) as W.
  assert (exists o c', partial_affine_transform_gate (x, y, z) (s0, s1, s2, s3, - (1)) c = Ok (o, c')) as [o [c' E]].
  { unfold partial_affine_transform_gate. rewrite !value_ok by auto. cbn [obind]. unfold div_or_panic.
    destruct (feqb (- - (1)) 0) eqn:E0; [apply feqb_eq in E0; exfalso; apply (f1_neq_0 (F:=F)); rewrite <- E0; ring|]. cbn [obind].
    match goal with |- context [add_input ?v c] => set (v0 := v) end.
    pose proof (add_input_nvars v0 c) as N. pose proof (add_input_wf v0 c W) as W1. destruct (add_input v0 c) as [o c1] eqn:EI.
    cbn [snd] in *. assert (o = nvars c) as -> by (unfold add_input in EI; unfold nvars; congruence). unfold exists_in in *.
    edestruct (add_gate_ok x y (nvars c) z) as [c2 ->]; eauto; try lia. cbn [obind]. eauto. }
  exists o, c'. split; auto. pose proof E as E'. apply (partial_total ca cd) in E; auto. destruct E as [T [O [N _]]]. split; [unfold exists_in; lia|].
  split; [|exact (built_partial _ _ _ _ _ _ _ _ _ B E')]. apply total_weak with (1 := T). intros a _ Q. unfold rd. rewrite Q. unfold fifth. cbn [fpow].
  field. exact minus1_neq.
Qed.
End PoseidonPlonk.

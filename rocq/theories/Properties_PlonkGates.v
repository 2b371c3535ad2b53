(** Properties_PlonkGates.v: the terms of the quotient for the gates of plonk-core (C74). *)
From Verif Require Import Base Spec Tools KZG IntProofs SnarkProofs SoundSpec Sound Plonk PlonkSpec PlonkProofs PlonkBuilt Properties_Plonk PlonkPI PlonkSigmaSpec PlonkProver PlonkGatesSpec PlonkGates PlonkSels.
Local Open Scope F_scope.

(** The values that the terms of gate i read: the wires of the gate and of the next one, cyclically. *)
Definition row_vals {F} (n : nat) (w : column -> nat -> F) (i : nat) : vals F :=
  let i' := ((i + 1) mod n)%nat in mk_vals (w Left i) (w Right i) (w Output i) (w Fourth i) (w Left i') (w Right i') (w Fourth i').

Section S.
Context {F : Type} {fo : FieldOps F} {fl : FieldLaws F} {po : PrimeFieldOps F} {pl : PrimeFieldLaws F}.
Variables (ca cd : F) (size : nat) (chk : F * F -> bool).
Notation built := (built ca cd size chk).
Implicit Types (c : composer F) (w : column -> nat -> F) (s : sel F) (v : vals F).

(** A gate of the circuit consists of the gate without lookup and the lookup. *)
Theorem c74_split c n w : rows_hold ca cd c n w <->
  forall i, (i < n)%nat -> gates_ok ca cd (sel_at c i) (pi_get (c_pi c) i) (row_vals n w i) /\ lookup_ok (c_table c) (sel_at c i) (row_vals n w i).
Proof.
  unfold rows_hold, gates_ok, lookup_ok, row_ok, row_vals. cbv zeta. cbn [with_lookup q_m q_l q_r q_o q_4 q_c q_hl q_hr q_h4 q_arith q_range q_logic q_fixed q_var q_lookup v_a v_b v_c v_d v_a' v_b' v_d'].
  split.
  - intros H i Hi. destruct (H i Hi) as [A [B [C [D [E G]]]]]. split; [|exact G].
    split; [exact A|split; [exact B|split; [exact C|split; [exact D|split; [exact E|]]]]]. intros N. now destruct N.
  - intros H i Hi. destruct (H i Hi) as [[A [B [C [D [E _]]]]] G]. repeat (split; [assumption|]). exact G.
Qed.
(** Every logic gate that can be built is an AND or an XOR gate. *)
Theorem c74_logic_kind c i : built c -> logic_kind (sel_at c i).
Proof.
  intros B. apply built_kind in B. unfold sel_at. destruct (Nat.lt_ge_cases i (length (c_sel c))) as [H|H].
  - rewrite Forall_forall in B. apply B. now apply nth_In.
  - rewrite nth_overflow by auto. intros N. now destruct N.
Qed.
(** If all gates hold, the term vanishes at every gate for all separation challenges. *)
Theorem c74_complete c n w e : built c -> (forall i, (i < n)%nat -> gates_ok ca cd (sel_at c i) (pi_get (c_pi c) i) (row_vals n w i)) ->
  forall i, (i < n)%nat -> gate_term ca cd e (sel_at c i) (pi_get (c_pi c) i) (row_vals n w i) = 0.
Proof. intros B H i Hi. destruct e as [r l f x]. apply gates_complete; auto. now apply c74_logic_kind with (i := i) in B. Qed.
(** If a gate does not hold, its term does not vanish, except for few separation challenges. *)
Theorem c74_sound s pi v : (3 < modulus (F:=F))%Z -> ~ gates_ok ca cd s pi v ->
  most 7 (fun r => most 9 (fun l => most 7 (fun f => most 5 (fun x => gate_term ca cd (mk_seps r l f x) s pi v <> 0)))).
Proof. apply gates_sound. Qed.
(** In fields with more than ten elements the gate holds exactly when the term vanishes for all challenges. *)
Lemma nodup_map_in {A B} (f : A -> B) l : (forall x y, In x l -> In y l -> f x = f y -> x = y) -> NoDup l -> NoDup (map f l).
Proof.
  intros H N. induction N as [|x l Hx N IH]; cbn; constructor.
  - intros Hin. apply in_map_iff in Hin. destruct Hin as [y [E Hy]]. apply Hx. rewrite (H x y); auto; [now left|now right].
  - apply IH. intros a b Ha Hb. apply H; now right.
Qed.
Lemma most_some k (P : F -> Prop) : (Z.of_nat k < modulus (F:=F))%Z -> most k P -> ~ (forall x, ~ P x).
Proof using fl pl.
  clear - fl pl. intros Hk M H. set (l := map (fun i => from_Z (Z.of_nat i) : F) (seq 0 (k + 1))).
  assert (length l <= k)%nat as L; [|unfold l in L; rewrite map_length, seq_length in L; lia].
  apply M; [|intros x _; apply H]. unfold l. apply nodup_map_in; [|apply seq_NoDup]. intros i j Hi Hj E. apply in_seq in Hi, Hj.
  assert (from_Z (Z.of_nat i - Z.of_nat j) = (0 : F)) as Z by (rewrite from_Z_sub; now apply eq_sub).
  apply from_Z_zero in Z; lia.
Qed.
Theorem c74_gate_iff s pi v : (9 < modulus (F:=F))%Z -> logic_kind s ->
  gates_ok ca cd s pi v <-> forall e, gate_term ca cd e s pi v = 0.
Proof.
  intros P K. split; [intros H [r l f x]; now apply gates_complete|]. intros H.
  destruct (gates_dec ca cd s pi v) as [D|D]; [lia|auto|]. exfalso. pose proof (gates_sound_coef ca cd s pi v D) as M.
  revert M. intros M. apply (most_some 7) in M; [|lia]. apply M. intros r M1. apply (most_some 9) in M1; [|lia]. apply M1. intros l M2.
  apply (most_some 7) in M2; [|lia]. apply M2. intros f M3. apply (most_some 5) in M3; [|lia]. apply M3. intros x N. now apply N.
Qed.
End S.

(** *** Examples: 2 xor 3 = 1, and not 2 *)
Definition v74 (z : Z) : vals F101 := mk_vals (f101 1) (f101 2) (f101 6) (f101 0) (f101 6) (f101 11) (f101 z).
Example c74_example_ok : gates_ok one101 two101 (logic_sel true) (f101 0) (v74 1).
Proof.
  unfold gates_ok, row_ok. cbn [with_lookup logic_sel q_m q_l q_r q_o q_4 q_c q_hl q_hr q_h4 q_arith q_range q_logic q_fixed q_var q_lookup v_a v_b v_c v_d v_a' v_b' v_d' v74].
  assert (forall x y : F101, feqb x y = true -> x = y) as X by (intros x y; apply feqb_eq).
  split; [apply X; vm_compute; reflexivity|]. split; [intros N; now destruct N|]. split; [|split; [intros N; now destruct N|split; intros N; now destruct N]].
  intros _. exists 2%Z, 3%Z, 1%Z. repeat split; try lia; try (apply X; vm_compute; reflexivity).
  intros E. exfalso. assert (feqb (- (1) : F101) 1 = true) as E' by (apply feqb_eq; exact E). vm_compute in E'. discriminate E'.
Qed.
Example c74_example_bad : ~ gates_ok one101 two101 (logic_sel true) (f101 0) (v74 2).
Proof.
  intros H. assert (9 < modulus (F:=F101))%Z as P by (vm_compute; reflexivity). assert (logic_kind (F:=F101) (logic_sel true)) as K by (intros _; now right).
  pose proof (proj1 (c74_gate_iff one101 two101 (logic_sel true) (f101 0) (v74 2) P K) H (mk_seps 1 1 1 1)) as E.
  assert (feqb (gate_term one101 two101 (mk_seps 1 1 1 1) (logic_sel true) (f101 0) (v74 2)) 0 = true) as E' by (apply feqb_eq; exact E). vm_compute in E'. discriminate E'.
Qed.

Print Assumptions c74_split.
Print Assumptions c74_logic_kind.
Print Assumptions c74_complete.
Print Assumptions c74_sound.
Print Assumptions c74_gate_iff.
Print Assumptions c74_example_ok.
Print Assumptions c74_example_bad.

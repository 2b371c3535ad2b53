(** Properties_Examples.v: the example programs of voproof/src/main.rs (C85).
    [H] is an arbitrary function from transcripts to challenges, [gamma] the generator used by the
    R1CS and HPR arguments; the trapdoor, the generators and the blinding scalars (ex_draws) are
    arbitrary, and the groups are arbitrary one-dimensional spaces with a non-degenerate pairing over a
    prime field. *)
From Verif Require Import Base Spec Tools CS SnarkSpec KZG KZGProofs Snark Fib FibTop RC R1 R1Top HP HPTop IntProofs
  Properties_Tools Properties_Snark Properties_R1 Examples ExamplesProofs.
Local Open Scope F_scope.

Section S.
Context {F G1 G2 GT : Type} {fo : FieldOps F} {fl : FieldLaws F} {pfo : PrimeFieldOps F} {pfl : PrimeFieldLaws F}
        {po : PairingOps F G1 G2 GT} {pl : PairingLaws F G1 G2 GT}.
Variable H : list (item F G1) -> F.
Variable gamma : F.

(** The example circuit exists for at least 3 variables and 1 constraint, and panics otherwise; its
    matrices have one row per witness variable and per constraint. *)
Theorem c85_circuit_size {E} (a b : F) nv nc :
  ((nv < 3)%nat \/ (nc < 1)%nat -> ex_r1cs (E:=E) a b nv nc = Panic) /\
  ((3 <= nv)%nat -> (1 <= nc)%nat -> exists cs, ex_r1cs (E:=E) a b nv nc = Ok cs /\
    r_nrows cs = (nv - 3 + nc)%nat /\ r_ncols cs = (nv + 1)%nat /\ r_input_size cs = 3%nat /\
    length (r_arows cs) = (2 * (nv - 3) + (nc - 1))%nat /\ length (r_brows cs) = (nv - 3 + (nc - 1))%nat /\
    length (r_crows cs) = (2 * (nv - 3) + (nc - 1))%nat).
Proof.
  rewrite ex_r1cs_ok. split.
  - intros Hs. destruct (Nat.leb_spec 3 nv), (Nat.leb_spec 1 nc); cbn; auto; lia.
  - intros H3 H1. destruct (Nat.leb_spec 3 nv), (Nat.leb_spec 1 nc); try lia. cbn [andb]. eexists. split; [reflexivity|].
    destruct (ex_sys_nnz (F:=F) (nv - 3) (nc - 1)) as [NA [NB NC]]. cbn [ex_sys r_nrows r_ncols r_input_size].
    repeat split; auto; lia.
Qed.
(** What it says: an instance (x1, x2, x3) with a witness satisfies it if and only if every witness
    value is x1 and, with at least two constraints, x3 = x1 * x2.  The system does not depend on the
    values it was made with. *)
Theorem c85_circuit_meaning {E} (a b : F) nv nc cs x1 x2 x3 w :
  ex_r1cs (E:=E) a b nv nc = Ok cs -> length w = (nv - 3)%nat ->
  exists sat, r1cs_satisfy (E:=E) cs [x1; x2; x3] w = Ok sat /\
    (sat = true <-> (forall v, In v w -> v = x1) /\ ((2 <= nc)%nat -> x1 * x2 = x3)).
Proof.
  rewrite ex_r1cs_ok. intros Ex L. destruct (Nat.leb_spec 3 nv); [|discriminate]. destruct (Nat.leb_spec 1 nc); [|discriminate].
  cbn [andb] in Ex. injection Ex as <-.
  destruct (CSProofs.r1cs_satisfy_ok (E:=E) (ex_sys (nv - 3) (nc - 1)) [x1; x2; x3] w) as [v [Ev Hv]].
  - cbn [ex_sys r_nrows]. lia.
  - cbn [ex_sys r_ncols length]. lia.
  - apply ex_sys_shape.
  - exists v. split; auto. rewrite Hv. rewrite (ex_holds (nv - 3) (nc - 1) x1 x2 x3 w L).
    split; intros [A B]; split; auto; intros; apply B; lia.
Qed.

(** The R1CS example passes, for all values a and b, with at least 5 variables and at most twice that
    many less 4 constraints, unless one of the events listed in [r1_unlucky] happened; the program's
    sizes are 5 and 5. *)
Theorem c85_r1cs_example_passes (a b : F) nv nc (dr : ex_draws F G1 G2) :
  ex_g dr <> v0 -> ex_h dr <> v0 -> gamma <> 0 -> (5 <= nv)%nat -> (1 <= nc <= 2 * nv - 4)%nat ->
  run_r1cs_example (GT:=GT) H gamma a b nv nc dr = Ok tt \/
  exists cs pp pk vk, ex_r1cs (E:=error) a b nv nc = Ok cs /\
    setup (11 * (nv - 3) + 5 * (nc - 1) + 17) (ex_beta dr) (ex_g dr) (ex_h dr) = Ok pp /\
    r1_index gamma pp cs = Ok (pk, vk) /\
    r1_unlucky H gamma pk [a; b; a * b] (repeat a (nv - 3)) (ex_d dr 0) (ex_d dr 1) (ex_d dr 2).
Proof. apply run_r1cs_ok. Qed.
(** With fewer variables it always panics, although the system is satisfied. *)
Theorem c85_r1cs_example_small_panics (a b : F) nv nc (dr : ex_draws F G1 G2) :
  (nv <= 4)%nat \/ (nc < 1)%nat -> run_r1cs_example (GT:=GT) H gamma a b nv nc dr = Panic.
Proof. apply run_r1cs_small. Qed.

(** The Fibonacci example passes for every number of steps from 2 up to the characteristic: its witness
    is the sequence started by (1, 1) with the multipliers 0, 1, 2, ...  The exceptions are those of
    C30. *)
Theorem c85_fibonacci_example_passes n (dr : ex_draws F G1 G2) :
  ex_g dr <> v0 -> ex_h dr <> v0 -> (2 <= n)%nat -> (Z.of_nat n <= modulus (F := F))%Z ->
  let ts := map (fun i => from_Z (Z.of_nat i)) (seq 0 n) in
  let walk := fib_walk 1 1 ts in let x := mkFibIns 1 1 (last walk 0) in
  run_fibonacci_example (GT:=GT) H n dr = Ok tt \/
  exists pp pk vk, setup (n + 2) (ex_beta dr) (ex_g dr) (ex_h dr) = Ok pp /\ fb_index pp (mkFibCS n ts) = Ok (pk, vk) /\
    ((fb_prove H pk x walk (ex_d dr 0) (ex_d dr 1) (ex_d dr 2) = Panic /\
      fb_unlucky H pk x walk (ex_d dr 0) (ex_d dr 1) (ex_d dr 2)) \/
     fb_omega_zero H pk x walk (ex_d dr 0) (ex_d dr 1) (ex_d dr 2)).
Proof. apply run_fibonacci_ok. Qed.

(** The HPR example passes for every scale but 0 and for every random system, unless one of the events
    listed in [hp_unlucky] happened (the first blinding scalar is taken to be nonzero). *)
Theorem c85_hpr_example_passes scale sys (dr : ex_draws F G1 G2) :
  ex_g dr <> v0 -> ex_h dr <> v0 -> gamma <> 0 -> (1 <= scale)%nat -> ex_d dr 0 <> 0 ->
  run_hpr_example (GT:=GT) H gamma scale sys dr = Ok tt \/
  exists cs x w size pp pk vk, generate_random_hpr (E:=error) scale scale (scale / 5) sys = Ok (cs, x, w) /\
    hpr_get_size (E:=error) cs = Ok size /\ setup (hp_get_max_degree size + 10) (ex_beta dr) (ex_g dr) (ex_h dr) = Ok pp /\
    hp_index gamma pp cs = Ok (pk, vk) /\
    hp_unlucky H gamma pk x w (ex_d dr 0) (ex_d dr 1) (ex_d dr 2).
Proof. apply run_hpr_ok. Qed.
Theorem c85_hpr_example_zero_panics sys (dr : ex_draws F G1 G2) : run_hpr_example (GT:=GT) H gamma 0 sys dr = Panic.
Proof. apply run_hpr_zero. Qed.

(** The range-check example never passes, whatever its size, range and witness, with a nonzero fifth
    blinding scalar and a hash function without zero values (C58).  As it comes first in [main], the
    program ends there, without having printed "Verification pass" once. *)
Theorem c85_range_check_example_refuted n range w (dr : ex_draws F G1 G2) :
  (1 <= n)%nat -> ex_d dr 4 <> 0 -> (forall l, H l <> 0) ->
  run_range_check_example (GT:=GT) H n range w dr <> Ok tt.
Proof. apply run_range_fails. Qed.
Theorem c85_main_passes_refuted wit sys (dr1 dr2 dr3 dr4 : ex_draws F G1 G2) :
  ex_d dr1 4 <> 0 -> (forall l, H l <> 0) ->
  snd (ex_main (GT:=GT) H gamma wit sys dr1 dr2 dr3 dr4) = 0%nat /\
  fst (ex_main (GT:=GT) H gamma wit sys dr1 dr2 dr3 dr4) <> Finished.
Proof. intros Hd HH. exact (main_fails H gamma wit sys dr1 dr2 dr3 dr4 Hd HH). Qed.
End S.

(** ** Non-vacuity: integers modulo 101, pairing e(a,b) = ab, and a small hash without zero values *)
Definition H101p (l : list (item F101 F101)) : F101 := if is_zero (H101 l) then f101 1 else H101 l.
Definition dr101 : ex_draws F101 F101 F101 :=
  mkExDraws (f101 7) (f101 3) (f101 5) (fun i => f101 (21 + Z.of_nat i)) (f101 77).
Definition sys101 : hpr_draws (F:=F101) :=
  mkDraws (fun i => i) (fun i => (i * i)%nat) (fun i => (i + 1)%nat) (fun i => (2 * i)%nat) (fun i => i) (fun i => (i + 2)%nat)
    (fun i => f101 (Z.of_nat i + 1)) (fun i => f101 (3 * Z.of_nat i + 1)) (fun i => f101 5) (fun i => f101 9)
    (fun i => f101 (2 + Z.of_nat i)) (fun i => f101 3).
Example c85_example_hypotheses : ex_g dr101 <> v0 /\ ex_h dr101 <> v0 /\ f101 2 <> 0 /\ ex_d dr101 0 <> 0 /\ ex_d dr101 4 <> 0 /\
  (forall l, H101p l <> 0).
Proof.
  repeat (split; [intros E; apply (f_equal (zval 101)) in E; vm_compute in E; discriminate|]).
  intros l. unfold H101p. destruct (is_zero_spec (H101 l)) as [_|N]; [|exact N].
  intros E; apply (f_equal (zval 101)) in E; vm_compute in E; discriminate.
Qed.
Example c85_example_fibonacci : run_fibonacci_example (GT:=F101) H101p 5 dr101 = Ok tt.
Proof. vm_cast_no_check (@eq_refl (outcome error unit) (Ok tt)). Qed.
Example c85_example_hpr_system :
  match generate_random_hpr (E:=unit) 10 10 (10 / 5) sys101 with
  | Ok (cs, x, w) => x = l101 [9; 9]%Z /\ hpr_satisfy (E:=unit) cs x (fst (fst w)) (snd (fst w)) (snd w) = Ok true
  | _ => False end.
Proof. vm_compute. split; reflexivity. Qed.
Example c85_example_circuit :
  match ex_r1cs (E:=unit) (f101 3) (f101 2) 5 5 with
  | Ok cs => r1cs_satisfy (E:=unit) cs (l101 [3; 2; 6]%Z) (l101 [3; 3]%Z) = Ok true /\
             r1cs_satisfy (E:=unit) cs (l101 [3; 2; 7]%Z) (l101 [3; 3]%Z) = Ok false /\
             r1cs_satisfy (E:=unit) cs (l101 [3; 2; 6]%Z) (l101 [3; 4]%Z) = Ok false
  | _ => False end.
Proof. vm_compute. auto. Qed.
Example c85_example_main :
  ex_main (GT:=F101) H101p (f101 2) (l101 [0; 2; 4; 6; 8]%Z) sys101 dr101 dr101 dr101 dr101 = (Exited, 0%nat).
Proof. vm_cast_no_check (@eq_refl (ex_ending * nat) (Exited, 0%nat)). Qed.

Print Assumptions c85_circuit_size. Print Assumptions c85_circuit_meaning.
Print Assumptions c85_r1cs_example_passes. Print Assumptions c85_r1cs_example_small_panics.
Print Assumptions c85_fibonacci_example_passes. Print Assumptions c85_hpr_example_passes.
Print Assumptions c85_hpr_example_zero_panics. Print Assumptions c85_range_check_example_refuted.
Print Assumptions c85_main_passes_refuted.

(** Properties_CS.v: property theorems about the constraint systems (C11-C15, C40). *)
From Verif Require Import Base Spec Tools ToolsProofs MatProofs CS CSProofs POVProofs CSExtra.
Local Open Scope F_scope.

(** ** C11 R1CS *)
(** [r1cs_shape s]: every coordinate entry lies inside the declared nrows x ncols matrix. *)
Theorem c11_satisfy_iff {F} {fo : FieldOps F} {fl : FieldLaws F} {E} (s : R1CS F) (x w : list F) :
  (0 < r_nrows s)%nat -> (1 + length x + length w = r_ncols s)%nat -> r1cs_shape s ->
  exists b, r1cs_satisfy (E:=E) s x w = Ok b /\
   (b = true <->
    r1cs_holds (entries_of (r_arows s) (r_acols s) (r_avals s))
               (entries_of (r_brows s) (r_bcols s) (r_bvals s))
               (entries_of (r_crows s) (r_ccols s) (r_cvals s))
               (r_nrows s) (r_ncols s) (1 :: x ++ w)).
Proof. exact (r1cs_satisfy_ok s x w). Qed.
Theorem c11_satisfy_panics {F} {fo : FieldOps F} {fl : FieldLaws F} {E} (s : R1CS F) (x w : list F) :
  ~ ((0 < r_nrows s)%nat /\ (1 + length x + length w = r_ncols s)%nat /\ r1cs_shape s) ->
  r1cs_satisfy (E:=E) s x w = Panic.
Proof. exact (r1cs_satisfy_panic s x w). Qed.
Example c11_example :
  r1cs_shape r1cs_example /\ r1cs_satisfy (E:=unit) r1cs_example [f101 9] [f101 3] = Ok true /\
  r1cs_satisfy (E:=unit) r1cs_example [f101 9] [f101 4] = Ok false.
Proof. exact r1cs_example_ok. Qed.

(** ** C12 HPR *)
Theorem c12_satisfy_iff {F} {fo : FieldOps F} {fl : FieldLaws F} {E} (s : HPR F) (x w1 w2 w3 : list F) :
  (0 < h_nrows s)%nat -> (0 < h_ncols s)%nat -> hpr_shape s ->
  length w1 = h_ncols s -> length w2 = h_ncols s -> length w3 = h_ncols s ->
  (length x <= h_nrows s)%nat ->
  exists b, hpr_satisfy (E:=E) s x w1 w2 w3 = Ok b /\
   (b = true <->
    hpr_holds (entries_of (h_arows s) (h_acols s) (h_avals s))
              (entries_of (h_brows s) (h_bcols s) (h_bvals s))
              (entries_of (h_crows s) (h_ccols s) (h_cvals s))
              (sparse_at (h_drows s) (h_dvals s)) (h_nrows s) (h_ncols s) x w1 w2 w3).
Proof. exact (hpr_satisfy_ok s x w1 w2 w3). Qed.

(** ** C13 random HPR instances *)
Theorem c13_random_hpr {F} {fo : FieldOps F} {fl : FieldLaws F} {E} nrows ncols input_size (d : hpr_draws (F:=F)) :
  (0 < nrows)%nat -> (0 < ncols)%nat ->
  exists s x w1 w2 w3,
    generate_random_hpr (E:=E) nrows ncols input_size d = Ok (s, x, (w1, w2, w3)) /\
    length x = input_size /\
    ((input_size <= nrows)%nat -> hpr_satisfy (E:=E) s x w1 w2 w3 = Ok true) /\
    ((nrows < input_size)%nat -> hpr_satisfy (E:=E) s x w1 w2 w3 = Panic) /\
    h_nrows s = nrows /\ h_ncols s = ncols /\ h_input_size s = input_size /\
    length w1 = ncols /\ length w2 = ncols /\ length w3 = ncols.
Proof. exact (generate_random_hpr_ok nrows ncols input_size d). Qed.
Example c13_example : exists s x w, generate_random_hpr (E:=unit) 2 3 1
    (mkDraws (fun i => i) (fun i => (i * i)%nat) (fun i => (i + 1)%nat) (fun i => (2 * i)%nat) (fun i => i) (fun i => (i + 2)%nat)
      (fun i => f101 (Z.of_nat i)) (fun _ => f101 3) (fun _ => f101 7) (fun _ => f101 5) (fun i => f101 (Z.of_nat i)) (fun _ => f101 2))
    = Ok (s, x, w) /\ h_drows s <> [].
Proof. eexists. eexists. eexists. split; [vm_compute; reflexivity|]. vm_compute. discriminate. Qed.

(** ** C14 sizes *)
(** every list of a matrix has the length reported as its density *)
Theorem c14_r1cs_size {F} {fo : FieldOps F} {fl : FieldLaws F} {E} (s : R1CS F) z :
  r1cs_get_size (E:=E) s = Ok z <->
  (length (r_acols s) = length (r_arows s) /\ length (r_avals s) = length (r_arows s) /\
   length (r_bcols s) = length (r_brows s) /\ length (r_bvals s) = length (r_brows s) /\
   length (r_ccols s) = length (r_crows s) /\ length (r_cvals s) = length (r_crows s)) /\
  rs_nrows z = r_nrows s /\ rs_ncols z = r_ncols s /\ rs_input_size z = r_input_size s /\
  rs_adensity z = length (r_arows s) /\ rs_bdensity z = length (r_brows s) /\ rs_cdensity z = length (r_crows s).
Proof. exact (r1cs_get_size_iff s z). Qed.
Theorem c14_pov_size {F} {fo : FieldOps F} {fl : FieldLaws F} (p : POV F) :
  ps_n (pov_get_size p) = (length (p_consts p) + p_nmul p + p_nadd p)%nat /\
  ps_nconsts (pov_get_size p) = length (p_consts p) /\
  ps_nmul (pov_get_size p) = p_nmul p /\ ps_nadd (pov_get_size p) = p_nadd p.
Proof. repeat split. Qed.
(** for HPR the densities of B and C are reported as the density of A *)
Theorem c14_hpr_size_refuted : exists (s : HPR F101) z,
  hpr_get_size (E:=unit) s = Ok z /\ hs_bdensity z <> length (h_brows s) /\ hs_cdensity z <> length (h_crows s).
Proof.
  exists (mkHPR [0%nat] [0%nat] [f101 1] [] [] [] [] [] [] [] [] 1 1 0).
  eexists. split; [reflexivity|]. cbn. split; discriminate.
Qed.

(** ** C15 POV *)
Theorem c15_satisfy_iff {F} {fo : FieldOps F} {fl : FieldLaws F} {E} (p : POV F) pos vals (a b c : list F) :
  let n := (p_nmul p + p_nadd p + length (p_consts p))%nat in
  length a = n -> length b = n -> length c = n ->
  exists r, pov_satisfy (E:=E) p (pos, vals) (a, b, c) = Ok r /\
   (r = true <-> pov_holds (p_consts p) (p_wires p) (p_nmul p) (p_nadd p) pos vals a b c).
Proof. exact (pov_satisfy_spec p pos vals a b c). Qed.
(** a witness that is too short is accepted although a gate has no values at all *)
Theorem c15_short_witness_refuted : exists (p : POV F101) a b c,
  pov_satisfy (E:=unit) p ([], []) (a, b, c) = Ok true /\
  ~ pov_holds (p_consts p) (p_wires p) (p_nmul p) (p_nadd p) [] [] a b c.
Proof.
  exists (mkPOV [f101 5] [] 0 0), [], [], []. split; [reflexivity|].
  intros [_ [_ [H _]]]. specialize (H 0%nat Nat.lt_0_1). vm_compute in H. discriminate.
Qed.
Example c15_example :
  let p := mkPOV [f101 5] [(0%nat, 1%nat); (8%nat, 3%nat)] 1 1 in
  pov_satisfy (E:=unit) p ([6%nat], [f101 15]) ([f101 3; f101 3; f101 0], [f101 5; f101 0; f101 0], [f101 15; f101 3; f101 5]) = Ok true /\
  pov_satisfy (E:=unit) p ([6%nat], [f101 15]) ([f101 3; f101 3; f101 0], [f101 5; f101 1; f101 0], [f101 15; f101 3; f101 5]) = Ok false.
Proof. split; vm_compute; reflexivity. Qed.

(** ** C40 conversion from arkworks matrices *)
Theorem c40_from_ark {F} {fo : FieldOps F} {fl : FieldLaws F} {E} (m : ArkMatrices (F:=F)) :
  (ark_num_instance m = 0%nat -> r1cs_from_ark (E:=E) m = Panic) /\
  ((0 < ark_num_instance m)%nat -> exists s, r1cs_from_ark (E:=E) m = Ok s /\
    r_nrows s = ark_num_constraints m /\
    r_ncols s = (ark_num_instance m + ark_num_witness m)%nat /\
    r_input_size s = (ark_num_instance m - 1)%nat /\
    (forall r c, mat_at (entries_of (r_arows s) (r_acols s) (r_avals s)) r c = ark_at (ark_a m) r c) /\
    (forall r c, mat_at (entries_of (r_brows s) (r_bcols s) (r_bvals s)) r c = ark_at (ark_b m) r c) /\
    (forall r c, mat_at (entries_of (r_crows s) (r_ccols s) (r_cvals s)) r c = ark_at (ark_c m) r c)).
Proof. exact (r1cs_from_ark_ok m). Qed.
Example c40_example : exists s, r1cs_from_ark (E:=unit) (mkArk 2 1 1 [[(f101 1, 1%nat)]] [[(f101 1, 2%nat); (f101 3, 0%nat)]] [[]]) = Ok s
  /\ r_brows s = [0%nat; 0%nat] /\ r_bcols s = [2%nat; 0%nat].
Proof. eexists. split; [reflexivity|]. split; reflexivity. Qed.

Print Assumptions c11_satisfy_iff. Print Assumptions c12_satisfy_iff. Print Assumptions c13_random_hpr.
Print Assumptions c14_r1cs_size. Print Assumptions c15_satisfy_iff. Print Assumptions c40_from_ark.

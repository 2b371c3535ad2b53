(** Properties_Circuit.v: property theorems about the circuit builder and the conversions (C16-C22). *)
From Verif Require Import Base Spec ProgSpec Tools PermProofs ToolsProofs2 CS CSProofs POVProofs Circuit CircuitProofs Build CircuitPOV CircuitTop R1CSCirc R1CSCircProofs R1CSCircTop R1CSPov.
From Coq Require Import Permutation.
Local Open Scope F_scope.

(** ** C16 the builder preserves the meaning of expressions *)
(** [build p] runs the calls of the program [p] on a new circuit and returns the circuit and the handles
    returned by the value-producing calls; [prog_values p inp] is the independent meaning of [p]. *)
Theorem c16_values {F} {fo : FieldOps F} {fl : FieldLaws F} (p : program F) c hs inp :
  build p = (c, Ok hs) -> is_complete c = true -> length inp = prog_inputs p ->
  exists c1, evaluate inp c = (c1, Ok tt) /\ length hs = length (prog_values p inp) /\
    forall k, (k < length hs)%nat -> get_var_value c1 (nth k hs 0%nat) = Ok (nth k (prog_values p inp) 0).
Proof. exact (built_values p c hs inp). Qed.

Definition prog_example : program F101 :=
  [PInput; PInput; PMul 0 1; PMul 1 0; PConst (f101 5); PAdd 2 4; PConst (f101 5); PAdd 6 3;
   PEq 5 6; PPub 0; PPub 5; PComplete].
Example c16_example : exists c hs, build prog_example = (c, Ok hs) /\ is_complete c = true /\
  (* the caches identify equal expressions *)
  hs = [0; 1; 2; 2; 3; 4; 3; 4]%nat /\
  prog_values prog_example [f101 3; f101 7] = [f101 3; f101 7; f101 21; f101 21; f101 5; f101 26; f101 5; f101 26].
Proof. eexists. eexists. split; [vm_compute; reflexivity|]. repeat split; vm_compute; reflexivity. Qed.

(** ** C17 errors of the builder *)
Theorem c17_late_input {F} {fo : FieldOps F} {fl : FieldLaws F} (p : program F) c hs :
  build p = (c, Ok hs) ->
  ((exists i, In i p /\ makes_gate i = true) -> add_global_input_variable c = (c, Err GatesAreNotEmpty)) /\
  ((forall i, In i p -> makes_gate i = false) -> exists c' h, add_global_input_variable c = (c', Ok h)).
Proof. exact (built_late_input p c hs). Qed.
(** before [mark_as_complete] the circuit is not complete and cannot be evaluated *)
Theorem c17_not_complete {F} {fo : FieldOps F} {fl : FieldLaws F} (p : program F) c hs inp :
  build p = (c, Ok hs) -> ~ In PComplete p ->
  is_complete c = false /\ evaluate inp c = (c, Err CircuitNotComplete) /\ get_wiring c = Err CircuitNotComplete.
Proof.
  intros B H. pose proof (built_not_complete p c hs B H) as E. split; auto. split.
  - unfold evaluate, assign_global_inputs, bind, query, get_input_size, assert_complete. rewrite E. reflexivity.
  - unfold get_wiring, assert_complete. rewrite E. reflexivity.
Qed.
(** [mark_as_complete] succeeds iff there is an input and every input is used by a gate; otherwise
    it reports the first reason and changes nothing *)
Theorem c17_complete {F} {fo : FieldOps F} {fl : FieldLaws F} (p : program F) c hs :
  build p = (c, Ok hs) ->
  (prog_inputs p = 0%nat -> mark_as_complete c = (c, Err CircuitHasNoGlobalInput)) /\
  ((0 < prog_inputs p)%nat -> (forall k, (k < prog_inputs p)%nat -> prog_uses p k) ->
     exists c', mark_as_complete c = (c', Ok tt) /\ is_complete c' = true) /\
  (forall k, (k < prog_inputs p)%nat -> ~ prog_uses p k -> (forall j, (j < k)%nat -> prog_uses p j) ->
     mark_as_complete c = (c, Err (VariableNotConnected k))).
Proof. exact (built_complete p c hs). Qed.
Theorem c17_failed_call_unchanged {F} {fo : FieldOps F} {fl : FieldLaws F} (p : program F) c hs i c' e :
  build p = (c, Ok hs) -> build_instr hs i c = (c', Err e) ->
  (match i with PAssign _ => False | _ => True end) -> c' = c.
Proof. intros B. apply (failed_call_unchanged p). now apply build_rel. Qed.
Theorem c17_wrong_input_size {F} {fo : FieldOps F} {fl : FieldLaws F} (p : program F) c hs inp :
  build p = (c, Ok hs) -> is_complete c = true -> length inp <> prog_inputs p ->
  evaluate inp c = (c, Err (InputSizeNotSupported (prog_inputs p) (length inp))).
Proof.
  intros B H HL. apply build_rel in B. rewrite <- (rl_nin _ _ _ B) in *.
  unfold evaluate, assign_global_inputs, bind, query, get_input_size, assert_complete. rewrite H. cbn [obind].
  unfold assert_size. destruct (Nat.eqb_spec (c_nin c) (length inp)); [congruence|reflexivity].
Qed.
Example c17_example :
  exists c hs, build (F:=F101) [PInput; PInput; PAdd 0 0] = (c, Ok hs) /\
    mark_as_complete c = (c, Err (VariableNotConnected 1)) /\ add_global_input_variable c = (c, Err GatesAreNotEmpty).
Proof. eexists. eexists. split; [vm_compute; reflexivity|]. split; vm_compute; reflexivity. Qed.
(** The low-level calls (also public) do not have this discipline: a [mark_as_complete] that reports an
    unconnected variable can leave the circuit marked complete, calling it twice duplicates the outputs,
    and a failing [add_add_gate] leaves its gate behind. *)
Theorem c17_low_level_refuted :
  (exists (c c' : circ F101) h, (do _ <- add_global_input_variable; do x <- add_new_variable; do _ <- add_add_gate 0 0 x; do _ <- add_new_variable; ret 0%nat) new_circ = (c, Ok h) /\
     mark_as_complete c = (c', Err (VariableNotConnected 2)) /\ is_complete c = false /\ is_complete c' = true) /\
  (exists (c c' : circ F101) h, (do _ <- add_global_input_variable; do x <- add_vars 0 0; do _ <- mark_as_complete; ret x) new_circ = (c, Ok h) /\
     mark_as_complete c = (c', Ok tt) /\ length (c_outs c) = 1%nat /\ length (c_outs c') = 2%nat) /\
  (exists (c c' : circ F101) h, (do _ <- add_global_input_variable; do x <- add_vars 0 0; ret x) new_circ = (c, Ok h) /\
     add_add_gate 0 0 h c = (c', Err VariableAlreadySetAsOutput) /\ add_num c = 1%nat /\ add_num c' = 2%nat).
Proof.
  split; [|split]; eexists; eexists; eexists; (split; [vm_compute; reflexivity|]); repeat split; vm_compute; reflexivity.
Qed.

(** ** C18 layout of the wires *)
(** [var_of_wire c w = Some i]: the wire [w] exists in the circuit (and carries variable i). *)
Theorem c18_distinct {F} {fo : FieldOps F} (c : circ F) w w' i i' :
  var_of_wire c w = Some i -> var_of_wire c w' = Some i' -> wire_index c w = wire_index c w' -> w = w'.
Proof. exact (wire_index_inj c w w' i i'). Qed.
Theorem c18_range {F} {fo : FieldOps F} (c : circ F) w i :
  var_of_wire c w = Some i -> (wire_index c w < 3 * (mul_num c + add_num c + const_num c))%nat.
Proof. intros H. apply wire_index_lt in H. unfold gate_num in H. lia. Qed.
(** in the witness vectors of an evaluated circuit, the position of a wire carries the value of its variable *)
Theorem c18_witness_layout {F} {fo : FieldOps F} {fl : FieldLaws F} (p : program F) c hs inp :
  build p = (c, Ok hs) -> is_complete c = true -> length inp = prog_inputs p ->
  exists c1 a b d, evaluate inp c = (c1, Ok tt) /\ get_witness c1 = Ok (a, b, d) /\
    length a = gate_num c /\ length b = gate_num c /\ length d = gate_num c /\
    forall w x, get_wire_value c1 w = Ok x -> coef (a ++ b ++ d) (wire_index c w) = x.
Proof.
  intros B Hc HL. apply build_rel in B. pose proof (rl_inv _ _ _ B) as I. rewrite <- (rl_nin _ _ _ B) in HL.
  destruct (evaluate_ok c inp I Hc HL) as [vs [val [E [SS [V Con]]]]].
  assert (Inv (set_vars c vs)) as I1 by now apply inv_vals.
  assert (length vs = length (c_vars c)) as LV by (rewrite <- (map_length skel vs), SS, map_length; auto).
  assert (values (set_vars c vs) val) as V1.
  { intros i Hi. apply V. unfold nv in *. cbn in Hi. lia. }
  pose proof (get_witness_ok _ val I1 V1) as EW. pose proof (wit_lengths c val) as WL. pose proof (fun w i => wit_at c val w i) as WA.
  change (wit_of (set_vars c vs) val) with (wit_of c val) in *. destruct (wit_of c val) as [[a b] d]. destruct WL as [La [Lb Ld]].
  exists (set_vars c vs), a, b, d. repeat split; auto. intros w x Hw. unfold get_wire_value in Hw. rewrite var_of_wire_vals in Hw.
  destruct (var_of_wire c w) as [i|] eqn:Ew; [|discriminate]. cbn [unwrap_opt obind] in Hw. rewrite (WA w i Ew).
  destruct (Nat.lt_ge_cases i (nv c)) as [Hi|Hi].
  - rewrite (V i Hi) in Hw. congruence.
  - unfold get_var_value, get_var in Hw. cbn [c_vars set_vars] in Hw.
    assert (nth_error vs i = None) as En by (apply nth_error_None; unfold nv in Hi; lia). rewrite En in Hw. discriminate.
Qed.
Example c18_example : exists c hs, build prog_example = (c, Ok hs) /\
  map (wire_index c) [WIn (IMul 0 SL); WIn (IMul 0 SR); WIn (IAdd 0 SL); WIn (IAdd 0 SR); WOut (OMul 0); WOut (OAdd 0); WOut (OConst 0)]
  = [0; 3; 1; 4; 6; 7; 8]%nat.
Proof. eexists. eexists. split; vm_compute; reflexivity. Qed.

(** ** C19 the derived POV means the same as the program *)
Theorem c19_honest_witness {F} {fo : FieldOps F} {fl : FieldLaws F} (p : program F) c hs inp :
  build p = (c, Ok hs) -> is_complete c = true -> length inp = prog_inputs p ->
  exists pov c1 pos wit,
    pov_from_circuit c = Ok pov /\ evaluate inp c = (c1, Ok tt) /\ pov_from_circuit c1 = Ok pov /\
    get_instance c1 = Ok (pos, prog_public_values p inp) /\ get_witness c1 = Ok wit /\
    exists r, pov_satisfy (E:=cerr) pov (pos, prog_public_values p inp) wit = Ok r /\
      (r = true <-> prog_asserts_hold p inp).
Proof. exact (built_pov p c hs inp). Qed.
(** conversely every satisfying witness of the derived POV comes from inputs on which the assertions
    hold and the public values are the given ones *)
Theorem c19_sound {F} {fo : FieldOps F} {fl : FieldLaws F} (p : program F) c hs pov pos c0 inp0 (vals a b d : list F) :
  build p = (c, Ok hs) -> is_complete c = true -> pov_from_circuit c = Ok pov ->
  evaluate inp0 c = (c0, Ok tt) -> get_instance c0 = Ok (pos, prog_public_values p inp0) ->
  let n := (p_nmul pov + p_nadd pov + length (p_consts pov))%nat in
  length a = n -> length b = n -> length d = n -> length vals = length (prog_pubs p) ->
  pov_satisfy (E:=cerr) pov (pos, vals) (a, b, d) = Ok true ->
  exists inp, length inp = prog_inputs p /\ prog_asserts_hold p inp /\ prog_public_values p inp = vals.
Proof. exact (built_pov_sound p c hs pov pos c0 inp0 vals a b d). Qed.
Example c19_example : prog_asserts_hold prog_example [f101 0; f101 7] /\ ~ prog_asserts_hold prog_example [f101 3; f101 7] /\
  prog_public_values prog_example [f101 3; f101 7] = [f101 3; f101 26].
Proof.
  split; [|split].
  - intros i j [H|[]]. injection H as <- <-. vm_compute. reflexivity.
  - intros H. specialize (H 5%nat 6%nat (or_introl eq_refl)). vm_compute in H. discriminate.
  - vm_compute. reflexivity.
Qed.

(** ** C20 R1CS -> POV is faithful *)
(** [conv_pre s] (stated in terms of the coordinate lists only): at least two columns, every non-zero entry in
    range, every column after the first has a non-zero entry.  [ord]: iteration order of the hash map. *)
Theorem c20_faithful {F} {fo : FieldOps F} {fl : FieldLaws F} ord (s : R1CS F) ins wit :
  (forall m, Permutation (ord m) m) -> conv_pre s ->
  length ins = r_input_size s -> (length ins + length wit = r_ncols s - 1)%nat ->
  exists p pos w, pov_triple ord s ins wit = Ok (p, (pos, ins), w) /\ pov_pair ord s ins = Ok (p, (pos, ins)) /\
    exists r, pov_satisfy (E:=cerr) p (pos, ins) w = Ok r /\
     (r = true <-> r1cs_holds (entries_of (r_arows s) (r_acols s) (r_avals s))
                              (entries_of (r_brows s) (r_bcols s) (r_bvals s))
                              (entries_of (r_crows s) (r_ccols s) (r_cvals s)) (r_nrows s) (r_ncols s) (1 :: ins ++ wit)).
Proof.
  intros HO HP HI HL. destruct (proj1 (conv_main ord s HO) HP) as [c [E HC]].
  destruct (triple_ok ord s c ins wit E HC HL) as [a [b [d [E1 [r [E2 E3]]]]]].
  assert (firstn (r_input_size s) (ins ++ wit) = ins) as EF.
  { rewrite <- HI. rewrite firstn_app, Nat.sub_diag, firstn_all. cbn. now rewrite app_nil_r. }
  rewrite EF in *. exists (pov_of c), (pos_of c), (a, b, d). split; auto. split.
  - apply pair_ok; auto. unfold pub_count. lia.
  - exists r. auto.
Qed.
(** the same against the code's own check *)
Theorem c20_faithful_check {F} {fo : FieldOps F} {fl : FieldLaws F} ord (s : R1CS F) ins wit :
  (forall m, Permutation (ord m) m) -> conv_pre s -> r1cs_shape s -> (0 < r_nrows s)%nat ->
  length ins = r_input_size s -> (length ins + length wit = r_ncols s - 1)%nat ->
  exists p x w b, pov_triple ord s ins wit = Ok (p, x, w) /\
    pov_satisfy (E:=cerr) p x w = Ok b /\ r1cs_satisfy (E:=cerr) s ins wit = Ok b.
Proof.
  intros HO HP HS HR HI HL. destruct (c20_faithful ord s ins wit HO HP HI HL) as [p [pos [w [E1 [_ [r [E2 E3]]]]]]].
  destruct (r1cs_satisfy_ok (E:=cerr) s ins wit HR) as [b [E4 E5]]; auto; [destruct HP; lia|].
  exists p, (pos, ins), w, r. split; auto. split; auto. rewrite E4. f_equal.
  assert (r = true <-> b = true) as HB by (rewrite E3, E5; reflexivity). destruct r, b; auto; [now apply HB|symmetry; now apply HB].
Qed.
(** any satisfying POV witness for the public part yields an R1CS witness *)
Theorem c20_sound {F} {fo : FieldOps F} {fl : FieldLaws F} ord (s : R1CS F) ins p pos (a b d : list F) :
  (forall m, Permutation (ord m) m) -> conv_pre s ->
  length ins = Nat.min (r_input_size s) (r_ncols s - 1) -> pov_pair ord s ins = Ok (p, (pos, ins)) ->
  let n := (p_nmul p + p_nadd p + length (p_consts p))%nat in
  length a = n -> length b = n -> length d = n ->
  pov_satisfy (E:=cerr) p (pos, ins) (a, b, d) = Ok true ->
  exists wit, (length ins + length wit = r_ncols s - 1)%nat /\
    r1cs_holds (entries_of (r_arows s) (r_acols s) (r_avals s))
               (entries_of (r_brows s) (r_bcols s) (r_bvals s))
               (entries_of (r_crows s) (r_ccols s) (r_cvals s)) (r_nrows s) (r_ncols s) (1 :: ins ++ wit).
Proof.
  intros HO HP HL E. destruct (proj1 (conv_main ord s HO) HP) as [c [E0 HC]].
  rewrite (pair_ok ord s c ins E0 HC HL) in E. injection E as <- <-. intros n La Lb Ld HS.
  exact (conv_pov_sound s c ins a b d HC HL La Lb Ld HS).
Qed.

(** x*x = y, public y *)
Definition sq_r1cs : R1CS F101 :=
  mkR1CS [0%nat] [2%nat] [f101 1] [0%nat] [2%nat] [f101 1] [0%nat] [1%nat] [f101 1] 1 3 1.
Example c20_example : conv_pre sq_r1cs /\
  (exists p x w, pov_triple (fun m => rev m) sq_r1cs [f101 9] [f101 3] = Ok (p, x, w) /\ pov_satisfy (E:=cerr) p x w = Ok true) /\
  (exists p x w, pov_triple (fun m => m) sq_r1cs [f101 9] [f101 4] = Ok (p, x, w) /\ pov_satisfy (E:=cerr) p x w = Ok false).
Proof.
  split; [|split].
  - split; [cbn; lia|]. split.
    + intros r c x [H|[H|[H|[]]]] _; injection H as <- <- <-; cbn; lia.
    + intros j Hj. cbn in Hj. assert (j = 1 \/ j = 2)%nat as [->| ->] by lia;
      exists 0%nat, (f101 1); (split; [vm_compute; auto|vm_compute; discriminate]).
  - eexists. eexists. eexists. split; vm_compute; reflexivity.
  - eexists. eexists. eexists. split; vm_compute; reflexivity.
Qed.

(** ** C21 when the conversion fails *)
Theorem c21_panics_iff {F} {fo : FieldOps F} {fl : FieldLaws F} ord (s : R1CS F) :
  (forall m, Permutation (ord m) m) ->
  (conv_pre s -> exists c, r1cs_to_circuit ord s new_circ = (c, Ok tt)) /\
  (~ conv_pre s -> snd (r1cs_to_circuit ord s new_circ) = Panic /\
     (forall ins, pov_pair ord s ins = Panic) /\ (forall ins wit, pov_triple ord s ins wit = Panic)).
Proof.
  intros HO. destruct (conv_main ord s HO) as [H1 H2]. split.
  - intros HP. destruct (H1 HP) as [c [E _]]. eauto.
  - intros HP. specialize (H2 HP). split; auto. unfold pov_pair, pov_triple.
    destruct (r1cs_to_circuit ord s new_circ) as [c r]. cbn in H2. subst r. auto.
Qed.
Theorem c21_wrong_length_panics {F} {fo : FieldOps F} {fl : FieldLaws F} ord (s : R1CS F) ins wit :
  (forall m, Permutation (ord m) m) -> (length ins + length wit <> r_ncols s - 1)%nat -> pov_triple ord s ins wit = Panic.
Proof.
  intros HO HL. destruct (conv_pre_dec s) as [HP|HP].
  - destruct (proj1 (conv_main ord s HO) HP) as [c [E HC]]. now apply (triple_panic ord s c).
  - now apply c21_panics_iff.
Qed.
(** a satisfiable R1CS whose conversion panics: a column is unused *)
Theorem c21_unused_column_refuted : exists (s : R1CS F101) ins wit,
  r1cs_shape s /\ r1cs_satisfy (E:=cerr) s ins wit = Ok true /\ pov_triple (fun m => m) s ins wit = Panic.
Proof.
  exists (mkR1CS [0%nat] [2%nat] [f101 1] [0%nat] [2%nat] [f101 1] [0%nat] [1%nat] [f101 1] 1 4 1), [f101 9], [f101 3; f101 5].
  split; [|split; vm_compute; reflexivity].
  repeat split; destruct H as [H|[]]; injection H as <- <- <-; vm_compute; lia.
Qed.
(** two iteration orders of the hash map give different POVs *)
Theorem c21_order_refuted : exists (s : R1CS F101) ins p1 x1 p2 x2, conv_pre s /\
  pov_pair (fun m => m) s ins = Ok (p1, x1) /\ pov_pair (fun m => rev m) s ins = Ok (p2, x2) /\ p1 <> p2.
Proof.
  exists (mkR1CS [0%nat] [2%nat] [f101 3] [0%nat] [2%nat] [f101 1] [0%nat] [1%nat] [f101 1] 1 3 1), [f101 9].
  eexists. eexists. eexists. eexists. split; [|split; [vm_compute; reflexivity|split; [vm_compute; reflexivity|]]].
  - split; [cbn; lia|]. split.
    + intros r c x [H|[H|[H|[]]]] _; injection H as <- <- <-; cbn; lia.
    + intros j Hj. cbn in Hj. assert (j = 1 \/ j = 2)%nat as [->| ->] by lia.
      * exists 0%nat, (f101 1); (split; [vm_compute; auto|vm_compute; discriminate]).
      * exists 0%nat, (f101 1); (split; [vm_compute; auto|vm_compute; discriminate]).
  - intros H. injection H. discriminate.
Qed.

(** ** C22 duplicated assertions vanish from the permutation argument *)
(** asserting the same equality twice in a row: the wires contain the pair twice and the permutation
    vector is that of the circuit without the assertion *)
Theorem c22_double_assert {F} {fo : FieldOps F} {fl : FieldLaws F} {E} (p : program F) c hs i j c2 hs2 gamma :
  build p = (c, Ok hs) -> is_complete c = true -> build (p ++ [PEq i j; PEq i j]) = (c2, Ok hs2) ->
  exists pov pov2 w, pov_from_circuit c = Ok pov /\ pov_from_circuit c2 = Ok pov2 /\
    p_wires pov2 = p_wires pov ++ [w; w] /\ p_consts pov2 = p_consts pov /\ p_nmul pov2 = p_nmul pov /\ p_nadd pov2 = p_nadd pov /\
    let n := (3 * (p_nmul pov + p_nadd pov + length (p_consts pov)))%nat in
    permutation_vector_from_wires (E:=E) gamma (p_wires pov2) n = permutation_vector_from_wires gamma (p_wires pov) n.
Proof.
  intros B Hc B2.
  assert (forall q (c0 : circ F) hs0 r, build_from (q ++ r) hs0 c0 = bind (build_from q hs0) (fun h => build_from r h) c0) as HA.
  { induction q as [|x q IH]; intros c0 hs0 r; [reflexivity|]. cbn [build_from app]. unfold bind at 1 2 3.
    destruct (build_instr hs0 x c0) as [c1 [h1|e|]]; auto. apply IH. }
  unfold build in B2. rewrite HA in B2. unfold bind at 1 in B2. unfold build in B. rewrite B in B2.
  pose proof (build_rel p c hs B) as R. pose proof (rl_inv _ _ _ R) as I. destruct (rl_compl _ _ _ R Hc) as [_ W].
  cbn [build_from] in B2.
  apply bind_ok in B2. destruct B2 as [c3 [h3 [E3 B2]]]. apply bind_ok in B2. destruct B2 as [c4 [h4 [E4 B2]]]. injection B2 as <- <-.
  cbn [build_instr] in E3, E4.
  apply bind_ok in E3. destruct E3 as [c5 [x [H1 E3]]]. apply handle_ok in H1. destruct H1 as [-> [La [-> Ia]]].
  apply bind_ok in E3. destruct E3 as [c5 [y [H1 E3]]]. apply handle_ok in H1. destruct H1 as [-> [Lb [-> Ib]]].
  apply bind_ok in E3. destruct E3 as [c5 [[] [H1 E3]]]. injection E3 as <- <-.
  unfold assert_equal in H1. destruct (Nat.eqb_spec (h_of hs i) (h_of hs j)) as [|Hne]; [discriminate|]. injection H1 as <-.
  apply bind_ok in E4. destruct E4 as [c5 [x [H1 E4]]]. apply handle_ok in H1. destruct H1 as [-> [_ [-> _]]].
  apply bind_ok in E4. destruct E4 as [c5 [y [H1 E4]]]. apply handle_ok in H1. destruct H1 as [-> [_ [-> _]]].
  apply bind_ok in E4. destruct E4 as [c5 [[] [H1 E4]]]. injection E4 as <- <-.
  unfold assert_equal in H1. destruct (Nat.eqb_spec (h_of hs i) (h_of hs j)) as [|_]; [contradiction|]. injection H1 as <-.
  set (a := h_of hs i) in *. set (b := h_of hs j) in *.
  apply (rl_lt _ _ _ R) in Ia, Ib.
  set (c3 := set_eqs c (c_eqs c ++ [(a, b)])). set (c4 := set_eqs c3 (c_eqs c3 ++ [(a, b)])).
  assert (I4 : Inv c4) by (apply inv_change_eqs; auto; apply inv_change_eqs; auto).
  exists (mkPOV (get_consts c) (wires_of c) (mul_num c) (add_num c)), (mkPOV (get_consts c4) (wires_of c4) (mul_num c4) (add_num c4)),
    (wire_index c (rep c a), wire_index c (rep c b)).
  split; [now apply pov_from_ok|]. split; [now apply pov_from_ok|].
  assert (EW : wires_of c4 = wires_of c ++ [(wire_index c (rep c a), wire_index c (rep c b)); (wire_index c (rep c a), wire_index c (rep c b))]).
  { unfold wires_of, c4, c3. cbn [c_vars c_eqs set_eqs]. rewrite <- app_assoc, map_app. cbn [map]. rewrite !app_assoc.
    change (wire_index (set_eqs (set_eqs c (c_eqs c ++ [(a, b)])) ((c_eqs c ++ [(a, b)]) ++ [(a, b)]))) with (wire_index c).
    change (rep (set_eqs (set_eqs c (c_eqs c ++ [(a, b)])) ((c_eqs c ++ [(a, b)]) ++ [(a, b)]))) with (rep c). reflexivity. }
  cbn [p_wires p_consts p_nmul p_nadd]. split; [exact EW|]. split; [reflexivity|]. split; [reflexivity|]. split; [reflexivity|].
  cbn zeta. rewrite EW.
  assert (HN : (3 * (mul_num c + add_num c + length (get_consts c)) = 3 * gate_num c)%nat).
  { unfold gate_num, get_consts, const_num. rewrite map_length. lia. }
  rewrite HN.
  assert (HP : pairs_below (3 * gate_num c) (wires_of c)).
  { intros u v Huv. unfold wires_of in Huv. apply in_app_iff in Huv. destruct Huv as [Huv|Huv].
    - apply in_flat_map in Huv. destruct Huv as [vv [Hv Huv]]. apply windows2_In in Huv. destruct Huv as [Hu Hw].
      apply In_nth_error in Hv. destruct Hv as [k Hk].
      apply in_map_iff in Hu, Hw. destruct Hu as [w1 [<- H1]]. destruct Hw as [w2 [<- H2]].
      split; eapply wire_index_lt; eapply (var_in_wire c k vv); eauto.
    - apply in_map_iff in Huv. destruct Huv as [[x y] [Exy Hxy]]. injection Exy as <- <-. cbn.
      destruct (inv_eqs c I x y Hxy) as [Hx [Hy _]].
      split; eapply wire_index_lt; apply rep_ok; auto. }
  apply (pvw_duplicate gamma (wires_of c)); auto; eapply wire_index_lt; apply rep_ok; auto.
Qed.
(** a duplicated row of an R1CS is dropped: the system x*x = y with its row written twice is not satisfied by
    y = 9, x = 4, but all gates, constants and public values hold and the permutation is respected *)
Definition sq2_r1cs : R1CS F101 :=
  mkR1CS [0%nat; 1%nat] [2%nat; 2%nat] [f101 1; f101 1] [0%nat; 1%nat] [2%nat; 2%nat] [f101 1; f101 1]
         [0%nat; 1%nat] [1%nat; 1%nat] [f101 1; f101 1] 2 3 1.
Theorem c22_duplicate_row_refuted : exists (p : POV F101) pos a b d sigma,
  pov_triple (fun m => m) sq2_r1cs [f101 9] [f101 4] = Ok (p, (pos, [f101 9]), (a, b, d)) /\
  r1cs_satisfy (E:=cerr) sq2_r1cs [f101 9] [f101 4] = Ok false /\
  pov_satisfy (E:=cerr) p (pos, [f101 9]) (a, b, d) = Ok false /\
  (* everything but the wiring holds ... *)
  pov_satisfy (E:=cerr) (mkPOV (p_consts p) [] (p_nmul p) (p_nadd p)) (pos, [f101 9]) (a, b, d) = Ok true /\
  (* ... and the permutation derived from the wiring is respected *)
  permutation_vector_from_wires (E:=cerr) (f101 2) (p_wires p) (length (a ++ b ++ d)) = Ok sigma /\
  distinct_powers (f101 2) (length (a ++ b ++ d)) /\
  perm_invariant (f101 2) (length (a ++ b ++ d)) sigma (a ++ b ++ d).
Proof.
  eexists. eexists. eexists. eexists. eexists. eexists. split; [vm_compute; reflexivity|].
  split; [vm_compute; reflexivity|]. split; [vm_compute; reflexivity|]. split; [vm_compute; reflexivity|].
  split; [vm_compute; reflexivity|]. split; [apply distinct_powers_check|apply perm_invariant_check]; vm_compute; reflexivity.
Qed.
Print Assumptions c16_values. Print Assumptions c19_sound. Print Assumptions c20_faithful. Print Assumptions c20_sound.
Print Assumptions c21_panics_iff. Print Assumptions c22_double_assert. Print Assumptions c22_duplicate_row_refuted.


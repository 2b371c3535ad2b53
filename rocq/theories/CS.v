(** CS.v: models of voproof/src/cs/{r1cs,hpr,pov}.rs. *)
From Verif Require Import Base Tools.
Local Open Scope F_scope.

Section CS.
Context {F : Type} {fo : FieldOps F}.

(** *** R1CS *)
(** cs/r1cs.rs:8-21 *)
Record R1CS := mkR1CS {
  r_arows : list nat; r_acols : list nat; r_avals : list F;
  r_brows : list nat; r_bcols : list nat; r_bvals : list F;
  r_crows : list nat; r_ccols : list nat; r_cvals : list F;
  r_nrows : nat; r_ncols : nat; r_input_size : nat }.

(** cs/r1cs.rs:146-153 *)
Record R1CSSize := mkR1CSSize {
  rs_nrows : nat; rs_ncols : nat; rs_adensity : nat; rs_bdensity : nat; rs_cdensity : nat;
  rs_input_size : nat }.

(** cs/r1cs.rs:24-42 [get_size] *)
Definition r1cs_get_size {E} (s : R1CS) : outcome E R1CSSize :=
  let! _ := assert_ (length (r_arows s) =? length (r_acols s))%nat in
  let! _ := assert_ (length (r_arows s) =? length (r_avals s))%nat in
  let! _ := assert_ (length (r_brows s) =? length (r_bcols s))%nat in
  let! _ := assert_ (length (r_brows s) =? length (r_bvals s))%nat in
  let! _ := assert_ (length (r_crows s) =? length (r_ccols s))%nat in
  let! _ := assert_ (length (r_crows s) =? length (r_cvals s))%nat in
  Ok (mkR1CSSize (r_nrows s) (r_ncols s) (length (r_arows s)) (length (r_brows s))
                 (length (r_crows s)) (r_input_size s)).

(** cs/r1cs.rs:46-79 [satisfy] *)
Definition r1cs_satisfy {E} (s : R1CS) (ins wit : list F) : outcome E bool :=
  let z := [1] ++ ins ++ wit in
  let h := Z.of_nat (r_nrows s) in
  let k := Z.of_nat (r_ncols s) in
  let! ya := unwrap (sparse_mvp (E:=E) h k (r_arows s) (r_acols s) (r_avals s) z) in
  let! yb := unwrap (sparse_mvp (E:=E) h k (r_brows s) (r_bcols s) (r_bvals s) z) in
  let! yc := unwrap (sparse_mvp (E:=E) h k (r_crows s) (r_ccols s) (r_cvals s) z) in
  Ok (forallb (fun abc => let '(a, b, c) := abc in feqb (a * b) c)
              (combine (combine ya yb) yc)).

(** ark-relations [ConstraintMatrices]: rows are lists of (coefficient, column). *)
Record ArkMatrices := mkArk {
  ark_num_instance : nat; ark_num_witness : nat; ark_num_constraints : nat;
  ark_a : list (list (F * nat)); ark_b : list (list (F * nat)); ark_c : list (list (F * nat)) }.

(** cs/r1cs.rs:92-118: rows are numbered and flattened to (row, column, value). *)
Definition ark_flatten (m : list (list (F * nat))) : list (nat * nat * F) :=
  flat_map (fun ir => map (fun cc => (fst ir, snd cc, fst cc)) (snd ir))
           (combine (seq 0 (length m)) m).

(** cs/r1cs.rs:82-143 [From<ArkR1CS>], after [inline_all_lcs]/[to_matrices] (external):
    [num_instance_variables - 1] underflows when there is no instance variable. *)
Definition r1cs_from_ark {E} (m : ArkMatrices) : outcome E R1CS :=
  if (ark_num_instance m <? 1)%nat then Panic else
  let ell := (ark_num_instance m - 1)%nat in
  let ncols := (ark_num_instance m + ark_num_witness m)%nat in
  let a := ark_flatten (ark_a m) in
  let b := ark_flatten (ark_b m) in
  let c := ark_flatten (ark_c m) in
  let rows := map (fun e => fst (fst e)) in
  let cols := map (fun e => snd (fst e)) in
  Ok (mkR1CS (rows a) (cols a) (map snd a) (rows b) (cols b) (map snd b)
             (rows c) (cols c) (map snd c) (ark_num_constraints m) ncols ell).

(** *** HPR *)
(** cs/hpr.rs:8-23 *)
Record HPR := mkHPR {
  h_arows : list nat; h_acols : list nat; h_avals : list F;
  h_brows : list nat; h_bcols : list nat; h_bvals : list F;
  h_crows : list nat; h_ccols : list nat; h_cvals : list F;
  h_drows : list nat; h_dvals : list F;
  h_nrows : nat; h_ncols : nat; h_input_size : nat }.

(** cs/hpr.rs:52-60 *)
Record HPRSize := mkHPRSize {
  hs_nrows : nat; hs_ncols : nat; hs_adensity : nat; hs_bdensity : nat; hs_cdensity : nat;
  hs_ddensity : nat; hs_input_size : nat }.

(** cs/hpr.rs:26-48 [get_size]; lines 43-44 use adensity for all three matrices. *)
Definition hpr_get_size {E} (s : HPR) : outcome E HPRSize :=
  let adensity := length (h_arows s) in
  let bdensity := length (h_brows s) in
  let cdensity := length (h_crows s) in
  let! _ := assert_ (adensity =? length (h_acols s))%nat in
  let! _ := assert_ (adensity =? length (h_avals s))%nat in
  let! _ := assert_ (bdensity =? length (h_bcols s))%nat in
  let! _ := assert_ (bdensity =? length (h_bvals s))%nat in
  let! _ := assert_ (cdensity =? length (h_ccols s))%nat in
  let! _ := assert_ (cdensity =? length (h_cvals s))%nat in
  let ddensity := length (h_drows s) in
  let! _ := assert_ (ddensity =? length (h_dvals s))%nat in
  let! _ := assert_ (ddensity <=? h_nrows s)%nat in
  Ok (mkHPRSize (h_nrows s) (h_ncols s) adensity adensity adensity ddensity (h_input_size s)).

(** indexed in-place addition [y[i] += a] *)
Definition add_at {E} (y : outcome E (list F)) (ia : nat * F) : outcome E (list F) :=
  let! y := y in
  if (fst ia <? length y)%nat then Ok (upd y (fst ia) (fun x => x + snd ia)) else Panic.
Definition sub_at {E} (y : outcome E (list F)) (ia : nat * F) : outcome E (list F) :=
  let! y := y in
  if (fst ia <? length y)%nat then Ok (upd y (fst ia) (fun x => x - snd ia)) else Panic.

(** cs/hpr.rs:75-126 [satisfy] *)
Definition hpr_satisfy {E} (s : HPR) (ins w1 w2 w3 : list F) : outcome E bool :=
  if negb (forallb (fun abc => let '(a, b, c) := abc in feqb (a * b) c)
                   (combine (combine w1 w2) w3)) then Ok false else
  let h := Z.of_nat (h_nrows s) in
  let k := Z.of_nat (h_ncols s) in
  let! ya := unwrap (sparse_mvp (E:=E) h k (h_arows s) (h_acols s) (h_avals s) w1) in
  let! yb := unwrap (sparse_mvp (E:=E) h k (h_brows s) (h_bcols s) (h_bvals s) w2) in
  let! yc := unwrap (sparse_mvp (E:=E) h k (h_crows s) (h_ccols s) (h_cvals s) w3) in
  let y := map (fun abc => let '(a, b, c) := abc in a + b + c) (combine (combine ya yb) yc) in
  let! y := fold_left add_at (combine (h_drows s) (h_dvals s)) (Ok y) in
  let! y := fold_left sub_at (combine (seq 0 (length ins)) ins) (Ok y) in
  Ok (forallb is_zero y).

(** cs/hpr.rs:132-219 [generate_random_hpr_instance]; the random draws are the arguments:
    six streams of u64 (rows and columns of A,B,C) and six of field elements.
    Simplification: [u64::rand(rng) % 0] (a panic) is covered by the guards on the sizes. *)
Record hpr_draws := mkDraws {
  dr_ar : nat -> nat; dr_br : nat -> nat; dr_cr : nat -> nat;
  dr_ac : nat -> nat; dr_bc : nat -> nat; dr_cc : nat -> nat;
  dr_av : nat -> F; dr_bv : nat -> F; dr_cv : nat -> F;
  dr_x : nat -> F; dr_w1 : nat -> F; dr_w2 : nat -> F }.
Definition generate_random_hpr {E} (nrows ncols input_size : nat) (d : hpr_draws)
  : outcome E (HPR * list F * (list F * list F * list F)) :=
  if (nrows =? 0)%nat || (ncols =? 0)%nat then Panic else
  let density := ((nrows + ncols) * 2)%nat in
  let draws {A} (f : nat -> A) (n : nat) := map f (seq 0 n) in
  let mods (f : nat -> nat) (m : nat) := draws (fun i => (f i mod m)%nat) density in
  let arows := mods (dr_ar d) nrows in
  let brows := mods (dr_br d) nrows in
  let crows := mods (dr_cr d) nrows in
  let acols := mods (dr_ac d) ncols in
  let bcols := mods (dr_bc d) ncols in
  let ccols := mods (dr_cc d) ncols in
  let avals := draws (dr_av d) density in
  let bvals := draws (dr_bv d) density in
  let cvals := draws (dr_cv d) density in
  let x := draws (dr_x d) input_size in
  let w1 := draws (dr_w1 d) ncols in
  let w2 := draws (dr_w2 d) ncols in
  let w3 := hadamard_vector w1 w2 in
  let h := Z.of_nat nrows in
  let k := Z.of_nat ncols in
  let! y1 := unwrap (sparse_mvp (E:=E) h k arows acols avals w1) in
  let! y2 := unwrap (sparse_mvp (E:=E) h k brows bcols bvals w2) in
  let! y3 := unwrap (sparse_mvp (E:=E) h k crows ccols cvals w3) in
  let yy := combine (combine y1 y2) y3 in
  let dvec := map (fun iabc => let '(i, (a, b, c)) := iabc in
                    if (i <? length x)%nat then - a - b - c + nth i x 0 else - a - b - c)
                  (combine (seq 0 (length yy)) yy) in
  let nz := filter (fun ia => negb (is_zero (snd ia))) (combine (seq 0 (length dvec)) dvec) in
  Ok (mkHPR arows acols avals brows bcols bvals crows ccols cvals
            (map fst nz) (map snd nz) nrows ncols input_size,
      x, (w1, w2, w3)).

(** *** POV *)
(** cs/pov.rs:6-11 *)
Record POV := mkPOV {
  p_consts : list F; p_wires : list (nat * nat); p_nmul : nat; p_nadd : nat }.
(** cs/pov.rs:25-30 *)
Record POVSize := mkPOVSize { ps_nconsts : nat; ps_nmul : nat; ps_nadd : nat; ps_n : nat }.
(** cs/pov.rs:14-21 [get_size] *)
Definition pov_get_size (p : POV) : POVSize :=
  mkPOVSize (length (p_consts p)) (p_nmul p) (p_nadd p)
            (length (p_consts p) + p_nmul p + p_nadd p).

(** cs/pov.rs:40-42 *)
Definition POVWitness := (list F * list F * list F)%type.
(** cs/pov.rs:35-37 *)
Definition POVInstance := (list nat * list F)%type.

(** cs/pov.rs:48-58 [get_value_at] *)
Definition get_value_at (w : POVWitness) (i : nat) : option F :=
  let '(a, b, c) := w in
  if (i <? length a)%nat then nth_error a i
  else if (i <? length a + length b)%nat then nth_error b (i - length a)
  else if (i <? length a + length b + length c)%nat then nth_error c (i - length a - length b)
  else None.

(** cs/pov.rs:60-71 [satisfy_instance] *)
Definition satisfy_instance (w : POVWitness) (ins : POVInstance) : bool :=
  forallb (fun iv => match get_value_at w (fst iv) with
                     | Some u => feqb u (snd iv)
                     | None => false
                     end) (combine (fst ins) (snd ins)).

(** cs/pov.rs:90-119 [satisfy_gate_logics]: the loop stops at the first failing gate;
    [self.consts[..]] is a checked indexing. *)
Fixpoint gate_logics {E} (p : POV) (l : list (nat * (F * F * F))) : outcome E bool :=
  match l with
  | [] => Ok true
  | (i, (a, b, c)) :: l' =>
    if (i <? p_nmul p)%nat then
      if feqb c (a * b) then gate_logics p l' else Ok false
    else if (i <? p_nmul p + p_nadd p)%nat then
      if feqb c (a + b) then gate_logics p l' else Ok false
    else match nth_error (p_consts p) (i - (p_nmul p + p_nadd p)) with
         | None => Panic
         | Some k => if feqb c k then gate_logics p l' else Ok false
         end
  end.
Definition satisfy_gate_logics {E} (p : POV) (w : POVWitness) : outcome E bool :=
  let '(a, b, c) := w in
  let abc := combine (combine a b) c in
  gate_logics p (combine (seq 0 (length abc)) abc).

(** cs/pov.rs:121-132 [satisfy_wiring] *)
Definition satisfy_wiring (p : POV) (w : POVWitness) : bool :=
  forallb (fun ij => match get_value_at w (fst ij), get_value_at w (snd ij) with
                     | Some a, Some b => feqb a b
                     | _, _ => false
                     end) (p_wires p).

(** cs/pov.rs:86-88 [satisfy]: lazy conjunction *)
Definition pov_satisfy {E} (p : POV) (ins : POVInstance) (w : POVWitness) : outcome E bool :=
  let! g := satisfy_gate_logics p w in
  Ok (g && satisfy_wiring p w && satisfy_instance w ins).

End CS.
Arguments R1CS F : clear implicits.
Arguments HPR F : clear implicits.
Arguments POV F : clear implicits.

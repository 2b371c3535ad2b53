(** PMatrix.v: model of the matrices of the Poseidon hash
    (plonk-hashing/src/poseidon/matrix.rs and mds.rs).

    Simplifications.  A matrix is the list of its rows.  In [eliminate], the entries to the left of the
    column are read by taking a prefix of the row: the entry in the column has been read before, so that
    they exist. *)
From Verif Require Import Base Tools KZG.
Local Open Scope F_scope.

Section PMatrix.
Context {F : Type} {fo : FieldOps F}.
Definition matrix : Type := list (list F).
Definition get_ {A} (l : list A) (i : nat) : outcome error A := unwrap_opt (nth_error l i).
Definition entry_ (m : matrix) (i j : nat) : outcome error F := let! row := get_ m i in get_ row j.

(** matrix.rs:363-402: functions of vectors, which stop at the end of the shorter one *)
Fixpoint zip_with (f : F -> F -> F) (a b : list F) : list F :=
  match a, b with x :: a', y :: b' => f x y :: zip_with f a' b' | _, _ => [] end.
Definition inner_product (a b : list F) : F := fold_left fadd (zip_with fmul a b) 0.
Definition vec_add : list F -> list F -> list F := zip_with fadd.
Definition vec_sub : list F -> list F -> list F := zip_with fsub.
Definition scalar_vec_mul (k : F) (v : list F) : list F := map (fun x => k * x) v.
(** matrix.rs:404-409 *)
Definition kronecker_delta (i j : nat) : F := if (i =? j)%nat then 1 else 0.

(** loops over an iterator whose body may panic *)
Fixpoint collect {A B} (f : A -> outcome error B) (l : list A) : outcome error (list B) :=
  match l with [] => Ok [] | x :: l' => let! y := f x in let! ys := collect f l' in Ok (y :: ys) end.
Fixpoint all_ {A} (f : A -> outcome error bool) (l : list A) : outcome error bool :=
  match l with [] => Ok true | x :: l' => let! b := f x in if b then all_ f l' else Ok false end.

(** matrix.rs:16-32 [num_rows], [num_columns] *)
Definition num_rows (m : matrix) : nat := length m.
Definition num_columns (m : matrix) : outcome error nat :=
  match m with
  | [] => Ok 0%nat
  | row :: _ => let! _ := assert_ (forallb (fun r => length r =? length row)%nat m) in Ok (length row)
  end.
(** matrix.rs:42-44 *)
Definition is_square (m : matrix) : outcome error bool := let! c := num_columns m in Ok (num_rows m =? c)%nat.
(** matrix.rs:46-57 *)
Definition transpose (m : matrix) : outcome error matrix :=
  let size := num_rows m in collect (fun j => collect (fun i => entry_ m i j) (seq 0 size)) (seq 0 size).
(** matrix.rs:84-90 *)
Definition identity (n : nat) : matrix := map (fun i => map (fun j => kronecker_delta i j) (seq 0 n)) (seq 0 n).
(** matrix.rs:92-104 *)
Definition is_identity (m : matrix) : outcome error bool :=
  let! sq := is_square m in
  if sq then let! c := num_columns m in
    all_ (fun i => all_ (fun j => let! x := entry_ m i j in Ok (feqb x (kronecker_delta i j))) (seq 0 c)) (seq 0 (num_rows m))
  else Ok false.
(** matrix.rs:111-126 *)
Definition mul_by_scalar (k : F) (m : matrix) : matrix := map (scalar_vec_mul k) m.
(** matrix.rs:128-150, 157-160 [mul_col_vec], [left_apply] *)
Definition left_apply (m : matrix) (v : list F) : outcome error (list F) :=
  let! sq := is_square m in let! _ := assert_ sq in
  let! _ := assert_ (num_rows m =? length v)%nat in
  Ok (map (fun row => inner_product row v) m).
(** matrix.rs:152-155, 162-183 [mul_row_vec_at_left], [right_apply] *)
Definition right_apply (m : matrix) (v : list F) : outcome error (list F) :=
  let! sq := is_square m in let! _ := assert_ sq in
  let! _ := assert_ (num_rows m =? length v)%nat in
  collect (fun j => let! col := collect (fun row => get_ row j) m in Ok (inner_product col v)) (seq 0 (length v)).
(** matrix.rs:186-206: it tests rows against columns, not columns against rows *)
Definition matmul (m o : matrix) : outcome error (option matrix) :=
  let! c := num_columns o in
  if (num_rows m =? c)%nat then
    let! ot := transpose o in Ok (Some (map (fun row => map (inner_product row) ot) m))
  else Ok None.
(** matrix.rs:220-241 *)
Fixpoint remove_ (j : nat) (row : list F) : outcome error (list F) :=
  match row, j with
  | [], _ => Panic
  | _ :: row', O => Ok row'
  | x :: row', S j' => let! r := remove_ j' row' in Ok (x :: r)
  end.
Fixpoint minor_rows (i j : nat) (k : nat) (rows : matrix) : outcome error matrix :=
  match rows with
  | [] => Ok []
  | row :: rows' => if (k =? i)%nat then minor_rows i j (S k) rows'
    else let! r := remove_ j row in let! rs := minor_rows i j (S k) rows' in Ok (r :: rs)
  end.
Definition minor (m : matrix) (i j : nat) : outcome error matrix :=
  let! sq := is_square m in let! _ := assert_ sq in
  let! _ := assert_ (0 <? num_rows m)%nat in
  let! res := minor_rows i j 0 m in
  let! sq' := is_square res in let! _ := assert_ sq' in Ok res.
(** matrix.rs:107-109 *)
Definition is_sparse (m : matrix) : outcome error bool :=
  let! sq := is_square m in if sq then let! r := minor m 0 0 in is_identity r else Ok false.

(** matrix.rs:248-251: the first row with an entry in the column, and none to the left of it *)
Fixpoint find_pivot (column : nat) (rows : matrix) (i : nat) : outcome error (option nat) :=
  match rows with
  | [] => Ok None
  | row :: rows' =>
    let! x := get_ row column in
    if negb (is_zero x) && forallb is_zero (firstn column row) then Ok (Some i) else find_pivot column rows' (S i)
  end.
(** matrix.rs:262-281: the loop over the rows; it changes the shadow *)
Fixpoint eliminate_rows (column pivot_index : nat) (pivot : list F) (inv : F) (rows : matrix) (i : nat) (shadow : matrix) : outcome error (matrix * matrix) :=
  match rows with
  | [] => Ok ([], shadow)
  | row :: rows' =>
    if (i =? pivot_index)%nat then eliminate_rows column pivot_index pivot inv rows' (S i) shadow
    else
      let! val := get_ row column in
      if is_zero val then
        let! (r, sh) := eliminate_rows column pivot_index pivot inv rows' (S i) shadow in Ok (row :: r, sh)
      else
        let factor := val * inv in
        let! sp := get_ shadow pivot_index in
        let! si := get_ shadow i in
        let! (r, sh) := eliminate_rows column pivot_index pivot inv rows' (S i)
          (upd shadow i (fun _ => vec_sub si (scalar_vec_mul factor sp))) in
        Ok (vec_sub row (scalar_vec_mul factor pivot) :: r, sh)
  end.
(** matrix.rs:247-287 *)
Definition eliminate (m : matrix) (column : nat) (shadow : matrix) : outcome error (option (matrix * matrix)) :=
  let! p := find_pivot column m 0 in
  match p with
  | None => Ok None
  | Some pi =>
    let! pivot := get_ m pi in
    let! val := get_ pivot column in
    match inverse val with
    | None => Ok None
    | Some inv =>
      let! (r, sh) := eliminate_rows column pi pivot inv m 0 shadow in
      let! row := get_ sh pi in
      Ok (Some (pivot :: r, row :: firstn pi sh ++ skipn (S pi) sh))
    end
  end.
(** matrix.rs:293-318; fuel = the number of rows (each turn of the loop removes one) *)
Fixpoint triangle (fuel : nat) (curr : matrix) (column : nat) (shadow : matrix) : outcome error (option (matrix * matrix)) :=
  if (1 <? num_rows curr)%nat then
    match fuel with
    | O => Panic
    | S fuel' =>
      let! e := eliminate curr column shadow in
      match e with
      | None => Ok None
      | Some (c1, s1) =>
        let! row := get_ c1 0 in let! srow := get_ s1 0 in
        let! _ := assert_ (num_rows (skipn 1 c1) =? num_rows curr - 1)%nat in
        let! t := triangle fuel' (skipn 1 c1) (S column) (skipn 1 s1) in
        Ok match t with None => None | Some (rs, ss) => Some (row :: rs, srow :: ss) end
      end
    end
  else let! row := get_ curr 0 in let! srow := get_ shadow 0 in Ok (Some ([row], [srow])).
Definition upper_triangular (m shadow : matrix) : outcome error (option (matrix * matrix)) :=
  let! sq := is_square m in let! _ := assert_ sq in triangle (num_rows m) m 0 shadow.

(** matrix.rs:341-351: the rows below are subtracted; the results are indexed from the last row on *)
Fixpoint subtract_rows (size : nat) (j : nat) (results : list (list F * list F)) (row : list F * list F) : outcome error (list F * list F) :=
  match results with
  | [] => Ok row
  | (r, s) :: rest =>
    let! val := get_ (fst row) (size - j - 1) in
    subtract_rows size (S j) rest (vec_sub (fst row) (scalar_vec_mul val r), vec_sub (snd row) (scalar_vec_mul val s))
  end.
(** matrix.rs:324-360: rows from the last to the first; [results] are those done, in the order of the loop *)
Fixpoint reduce_rows (size : nat) (m shadow : matrix) (k : nat) (results : list (list F * list F)) : outcome error (option (list (list F * list F))) :=
  match k with
  | O => Ok (Some results)
  | S idx =>
    let! row := get_ m idx in let! srow := get_ shadow idx in
    let! val := get_ row idx in
    match inverse val with
    | None => Ok None
    | Some inv =>
      let! r := subtract_rows size 0 results (scalar_vec_mul inv row, scalar_vec_mul inv srow) in
      reduce_rows size m shadow idx (results ++ [r])
    end
  end.
Definition reduce_to_identity (m shadow : matrix) : outcome error (option (matrix * matrix)) :=
  let! r := reduce_rows (num_rows m) m shadow (num_rows m) [] in
  Ok match r with None => None | Some l => Some (map fst (rev l), map snd (rev l)) end.
(** matrix.rs:208-214 *)
Definition invert (m : matrix) : outcome error (option matrix) :=
  let! c := num_columns m in
  let! ut := upper_triangular m (identity c) in
  match ut with
  | None => Ok None
  | Some (x, shadow) =>
    let! r := reduce_to_identity x shadow in
    Ok match r with None => None | Some (_, shadow') => Some shadow' end
  end.
(** matrix.rs:216-218 *)
Definition is_invertible (m : matrix) : outcome error bool :=
  let! sq := is_square m in
  if sq then let! i := invert m in Ok match i with Some _ => true | None => false end else Ok false.
End PMatrix.
Arguments matrix F : clear implicits.

Section Mds.
Context {F : Type} {fo : FieldOps F} {po : PrimeFieldOps F}.
(** mds.rs:7-14 [MdsMatrices] *)
Record mds := mk_mds { m_ : matrix F; m_inv : matrix F; m_hat : matrix F; m_hat_inv : matrix F; m_prime : matrix F; m_double_prime : matrix F }.

(** mds.rs:111-115 *)
Definition make_v_w (m : matrix F) : outcome error (list F * list F) :=
  let! row0 := get_ m 0 in
  let! v := match row0 with [] => Panic | _ :: v => Ok v end in
  let! w := collect (fun row => get_ row 0) (skipn 1 m) in Ok (v, w).
(** mds.rs:66-82 *)
Definition make_prime (m : matrix F) : outcome error (matrix F) :=
  match m with
  | [] => Ok []
  | row0 :: rows =>
    let! r0 := match row0 with [] => Panic | _ :: v => Ok (1 :: map (fun _ => 0) v) end in
    let! rs := collect (fun row => match row with [] => Panic | _ :: v => Ok (0 :: v) end) rows in Ok (r0 :: rs)
  end.
(** mds.rs:95-105: a row of M'' but the first *)
Definition sparse_row (w_hat : list F) (i : nat) (row : list F) : outcome error (list F) :=
  let! w := get_ w_hat (i - 1) in
  let! _ := assert_ (0 <? length row)%nat in
  let! _ := assert_ (i <? length row)%nat in
  Ok (upd (upd (map (fun _ => 0) row) 0 (fun _ => w)) i (fun _ => 1)).
Fixpoint sparse_rows (w_hat : list F) (i : nat) (rows : matrix F) : outcome error (matrix F) :=
  match rows with
  | [] => Ok []
  | row :: rows' => let! r := sparse_row w_hat i row in let! rs := sparse_rows w_hat (S i) rows' in Ok (r :: rs)
  end.
(** mds.rs:86-107 *)
Definition make_double_prime (m m_hat_inv : matrix F) : outcome error (matrix F) :=
  let! (v, w) := make_v_w m in
  let! w_hat := right_apply m_hat_inv w in
  match m with
  | [] => Ok []
  | row0 :: rows => let! x := get_ row0 0 in let! rs := sparse_rows w_hat 1 rows in Ok ((x :: v) :: rs)
  end.
(** mds.rs:24-39 *)
Definition derive_mds_matrices (m : matrix F) : outcome error mds :=
  let! i := invert m in let! inv := unwrap_opt i in
  let! hat := minor m 0 0 in
  let! hi := invert hat in let! hat_inv := unwrap_opt hi in
  let! p := make_prime m in
  let! pp := make_double_prime m hat_inv in
  Ok (mk_mds m inv hat hat_inv p pp).
(** mds.rs:41-62, with the debug assertions *)
Definition generate_mds (t : nat) : outcome error (matrix F) :=
  let! m := collect (fun x => collect (fun y => unwrap_opt (inverse (from_Z (Z.of_nat x) + from_Z (Z.of_nat y)))) (seq t t)) (seq 0 t) in
  let! b := is_invertible m in let! _ := assert_ b in
  let! mt := transpose m in
  let! _ := assert_ (forallb (fun '(r, r') => (length r =? length r')%nat && forallb (fun '(x, y) => feqb x y) (combine r r')) (combine m mt)) in
  Ok m.
(** mds.rs:18-21 *)
Definition new_mds (dim : nat) : outcome error mds := let! m := generate_mds dim in derive_mds_matrices m.

(** mds.rs:123-155 [SparseMatrix] *)
Record sparse := mk_sparse { w_hat : list F; v_rest : list F }.
Definition new_sparse (m : matrix F) : outcome error sparse :=
  let! b := is_sparse m in let! _ := assert_ b in
  let! w := collect (fun row => get_ row 0) m in
  let! row0 := get_ m 0 in
  let! v := match row0 with [] => Panic | _ :: v => Ok v end in
  Ok (mk_sparse w v).
(** mds.rs:160-178 *)
Fixpoint factor (base curr : matrix F) (n : nat) : outcome error (matrix F * list (matrix F)) :=
  match n with
  | O => Ok (curr, [])
  | S n' =>
    let! d := derive_mds_matrices curr in
    let! new := matmul base (m_prime d) in let! new := unwrap_opt new in
    let! (pre, rest) := factor base new n' in Ok (pre, m_double_prime d :: rest)
  end.
Definition factor_to_sparse_matrixes (base : matrix F) (n : nat) : outcome error (matrix F * list sparse) :=
  let! (pre, ms) := factor base base n in
  let! l := collect new_sparse (rev ms) in Ok (pre, l).
End Mds.

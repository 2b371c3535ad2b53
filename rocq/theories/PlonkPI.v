(** PlonkPI.v: model of the public inputs of plonk-core (plonk-core/src/proof_system/pi.rs) and of the
    permutation made from the registered wires (plonk-core/src/permutation/mod.rs:100-139). *)
From Verif Require Import Base Tools KZG Plonk.
Local Open Scope F_scope.

Section PlonkPI.
Context {F : Type} {fo : FieldOps F}.

(** plonk-core/src/error.rs [Error::InvalidPublicInputValue], the only error of these functions *)
Inductive pi_error := InvalidPublicInputValue.
(** pi.rs:47-54 [insert] (Plonk.v), which returns no error *)
Definition pi_insert1 (pos : nat) (v : F) (m : list (nat * F)) : outcome pi_error (list (nat * F)) :=
  match pi_insert pos v m with Ok m' => Ok m' | Err _ => Panic | Panic => Panic end.
(** pi.rs:75-81: the elements of one item *)
Fixpoint pi_inserts (pos : nat) (vs : list F) (m : list (nat * F)) : outcome pi_error (list (nat * F)) :=
  match vs with
  | [] => Ok m
  | v :: vs' => let! m1 := pi_insert1 pos v m in pi_inserts (pos + 1) vs' m1
  end.
(** pi.rs:56-85 [add_input], [extend] for one item; an item is what [to_field_elements] returns for it *)
Definition pi_add_input (pos : nat) (item : option (list F)) (m : list (nat * F)) : outcome pi_error (nat * list (nat * F)) :=
  match item with
  | None => Err InvalidPublicInputValue
  | Some vs => let! m1 := pi_inserts pos vs m in Ok (length vs, m1)
  end.
(** pi.rs:104-121 [from_val_pos]; [zip_eq] panics when one list ends before the other *)
Fixpoint pi_zip (pos : list nat) (vals : list (option (list F))) (m : list (nat * F)) : outcome pi_error (list (nat * F)) :=
  match pos, vals with
  | [], [] => Ok m
  | p :: pos', v :: vals' => let! (_, m1) := pi_add_input p v m in pi_zip pos' vals' m1
  | _, _ => Panic
  end.
Definition from_val_pos (pos : list nat) (vals : list (option (list F))) : outcome pi_error (list (nat * F)) := pi_zip pos vals [].
(** pi.rs:123-131 [get_pos], [get_vals] *)
Definition get_pos (m : list (nat * F)) : list nat := map fst m.
Definition get_vals (m : list (nat * F)) : list F := map snd m.
(** [usize::is_power_of_two] *)
Definition is_power_of_two (n : nat) : bool := ((0 <? n) && (2 ^ Nat.log2 n =? n))%nat.
(** pi.rs:87-94 [as_evals], with its panics *)
Fixpoint evals_put (m : list (nat * F)) (l : list F) : outcome pi_error (list F) :=
  match m with
  | [] => Ok l
  | (k, v) :: m' => let! _ := assert_ (k <? length l)%nat in evals_put m' (upd l k (fun _ => v))
  end.
Definition pi_evals (m : list (nat * F)) (n : nat) : outcome pi_error (list F) :=
  let! _ := assert_ (is_power_of_two n) in evals_put m (repeat 0 n).

(** *** The permutation *)
(** four vectors of wires *)
Definition sigmas : Type := column -> list wire.
(** permutation/mod.rs:103-108 *)
Definition sigma_id (n : nat) : sigmas := fun col => map (fun i => (col, i)) (seq 0 n).
Definition column_eqb (x y : column) : bool :=
  match x, y with Left, Left => true | Right, Right => true | Output, Output => true | Fourth, Fourth => true | _, _ => false end.
(** permutation/mod.rs:126-131: [sigmas[col][index] = next] *)
Definition sigma_set (w next : wire) (s : sigmas) : outcome error sigmas :=
  let! _ := assert_ (snd w <? length (s (fst w)))%nat in
  Ok (fun col => if column_eqb (fst w) col then upd (s col) (snd w) (fun _ => next) else s col).
(** permutation/mod.rs:112-133: the wires of one variable *)
Fixpoint sigma_wires (ws : list wire) (is : list nat) (s : sigmas) : outcome error sigmas :=
  match is with
  | [] => Ok s
  | i :: is' =>
    let next_index := (if i =? length ws - 1 then 0 else i + 1)%nat in
    let! current := unwrap_opt (nth_error ws i) in
    let! next := unwrap_opt (nth_error ws next_index) in
    let! s1 := sigma_set current next s in
    sigma_wires ws is' s1
  end.
Fixpoint sigma_vars (maps : list (list wire)) (s : sigmas) : outcome error sigmas :=
  match maps with
  | [] => Ok s
  | ws :: maps' => let! s1 := sigma_wires ws (seq 0 (length ws)) s in sigma_vars maps' s1
  end.
(** permutation/mod.rs:100-139 [compute_sigma_permutations]; [maps]: the lists of wires of the variables,
    in the order in which the hash map returns them *)
Definition compute_sigma_permutations (maps : list (list wire)) (n : nat) : outcome error sigmas := sigma_vars maps (sigma_id n).
End PlonkPI.

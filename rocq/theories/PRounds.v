(** PRounds.v: model of the choice of the numbers of rounds of the Poseidon hash
    (plonk-hashing/src/poseidon/round_numbers.rs).

    Simplifications.  The tests in floating point are arguments: [secure] is round_numbers_are_secure
    (lines 83-101), and [enlarge] is the number of partial rounds times 1.075, rounded up (line 66). *)
From Verif Require Import Base KZG.
Local Open Scope Z_scope.

Section PRounds.
Variable secure : Z -> Z -> Z -> bool.
Variable enlarge : Z -> Z.
(** round_numbers.rs:15-17 [n_sboxes] *)
Definition n_sboxes (t rf rp : Z) : outcome error Z := let! _ := assert_ (t * rf + rp <? 2 ^ 64) in Ok (t * rf + rp).
(** round_numbers.rs:61-77: the loop over the numbers of partial rounds. The margin is added to the variable
    that holds the number of full rounds, so that it is still there in the next turns. *)
Fixpoint over_partial (t : Z) (security_margin : bool) (rps : list Z) (rf_test : Z) (best : Z * Z * Z) : outcome error (Z * Z * Z) :=
  match rps with
  | [] => Ok best
  | rp :: rps' =>
    if secure t rf_test rp then
      let rf1 := if security_margin then rf_test + 2 else rf_test in
      let rp1 := if security_margin then enlarge rp else rp in
      let! n := n_sboxes t rf1 rp1 in
      let '(b_rf, b_rp, b_min) := best in
      over_partial t security_margin rps' rf1 (if (n <? b_min) || ((n =? b_min) && (rf1 <? b_rf)) then (rf1, rp1, n) else best)
    else over_partial t security_margin rps' rf_test best
  end.
Definition partials : list Z := map (fun k => 4 + Z.of_nat k) (seq 0 196).
Definition fulls : list Z := map (fun k => 2 + 2 * Z.of_nat k) (seq 0 500).
Fixpoint over_full (t : Z) (security_margin : bool) (rfs : list Z) (best : Z * Z * Z) : outcome error (Z * Z * Z) :=
  match rfs with
  | [] => Ok best
  | rf :: rfs' => let! best' := over_partial t security_margin partials rf best in over_full t security_margin rfs' best'
  end.
(** round_numbers.rs:52-81 [calc_round_numbers] *)
Definition calc_round_numbers (t : Z) (security_margin : bool) : outcome error (Z * Z) :=
  let! (rf, rp, _) := over_full t security_margin fulls (0, 0, 2 ^ 64 - 1) in Ok (rf, rp).
End PRounds.

(** PlonkQuotSpec.v: the numerator as a function of a point. *)
From Verif Require Import Base Tools KZG Plonk PlonkProver PlonkQuot.
Local Open Scope F_scope.

Section PlonkQuotSpec.
Context {F : Type} {fo : FieldOps F} {po : PrimeFieldOps F}.

(** The values of all polynomials at x, and at omega x where the next gate is meant. *)
Definition point_at (omega : F) (n : nat) (k : key F) (P : polys F) (x : F) : point F :=
  let at_ l := peval l x in
  let next l := peval l (x * omega) in
  mk_point x (at_ (l1_poly omega n)) (sel_map at_ (k_sel k)) (at_ (P_pi P))
    (mk_vals (at_ (P_w P Left)) (at_ (P_w P Right)) (at_ (P_w P Output)) (at_ (P_w P Fourth)) (next (P_w P Left)) (next (P_w P Right)) (next (P_w P Fourth)))
    (at_ (k_sigma k Left)) (at_ (k_sigma k Right)) (at_ (k_sigma k Output)) (at_ (k_sigma k Fourth)) (at_ (P_z P)) (next (P_z P))
    (at_ (P_f P)) (at_ (P_t P)) (next (P_t P)) (at_ (P_h1 P)) (next (P_h1 P)) (at_ (P_h2 P)) (at_ (P_z2 P)) (next (P_z2 P)).
(** All polynomials have at most n coefficients. *)
Definition sel_all {A} (Q : A -> Prop) (s : sel A) : Prop :=
  Q (q_m s) /\ Q (q_l s) /\ Q (q_r s) /\ Q (q_o s) /\ Q (q_4 s) /\ Q (q_c s) /\ Q (q_hl s) /\ Q (q_hr s) /\ Q (q_h4 s) /\
  Q (q_arith s) /\ Q (q_range s) /\ Q (q_logic s) /\ Q (q_fixed s) /\ Q (q_var s) /\ Q (q_lookup s).
Definition key_sized (n : nat) (k : key F) : Prop := sel_all (fun l => (length l <= n)%nat) (k_sel k) /\ forall col, (length (k_sigma k col) <= n)%nat.
Definition polys_sized (n : nat) (P : polys F) : Prop :=
  (forall col, (length (P_w P col) <= n)%nat) /\ (length (P_pi P) <= n)%nat /\ (length (P_z P) <= n)%nat /\ (length (P_z2 P) <= n)%nat /\
  (length (P_f P) <= n)%nat /\ (length (P_t P) <= n)%nat /\ (length (P_h1 P) <= n)%nat /\ (length (P_h2 P) <= n)%nat.
(** The numerator is the multiple by t of the polynomial X^n - 1, which vanishes on the domain. *)
Definition divides (ca cd omega : F) (n : nat) (ch : chal F) (k : key F) (P : polys F) (t : list F) : Prop :=
  forall x, numerator ca cd ch (point_at omega n k P x) = Ok (peval t x * (fpow x n - 1)).
(** The numerator is zero at every gate. *)
Definition vanishes (ca cd omega : F) (n : nat) (ch : chal F) (k : key F) (P : polys F) : Prop :=
  forall i, (i < n)%nat -> numerator ca cd ch (point_at omega n k P (fpow omega i)) = Ok 0.
End PlonkQuotSpec.

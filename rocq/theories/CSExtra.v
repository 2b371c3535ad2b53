(** CSExtra.v: small lemmas closing the constraint-system properties, and concrete cases. *)
From Verif Require Import Base Spec Tools ToolsProofs MatProofs CS CSProofs POVProofs.
Local Open Scope F_scope.

Definition r1cs_example : R1CS F101 :=
  mkR1CS [0%nat] [2%nat] [f101 1] [0%nat] [2%nat] [f101 1] [0%nat] [1%nat] [f101 1] 1 3 1.
Lemma r1cs_example_ok :
  r1cs_shape r1cs_example /\ r1cs_satisfy (E:=unit) r1cs_example [f101 9] [f101 3] = Ok true /\
  r1cs_satisfy (E:=unit) r1cs_example [f101 9] [f101 4] = Ok false.
Proof.
  repeat split; try (vm_compute; reflexivity);
   destruct H as [H|[]]; injection H as <- <- <-; vm_compute; lia.
Qed.

Section X.
Context {F : Type} {fo : FieldOps F} {fl : FieldLaws F}.
Lemma r1cs_get_size_iff {E} (s : R1CS F) z :
  r1cs_get_size (E:=E) s = Ok z <->
  (length (r_acols s) = length (r_arows s) /\ length (r_avals s) = length (r_arows s) /\
   length (r_bcols s) = length (r_brows s) /\ length (r_bvals s) = length (r_brows s) /\
   length (r_ccols s) = length (r_crows s) /\ length (r_cvals s) = length (r_crows s)) /\
  rs_nrows z = r_nrows s /\ rs_ncols z = r_ncols s /\ rs_input_size z = r_input_size s /\
  rs_adensity z = length (r_arows s) /\ rs_bdensity z = length (r_brows s) /\ rs_cdensity z = length (r_crows s).
Proof.
  unfold r1cs_get_size, assert_.
  repeat (match goal with |- context[(?a =? ?b)%nat] => destruct (Nat.eqb_spec a b) end;
          cbn [obind]; [|split; [discriminate|intros [? _]; lia]]).
  split.
  - intros H. injection H as <-. cbn. repeat split; auto.
  - destruct z. cbn. intros [_ [-> [-> [-> [-> [-> ->]]]]]]. reflexivity.
Qed.

Lemma r1cs_from_ark_ok {E} (m : ArkMatrices (F:=F)) :
  (ark_num_instance m = 0%nat -> r1cs_from_ark (E:=E) m = Panic) /\
  ((0 < ark_num_instance m)%nat -> exists s, r1cs_from_ark (E:=E) m = Ok s /\
    r_nrows s = ark_num_constraints m /\
    r_ncols s = (ark_num_instance m + ark_num_witness m)%nat /\
    r_input_size s = (ark_num_instance m - 1)%nat /\
    (forall r c, mat_at (entries_of (r_arows s) (r_acols s) (r_avals s)) r c = ark_at (ark_a m) r c) /\
    (forall r c, mat_at (entries_of (r_brows s) (r_bcols s) (r_bvals s)) r c = ark_at (ark_b m) r c) /\
    (forall r c, mat_at (entries_of (r_crows s) (r_ccols s) (r_cvals s)) r c = ark_at (ark_c m) r c)).
Proof.
  unfold r1cs_from_ark. split.
  - intros ->. reflexivity.
  - intros H. destruct (Nat.ltb_spec (ark_num_instance m) 1); [lia|].
    eexists. split; [reflexivity|].
    cbn [r_nrows r_ncols r_input_size r_arows r_acols r_avals r_brows r_bcols r_bvals r_crows r_ccols r_cvals].
    repeat split; intros r c; rewrite entries_of_split; apply ark_flatten_at.
Qed.
End X.

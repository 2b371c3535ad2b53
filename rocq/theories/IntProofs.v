(** IntProofs.v: integer <-> field conversions. *)
From Verif Require Import Base Tools.
From Coq Require Import ZifyBool.
Local Open Scope F_scope.

Lemma u64_digits_fuel_0 fuel : u64_digits_fuel fuel 0 = [].
Proof. destruct fuel; reflexivity. Qed.
Lemma u64_digits_spec (z : Z) : (0 <= z)%Z ->
  u64_digits z = if (z =? 0)%Z then [] else
                 if (z <? 2 ^ 64)%Z then [z] else (z mod 2 ^ 64)%Z :: u64_digits_fuel (Z.to_nat (Z.log2 z + 1)) (z / 2 ^ 64).
Proof.
  intros Hz. unfold u64_digits.
  replace (Z.to_nat (Z.log2 z + 2)) with (S (Z.to_nat (Z.log2 z + 1))) by (pose proof (Z.log2_nonneg z); lia).
  cbn [u64_digits_fuel]. destruct (Z.eqb_spec z 0); auto.
  destruct (Z.ltb_spec z (2 ^ 64)); auto.
  rewrite Z.mod_small, Z.div_small by lia. now rewrite u64_digits_fuel_0.
Qed.
Lemma u64_digits_fuel_nonempty z k : (0 < z)%Z -> (0 < k)%nat -> u64_digits_fuel k z <> [].
Proof. intros Hz Hk. destruct k; [lia|]. cbn [u64_digits_fuel]. destruct (Z.eqb_spec z 0); [lia|discriminate]. Qed.

Section IP.
Context {F : Type} {fo : FieldOps F} {po : PrimeFieldOps F} {pl : PrimeFieldLaws F}.

Lemma try_to_int_spec (x : F) :
  try_to_int x = if (to_Z x <? 2 ^ 64)%Z then Some (to_Z x) else None.
Proof.
  pose proof (to_Z_range x) as [H0 H1]. unfold try_to_int. rewrite u64_digits_spec by auto.
  destruct (Z.eqb_spec (to_Z x) 0) as [->|Hx]; [reflexivity|].
  destruct (Z.ltb_spec (to_Z x) (2 ^ 64)); auto.
  assert (u64_digits_fuel (Z.to_nat (Z.log2 (to_Z x) + 1)) (to_Z x / 2 ^ 64) <> []) as Hne.
  { apply u64_digits_fuel_nonempty.
    - apply Z.div_str_pos. lia.
    - pose proof (Z.log2_nonneg (to_Z x)). lia. }
  destruct (u64_digits_fuel _ _); [contradiction|reflexivity].
Qed.
Lemma to_int_spec {E} (x : F) :
  to_int (E:=E) x = if (to_Z x <? 2 ^ 64)%Z then Ok (to_Z x) else Panic.
Proof.
  pose proof (try_to_int_spec x) as H. unfold try_to_int in H. unfold to_int.
  destruct (u64_digits (to_Z x)) as [|d [|d' l]]; destruct (to_Z x <? 2 ^ 64)%Z; congruence.
Qed.
Lemma to_Z_inj (x y : F) : to_Z x = to_Z y -> x = y.
Proof. intros H. rewrite <- (from_to_Z x), <- (from_to_Z y). now rewrite H. Qed.
Lemma from_Z_mod (i : Z) : from_Z (i mod modulus) = from_Z (F:=F) i.
Proof. rewrite <- to_from_Z. apply from_to_Z. Qed.
End IP.

(** Concrete instance (no primality needed for these laws). *)
Section ZpPrime.
Variable p : Z.
Hypothesis Hp : (1 < p)%Z.
#[local] Instance zp_pops : PrimeFieldOps (zp p) := {| modulus := p; from_Z := zof p; to_Z := zval p |}.
Lemma zp_plaws : PrimeFieldLaws (zp p).
Proof.
  constructor; cbn [modulus from_Z to_Z zp_pops].
  - auto.
  - intros x. destruct x as [x Hx]. cbn [zval]. apply Z.eqb_eq in Hx. rewrite <- Hx. apply Z.mod_pos_bound. lia.
  - intros x. apply zp_eq. cbn [zof zval]. destruct x as [x Hx]. now apply Z.eqb_eq.
  - reflexivity.
  - reflexivity.
  - reflexivity.
  - intros i j. apply zp_eq. cbn [zof zval fadd zp_ops]. now rewrite Zplus_mod_idemp_l, Zplus_mod_idemp_r.
  - intros i j. apply zp_eq. cbn [zof zval fmul zp_ops]. now rewrite Zmult_mod_idemp_l, Zmult_mod_idemp_r.
Qed.
End ZpPrime.
#[global] Instance F101_pops : PrimeFieldOps F101 := zp_pops 101.
#[global] Instance F101_plaws : PrimeFieldLaws F101 := zp_plaws 101 eq_refl.

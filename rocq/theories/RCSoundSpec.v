(** RCSoundSpec.v: what it means that the verifier of the range-check argument accepts a proof made of
    commitments to given polynomials. *)
From Verif Require Import Base Spec Tools KZG Snark RC.
Local Open Scope F_scope.

Section RCSoundSpec.
Context {F G1 G2 GT : Type} {fo : FieldOps F} {pf : PrimeFieldOps F} {po : PairingOps F G1 G2 GT}.

(** Some hash function, generators, keys made by [setup] (with trapdoor tau) and [index], and
    commitments to the ten polynomials: the verifier accepts the proof made of these commitments and
    the values y, y1, y2, with random scalar rnd, and the challenges it derived are the given ones. *)
Definition rc_accepts_with (d : nat) (cs : rc_cs)
  (pw pm pr ps prt pt1 ph1 ph2 pW pW1 : list F) (beta alpha omega z y y1 y2 xi tau rnd : F) : Prop :=
  exists (H : list (item F G1) -> F) (g : G1) (h : G2) pp pk vk cw cm cr cc crt ct1 ch1 ch2 cW cW1,
  g <> v0 /\ h <> v0 /\ setup d tau g h = Ok pp /\ rc_index pp cs = Ok (pk, vk) /\
  commit (up_powers_of_g pp) pw = Ok cw /\ commit (up_powers_of_g pp) pm = Ok cm /\
  commit (up_powers_of_g pp) pr = Ok cr /\ commit (up_powers_of_g pp) ps = Ok cc /\
  commit (up_powers_of_g pp) prt = Ok crt /\ commit (up_powers_of_g pp) pt1 = Ok ct1 /\
  commit (up_powers_of_g pp) ph1 = Ok ch1 /\ commit (up_powers_of_g pp) ph2 = Ok ch2 /\
  commit (up_powers_of_g pp) pW = Ok cW /\ commit (up_powers_of_g pp) pW1 = Ok cW1 /\
  rc_v_ch_beta H vk cw cm = beta /\ rc_v_ch_alpha H vk cw cm cr cc crt = alpha /\
  rc_v_ch_omega H vk cw cm cr cc crt ct1 = omega /\ rc_v_ch_z H vk cw cm cr cc crt ct1 ch1 ch2 = z /\
  rc_v_ch_rand_xi H vk cw cm cr cc crt ct1 ch1 ch2
    (rc_v_cm_g vk (mkRCCtx (rc_pub_of vk) beta alpha omega z y y1 y2) cw crt ct1 ch1 ch2) omega y y1 y2 z = xi /\
  rc_verify H vk (mkRCProof cw cm cr cc crt ct1 ch1 ch2 y y1 y2 cW cW1) rnd = Ok tt.

(** The value is one of 0, 1, ..., n - 1. *)
Definition below (n : nat) (v : F) : Prop := exists i, (i < n)%nat /\ v = from_Z (Z.of_nat i).
End RCSoundSpec.

(** R1SoundSpec.v: what it means that the verifier of the R1CS argument accepts a proof made of
    commitments to given polynomials. *)
From Verif Require Import Base Spec Tools CS KZG Snark R1.
Local Open Scope F_scope.

Section R1SoundSpec.
Context {F G1 G2 GT : Type} {fo : FieldOps F} {po : PairingOps F G1 G2 GT}.

(** Some hash function, generators, keys made by [setup] (with trapdoor tau) and [index], and
    commitments to the nine polynomials: the verifier accepts the proof made of these commitments and
    the values y, y1, with random scalar rnd, and the challenges it derived are the given ones. *)
Definition r1_accepts_with (gamma : F) (d : nat) (cs : R1CS F) (x : list F)
  (pu ps ph pr pt ph2 ph3 pW pW1 : list F) (mu nu beta alpha omega z y y1 xi tau rnd : F) : Prop :=
  exists (H : list (item F G1) -> F) (g : G1) (h : G2) pp pk vk cu cs' ch cr ct ch2 ch3 cW cW1,
  g <> v0 /\ h <> v0 /\ setup d tau g h = Ok pp /\ r1_index gamma pp cs = Ok (pk, vk) /\
  commit (up_powers_of_g pp) pu = Ok cu /\ commit (up_powers_of_g pp) ps = Ok cs' /\ commit (up_powers_of_g pp) ph = Ok ch /\
  commit (up_powers_of_g pp) pr = Ok cr /\ commit (up_powers_of_g pp) pt = Ok ct /\
  commit (up_powers_of_g pp) ph2 = Ok ch2 /\ commit (up_powers_of_g pp) ph3 = Ok ch3 /\
  commit (up_powers_of_g pp) pW = Ok cW /\ commit (up_powers_of_g pp) pW1 = Ok cW1 /\
  r1_v_ch_mu H vk x cu = mu /\ r1_v_ch_nu H vk x cu cs' = nu /\ r1_v_ch_beta H vk x cu cs' ch = beta /\
  r1_v_ch_alpha H vk x cu cs' ch cr = alpha /\ r1_v_ch_omega H vk x cu cs' ch cr ct = omega /\
  r1_v_ch_z H vk x cu cs' ch cr ct ch2 ch3 = z /\
  r1_v_ch_rand_xi H vk x cu cs' ch cr ct ch2 ch3
    (r1_v_cm_g vk (mkR1Ctx (r1_pub_of gamma vk x) mu nu beta alpha omega z y y1) cu cs' ch cr ct ch2 ch3) omega y y1 z = xi /\
  r1_verify H gamma vk x (mkR1Proof cu cs' ch cr ct ch2 ch3 y y1 cW cW1) rnd = Ok tt.

End R1SoundSpec.

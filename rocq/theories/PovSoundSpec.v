(** PovSoundSpec.v: what it means that a verifier accepts a proof made of commitments to given
    polynomials. *)
From Verif Require Import Base Spec Tools CS KZG Snark Pov.
Local Open Scope F_scope.

Section PovSoundSpec.
Context {F G1 G2 GT : Type} {fo : FieldOps F} {po : PairingOps F G1 G2 GT}.

(** Some hash function, generators, keys made by [setup] (with trapdoor beta) and [index], and
    commitments to the seven polynomials: the verifier accepts the proof made of these commitments
    and the values y, y2, with random scalar rnd, and the challenges it derived are the given ones. *)
Definition pv_accepts_with (gamma : F) (d : nat) (cs : POV F) (pos : list nat) (vals : list F)
  (pw pr pt ph1 ph2 pW pW1 : list F) (zeta zeta_1 alpha omega z y y2 xi beta rnd : F) : Prop :=
  exists (H : list (item F G1) -> F) (g : G1) (h : G2) pp pk vk cw cr ct ch1 ch2 cW cW1,
  g <> v0 /\ h <> v0 /\ setup d beta g h = Ok pp /\ pv_index gamma pp cs = Ok (pk, vk) /\
  commit (up_powers_of_g pp) pw = Ok cw /\ commit (up_powers_of_g pp) pr = Ok cr /\ commit (up_powers_of_g pp) pt = Ok ct /\
  commit (up_powers_of_g pp) ph1 = Ok ch1 /\ commit (up_powers_of_g pp) ph2 = Ok ch2 /\
  commit (up_powers_of_g pp) pW = Ok cW /\ commit (up_powers_of_g pp) pW1 = Ok cW1 /\
  pv_v_ch_zeta H vk (pos, vals) cw = zeta /\ pv_v_ch_zeta_1 H vk (pos, vals) cw = zeta_1 /\
  pv_v_ch_alpha H vk (pos, vals) cw cr = alpha /\ pv_v_ch_omega H vk (pos, vals) cw cr ct = omega /\
  pv_v_ch_z H vk (pos, vals) cw cr ct ch1 ch2 = z /\
  pv_v_ch_rand_xi H vk (pos, vals) cw cr ct ch1 ch2
    (pv_v_cm_g vk (mkPVCtx (pv_pub_of gamma vk (pos, vals)) zeta zeta_1 alpha omega z y y2) cw cr ct ch1 ch2) omega y y2 z = xi /\
  pv_verify H gamma vk (pos, vals) (mkPVProof cw cr ct ch1 ch2 y y2 cW cW1) rnd = Ok tt.

End PovSoundSpec.

(** RPSoundSpec.v: what it means that the verifier of the prover-efficient R1CS argument accepts a proof
    made of commitments to given polynomials. *)
From Verif Require Import Base Spec Tools CS KZG Snark RP.
Local Open Scope F_scope.

Section RPSoundSpec.
Context {F G1 G2 GT : Type} {fo : FieldOps F} {po : PairingOps F G1 G2 GT}.

(** Some hash function, generators, keys made by [setup] (with trapdoor tau) and [index], and
    commitments to the twelve polynomials: the verifier accepts the proof made of these commitments and
    the values y, y1, y2, with random scalar rnd, and the challenges it derived are the given ones. *)
Definition rp_accepts_with (gamma : F) (d : nat) (cs : R1CS F) (x : list F)
  (py pw pr pc pn pt prt pt1 ph1 ph2 pW pW1 : list F) (mu nu beta alpha omega z y y1 y2 xi tau rnd : F) : Prop :=
  exists (H : list (item F G1) -> F) (g : G1) (h : G2) pp pk vk cy cw cr cc cn ct crt ct1 ch1 ch2 cW cW1,
  g <> v0 /\ h <> v0 /\ setup d tau g h = Ok pp /\ rp_index gamma pp cs = Ok (pk, vk) /\
  commit (up_powers_of_g pp) py = Ok cy /\ commit (up_powers_of_g pp) pw = Ok cw /\
  commit (up_powers_of_g pp) pr = Ok cr /\ commit (up_powers_of_g pp) pc = Ok cc /\
  commit (up_powers_of_g pp) pn = Ok cn /\ commit (up_powers_of_g pp) pt = Ok ct /\
  commit (up_powers_of_g pp) prt = Ok crt /\ commit (up_powers_of_g pp) pt1 = Ok ct1 /\
  commit (up_powers_of_g pp) ph1 = Ok ch1 /\ commit (up_powers_of_g pp) ph2 = Ok ch2 /\
  commit (up_powers_of_g pp) pW = Ok cW /\ commit (up_powers_of_g pp) pW1 = Ok cW1 /\
  rp_v_ch_mu H vk x cy cw = mu /\ rp_v_ch_nu H vk x cy cw cr cc = nu /\
  rp_v_ch_beta H vk x cy cw cr cc cn ct = beta /\ rp_v_ch_alpha H vk x cy cw cr cc cn ct crt = alpha /\
  rp_v_ch_omega H vk x cy cw cr cc cn ct crt ct1 = omega /\ rp_v_ch_z H vk x cy cw cr cc cn ct crt ct1 ch1 ch2 = z /\
  rp_v_ch_rand_xi H vk x cy cw cr cc cn ct crt ct1 ch1 ch2
    (rp_v_cm_g vk (mkRPCtx (rp_pub_of gamma vk x) mu nu beta alpha omega z y y1 y2) cy cw cr cc cn ct crt ct1 ch1 ch2) omega y y1 y2 z = xi /\
  rp_verify H gamma vk x (mkRPProof cy cw cr cc cn ct crt ct1 ch1 ch2 y y1 y2 cW cW1) rnd = Ok tt.

(** The assignment of k entries that the instance x and the committed witness stand for: the sum of
    1, x_1, x_2, ... and the witness, which starts after the l declared public inputs. *)
Definition rp_assignment (l k : nat) (x pw : list F) : list F :=
  map (fun i => coef (1 :: x) i + (if (i <=? l)%nat then 0 else coef pw (i - l - 1))) (seq 0 k).
End RPSoundSpec.

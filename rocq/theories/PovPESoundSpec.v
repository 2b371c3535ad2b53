(** PovPESoundSpec.v: what the verifier of the prover-efficient POV argument enforces. *)
From Verif Require Import Base Spec Tools CS KZG Snark PovPE.
Local Open Scope F_scope.

Section PovPESoundSpec.
Context {F G1 G2 GT : Type} {fo : FieldOps F} {po : PairingOps F G1 G2 GT}.

(** The wires, the public values, and the multiplication gates whose right input is not 0; nothing
    about addition gates, constant gates, and multiplications by 0. *)
Definition pe_enforced (wires : list (nat * nat)) (nmul : nat) (pos : list nat) (vals : list F) (a b c : list F) : Prop :=
  let w := a ++ b ++ c in
  (forall i, (i < nmul)%nat -> coef b i <> 0 -> coef c i = coef a i * coef b i) /\
  (forall x y, In (x, y) wires -> coef w x = coef w y) /\
  (forall i, (i < length pos)%nat -> coef w (nth i pos 0%nat) = coef vals i).

(** The values of the 3n wire positions that two committed polynomials stand for. *)
Definition pe_values (cs : POV F) (pu pv : list F) : list F :=
  let nm := p_nmul cs in let na := p_nadd cs in let n := (nm + na + length (p_consts cs))%nat in
  map (fun k => coef pu k + (if (k <? n + nm)%nat then 0 else coef pv (k - (n + nm)))
                + (if (k <? 2 * n + nm + na)%nat then 0 else coef (p_consts cs) (k - (2 * n + nm + na)))) (seq 0 (3 * n)).

(** As [pv_accepts_with] (PovSoundSpec.v): the verifier accepts a proof made of commitments to the
    eight polynomials, and the challenges it derived are the given ones. *)
Definition pe_accepts_with (gamma : F) (d : nat) (cs : POV F) (pos : list nat) (vals : list F)
  (pu pv pr pt ph1 ph2 pW pW1 : list F) (zeta zeta_1 alpha omega z y y2 xi beta rnd : F) : Prop :=
  exists (H : list (item F G1) -> F) (g : G1) (h : G2) pp pk vk cu cv cr ct ch1 ch2 cW cW1,
  g <> v0 /\ h <> v0 /\ setup d beta g h = Ok pp /\ pe_index gamma pp cs = Ok (pk, vk) /\
  commit (up_powers_of_g pp) pu = Ok cu /\ commit (up_powers_of_g pp) pv = Ok cv /\
  commit (up_powers_of_g pp) pr = Ok cr /\ commit (up_powers_of_g pp) pt = Ok ct /\
  commit (up_powers_of_g pp) ph1 = Ok ch1 /\ commit (up_powers_of_g pp) ph2 = Ok ch2 /\
  commit (up_powers_of_g pp) pW = Ok cW /\ commit (up_powers_of_g pp) pW1 = Ok cW1 /\
  pe_v_ch_zeta H vk (pos, vals) cu cv = zeta /\ pe_v_ch_zeta_1 H vk (pos, vals) cu cv = zeta_1 /\
  pe_v_ch_alpha H vk (pos, vals) cu cv cr = alpha /\ pe_v_ch_omega H vk (pos, vals) cu cv cr ct = omega /\
  pe_v_ch_z H vk (pos, vals) cu cv cr ct ch1 ch2 = z /\
  pe_v_ch_rand_xi H vk (pos, vals) cu cv cr ct ch1 ch2
    (pe_v_cm_g vk (mkPECtx (pe_pub_of gamma vk (pos, vals)) zeta zeta_1 alpha omega z y y2) cu cv cr ct ch1 ch2) omega y y2 z = xi /\
  pe_verify H gamma vk (pos, vals) (mkPEProof cu cv cr ct ch1 ch2 y y2 cW cW1) rnd = Ok tt.

End PovPESoundSpec.

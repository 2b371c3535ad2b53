(** HPSoundSpec.v: what it means that the verifier of the HPR argument accepts a proof made of
    commitments to given polynomials. *)
From Verif Require Import Base Spec Tools CS KZG Snark HP.
Local Open Scope F_scope.

Section HPSoundSpec.
Context {F G1 G2 GT : Type} {fo : FieldOps F} {po : PairingOps F G1 G2 GT}.

(** Some hash function, generators, keys made by [setup] (with trapdoor tau) and [index], and
    commitments to the nine polynomials: the verifier accepts the proof made of these commitments and
    the values y, y1, with random scalar rnd, and the challenges it derived are the given ones. *)
Definition hp_accepts_with (gamma : F) (d : nat) (cs : HPR F) (x : list F)
  (pw ps ph pr pt ph2 ph3 pW pW1 : list F) (mu nu beta alpha omega z y y1 xi tau rnd : F) : Prop :=
  exists (H : list (item F G1) -> F) (g : G1) (h : G2) pp pk vk cw cs' ch cr ct ch2 ch3 cW cW1,
  g <> v0 /\ h <> v0 /\ setup d tau g h = Ok pp /\ hp_index gamma pp cs = Ok (pk, vk) /\
  commit (up_powers_of_g pp) pw = Ok cw /\ commit (up_powers_of_g pp) ps = Ok cs' /\ commit (up_powers_of_g pp) ph = Ok ch /\
  commit (up_powers_of_g pp) pr = Ok cr /\ commit (up_powers_of_g pp) pt = Ok ct /\
  commit (up_powers_of_g pp) ph2 = Ok ch2 /\ commit (up_powers_of_g pp) ph3 = Ok ch3 /\
  commit (up_powers_of_g pp) pW = Ok cW /\ commit (up_powers_of_g pp) pW1 = Ok cW1 /\
  hp_v_ch_mu H vk x cw = mu /\ hp_v_ch_nu H vk x cw cs' = nu /\ hp_v_ch_beta H vk x cw cs' ch = beta /\
  hp_v_ch_alpha H vk x cw cs' ch cr = alpha /\ hp_v_ch_omega H vk x cw cs' ch cr ct = omega /\
  hp_v_ch_z H vk x cw cs' ch cr ct ch2 ch3 = z /\
  hp_v_ch_rand_xi H vk x cw cs' ch cr ct ch2 ch3
    (hp_v_cm_g vk (mkHPCtx (hp_pub_of gamma vk x) mu nu beta alpha omega z y y1) cw cs' ch cr ct ch2 ch3) omega y y1 z = xi /\
  hp_verify H gamma vk x (mkHPProof cw cs' ch cr ct ch2 ch3 y y1 cW cW1) rnd = Ok tt.

(** The matrix (d | A | B | C), as the list of its entries (row, column, value) in the order in which
    the indexer lists them; column 0 is d, columns 1..k are those of A, the next k those of B, then C. *)
Definition hp_listed (cs : HPR F) : entries (F:=F) :=
  let k := h_ncols cs in
  map (fun rcv => (fst (fst rcv), (snd (fst rcv) + 1)%nat, snd rcv)) (entries_of (h_arows cs) (h_acols cs) (h_avals cs)) ++
  map (fun rcv => (fst (fst rcv), (snd (fst rcv) + k + 1)%nat, snd rcv)) (entries_of (h_brows cs) (h_bcols cs) (h_bvals cs)) ++
  map (fun rcv => (fst (fst rcv), (snd (fst rcv) + 2 * k + 1)%nat, snd rcv)) (entries_of (h_crows cs) (h_ccols cs) (h_cvals cs)) ++
  map (fun rv => (fst rv, 0%nat, snd rv)) (combine (h_drows cs) (h_dvals cs)).
(** The relation the verifier enforces on the committed assignment w = (w1, w2, w3): w1 w2 = w3, and
    the first nrows entries of the instance are the product of the assignment (1, w1, w2, w3) -- to
    which the further entries of the instance are added -- with the matrix made of the first
    3|A| + |d| entries in the list only. *)
Definition hp_enforced (cs : HPR F) (x w : list F) : Prop :=
  let h := h_nrows cs in let k := h_ncols cs in
  let counted := (3 * length (h_arows cs) + length (h_drows cs))%nat in
  let assignment := map (fun c => coef (1 :: w) c + coef x (h + c)) (seq 0 (3 * k + 1)) in
  (forall i, (i < k)%nat -> coef w i * coef w (k + i) = coef w (2 * k + i)) /\
  (forall r, (r < h)%nat -> mat_vec (firstn counted (hp_listed cs)) (3 * k + 1) assignment r = coef x r).

(** The prover who committed to pw can answer every sequence of challenges: only the listed values --
    those for which the prescribed divisions are by zero -- are excluded. *)
Definition hp_prover_wins (gamma : F) (d : nat) (cs : HPR F) (x pw : list F) : Prop :=
  let h := h_nrows cs in let k := h_ncols cs in
  forall mu, mu <> 0 -> (forall j, (j < h)%nat -> mu <> fpow gamma j) -> exists ps, (length ps <= d + 1)%nat /\
  forall nu, nu <> 0 -> (forall j, (j < 3 * k + 1)%nat -> nu <> fpow gamma j) -> exists ph, (length ph <= d + 1)%nat /\
  forall beta, exists pr, (length pr <= d + 1)%nat /\
  forall alpha, exists pt, (length pt <= d + 1)%nat /\
  forall omega, omega <> 0 -> exists ph2 ph3, (length ph2 <= d + 1)%nat /\ (length ph3 <= d + 1)%nat /\
  forall z, z <> 0 -> z <> 1 -> gamma * omega <> z -> omega <> z -> exists y y1,
  forall xi, exists pW pW1, (length pW <= d + 1)%nat /\ (length pW1 <= d + 1)%nat /\
  forall tau rnd, hp_accepts_with gamma d cs x pw ps ph pr pt ph2 ph3 pW pW1 mu nu beta alpha omega z y y1 xi tau rnd.

End HPSoundSpec.

import re
src=open('/verif/rocq/theories/R1Top.v').read()
out='''(** RPTop.v: the prover-efficient R1CS prover succeeds on satisfied systems, except for unlucky challenges. *)
From Verif Require Import Base Spec Tools ToolsProofs MatProofs ToolsProofs2 CS CSProofs KZG KZGProofs Properties_KZG
  Snark Laurent SnarkProofs SnarkPerm PovPEConst PovPEComplete SparseSum R1Complete RP RPProofs RPConst RPGood RPComplete.
Local Open Scope F_scope.

Section RPTop.
Context {F G1 G2 GT : Type} {fo : FieldOps F} {fl : FieldLaws F}
        {po : PairingOps F G1 G2 GT} {pl : PairingLaws F G1 G2 GT}.
Add Field Frt : F_th.

(** the combined polynomial vanishes at z *)
Lemma rp_g_zero (e : rp_s6 F) z gv : rp_sizes e -> rp_hsizes e -> rp_sat e ->
  (Z.of_nat (length (rp_x_vec e)) <= 2 * rp_cap_h e + rp_n e)%Z -> (rp_ell e + 1 <= 2 * rp_cap_h e)%Z ->
  (exists dl, rp_t_vec_1 e = dl :: rp_t_vec_1_tail e) ->
  z <> 0 -> z <> 1 -> rp_gamma e * rp_omega e <> z -> rp_omega e <> z -> rp_omega e <> 0 -> rp_gamma e <> 0 ->
  rp_g_vec e (rp_ctx_of e z) = Ok gv -> peval gv z = 0.
Proof.
  intros SZ HZ G Hx Hl T1 Hz Hz1 Hgo Hoz Ho Hg HG.
  destruct (rp_g_value e _ gv HZ HG) as [_ V]. rewrite V. clear V.
  pose proof SZ as [A1 A2 A3 A4 A5 A6 A7 A8 A9 A10 A11 A12 A13 A14 A15].
  pose proof HZ as [B1 B2 B3 B4 B5 B6 B7 B8 B9 B10 B11 B12 B13 B14 B15 B16 B17].
  unfold rp_n, rp_maxshift in *.
  set (M := (2 * rp_cap_h e + (rp_cap_s_a e + rp_cap_s_b e + rp_cap_s_c e))%Z).
  assert (LP M (rp_hK e) z (rp_p_c_36 (rp_ctx_of e z) * peval (rp_r_vec e) z + rp_p_c_37 (rp_ctx_of e z) + rp_p_c_38 (rp_ctx_of e z) * peval (rp_rnu_vec e) z
   + rp_p_c_39 (rp_ctx_of e z) * peval (rp_c_vec e) z + rp_p_c_40 (rp_ctx_of e z) * peval (rp_w_vec e) z
   + rp_p_c_41 (rp_ctx_of e z) * peval (rp_u_vec e) z + rp_p_c_42 (rp_ctx_of e z) * peval (rp_y_vec e) z
   + rp_p_c_43 (rp_ctx_of e z) * peval (rp_y_vec_1 e) z + rp_p_c_44 (rp_ctx_of e z) * peval (rp_wit_vec e) z
   + rp_p_c_45 (rp_ctx_of e z) * peval (rp_v_vec e) z + rp_p_c_46 (rp_ctx_of e z) * peval (rp_r_vec_tilde e) z
   + rp_p_c_47 (rp_ctx_of e z) * peval (rp_t_vec_1 e) z)) as L.
  { unfold M.
    apply rp_LP; auto; try lia; cbn [rp_q_y rp_q_y_1 rp_q_y_2 rp_ctx_of]; unfold rp_y, rp_y_1, rp_y_2; rewrite eval_vidx; auto; unfold rp_n, rp_ell_1; lia. }
  apply LP_halves in L; auto; [| unfold M in *; lia|].
  2:{ refine (CT_0 _ _ _ _ _ (rp_CT e SZ Ho Hg (M + 1) _ _ _ _)); unfold M in *; try lia.
      intros i Hi. apply (rp_br_0 e SZ G T1). lia. }
  assert (rp_maxshift e + rp_n e = M)%Z as EM by (unfold M, rp_maxshift, rp_n; lia).
  assert (rp_h_vec_1 e = expression_vector (fun i => rp_hK e (i - M)) M) as E1.
  { unfold rp_h_vec_1. rewrite EM. unfold expression_vector. apply map_ext. intros i. rewrite rp_h1_hK, EM. reflexivity. }
  assert (rp_h_vec_2 e = expression_vector (fun i => rp_hK e (i + 1)) M) as E2.
  { unfold rp_h_vec_2. rewrite EM. unfold expression_vector. apply map_ext. intros i. now rewrite rp_h2_hK. }
  rewrite <- E1, <- E2 in L. fold M.
  set (q := rp_ctx_of e z) in *. assert (rp_p_c_49 q = - z) as -> by reflexivity.
  assert (rp_p_c_48 q * fpow z (Z.to_nat (rp_cap_d e - M)) = - fpowZ z (- M)) as E24.
  { change (rp_p_c_48 q) with (- power z (- rp_cap_d e)%Z). rewrite pw by auto. rewrite <- fpowZ_nonneg by lia.
    replace (- M)%Z with (- rp_cap_d e + (rp_cap_d e - M))%Z by lia.
    rewrite (fpowZ_add z (- rp_cap_d e)) by auto. ring. }
  match goal with |- ?A + ?c * (?f * ?h) + _ + _ = 0 => replace (c * (f * h)) with ((c * f) * h) by ring end.
  rewrite E24.
  match goal with |- ?A = 0 => match type of L with ?x = ?y => transitivity (y - x); [ring|rewrite L; ring] end end.
Qed.

Lemma rp_divisors_cases (q : rp_ctx F) :
  (rp_divisors q = Ok tt /\\ rp_q_z q <> 0 /\\ rp_q_z q <> 1 /\\ rp_gamma q * rp_q_omega q <> rp_q_z q /\\ rp_q_omega q <> rp_q_z q) \\/
  (rp_divisors q = Panic /\\ (rp_q_z q = 0 \\/ rp_q_z q = 1 \\/ rp_gamma q * rp_q_omega q = rp_q_z q \\/ rp_q_omega q = rp_q_z q)).
Proof.
  unfold rp_divisors. generalize (rp_q_z q), (rp_q_omega q), (rp_gamma q). intros z om ga.
  destruct (feq_dec z 0) as [->|Hz]; [right; rewrite nonzero_panic; auto|].
  rewrite (nonzero_ok z) by auto. cbn [obind].
  destruct (feq_dec om z) as [->|Ho].
  { right. split; auto. replace ((z - 1 * z) * (ga * z - 1 * z)) with (0 : F) by ring. now rewrite nonzero_panic. }
  destruct (feq_dec (ga * om) z) as [E|Hg].
  { right. split; auto. rewrite E. replace ((om - 1 * z) * (z - 1 * z)) with (0 : F) by ring. now rewrite nonzero_panic. }
  assert (om - 1 * z <> 0) as H1 by (intros E; apply Ho, fsub_0_eq; rewrite <- E; ring).
  assert (ga * om - 1 * z <> 0) as H2 by (intros E; apply Hg, fsub_0_eq; rewrite <- E; ring).
  assert (- om + 1 * z <> 0) as H3 by (intros E; apply H1; transitivity (- (- om + 1 * z)); [ring|rewrite E; ring]).
  rewrite !(nonzero_ok ((om - 1 * z) * (ga * om - 1 * z))), (nonzero_ok (om - 1 * z)), (nonzero_ok (- om + 1 * z)) by auto using fmul_neq_0. cbn [obind].
  destruct (feq_dec z 1) as [->|Hz1].
  { right. split; auto. replace ((om - 1 * 1) * (1 - 1)) with (0 : F) by ring. now rewrite nonzero_panic. }
  left. split; auto. rewrite nonzero_ok; [reflexivity|]. apply fmul_neq_0; auto.
  intros E. apply Hz1. symmetry. now apply fsub_0_eq.
Qed.

'''
# stack lemmas
i=src.index('(** the stacked matrix of a well shaped system *)'); j=src.index('Section Run.')
st=src[i:j].replace('r1_stack','rp_stack')
# swap B and C
a=st
a=a.replace('''  - destruct (SB r' c' x' Hin). lia.
  - destruct (SC r' c' x' Hin). lia.''','''  - destruct (SC r' c' x' Hin). lia.
  - destruct (SB r' c' x' Hin). lia.''')
a=a.replace('mat_vec (entries_of (r_brows cs) (r_bcols cs) (r_bvals cs)) (r_ncols cs) v r /\\','@@')
a=a.replace('mat_vec (entries_of (r_crows cs) (r_ccols cs) (r_cvals cs)) (r_ncols cs) v r.','mat_vec (entries_of (r_brows cs) (r_bcols cs) (r_bvals cs)) (r_ncols cs) v r.')
a=a.replace('@@','mat_vec (entries_of (r_crows cs) (r_ccols cs) (r_cvals cs)) (r_ncols cs) v r /\\')
a=a.replace('(entries_of (r_brows cs) (r_bcols cs) (r_bvals cs)) (r\' - r_nrows cs)','@1').replace('(entries_of (r_crows cs) (r_ccols cs) (r_cvals cs)) (r\' - 2 * r_nrows cs)','(entries_of (r_brows cs) (r_bcols cs) (r_bvals cs)) (r\' - 2 * r_nrows cs)').replace('@1','(entries_of (r_crows cs) (r_ccols cs) (r_cvals cs)) (r\' - r_nrows cs)')
a=a.replace('(r_arows cs) (r_brows cs) (r_crows cs) (r_acols cs) (r_bcols cs) (r_ccols cs)','(r_arows cs) (r_crows cs) (r_brows cs) (r_acols cs) (r_ccols cs) (r_bcols cs)').replace('(r_avals cs) (r_bvals cs) (r_cvals cs)) ','(r_avals cs) (r_cvals cs) (r_bvals cs)) ')
a=a.replace('(r_avals cs) (r_bvals cs) (r_cvals cs) r','(r_avals cs) (r_cvals cs) (r_bvals cs) r')
out+=a
out+=open('/tmp/w/tr/rptop_run.v').read()
open('/verif/rocq/theories/RPTop.v','w').write(out)

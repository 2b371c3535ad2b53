import rs,pp
from gen import Gen
P=rs.parse
src='/repo/voproof/src/snarks/voproof_pov_prover_efficient.rs'
S='snarks/voproof_pov_prover_efficient.rs'
g=Gen(src,S,'pe_')
g.raw('''(** PovPE.v: model of voproof/src/snarks/voproof_pov_prover_efficient.rs, the prover-efficient
    argument for POV arithmetic circuits.  The long index expressions are transcribed mechanically
    from the Rust text (one Definition per Rust binding, named pe_<binding>).
    [H] is the hash oracle, the randomizers are arguments. *)
From Verif Require Import Base Tools CS KZG Snark.
Local Open Scope F_scope.

Section PovPE.
Context {F G1 G2 GT : Type} {fo : FieldOps F} {po : PairingOps F G1 G2 GT}.

(** *** Values in scope.  Each record adds the bindings of one round to the previous one. *)

(** public data of a run: sizes (as i64), degree bound, generator and instance
    (%s:119-128, 726-745) *)
Record pe_pub := mkPEPub {
  pe_cap_c_total : Z; pe_cap_c_a : Z; pe_cap_c_m : Z; pe_cap_d : Z; pe_gamma : F;
  pe_x0 : list nat; pe_x1 : list F }.
(** bindings of lines 129-159 *)
Record pe_s1 := mkPES1 {
  pe_s1_pub :> pe_pub; pe_sigma_vec : list F; pe_d_vec : list F;
  pe_x_vec : list F; pe_t_vec : list F; pe_u_vec : list F; pe_v_vec : list F }.
(** lines 160-179 *)
Record pe_s2 := mkPES2 { pe_s2_s1 :> pe_s1; pe_zeta : F; pe_zeta_1 : F }.
(** lines 180-218 *)
Record pe_s3 := mkPES3 { pe_s3_s2 :> pe_s2; pe_r_vec : list F; pe_alpha : F }.
(** lines 222-284 *)
Record pe_s4 := mkPES4 { pe_s4_s3 :> pe_s3; pe_t_vec_1 : list F; pe_omega : F }.
'''%S)
g.fields([('cap_c_total','Z'),('cap_c_a','Z'),('cap_c_m','Z'),('cap_d','Z'),('gamma','F')])
g.alias('x.instance.0','NL','(pe_x0 e)'); g.alias('x.instance.1','V','(pe_x1 e)')
g.fields([('pk.sigma_vec','V'),('pk.d_vec','V'),('x_vec','V'),('t_vec','V'),('u_vec','V'),('v_vec','V')])
g.stmts(144,144,'pe_pub')
g.fields([('zeta','F'),('zeta_1','F')])
a,b,args=g.find(180,204,'define_accumulate_vector_mul')
ex=P(args[2]); assert ex[0]=='mac' and ex[1]=='mul'
t=g.tr(); inv=ex[2][1]; assert inv[1]=='inverse'
g.raw(g.cite(a,b,'[r_vec], the factor of entry i and its inverted part'))
g.raw(g.wrapc('Definition pe_r_den (e : pe_s2) (i : Z) : F := %s.'%t.fn('i',inv[2][0])))
g.raw(g.wrapc('Definition pe_r_num (e : pe_s2) (i : Z) : F := %s.'%t.fn('i',ex[2][0])))
g.raw(g.wrapc('Definition pe_r_len (e : pe_s2) : Z := %s.'%t.Zs(P(args[3]))))
g.raw('''(** the running product, before padding; [inverse!] of a zero panics *)
Definition pe_r_acc (e : pe_s2) : outcome error (list F) :=
  if existsb (fun i => is_zero (pe_r_den e i)) (zrange (pe_r_len e)) then Panic
  else Ok (accumulate_vector 1 (fun i => pe_r_num e i * finv (pe_r_den e i)) (pe_r_len e) fmul).''')
g.stmts(207,207,'pe_pub')
g.fields([('r_vec','V'),('alpha','F')])
g.stmts(219,221,'pe_s3')
a,b,args=g.find(222,271,'define_vec','t_vec_1')
ex=P(args[1]); assert ex[1]=='vector_concat' and ex[2][0]==('id','delta_vec_3')
ev=ex[2][1]; t=g.tr()
g.raw(g.cite(a,b,'[t_vec_1]: entry i of the expression following the randomizer'))
g.raw(g.wrapc('Definition pe_t_vec_1_at (e : pe_s3) (i : Z) : F := %s.'%t.fn('i',ev[2][1])))
g.raw(g.wrapc('Definition pe_t_vec_1_tail (e : pe_s3) : list F := expression_vector (pe_t_vec_1_at e) %s.'%t.Zs(ev[2][2])))
g.fields([('t_vec_1','V'),('omega','F')])
g.stmts(285,388,'pe_s4')
g.stmts(389,531,'pe_s4')
# evaluation stage
g.raw('''
(** *** The evaluation round: lines 548-621 of [prove] and 800-872 of [verify].
    [pe_ctx] holds what both sides know after the challenge z. *)
Record pe_ctx := mkPECtx {
  pe_ctx_pub :> pe_pub; pe_q_zeta : F; pe_q_zeta_1 : F; pe_q_alpha : F; pe_q_omega : F;
  pe_q_z : F; pe_q_y : F; pe_q_y_2 : F }.''')
# y, y_2 from s4 and z
t=g.tr()
a,b,args=g.find(548,548,'define_eval_vector_expression')
g.raw(g.cite(a,b,'[y]'))
g.raw(g.wrapc('Definition pe_y (e : pe_s4) (z : F) : F := eval_vector_expression (pe_omega e / z) (fun i => %s) %s.'%(t.fn('i',P(args[3])),t.Zs(P(args[4])))))
a,b,args=g.find(550,550,'define_eval_vector_expression')
g.raw(g.cite(a,b,'[y_2]'))
g.raw(g.wrapc('Definition pe_y_2 (e : pe_s4) (z : F) : F := eval_vector_expression (pe_omega e / z) (fun i => %s) %s.'%(t.fn('i',P(args[3])),t.Zs(P(args[4])))))
for nm in ['zeta','zeta_1','alpha','omega','z','y','y_2']:
    g.env[nm]=('F','(pe_q_%s e)'%nm)
saved=dict(g.env)
def ev(lo,hi,pre):
    g.pre=pre; g.env=dict(saved)
    g.stmts(lo,hi,'pe_ctx',skip=('define_eval_vector_expression',))
ev(548,621,'pe_p_')
import re
lines=open(src).read().split('\n')
v0=next(i for i,l in enumerate(lines) if 'fn verify' in l)+1
vy=[s for s in rs.statements(src,v0,len(lines)) if s[2]=='define' and rs.splitargs(s[3])[0]=='y_1'][0]
vc=[s for s in rs.statements(src,v0,len(lines)) if s[2]=='define' and rs.splitargs(s[3])[0]=='c_25'][0]
g.raw('\n(** the same bindings in [verify] *)')
ev(vy[0],vc[1],'pe_v_')
g.pre='pe_'; g.env=dict(saved)
g.raw('''
(** divisors of lines 548-619 in evaluation order (z of omega / z; then those of c_18, c_19, c_20,
    c_23); [power(z, -cap_d)] returns z unchanged for z = 0 and does not divide. *)
Definition pe_divisors (e : pe_ctx) : outcome error unit :=
  let z := pe_q_z e in let omega := pe_q_omega e in let gamma := pe_gamma e in
  let! _ := nonzero z in
  let! _ := nonzero (z * (omega - 1 * z)) in
  let! _ := nonzero (omega - 1 * z) in
  let! _ := nonzero (z * (1 - z) * (gamma * z - 1)) in
  nonzero (omega - 1 * z).
''')
# g_vec
a,b,args=g.find(622,644,'define_vec_mut','g_vec')
ex=P(args[1]); assert ex[1]=='expression_vector'
for k in range(18,26): g.env['c_%d'%k]=('F','(pe_p_c_%d q)'%k)
g.fields([('h_vec_1','V'),('h_vec_2','V')])
t=g.tr()
g.raw(g.cite(a,b,'[g_vec], entry i before the addition of line 645'))
g.raw(g.wrapc('Definition pe_g_at (e : pe_s4) (q : pe_ctx) (i : Z) : F := %s.'%t.fn('i',ex[2][1])))
g.raw(g.wrapc('Definition pe_g_vec (e : pe_s4) (q : pe_ctx) : outcome error (list F) := add_to_first_item (expression_vector (pe_g_at e q) %s) (pe_p_c_20 q).'%t.Zs(ex[2][2])))
# keys/proof
g.raw('''
(** *** Keys, proofs, transcripts *)
(** lines 14-21 *)
Record pe_vk := mkPEVK {
  pe_vk_cm_sigma_vec : G1; pe_vk_cm_d_vec : G1; pe_vk_kzg_vk : verifier_key G1 G2;
  pe_vk_size : POVSize; pe_vk_degree_bound : nat }.
(** lines 5-11 *)
Record pe_pk := mkPEPK {
  pe_pk_verifier_key : pe_vk; pe_pk_powers : list G1; pe_pk_max_degree : nat;
  pe_pk_sigma_vec : list F; pe_pk_d_vec : list F }.
(** lines 23-35 *)
Record pe_proof := mkPEProof {
  pe_cm_u_vec : G1; pe_cm_v_vec : G1; pe_cm_r_vec : G1; pe_cm_t_vec_1 : G1;
  pe_cm_h_vec_1 : G1; pe_cm_h_vec_2 : G1; pe_pf_y : F; pe_pf_y_2 : F;
  pe_cap_w : G1; pe_cap_w_1 : G1 }.

Variable H : list (item F G1) -> F.
Variable gamma : F.   (* generator_of!: FftField::GENERATOR *)
''')
vk="vk"
for n in ['cm_sigma_vec','cm_d_vec']:
    g.alias('pk.verifier_key.'+n,'G','(pe_vk_%s vk)'%n); g.alias('vk.'+n,'G','(pe_vk_%s vk)'%n)
for n in ['cm_u_vec','cm_v_vec','cm_r_vec','cm_t_vec_1','cm_h_vec_1','cm_h_vec_2','cm_g']: g.alias(n,'G',n)
g.alias('x.instance.0','NL','(fst x)'); g.alias('x.instance.1','V','(snd x)')
for n in ['omega','z','y','y_2']: g.alias(n,'F',n)
L=len(lines)
sig={'zeta':'(cm_u_vec cm_v_vec : G1)','zeta_1':'(cm_u_vec cm_v_vec : G1)','alpha':'(cm_u_vec cm_v_vec cm_r_vec : G1)',
 'omega':'(cm_u_vec cm_v_vec cm_r_vec cm_t_vec_1 : G1)','z':'(cm_u_vec cm_v_vec cm_r_vec cm_t_vec_1 cm_h_vec_1 cm_h_vec_2 : G1)',
 'rand_xi':'(cm_u_vec cm_v_vec cm_r_vec cm_t_vec_1 cm_h_vec_1 cm_h_vec_2 cm_g : G1) (omega y y_2 z : F)'}
sig['rand_xi_2']=sig['rand_xi']
for side,lo,hi in [('p',118,725),('v',v0,L)]:
    for n in ['zeta','zeta_1','alpha','omega','z','rand_xi','rand_xi_2']:
        it,a,b=g.hash(lo,hi,n)
        g.raw(g.cite(a,b,'challenge [%s] of %s'%(n,'prove' if side=='p' else 'verify')))
        g.raw(g.wrapc('Definition pe_%s_ch_%s (vk : pe_vk) (x : POVInstance) %s : F := H %s.'%(side,n,sig[n],it)))
def lc(lo,hi,pre):
    a,b,args=g.find(lo,hi,'define_commitment_linear_combination','cm_g')
    one=args[2]; ps=args[3:]
    f=lambda c:'(%s%s q)'%(pre,c)
    l='; '.join('(%s, %s)'%(g.env[ps[k]][1],f(ps[k+1])) for k in range(0,len(ps),2))
    return 'commitment_linear_combination (vk_g (pe_vk_kzg_vk vk)) %s [%s]'%(f(one),l),a,b
for side,lo,hi,pre in [('p',640,670,'pe_p_'),('v',v0,L,'pe_v_')]:
    body,a,b=lc(lo,hi,pre)
    g.raw(g.cite(a,b,'[cm_g]'))
    g.raw(g.wrapc('Definition pe_%s_cm_g (vk : pe_vk) (q : pe_ctx) (cm_u_vec cm_v_vec cm_r_vec cm_t_vec_1 cm_h_vec_1 cm_h_vec_2 : G1) : G1 := %s.'%(side,body)))
g.raw('''
(** lines 46-48 [get_max_degree] *)
Definition pe_get_max_degree (size : POVSize) : nat := (ps_nmul size + 4 * ps_n size)%nat.

(** lines 59-62 [setup]: KZG setup with the sampled trapdoor and generators *)
Definition pe_setup (size : nat) (beta : F) (g : G1) (h : G2) := setup size beta g h.

(** lines 64-117 [index] *)
Definition pe_index (pp : universal_params G1 G2) (cs : POV F) : outcome error (pe_pk * pe_vk) :=
  let size := pov_get_size cs in
  let max_degree := pe_get_max_degree size in
  let cap_d := length (up_powers_of_g pp) in
  let! _ := assert_ (max_degree <? cap_d)%nat in
  let powers_of_g := up_powers_of_g pp in
  let cap_c_total := Z.of_nat (ps_n size) in
  let cap_c_a := Z.of_nat (ps_nadd size) in
  let cap_c_m := Z.of_nat (ps_nmul size) in
  let d_vec := p_consts cs in
  let! sigma_vec := permutation_vector_from_wires gamma (p_wires cs) (Z.to_nat (3 * cap_c_total)) in
  let! cm_sigma_vec := commit_vector powers_of_g sigma_vec (3 * cap_c_total)%Z in
  let! cm_d_vec := commit_vector powers_of_g d_vec (- cap_c_a - cap_c_m + cap_c_total)%Z in
  let! kvk := kzg_vk pp in
  let vk := mkPEVK cm_sigma_vec cm_d_vec kvk size cap_d in
  Ok (mkPEPK vk powers_of_g max_degree sigma_vec d_vec, vk).

(** lines 119-128 of [prove], 726-745 of [verify] *)
Definition pe_pub_of (vk : pe_vk) (x : POVInstance) : pe_pub :=
  let size := pe_vk_size vk in
  mkPEPub (Z.of_nat (ps_n size)) (Z.of_nat (ps_nadd size)) (Z.of_nat (ps_nmul size))
          (Z.of_nat (pe_vk_degree_bound vk)) gamma (fst x) (snd x).

(** lines 129-159: witness vectors and their commitments *)
Definition pe_round1 (pk : pe_pk) (x : POVInstance) (w : POVWitness) (delta_vec delta_vec_1 : list F)
  : outcome error (pe_s1 * (G1 * G1)) :=
  let e := pe_pub_of (pe_pk_verifier_key pk) x in
  let '(a_vec, b_vec, c_vec) := w in
  let! x_vec := sparse_vector (fst x) (snd x) (Z.to_nat (3 * pe_cap_c_total e)) in
  let! u_vec := concat_subvec a_vec 0 (Z.to_nat (pe_cap_c_total e)) b_vec 0 (Z.to_nat (pe_cap_c_m e)) in
  let! v_vec := concat_subvec b_vec (Z.to_nat (pe_cap_c_m e)) (Z.to_nat (pe_cap_c_total e))
                              c_vec 0 (Z.to_nat (pe_cap_c_a e + pe_cap_c_m e)) in
  let! u_vec := zero_pad_and_concat u_vec (Z.to_nat (pe_n e)) [delta_vec] in
  let! cm_u_vec := commit_vector (pe_pk_powers pk) u_vec (pe_n e + 1)%Z in
  let! v_vec := zero_pad_and_concat v_vec (Z.to_nat (pe_n e)) [delta_vec_1] in
  let! cm_v_vec := commit_vector (pe_pk_powers pk) v_vec (pe_n e + 1)%Z in
  let! t_vec := sparse_zero_one_vector (fst x) (Z.to_nat (3 * pe_cap_c_total e)) in
  Ok (mkPES1 e (pe_pk_sigma_vec pk) (pe_pk_d_vec pk) x_vec t_vec u_vec v_vec, (cm_u_vec, cm_v_vec)).

(** lines 180-206: the running product *)
Definition pe_round2 (pk : pe_pk) (e : pe_s2) (delta_vec_2 : list F) : outcome error (list F * G1) :=
  let! r := pe_r_acc e in
  let! r_vec := zero_pad_and_concat r (Z.to_nat (pe_n e)) [delta_vec_2] in
  let! cm_r_vec := commit_vector (pe_pk_powers pk) r_vec (pe_n e + 1)%Z in
  Ok (r_vec, cm_r_vec).

(** lines 207-272 *)
Definition pe_round3 (pk : pe_pk) (e : pe_s3) (delta_vec_3 : list F) : outcome error (list F * G1) :=
  let t_vec_1 := vector_concat [delta_vec_3; pe_t_vec_1_tail e] in
  let! cm_t_vec_1 := commit_vector (pe_pk_powers pk) t_vec_1 (pe_maxshift e + 2)%Z in
  Ok (t_vec_1, cm_t_vec_1).

(** lines 285-533; line 285 unwraps the inverse of omega *)
Definition pe_round4 (pk : pe_pk) (e : pe_s4) : outcome error (G1 * G1) :=
  let! _ := nonzero (pe_omega e) in
  let! cm_h_vec_1 := commit_vector (pe_pk_powers pk) (pe_h_vec_1 e) (pe_cap_d e) in
  let! cm_h_vec_2 := commit_vector (pe_pk_powers pk) (pe_h_vec_2 e) (pe_maxshift e + pe_n e)%Z in
  Ok (cm_h_vec_1, cm_h_vec_2).

(** lines 548-644 *)
Definition pe_ctx_of (e : pe_s4) (z : F) : pe_ctx :=
  mkPECtx e (pe_zeta e) (pe_zeta_1 e) (pe_alpha e) (pe_omega e) z (pe_y e z) (pe_y_2 e z).

(** lines 548-668: the combined polynomial, checked to vanish at z *)
Definition pe_round5 (e : pe_s4) (z : F) : outcome error (pe_ctx * list F) :=
  let q := pe_ctx_of e z in
  let! _ := pe_divisors q in
  let! g_vec := pe_g_vec e q in
  let! _ := check_poly_eval (strip g_vec) z 0 in
  Ok (q, g_vec).

(** lines 118-724 [prove]; the four randomizer vectors are sampled with one element each *)
Definition pe_prove (pk : pe_pk) (x : POVInstance) (w : POVWitness)
  (delta delta_1 delta_2 delta_3 : F) : outcome error pe_proof :=
  let vk := pe_pk_verifier_key pk in
  let! (s1, (cm_u_vec, cm_v_vec)) := pe_round1 pk x w [delta] [delta_1] in
  let zeta := pe_p_ch_zeta vk x cm_u_vec cm_v_vec in
  let zeta_1 := pe_p_ch_zeta_1 vk x cm_u_vec cm_v_vec in
  let s2 := mkPES2 s1 zeta zeta_1 in
  let! (r_vec, cm_r_vec) := pe_round2 pk s2 [delta_2] in
  let alpha := pe_p_ch_alpha vk x cm_u_vec cm_v_vec cm_r_vec in
  let s3 := mkPES3 s2 r_vec alpha in
  let! (t_vec_1, cm_t_vec_1) := pe_round3 pk s3 [delta_3] in
  let omega := pe_p_ch_omega vk x cm_u_vec cm_v_vec cm_r_vec cm_t_vec_1 in
  let s4 := mkPES4 s3 t_vec_1 omega in
  let! (cm_h_vec_1, cm_h_vec_2) := pe_round4 pk s4 in
  let z := pe_p_ch_z vk x cm_u_vec cm_v_vec cm_r_vec cm_t_vec_1 cm_h_vec_1 cm_h_vec_2 in
  let! (q, g_vec) := pe_round5 s4 z in
  let cm_g := pe_p_cm_g vk q cm_u_vec cm_v_vec cm_r_vec cm_t_vec_1 cm_h_vec_1 cm_h_vec_2 in
  let y := pe_q_y q in
  let y_2 := pe_q_y_2 q in
  let rand_xi := pe_p_ch_rand_xi vk x cm_u_vec cm_v_vec cm_r_vec cm_t_vec_1 cm_h_vec_1 cm_h_vec_2
                   cm_g omega y y_2 z in
  let rand_xi_2 := pe_p_ch_rand_xi_2 vk x cm_u_vec cm_v_vec cm_r_vec cm_t_vec_1 cm_h_vec_1 cm_h_vec_2
                   cm_g omega y y_2 z in
  let! (cap_w, cap_w_1) := batch_open (pe_pk_powers pk) [strip (pe_u_vec s4); strip r_vec] [strip g_vec]
                             (omega / z) z rand_xi rand_xi_2 in
  Ok (mkPEProof cm_u_vec cm_v_vec cm_r_vec cm_t_vec_1 cm_h_vec_1 cm_h_vec_2 y y_2 cap_w cap_w_1).

(** lines 725-957 [verify]; [randomizer] is the random scalar of [batch_check] *)
Definition pe_verify (vk : pe_vk) (x : POVInstance) (pf : pe_proof) (randomizer : F)
  : outcome error unit :=
  let cm_u_vec := pe_cm_u_vec pf in
  let cm_v_vec := pe_cm_v_vec pf in
  let cm_r_vec := pe_cm_r_vec pf in
  let cm_t_vec_1 := pe_cm_t_vec_1 pf in
  let cm_h_vec_1 := pe_cm_h_vec_1 pf in
  let cm_h_vec_2 := pe_cm_h_vec_2 pf in
  let y := pe_pf_y pf in
  let y_2 := pe_pf_y_2 pf in
  let zeta := pe_v_ch_zeta vk x cm_u_vec cm_v_vec in
  let zeta_1 := pe_v_ch_zeta_1 vk x cm_u_vec cm_v_vec in
  let alpha := pe_v_ch_alpha vk x cm_u_vec cm_v_vec cm_r_vec in
  let omega := pe_v_ch_omega vk x cm_u_vec cm_v_vec cm_r_vec cm_t_vec_1 in
  let z := pe_v_ch_z vk x cm_u_vec cm_v_vec cm_r_vec cm_t_vec_1 cm_h_vec_1 cm_h_vec_2 in
  let q := mkPECtx (pe_pub_of vk x) zeta zeta_1 alpha omega z y y_2 in
  let! _ := pe_divisors q in
  let cm_g := pe_v_cm_g vk q cm_u_vec cm_v_vec cm_r_vec cm_t_vec_1 cm_h_vec_1 cm_h_vec_2 in
  let z1 := omega / z in
  let z2 := z in
  let rand_xi := pe_v_ch_rand_xi vk x cm_u_vec cm_v_vec cm_r_vec cm_t_vec_1 cm_h_vec_1 cm_h_vec_2
                   cm_g omega y y_2 z in
  let rand_xi_2 := pe_v_ch_rand_xi_2 vk x cm_u_vec cm_v_vec cm_r_vec cm_t_vec_1 cm_h_vec_1 cm_h_vec_2
                   cm_g omega y y_2 z in
  if batch_check (pe_vk_kzg_vk vk) [cm_u_vec; cm_r_vec] [cm_g] z1 z2 rand_xi rand_xi_2
       [y; y_2] [0] (pe_cap_w pf) (pe_cap_w_1 pf) randomizer
  then Ok tt else Err VerificationFail.

End PovPE.
Arguments pe_pub F : clear implicits.
Arguments pe_s1 F : clear implicits.
Arguments pe_s2 F : clear implicits.
Arguments pe_s3 F : clear implicits.
Arguments pe_s4 F : clear implicits.
Arguments pe_ctx F : clear implicits.
Arguments pe_vk G1 G2 : clear implicits.
Arguments pe_pk F G1 G2 : clear implicits.
Arguments pe_proof F G1 : clear implicits.''')
g.write('/verif/rocq/theories/PovPE.v')
# hK for the proofs
g2=Gen(src,S,'pe_'); g2.env=dict(saved); 
for n,k in [('zeta','F'),('zeta_1','F'),('alpha','F'),('omega','F')]: g2.env[n]=(k,'(pe_%s e)'%n)
g2.fields([('cap_c_total','Z'),('u_vec','V')])
a,b,args=g2.find(474,531,'define_expression_vector','h_vec_2')
body=re.sub(r'\bi \+ 1\b','K',args[2]); assert not re.search(r'\bi\b',body)
g2.raw(g2.wrapc('Definition pe_hK (e : pe_s4 F) (K : Z) : F := %s.'%g2.tr().fn('K',P(body))))
g2.write('/tmp/w/tr/pe_hK.txt')

import rs,pp
from gen import Gen
P=rs.parse
src='/repo/voproof/src/snarks/voproof_pov.rs'
S='snarks/voproof_pov.rs'
g=Gen(src,S,'pv_')
g.raw('''(** Pov.v: model of voproof/src/snarks/voproof_pov.rs, the the
    argument for POV arithmetic circuits.  The long index expressions are transcribed mechanically
    from the Rust text (one Definition per Rust binding, named pv_<binding>).
    [H] is the hash oracle, the randomizers are arguments. *)
From Verif Require Import Base Tools CS KZG Snark.
Local Open Scope F_scope.

Section Pov.
Context {F G1 G2 GT : Type} {fo : FieldOps F} {po : PairingOps F G1 G2 GT}.

(** *** Values in scope.  Each record adds the bindings of one round to the previous one. *)

(** public data of a run: sizes (as i64), degree bound, generator and instance
    (%s:113-121, 677-694) *)
Record pv_pub := mkPVPub {
  pv_cap_c_total : Z; pv_cap_c_a : Z; pv_cap_c_m : Z; pv_cap_d : Z; pv_gamma : F;
  pv_x0 : list nat; pv_x1 : list F }.
(** bindings of lines 122-131 *)
Record pv_s1 := mkPVS1 {
  pv_s1_pub :> pv_pub; pv_sigma_vec : list F; pv_d_vec : list F;
  pv_x_vec : list F; pv_t_vec : list F; pv_w_vec : list F }.
(** lines 132-149 *)
Record pv_s2 := mkPVS2 { pv_s2_s1 :> pv_s1; pv_zeta : F; pv_zeta_1 : F }.
(** lines 150-177 *)
Record pv_s3 := mkPVS3 { pv_s3_s2 :> pv_s2; pv_r_vec : list F; pv_alpha : F }.
(** lines 181-259 *)
Record pv_s4 := mkPVS4 { pv_s4_s3 :> pv_s3; pv_t_vec_1 : list F; pv_omega : F }.
'''%S)
g.fields([('cap_c_total','Z'),('cap_c_a','Z'),('cap_c_m','Z'),('cap_d','Z'),('gamma','F')])
g.alias('x.instance.0','NL','(pv_x0 e)'); g.alias('x.instance.1','V','(pv_x1 e)')
g.fields([('pk.sigma_vec','V'),('pk.d_vec','V'),('x_vec','V'),('t_vec','V'),('w_vec','V')])
g.stmts(127,127,'pv_pub')
g.fields([('zeta','F'),('zeta_1','F')])
a,b,args=g.find(150,164,'define_accumulate_vector_mul')
ex=P(args[2]); assert ex[0]=='mac' and ex[1]=='mul'
t=g.tr(); inv=ex[2][1]; assert inv[1]=='inverse'
g.raw(g.cite(a,b,'[r_vec], the factor of entry i and its inverted part'))
g.raw(g.wrapc('Definition pv_r_den (e : pv_s2) (i : Z) : F := %s.'%t.fn('i',inv[2][0])))
g.raw(g.wrapc('Definition pv_r_num (e : pv_s2) (i : Z) : F := %s.'%t.fn('i',ex[2][0])))
g.raw(g.wrapc('Definition pv_r_len (e : pv_s2) : Z := %s.'%t.Zs(P(args[3]))))
g.raw('''(** the running product, before padding; [inverse!] of a zero panics *)
Definition pv_r_acc (e : pv_s2) : outcome error (list F) :=
  if existsb (fun i => is_zero (pv_r_den e i)) (zrange (pv_r_len e)) then Panic
  else Ok (accumulate_vector 1 (fun i => pv_r_num e i * finv (pv_r_den e i)) (pv_r_len e) fmul).''')
g.stmts(167,167,'pv_pub')
g.fields([('r_vec','V'),('alpha','F')])
g.stmts(178,180,'pv_s3')
a,b,args=g.find(181,247,'define_vec','t_vec_1')
ex=P(args[1]); assert ex[1]=='vector_concat' and ex[2][0]==('id','delta_vec_2')
ev=ex[2][1]; t=g.tr()
g.raw(g.cite(a,b,'[t_vec_1]: entry i of the expression following the randomizer'))
g.raw(g.wrapc('Definition pv_t_vec_1_at (e : pv_s3) (i : Z) : F := %s.'%t.fn('i',ev[2][1])))
g.raw(g.wrapc('Definition pv_t_vec_1_tail (e : pv_s3) : list F := expression_vector (pv_t_vec_1_at e) %s.'%t.Zs(ev[2][2])))
g.fields([('t_vec_1','V'),('omega','F')])
g.stmts(260,343,'pv_s4')
g.stmts(344,494,'pv_s4')
# evaluation stage
g.raw('''
(** *** The evaluation round: lines 510-578 of [prove] and 747-813 of [verify].
    [pv_ctx] holds what both sides know after the challenge z. *)
Record pv_ctx := mkPVCtx {
  pv_ctx_pub :> pv_pub; pv_q_zeta : F; pv_q_zeta_1 : F; pv_q_alpha : F; pv_q_omega : F;
  pv_q_z : F; pv_q_y : F; pv_q_y_2 : F }.''')
# y, y_2 from s4 and z
t=g.tr()
a,b,args=g.find(510,510,'define_eval_vector_expression')
g.raw(g.cite(a,b,'[y]'))
g.raw(g.wrapc('Definition pv_y (e : pv_s4) (z : F) : F := eval_vector_expression (pv_omega e / z) (fun i => %s) %s.'%(t.fn('i',P(args[3])),t.Zs(P(args[4])))))
a,b,args=g.find(512,512,'define_eval_vector_expression')
g.raw(g.cite(a,b,'[y_2]'))
g.raw(g.wrapc('Definition pv_y_2 (e : pv_s4) (z : F) : F := eval_vector_expression (pv_omega e / z) (fun i => %s) %s.'%(t.fn('i',P(args[3])),t.Zs(P(args[4])))))
for nm in ['zeta','zeta_1','alpha','omega','z','y','y_2']:
    g.env[nm]=('F','(pv_q_%s e)'%nm)
saved=dict(g.env)
def ev(lo,hi,pre):
    g.pre=pre; g.env=dict(saved)
    g.stmts(lo,hi,'pv_ctx',skip=('define_eval_vector_expression',))
ev(510,578,'pv_p_')
import re
lines=open(src).read().split('\n')
v0=next(i for i,l in enumerate(lines) if 'fn verify' in l)+1
vy=[s for s in rs.statements(src,v0,len(lines)) if s[2]=='define' and rs.splitargs(s[3])[0]=='y_1'][0]
vc=[s for s in rs.statements(src,v0,len(lines)) if s[2]=='define' and rs.splitargs(s[3])[0]=='c_26'][0]
g.raw('\n(** the same bindings in [verify] *)')
ev(vy[0],vc[1],'pv_v_')
g.pre='pv_'; g.env=dict(saved)
g.raw('''
(** divisors of lines 510-576 in evaluation order (z of omega / z; then those of c_20, c_21, c_22,
    c_24); [power(z, -cap_d)] returns z unchanged for z = 0 and does not divide. *)
Definition pv_divisors (e : pv_ctx) : outcome error unit :=
  let z := pv_q_z e in let omega := pv_q_omega e in let gamma := pv_gamma e in
  let! _ := nonzero z in
  let! _ := nonzero (z * (omega - 1 * z)) in
  let! _ := nonzero (omega - 1 * z) in
  let! _ := nonzero (z * (1 - z) * (gamma * z - 1)) in
  nonzero (omega - 1 * z).
''')
# g_vec
a,b,args=g.find(579,599,'define_vec_mut','g_vec')
ex=P(args[1]); assert ex[1]=='expression_vector'
for k in range(20,27): g.env['c_%d'%k]=('F','(pv_p_c_%d q)'%k)
g.fields([('h_vec_1','V'),('h_vec_2','V')])
t=g.tr()
g.raw(g.cite(a,b,'[g_vec], entry i before the addition of line 600'))
g.raw(g.wrapc('Definition pv_g_at (e : pv_s4) (q : pv_ctx) (i : Z) : F := %s.'%t.fn('i',ex[2][1])))
g.raw(g.wrapc('Definition pv_g_vec (e : pv_s4) (q : pv_ctx) : outcome error (list F) := add_to_first_item (expression_vector (pv_g_at e q) %s) (pv_p_c_22 q).'%t.Zs(ex[2][2])))
# keys/proof
g.raw('''
(** *** Keys, proofs, transcripts *)
(** lines 13-20 *)
Record pv_vk := mkPVVK {
  pv_vk_cm_sigma_vec : G1; pv_vk_cm_d_vec : G1; pv_vk_kzg_vk : verifier_key G1 G2;
  pv_vk_size : POVSize; pv_vk_degree_bound : nat }.
(** lines 4-11 *)
Record pv_pk := mkPVPK {
  pv_pk_verifier_key : pv_vk; pv_pk_powers : list G1; pv_pk_max_degree : nat;
  pv_pk_sigma_vec : list F; pv_pk_d_vec : list F }.
(** lines 22-33 *)
Record pv_proof := mkPVProof {
  pv_cm_w_vec : G1; pv_cm_r_vec : G1; pv_cm_t_vec_1 : G1;
  pv_cm_h_vec_1 : G1; pv_cm_h_vec_2 : G1; pv_pf_y : F; pv_pf_y_2 : F;
  pv_cap_w : G1; pv_cap_w_1 : G1 }.

Variable H : list (item F G1) -> F.
Variable gamma : F.   (* generator_of!: FftField::GENERATOR *)
''')
vk="vk"
for n in ['cm_sigma_vec','cm_d_vec']:
    g.alias('pk.verifier_key.'+n,'G','(pv_vk_%s vk)'%n); g.alias('vk.'+n,'G','(pv_vk_%s vk)'%n)
for n in ['cm_w_vec','cm_r_vec','cm_t_vec_1','cm_h_vec_1','cm_h_vec_2','cm_g']: g.alias(n,'G',n)
g.alias('x.instance.0','NL','(fst x)'); g.alias('x.instance.1','V','(snd x)')
for n in ['omega','z','y','y_2']: g.alias(n,'F',n)
L=len(lines)
sig={'zeta':'(cm_w_vec : G1)','zeta_1':'(cm_w_vec : G1)','alpha':'(cm_w_vec cm_r_vec : G1)',
 'omega':'(cm_w_vec cm_r_vec cm_t_vec_1 : G1)','z':'(cm_w_vec cm_r_vec cm_t_vec_1 cm_h_vec_1 cm_h_vec_2 : G1)',
 'rand_xi':'(cm_w_vec cm_r_vec cm_t_vec_1 cm_h_vec_1 cm_h_vec_2 cm_g : G1) (omega y y_2 z : F)'}
sig['rand_xi_2']=sig['rand_xi']
for side,lo,hi in [('p',112,675),('v',v0,L)]:
    for n in ['zeta','zeta_1','alpha','omega','z','rand_xi','rand_xi_2']:
        it,a,b=g.hash(lo,hi,n)
        g.raw(g.cite(a,b,'challenge [%s] of %s'%(n,'prove' if side=='p' else 'verify')))
        g.raw(g.wrapc('Definition pv_%s_ch_%s (vk : pv_vk) (x : POVInstance) %s : F := H %s.'%(side,n,sig[n],it)))
def lc(lo,hi,pre):
    a,b,args=g.find(lo,hi,'define_commitment_linear_combination','cm_g')
    one=args[2]; ps=args[3:]
    f=lambda c:'(%s%s q)'%(pre,c)
    l='; '.join('(%s, %s)'%(g.env[ps[k]][1],f(ps[k+1])) for k in range(0,len(ps),2))
    return 'commitment_linear_combination (vk_g (pv_vk_kzg_vk vk)) %s [%s]'%(f(one),l),a,b
for side,lo,hi,pre in [('p',600,617,'pv_p_'),('v',v0,L,'pv_v_')]:
    body,a,b=lc(lo,hi,pre)
    g.raw(g.cite(a,b,'[cm_g]'))
    g.raw(g.wrapc('Definition pv_%s_cm_g (vk : pv_vk) (q : pv_ctx) (cm_w_vec cm_r_vec cm_t_vec_1 cm_h_vec_1 cm_h_vec_2 : G1) : G1 := %s.'%(side,body)))
g.raw('''
(** lines 44-46 [get_max_degree]: computed in i64 and cast; it is negative for no size, because n
    counts the multiplications too *)
Definition pv_get_max_degree (size : POVSize) : nat :=
  Z.to_nat (- Z.of_nat (ps_nmul size) + 6 * Z.of_nat (ps_n size)).

(** lines 58-61 [setup]: KZG setup with the sampled trapdoor and generators *)
Definition pv_setup (size : nat) (beta : F) (g : G1) (h : G2) := setup size beta g h.

(** lines 63-111 [index] *)
Definition pv_index (pp : universal_params G1 G2) (cs : POV F) : outcome error (pv_pk * pv_vk) :=
  let size := pov_get_size cs in
  let max_degree := pv_get_max_degree size in
  let cap_d := length (up_powers_of_g pp) in
  let! _ := assert_ (max_degree <? cap_d)%nat in
  let powers_of_g := up_powers_of_g pp in
  let cap_c_total := Z.of_nat (ps_n size) in
  let cap_c_a := Z.of_nat (ps_nadd size) in
  let cap_c_m := Z.of_nat (ps_nmul size) in
  let d_vec := p_consts cs in
  let! sigma_vec := permutation_vector_from_wires gamma (p_wires cs) (Z.to_nat (3 * cap_c_total)) in
  let! cm_sigma_vec := commit_vector powers_of_g sigma_vec (3 * cap_c_total)%Z in
  let! cm_d_vec := commit_vector powers_of_g d_vec (- cap_c_a - cap_c_m + cap_c_total)%Z in
  let! kvk := kzg_vk pp in
  let vk := mkPVVK cm_sigma_vec cm_d_vec kvk size cap_d in
  Ok (mkPVPK vk powers_of_g max_degree sigma_vec d_vec, vk).

(** lines 113-121 of [prove], 677-694 of [verify] *)
Definition pv_pub_of (vk : pv_vk) (x : POVInstance) : pv_pub :=
  let size := pv_vk_size vk in
  mkPVPub (Z.of_nat (ps_n size)) (Z.of_nat (ps_nadd size)) (Z.of_nat (ps_nmul size))
          (Z.of_nat (pv_vk_degree_bound vk)) gamma (fst x) (snd x).

(** lines 122-131: witness vector and its commitment *)
Definition pv_round1 (pk : pv_pk) (x : POVInstance) (w : POVWitness) (delta_vec : list F)
  : outcome error (pv_s1 * G1) :=
  let e := pv_pub_of (pv_pk_verifier_key pk) x in
  let '(a_vec, b_vec, c_vec) := w in
  let! x_vec := sparse_vector (fst x) (snd x) (Z.to_nat (3 * pv_cap_c_total e)) in
  let w_vec := vector_concat [a_vec; b_vec; c_vec] in
  let! w_vec := zero_pad_and_concat w_vec (Z.to_nat (pv_vovectorsize e)) [delta_vec] in
  let! cm_w_vec := commit_vector (pv_pk_powers pk) w_vec (pv_vovectorsize e + 1)%Z in
  let! t_vec := sparse_zero_one_vector (fst x) (Z.to_nat (3 * pv_cap_c_total e)) in
  Ok (mkPVS1 e (pv_pk_sigma_vec pk) (pv_pk_d_vec pk) x_vec t_vec w_vec, cm_w_vec).

(** lines 150-166: the running product *)
Definition pv_round2 (pk : pv_pk) (e : pv_s2) (delta_vec_1 : list F) : outcome error (list F * G1) :=
  let! r := pv_r_acc e in
  let! r_vec := zero_pad_and_concat r (Z.to_nat (pv_vovectorsize e)) [delta_vec_1] in
  let! cm_r_vec := commit_vector (pv_pk_powers pk) r_vec (pv_vovectorsize e + 1)%Z in
  Ok (r_vec, cm_r_vec).

(** lines 167-248 *)
Definition pv_round3 (pk : pv_pk) (e : pv_s3) (delta_vec_2 : list F) : outcome error (list F * G1) :=
  let t_vec_1 := vector_concat [delta_vec_2; pv_t_vec_1_tail e] in
  let! cm_t_vec_1 := commit_vector (pv_pk_powers pk) t_vec_1 (pv_maxshift e + 2)%Z in
  Ok (t_vec_1, cm_t_vec_1).

(** lines 260-494 *)
Definition pv_round4 (pk : pv_pk) (e : pv_s4) : outcome error (G1 * G1) :=
  let! cm_h_vec_1 := commit_vector (pv_pk_powers pk) (pv_h_vec_1 e) (pv_cap_d e) in
  let! cm_h_vec_2 := commit_vector (pv_pk_powers pk) (pv_h_vec_2 e) (pv_maxshift e + pv_vovectorsize e)%Z in
  Ok (cm_h_vec_1, cm_h_vec_2).

(** lines 510-578 *)
Definition pv_ctx_of (e : pv_s4) (z : F) : pv_ctx :=
  mkPVCtx e (pv_zeta e) (pv_zeta_1 e) (pv_alpha e) (pv_omega e) z (pv_y e z) (pv_y_2 e z).

(** lines 510-622: the combined polynomial, checked to vanish at z *)
Definition pv_round5 (e : pv_s4) (z : F) : outcome error (pv_ctx * list F) :=
  let q := pv_ctx_of e z in
  let! _ := pv_divisors q in
  let! g_vec := pv_g_vec e q in
  let! _ := check_poly_eval (strip g_vec) z 0 in
  Ok (q, g_vec).

(** lines 112-675 [prove]; the three randomizer vectors are sampled with one element each *)
Definition pv_prove (pk : pv_pk) (x : POVInstance) (w : POVWitness)
  (delta delta_1 delta_2 : F) : outcome error pv_proof :=
  let vk := pv_pk_verifier_key pk in
  let! (s1, cm_w_vec) := pv_round1 pk x w [delta] in
  let zeta := pv_p_ch_zeta vk x cm_w_vec in
  let zeta_1 := pv_p_ch_zeta_1 vk x cm_w_vec in
  let s2 := mkPVS2 s1 zeta zeta_1 in
  let! (r_vec, cm_r_vec) := pv_round2 pk s2 [delta_1] in
  let alpha := pv_p_ch_alpha vk x cm_w_vec cm_r_vec in
  let s3 := mkPVS3 s2 r_vec alpha in
  let! (t_vec_1, cm_t_vec_1) := pv_round3 pk s3 [delta_2] in
  let omega := pv_p_ch_omega vk x cm_w_vec cm_r_vec cm_t_vec_1 in
  let s4 := mkPVS4 s3 t_vec_1 omega in
  let! (cm_h_vec_1, cm_h_vec_2) := pv_round4 pk s4 in
  let z := pv_p_ch_z vk x cm_w_vec cm_r_vec cm_t_vec_1 cm_h_vec_1 cm_h_vec_2 in
  let! (q, g_vec) := pv_round5 s4 z in
  let cm_g := pv_p_cm_g vk q cm_w_vec cm_r_vec cm_t_vec_1 cm_h_vec_1 cm_h_vec_2 in
  let y := pv_q_y q in
  let y_2 := pv_q_y_2 q in
  let rand_xi := pv_p_ch_rand_xi vk x cm_w_vec cm_r_vec cm_t_vec_1 cm_h_vec_1 cm_h_vec_2
                   cm_g omega y y_2 z in
  let rand_xi_2 := pv_p_ch_rand_xi_2 vk x cm_w_vec cm_r_vec cm_t_vec_1 cm_h_vec_1 cm_h_vec_2
                   cm_g omega y y_2 z in
  let! (cap_w, cap_w_1) := batch_open (pv_pk_powers pk) [strip (pv_w_vec s4); strip r_vec] [strip g_vec]
                             (omega / z) z rand_xi rand_xi_2 in
  Ok (mkPVProof cm_w_vec cm_r_vec cm_t_vec_1 cm_h_vec_1 cm_h_vec_2 y y_2 cap_w cap_w_1).

(** lines 676-892 [verify]; [randomizer] is the random scalar of [batch_check] *)
Definition pv_verify (vk : pv_vk) (x : POVInstance) (pf : pv_proof) (randomizer : F)
  : outcome error unit :=
  let cm_w_vec := pv_cm_w_vec pf in
  let cm_r_vec := pv_cm_r_vec pf in
  let cm_t_vec_1 := pv_cm_t_vec_1 pf in
  let cm_h_vec_1 := pv_cm_h_vec_1 pf in
  let cm_h_vec_2 := pv_cm_h_vec_2 pf in
  let y := pv_pf_y pf in
  let y_2 := pv_pf_y_2 pf in
  let zeta := pv_v_ch_zeta vk x cm_w_vec in
  let zeta_1 := pv_v_ch_zeta_1 vk x cm_w_vec in
  let alpha := pv_v_ch_alpha vk x cm_w_vec cm_r_vec in
  let omega := pv_v_ch_omega vk x cm_w_vec cm_r_vec cm_t_vec_1 in
  let z := pv_v_ch_z vk x cm_w_vec cm_r_vec cm_t_vec_1 cm_h_vec_1 cm_h_vec_2 in
  let q := mkPVCtx (pv_pub_of vk x) zeta zeta_1 alpha omega z y y_2 in
  let! _ := pv_divisors q in
  let cm_g := pv_v_cm_g vk q cm_w_vec cm_r_vec cm_t_vec_1 cm_h_vec_1 cm_h_vec_2 in
  let z1 := omega / z in
  let z2 := z in
  let rand_xi := pv_v_ch_rand_xi vk x cm_w_vec cm_r_vec cm_t_vec_1 cm_h_vec_1 cm_h_vec_2
                   cm_g omega y y_2 z in
  let rand_xi_2 := pv_v_ch_rand_xi_2 vk x cm_w_vec cm_r_vec cm_t_vec_1 cm_h_vec_1 cm_h_vec_2
                   cm_g omega y y_2 z in
  if batch_check (pv_vk_kzg_vk vk) [cm_w_vec; cm_r_vec] [cm_g] z1 z2 rand_xi rand_xi_2
       [y; y_2] [0] (pv_cap_w pf) (pv_cap_w_1 pf) randomizer
  then Ok tt else Err VerificationFail.

End Pov.
Arguments pv_pub F : clear implicits.
Arguments pv_s1 F : clear implicits.
Arguments pv_s2 F : clear implicits.
Arguments pv_s3 F : clear implicits.
Arguments pv_s4 F : clear implicits.
Arguments pv_ctx F : clear implicits.
Arguments pv_vk G1 G2 : clear implicits.
Arguments pv_pk F G1 G2 : clear implicits.
Arguments pv_proof F G1 : clear implicits.''')
g.write('/verif/rocq/theories/Pov.v')
# hK for the proofs
g2=Gen(src,S,'pv_'); g2.env=dict(saved); 
for n,k in [('zeta','F'),('zeta_1','F'),('alpha','F'),('omega','F')]: g2.env[n]=(k,'(pv_%s e)'%n)
g2.fields([('cap_c_total','Z'),('w_vec','V')])
a,b,args=g2.find(457,494,'define_expression_vector','h_vec_2')
body=re.sub(r'\bi \+ 1\b','K',args[2]); assert not re.search(r'\bi\b',body)
g2.raw(g2.wrapc('Definition pv_hK (e : pv_s4 F) (K : Z) : F := %s.'%g2.tr().fn('K',P(body))))
g2.write('/tmp/w/tr/pv_hK.txt')

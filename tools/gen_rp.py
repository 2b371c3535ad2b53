import rs,pp,re
from gen import Gen
P=rs.parse
src='/repo/voproof/src/snarks/voproof_r1cs_prover_efficient.rs'
S='snarks/voproof_r1cs_prover_efficient.rs'
lines=open(src).read().split('\n'); L=len(lines)
p0=next(i for i,l in enumerate(lines) if 'fn prove' in l)+1
v0=next(i for i,l in enumerate(lines) if 'fn verify' in l)+1
g=Gen(src,S,'rp_')
def ln(mac,name,lo=None,hi=None):
    a,b,_=g.find(lo or p0,hi or v0,mac,name); return a,b

ch={n:ln('get_randomness_from_hash',n) for n in ['mu','nu','beta','alpha','omega','z']}
vch={n:ln('get_randomness_from_hash',n,v0,L) for n in ['mu','z']}
fn={}
for i,l in enumerate(lines):
    m=re.search(r'fn (\w+)',l)
    if m: fn[m.group(1)]=i+1
g.raw("""(** RP.v: model of voproof/src/snarks/voproof_r1cs_prover_efficient.rs, the prover-efficient argument
    for R1CS.  The long index expressions are transcribed mechanically from the Rust text (one
    Definition per Rust binding, named rp_<binding>; tools/gen_rp.py).  [H] is the hash oracle, the
    randomizers are arguments. *)
From Verif Require Import Base Tools CS KZG Snark.
Local Open Scope F_scope.

Section RP.
Context {F G1 G2 GT : Type} {fo : FieldOps F} {po : PairingOps F G1 G2 GT}.

(** *** Values in scope.  Each record adds the bindings of one round to the previous one. *)

(** public data of a run: sizes (as i64), degree bound, generator and instance
    (%s:%d-%d, %d-%d) *)
Record rp_pub := mkRPPub {
  rp_cap_h : Z; rp_cap_k : Z; rp_cap_s_a : Z; rp_cap_s_b : Z; rp_cap_s_c : Z; rp_ell : Z;
  rp_cap_d : Z; rp_gamma : F; rp_x_vec : list F }.
(** bindings up to line %d; the matrix vectors are those of the prover key, [rp_wit_vec] is the
    padded witness (w_vec in the code, which also has pk.w_vec) *)
Record rp_s1 := mkRPS1 {
  rp_s1_pub :> rp_pub; rp_u_vec : list F; rp_w_vec : list F; rp_v_vec : list F; rp_y_vec : list F;
  rp_y_vec_1 : list F; rp_wit_vec : list F }.
(** challenge mu, lines %d-%d *)
Record rp_s2 := mkRPS2 { rp_s2_s1 :> rp_s1; rp_mu : F }.
(** up to challenge nu, line %d *)
Record rp_s3 := mkRPS3 { rp_s3_s2 :> rp_s2; rp_r_vec : list F; rp_c_vec : list F; rp_nu : F }.
(** up to challenge beta, line %d *)
Record rp_s4 := mkRPS4 { rp_s4_s3 :> rp_s3; rp_rnu_vec : list F; rp_t_vec : list F; rp_beta : F }.
(** up to challenge alpha, line %d *)
Record rp_s5 := mkRPS5 { rp_s5_s4 :> rp_s4; rp_r_vec_tilde : list F; rp_alpha : F }.
(** up to challenge omega, line %d *)
Record rp_s6 := mkRPS6 { rp_s6_s5 :> rp_s5; rp_t_vec_1 : list F; rp_omega : F }.
"""%(S,p0,ch['mu'][0]-1,v0,vch['mu'][0]-1,ch['mu'][0]-1,ch['mu'][0],ch['mu'][1],ch['nu'][1],ch['beta'][1],ch['alpha'][1],ch['omega'][1]))
g.fields([(n,'Z') for n in ['cap_h','cap_k','cap_s_a','cap_s_b','cap_s_c','ell','cap_d']]+[('gamma','F'),('x_vec','V')])
g.fields([('pk.u_vec','V'),('pk.w_vec','V'),('pk.v_vec','V'),('pk.y_vec','V'),('y_vec_1','V')])
g.alias('w_vec','V','(rp_wit_vec e)')
def one(mac,name,rec,rn=None):
    a,b,_=g.find(p0,v0,mac,name); g.stmts(a,b,rec,rename=(lambda n:rn) if rn else (lambda n:n))
one('define','n','rp_pub'); one('define','ell_1','rp_pub')
g.fields([('mu','F')])
one('define_expression_vector_inverse','r_vec','rp_s2','r_val')
g.fields([('r_vec','V'),('c_vec','V'),('nu','F')])
one('define_expression_vector_inverse','rnu_vec','rp_s3','rnu_val')
a,b,args=g.find(p0,v0,'define_uwinverse_vector','t_vec')
assert args==['t_vec','mu','pk.u_vec','nu','pk.w_vec'],args
g.raw(g.cite(a,b,'[t_vec]'))
g.raw('Definition rp_t_val (e : rp_s3) : list F :=\n  uwinverse_vector (rp_mu e) (rp_u_vec e) (rp_nu e) (rp_w_vec e).')
g.fields([('rnu_vec','V'),('t_vec','V'),('beta','F')])
one('define_expression_vector','r_vec_1','rp_s4')
a,b,args=g.find(p0,v0,'define_concat_vector','r_vec_tilde')
assert args==['r_vec_tilde','accumulate_vector_plus!(r_vec_1)','delta_vec_2'],args
g.raw(g.cite(a,b,'[r_vec_tilde], before the randomizer is appended'))
g.raw('Definition rp_r_acc (e : rp_s4) : list F :=\n  accumulate_vector 0 (fun i => vidx (rp_r_vec_1 e) i) (Z.of_nat (length (rp_r_vec_1 e))) fadd.')
one('define','maxshift','rp_pub')
g.fields([('r_vec_tilde','V'),('alpha','F')])
a1,_,_=g.find(p0,v0,'define','c'); _,b1,_=g.find(p0,v0,'define','c_12')
g.stmts(a1,b1,'rp_s5')
a,b,args=g.find(p0,v0,'define_vec','t_vec_1')
ex=P(args[1]); assert ex[1]=='vector_concat' and ex[2][0]==('id','delta_vec_3')
ev=ex[2][1]; t=g.tr()
g.raw(g.cite(a,b,'[t_vec_1]: entry i of the expression following the randomizer'))
g.raw(g.wrapc('Definition rp_t_vec_1_at (e : rp_s5) (i : Z) : F := %s.'%t.fn('i',ev[2][1])))
g.raw(g.wrapc('Definition rp_t_vec_1_tail (e : rp_s5) : list F := expression_vector (rp_t_vec_1_at e) %s.'%t.Zs(ev[2][2])))
g.fields([('t_vec_1','V'),('omega','F')])
a,b,args=g.find(p0,v0,'define','c_13'); assert args[1]=='omega.inverse().unwrap()'
g.raw(g.cite(a,b,'[c_13]: the inverse; the panic for omega = 0 is in [rp_round6]'))
g.raw('Definition rp_c_13 (e : rp_s6) : F := finv (rp_omega e).')
g.fields([('c_13','F')])
a1,_,_=g.find(p0,v0,'define','c_14'); _,b1,_=g.find(p0,v0,'define_expression_vector','h_vec_2')
g.stmts(a1,b1,'rp_s6')
ya,yb=ln('define_eval_vector_expression','y'); ca,_=ln('define','c_36'); _,cb=ln('define','c_49')
va,_=ln('define','c_36',v0,L); _,vb=ln('define','c_49',v0,L)
ga,gb=ln('check_poly_eval',None)
g.raw("""
(** *** The evaluation round: lines %d-%d of [prove] and %d-%d of [verify].
    [rp_ctx] holds what both sides know after the challenge z. *)
Record rp_ctx := mkRPCtx {
  rp_ctx_pub :> rp_pub; rp_q_mu : F; rp_q_nu : F; rp_q_beta : F; rp_q_alpha : F; rp_q_omega : F;
  rp_q_z : F; rp_q_y : F; rp_q_y_1 : F; rp_q_y_2 : F }."""%(ya,cb,va,vb))
t=g.tr()
for nm in ['y','y_1','y_2']:
    a,b,args=g.find(p0,v0,'define_eval_vector_expression',nm)
    g.raw(g.cite(a,b,'[%s]'%nm))
    g.raw(g.wrapc('Definition rp_%s (e : rp_s6) (z : F) : F := eval_vector_expression (rp_omega e / z) (fun i => %s) %s.'%(nm,t.fn('i',P(args[3])),t.Zs(P(args[4])))))
    assert args[1]=='omega / z'
for nm in ['mu','nu','beta','alpha','omega','z','y','y_1','y_2']:
    g.env[nm]=('F','(rp_q_%s e)'%nm)
saved=dict(g.env)
def evs(lo,hi,pre):
    g.pre=pre; g.env=dict(saved)
    a1,_,_=g.find(lo,hi,'define','c_36'); _,b1,_=g.find(lo,hi,'define','c_49')
    g.stmts(a1,b1,'rp_ctx')
evs(p0,v0,'rp_p_')
g.raw('\n(** the same bindings in [verify] *)')
evs(v0,L,'rp_v_')
g.pre='rp_'; g.env=dict(saved)
g.raw("""
(** divisors of lines %d-%d in evaluation order (z of omega / z; then those of c_36, c_37, c_38, c_39,
    c_43, c_46, c_47); [power(z, -cap_d)] returns z unchanged for z = 0 and does not divide. *)
Definition rp_divisors (e : rp_ctx) : outcome error unit :=
  let z := rp_q_z e in let omega := rp_q_omega e in let gamma := rp_gamma e in
  let! _ := nonzero z in
  let! _ := nonzero ((omega - 1 * z) * (gamma * omega - 1 * z)) in
  let! _ := nonzero ((omega - 1 * z) * (1 - z)) in
  let! _ := nonzero ((omega - 1 * z) * (gamma * omega - 1 * z)) in
  let! _ := nonzero (- omega + 1 * z) in
  let! _ := nonzero (omega - 1 * z) in
  let! _ := nonzero (omega - 1 * z) in
  nonzero (omega - 1 * z).
"""%(ya,cb))
a,b,args=g.find(p0,v0,'define_vec_mut','g_vec')
ex=P(args[1]); assert ex[1]=='expression_vector'
for k in range(36,50): g.env['c_%d'%k]=('F','(rp_p_c_%d q)'%k)
g.fields([('h_vec_1','V'),('h_vec_2','V')])
t=g.tr()
a2,b2,args2=g.find(p0,v0,'add_to_first_item')
assert args2==['g_vec','c_37']
g.raw(g.cite(a,b,'[g_vec], entry i before the addition of line %d'%a2))
g.raw(g.wrapc('Definition rp_g_at (e : rp_s6) (q : rp_ctx) (i : Z) : F := %s.'%t.fn('i',ex[2][1])))
g.raw(g.wrapc('Definition rp_g_vec (e : rp_s6) (q : rp_ctx) : outcome error (list F) := add_to_first_item (expression_vector (rp_g_at e q) %s) (rp_p_c_37 q).'%t.Zs(ex[2][2])))
cms=['cm_y_vec_1','cm_w_vec','cm_r_vec','cm_c_vec','cm_rnu_vec','cm_t_vec','cm_r_vec_tilde','cm_t_vec_1','cm_h_vec_1','cm_h_vec_2']
def st(w):
    for i,l in enumerate(lines):
        if w in l:
            j=i
            while lines[j].strip()!='}': j+=1
            return i+1,j+1
g.raw("""
(** *** Keys, proofs, transcripts *)
(** lines %d-%d *)
Record rp_vk := mkRPVK {
  rp_vk_cm_u_vec : G1; rp_vk_cm_w_vec : G1; rp_vk_cm_v_vec : G1; rp_vk_cm_y_vec : G1;
  rp_vk_kzg_vk : verifier_key G1 G2; rp_vk_size : R1CSSize; rp_vk_degree_bound : nat }.
(** lines %d-%d *)
Record rp_pk := mkRPPK {
  rp_pk_verifier_key : rp_vk; rp_pk_powers : list G1; rp_pk_max_degree : nat;
  rp_pk_cap_m_mat : list nat * list nat * list F;
  rp_pk_u_vec : list F; rp_pk_w_vec : list F; rp_pk_v_vec : list F; rp_pk_y_vec : list F }.
(** lines %d-%d *)
Record rp_proof := mkRPProof {
  rp_cm_y_vec_1 : G1; rp_cm_w_vec : G1; rp_cm_r_vec : G1; rp_cm_c_vec : G1; rp_cm_rnu_vec : G1;
  rp_cm_t_vec : G1; rp_cm_r_vec_tilde : G1; rp_cm_t_vec_1 : G1; rp_cm_h_vec_1 : G1; rp_cm_h_vec_2 : G1;
  rp_pf_y : F; rp_pf_y_1 : F; rp_pf_y_2 : F; rp_cap_w : G1; rp_cap_w_1 : G1 }.

Variable H : list (item F G1) -> F.
Variable gamma : F.   (* generator_of!: FftField::GENERATOR *)
"""%(st('struct R1CSProverEfficientVerifierKey')+st('struct R1CSProverEfficientProverKey')+st('struct R1CSProverEfficientProof')))
for n in ['cm_u_vec','cm_w_vec','cm_v_vec','cm_y_vec']:
    g.alias('pk.verifier_key.'+n,'G','(rp_vk_%s vk)'%n); g.alias('vk.'+n,'G','(rp_vk_%s vk)'%n)
for n in cms+['cm_g']: g.alias(n,'G',n)
g.alias('x_vec','V','x')
for n in ['omega','z','y','y_1','y_2']: g.alias(n,'F',n)
def sg(k,extra=''): return '(%s : G1)%s'%(' '.join(cms[:k]+([] if not extra else ['cm_g'])),extra)
sig={'mu':sg(2),'nu':sg(4),'beta':sg(6),'alpha':sg(7),'omega':sg(8),'z':sg(10),'rand_xi':sg(10,' (omega y y_1 y_2 z : F)')}
sig['rand_xi_2']=sig['rand_xi']
chs=['mu','nu','beta','alpha','omega','z','rand_xi','rand_xi_2']
for side,lo,hi in [('p',p0,v0),('v',v0,L)]:
    for n in chs:
        it,a,b=g.hash(lo,hi,n)
        g.raw(g.cite(a,b,'challenge [%s] of %s'%(n,'prove' if side=='p' else 'verify')))
        g.raw(g.wrapc('Definition rp_%s_ch_%s (vk : rp_vk) (x : list F) %s : F := H %s.'%(side,n,sig[n],it)))
def lc(lo,hi,pre):
    a,b,args=g.find(lo,hi,'define_commitment_linear_combination','cm_g')
    one_=args[2]; ps=args[3:]
    f=lambda c:'(%s%s q)'%(pre,c)
    l='; '.join('(%s, %s)'%(g.env[ps[k]][1],f(ps[k+1])) for k in range(0,len(ps),2))
    return 'commitment_linear_combination (vk_g (rp_vk_kzg_vk vk)) %s [%s]'%(f(one_),l),a,b
for side,lo,hi,pre in [('p',p0,v0,'rp_p_'),('v',v0,L,'rp_v_')]:
    body,a,b=lc(lo,hi,pre)
    g.raw(g.cite(a,b,'[cm_g]'))
    g.raw(g.wrapc('Definition rp_%s_cm_g (vk : rp_vk) (q : rp_ctx) (%s : G1) : G1 := %s.'%(side,' '.join(cms),body)))
C10=' '.join(cms)
r1a=ln('define_sparse_mvp_vector','y_vec_1')[0]; r1b=[a for a,b,m,x in rs.statements(src,p0,v0) if m=='define_commit_vector' and rs.splitargs(x)[0]=='cm_w_vec'][0]
def cm(n): return ln('define_commit_vector',n)
g.raw("""
(** lines %d-%d [get_max_degree] *)
Definition rp_get_max_degree (size : R1CSSize) : nat :=
  2 * rs_nrows size + rs_adensity size + rs_bdensity size + rs_cdensity size.

(** lines %d-%d [setup]: KZG setup with the sampled trapdoor and generators *)
Definition rp_setup (size : nat) (beta : F) (g : G1) (h : G2) := setup size beta g h.

(** lines %d-%d [index]; the matrices are stacked in the order A, C, B *)
Definition rp_index (pp : universal_params G1 G2) (cs : R1CS F) : outcome error (rp_pk * rp_vk) :=
  let! size := r1cs_get_size cs in
  let cap_d := length (up_powers_of_g pp) in
  let max_degree := rp_get_max_degree size in
  let! _ := assert_ (max_degree <? cap_d)%%nat in
  let powers_of_g := up_powers_of_g pp in
  let cap_s := (Z.of_nat (rs_adensity size) + Z.of_nat (rs_bdensity size)
                + Z.of_nat (rs_cdensity size))%%Z in
  let cap_m_mat := concat_matrix_vertically (rs_nrows size) (r_arows cs) (r_crows cs) (r_brows cs)
                     (r_acols cs) (r_ccols cs) (r_bcols cs) (r_avals cs) (r_cvals cs) (r_bvals cs) in
  let u_vec := int_array_to_power_vector (fst (fst cap_m_mat)) gamma in
  let w_vec := int_array_to_power_vector (snd (fst cap_m_mat)) gamma in
  let v_vec := snd cap_m_mat in
  let y_vec := hadamard_vector u_vec w_vec in
  let! cm_u_vec := commit_vector powers_of_g u_vec cap_s in
  let! cm_w_vec := commit_vector powers_of_g w_vec cap_s in
  let! cm_v_vec := commit_vector powers_of_g v_vec cap_s in
  let! cm_y_vec := commit_vector powers_of_g y_vec cap_s in
  let! kvk := kzg_vk pp in
  let vk := mkRPVK cm_u_vec cm_w_vec cm_v_vec cm_y_vec kvk size cap_d in
  Ok (mkRPPK vk powers_of_g max_degree cap_m_mat u_vec w_vec v_vec y_vec, vk).

(** lines %d-%d of [prove], %d-%d of [verify] *)
Definition rp_pub_of (vk : rp_vk) (x : list F) : rp_pub :=
  let size := rp_vk_size vk in
  mkRPPub (Z.of_nat (rs_nrows size)) (Z.of_nat (rs_ncols size)) (Z.of_nat (rs_adensity size))
          (Z.of_nat (rs_bdensity size)) (Z.of_nat (rs_cdensity size))
          (Z.of_nat (rs_input_size size)) (Z.of_nat (rp_vk_degree_bound vk)) gamma x.
"""%(st('fn get_max_degree')+(fn['setup'],fn['index']-1,fn['index'],p0-1,p0,ch['mu'][0]-1,v0,vch['mu'][0]-1)))
g.raw("""
(** lines %d-%d: the matrix applied to the assignment, the witness, and their commitments *)
Definition rp_round1 (pk : rp_pk) (x w : list F) (delta_vec delta_vec_1 : list F)
  : outcome error (rp_s1 * G1 * G1) :=
  let e := rp_pub_of (rp_pk_verifier_key pk) x in
  let '(rows, cols, vals) := rp_pk_cap_m_mat pk in
  let! mz := sparse_mvp (3 * rp_cap_h e)%%Z (rp_cap_k e) rows cols vals ([1] ++ x ++ w) in
  let! y_vec_1 := zero_pad_and_concat mz (Z.to_nat (rp_n e)) [delta_vec] in
  let! cm_y_vec_1 := commit_vector (rp_pk_powers pk) y_vec_1 (rp_n e + 1)%%Z in
  let! w_vec := zero_pad_and_concat w (Z.to_nat (rp_n e)) [delta_vec_1] in
  let! cm_w_vec := commit_vector (rp_pk_powers pk) w_vec (rp_n e + 1)%%Z in
  Ok (mkRPS1 e (rp_pk_u_vec pk) (rp_pk_w_vec pk) (rp_pk_v_vec pk) (rp_pk_y_vec pk) y_vec_1 w_vec,
      cm_y_vec_1, cm_w_vec).

(** lines %d-%d *)
Definition rp_round2 (pk : rp_pk) (e : rp_s2) : outcome error (list F * list F * G1 * G1) :=
  let! c_vec := left_sparse_mvp (rp_pk_cap_m_mat pk) (rp_r_val e) (3 * rp_cap_h e)%%Z (rp_cap_k e) in
  let! cm_r_vec := commit_vector (rp_pk_powers pk) (rp_r_val e) (3 * rp_cap_h e)%%Z in
  let! cm_c_vec := commit_vector (rp_pk_powers pk) c_vec (rp_cap_k e) in
  Ok (rp_r_val e, c_vec, cm_r_vec, cm_c_vec).

(** lines %d-%d *)
Definition rp_round3 (pk : rp_pk) (e : rp_s3) : outcome error (list F * list F * G1 * G1) :=
  let! cm_rnu_vec := commit_vector (rp_pk_powers pk) (rp_rnu_val e) (rp_cap_k e) in
  let! cm_t_vec := commit_vector (rp_pk_powers pk) (rp_t_val e) (rp_ell_1 e) in
  Ok (rp_rnu_val e, rp_t_val e, cm_rnu_vec, cm_t_vec).

(** lines %d-%d *)
Definition rp_round4 (pk : rp_pk) (e : rp_s4) (delta_vec_2 : list F) : outcome error (list F * G1) :=
  let r_vec_tilde := vector_concat [rp_r_acc e; delta_vec_2] in
  let! cm_r_vec_tilde := commit_vector (rp_pk_powers pk) r_vec_tilde (rp_n e + 1)%%Z in
  Ok (r_vec_tilde, cm_r_vec_tilde).

(** lines %d-%d *)
Definition rp_round5 (pk : rp_pk) (e : rp_s5) (delta_vec_3 : list F) : outcome error (list F * G1) :=
  let t_vec_1 := vector_concat [delta_vec_3; rp_t_vec_1_tail e] in
  let! cm_t_vec_1 := commit_vector (rp_pk_powers pk) t_vec_1 (rp_maxshift e + 2)%%Z in
  Ok (t_vec_1, cm_t_vec_1).

(** lines %d-%d; the inverse of c_13 and the division of c_14 panic when omega (or gamma) is zero;
    [vector_power_mul!] with a negative length (v_vec_17, when there are more columns than matrix
    entries) casts it to a huge usize: arithmetic overflow or an endless allocation *)
Definition rp_round6 (pk : rp_pk) (e : rp_s6) : outcome error (G1 * G1) :=
  let! _ := nonzero (rp_omega e) in
  let! _ := nonzero (rp_gamma e * rp_omega e) in
  let! _ := assert_ (rp_cap_k e <=? rp_n e)%%Z in
  let! cm_h_vec_1 := commit_vector (rp_pk_powers pk) (rp_h_vec_1 e) (rp_cap_d e) in
  let! cm_h_vec_2 := commit_vector (rp_pk_powers pk) (rp_h_vec_2 e) (rp_maxshift e + rp_n e)%%Z in
  Ok (cm_h_vec_1, cm_h_vec_2).

(** lines %d-%d *)
Definition rp_ctx_of (e : rp_s6) (z : F) : rp_ctx :=
  mkRPCtx e (rp_mu e) (rp_nu e) (rp_beta e) (rp_alpha e) (rp_omega e) z (rp_y e z) (rp_y_1 e z) (rp_y_2 e z).

(** lines %d-%d: the combined polynomial, checked to vanish at z *)
Definition rp_round7 (e : rp_s6) (z : F) : outcome error (rp_ctx * list F) :=
  let q := rp_ctx_of e z in
  let! _ := rp_divisors q in
  let! g_vec := rp_g_vec e q in
  let! _ := check_poly_eval (strip g_vec) z 0 in
  Ok (q, g_vec).
"""%(r1a,ch['mu'][0]-1,ch['mu'][1]+1,ch['nu'][0]-1,ch['nu'][1]+1,ch['beta'][0]-1,ch['beta'][1]+1,ln('define_commit_vector','cm_r_vec_tilde')[1],
  ch['alpha'][1]+1,ch['omega'][0]-1,ch['omega'][1]+1,ch['z'][0]-1,ya,ya+2,ya,gb))
CM='cm_y_vec_1 cm_w_vec cm_r_vec cm_c_vec cm_rnu_vec cm_t_vec cm_r_vec_tilde cm_t_vec_1\n'
g.raw("""
(** lines %d-%d [prove]; the four randomizer vectors are sampled with one element each *)
Definition rp_prove (pk : rp_pk) (x w : list F) (delta delta_1 delta_2 delta_3 : F)
  : outcome error rp_proof :=
  let vk := rp_pk_verifier_key pk in
  let! (s1, cm_y_vec_1, cm_w_vec) := rp_round1 pk x w [delta] [delta_1] in
  let s2 := mkRPS2 s1 (rp_p_ch_mu vk x cm_y_vec_1 cm_w_vec) in
  let! (r_vec, c_vec, cm_r_vec, cm_c_vec) := rp_round2 pk s2 in
  let s3 := mkRPS3 s2 r_vec c_vec (rp_p_ch_nu vk x cm_y_vec_1 cm_w_vec cm_r_vec cm_c_vec) in
  let! (rnu_vec, t_vec, cm_rnu_vec, cm_t_vec) := rp_round3 pk s3 in
  let s4 := mkRPS4 s3 rnu_vec t_vec
              (rp_p_ch_beta vk x cm_y_vec_1 cm_w_vec cm_r_vec cm_c_vec cm_rnu_vec cm_t_vec) in
  let! (r_vec_tilde, cm_r_vec_tilde) := rp_round4 pk s4 [delta_2] in
  let s5 := mkRPS5 s4 r_vec_tilde
              (rp_p_ch_alpha vk x cm_y_vec_1 cm_w_vec cm_r_vec cm_c_vec cm_rnu_vec cm_t_vec cm_r_vec_tilde) in
  let! (t_vec_1, cm_t_vec_1) := rp_round5 pk s5 [delta_3] in
  let omega := rp_p_ch_omega vk x cm_y_vec_1 cm_w_vec cm_r_vec cm_c_vec cm_rnu_vec cm_t_vec
                 cm_r_vec_tilde cm_t_vec_1 in
  let s6 := mkRPS6 s5 t_vec_1 omega in
  let! (cm_h_vec_1, cm_h_vec_2) := rp_round6 pk s6 in
  let z := rp_p_ch_z vk x %s             cm_h_vec_1 cm_h_vec_2 in
  let! (q, g_vec) := rp_round7 s6 z in
  let cm_g := rp_p_cm_g vk q %s             cm_h_vec_1 cm_h_vec_2 in
  let y := rp_q_y q in
  let y_1 := rp_q_y_1 q in
  let y_2 := rp_q_y_2 q in
  let rand_xi := rp_p_ch_rand_xi vk x %s             cm_h_vec_1 cm_h_vec_2 cm_g omega y y_1 y_2 z in
  let rand_xi_2 := rp_p_ch_rand_xi_2 vk x %s             cm_h_vec_1 cm_h_vec_2 cm_g omega y y_1 y_2 z in
  let! (cap_w, cap_w_1) := batch_open (rp_pk_powers pk) [strip t_vec; strip (rp_y_vec_1 s6); strip c_vec]
                             [strip g_vec] (omega / z) z rand_xi rand_xi_2 in
  Ok (mkRPProof cm_y_vec_1 cm_w_vec cm_r_vec cm_c_vec cm_rnu_vec cm_t_vec cm_r_vec_tilde cm_t_vec_1
        cm_h_vec_1 cm_h_vec_2 y y_1 y_2 cap_w cap_w_1).
"""%(p0,v0-1,CM,CM,CM,CM))
g.raw("""
(** lines %d-%d [verify]; [randomizer] is the random scalar of [batch_check] *)
Definition rp_verify (vk : rp_vk) (x : list F) (pf : rp_proof) (randomizer : F)
  : outcome error unit :=
  let cm_y_vec_1 := rp_cm_y_vec_1 pf in
  let cm_w_vec := rp_cm_w_vec pf in
  let cm_r_vec := rp_cm_r_vec pf in
  let cm_c_vec := rp_cm_c_vec pf in
  let cm_rnu_vec := rp_cm_rnu_vec pf in
  let cm_t_vec := rp_cm_t_vec pf in
  let cm_r_vec_tilde := rp_cm_r_vec_tilde pf in
  let cm_t_vec_1 := rp_cm_t_vec_1 pf in
  let cm_h_vec_1 := rp_cm_h_vec_1 pf in
  let cm_h_vec_2 := rp_cm_h_vec_2 pf in
  let y := rp_pf_y pf in
  let y_1 := rp_pf_y_1 pf in
  let y_2 := rp_pf_y_2 pf in
  let mu := rp_v_ch_mu vk x cm_y_vec_1 cm_w_vec in
  let nu := rp_v_ch_nu vk x cm_y_vec_1 cm_w_vec cm_r_vec cm_c_vec in
  let beta := rp_v_ch_beta vk x cm_y_vec_1 cm_w_vec cm_r_vec cm_c_vec cm_rnu_vec cm_t_vec in
  let alpha := rp_v_ch_alpha vk x cm_y_vec_1 cm_w_vec cm_r_vec cm_c_vec cm_rnu_vec cm_t_vec
                 cm_r_vec_tilde in
  let omega := rp_v_ch_omega vk x cm_y_vec_1 cm_w_vec cm_r_vec cm_c_vec cm_rnu_vec cm_t_vec
                 cm_r_vec_tilde cm_t_vec_1 in
  let z := rp_v_ch_z vk x %s             cm_h_vec_1 cm_h_vec_2 in
  let q := mkRPCtx (rp_pub_of vk x) mu nu beta alpha omega z y y_1 y_2 in
  let! _ := rp_divisors q in
  let cm_g := rp_v_cm_g vk q %s             cm_h_vec_1 cm_h_vec_2 in
  let z1 := omega / z in
  let z2 := z in
  let rand_xi := rp_v_ch_rand_xi vk x %s             cm_h_vec_1 cm_h_vec_2 cm_g omega y y_1 y_2 z in
  let rand_xi_2 := rp_v_ch_rand_xi_2 vk x %s             cm_h_vec_1 cm_h_vec_2 cm_g omega y y_1 y_2 z in
  if batch_check (rp_vk_kzg_vk vk) [cm_t_vec; cm_y_vec_1; cm_c_vec] [cm_g] z1 z2 rand_xi rand_xi_2
       [y; y_1; y_2] [0] (rp_cap_w pf) (rp_cap_w_1 pf) randomizer
  then Ok tt else Err VerificationFail.

End RP.
Arguments rp_pub F : clear implicits.
Arguments rp_s1 F : clear implicits.
Arguments rp_s2 F : clear implicits.
Arguments rp_s3 F : clear implicits.
Arguments rp_s4 F : clear implicits.
Arguments rp_s5 F : clear implicits.
Arguments rp_s6 F : clear implicits.
Arguments rp_ctx F : clear implicits.
Arguments rp_vk G1 G2 : clear implicits.
Arguments rp_pk F G1 G2 : clear implicits.
Arguments rp_proof F G1 : clear implicits."""%(v0,L-2,CM,CM,CM,CM))
g.write('/verif/rocq/theories/RP.v')
# hK for the proofs
g2=Gen(src,S,'rp_'); g2.env=dict(saved)
for n in ['mu','nu','beta','alpha','omega']: g2.env[n]=('F','(rp_%s e)'%n)
a,b,args=g2.find(p0,v0,'define_expression_vector','h_vec_2')
body=re.sub(r'\bi \+ 1\b','K',args[2]); assert not re.search(r'\bi\b',body)
g2.raw(g2.wrapc('Definition rp_hK (e : rp_s6 F) (K : Z) : F := %s.'%g2.tr().fn('K',P(body))))
g2.write('/tmp/w/tr/rp_hK.txt')

import rs,pp,re
from gen import Gen
P=rs.parse
src='/repo/voproof/src/snarks/range_check.rs'
S='snarks/range_check.rs'
g=Gen(src,S,'rc_')
g.raw("""(** RC.v: model of voproof/src/snarks/range_check.rs (lookup argument for ranges) and of
    voproof/src/cs/range.rs.  The long index expressions are transcribed mechanically from the
    Rust text (one Definition per Rust binding, named rc_<binding>).  [H] is the hash oracle, the
    randomizers are arguments.  Printing is not modelled. *)
From Verif Require Import Base Tools KZG Snark.
Local Open Scope F_scope.

Section RC.
Context {F G1 G2 GT : Type} {fo : FieldOps F} {po : PairingOps F G1 G2 GT}.

(** cs/range.rs:3-8 [RangeCheck], 20-24 [RangeCheckSize], 28-35 [get_size]: the system is its size.
    The instance (37-48) has no data; the witness (50-53) is a vector. *)
Record rc_cs := mkRCCS { rc_lookup_size : nat; rc_range_size : nat }.

(** *** Values in scope.  Each record adds the bindings of one round to the previous one. *)
(** public data of a run (lines 117-140, 1285-1305) *)
Record rc_pub := mkRCPub { rc_nsize : Z; rc_range : Z; rc_cap_d : Z }.
(** bindings of lines 141-161; [rc_pk_t_vec] is [pk.t_vec] *)
Record rc_s1 := mkRCS1 {
  rc_s1_pub :> rc_pub; rc_pk_t_vec : list F; rc_w_vec : list F; rc_m_vec : list F }.
(** line 168 *)
Record rc_s2 := mkRCS2 { rc_s2_s1 :> rc_s1; rc_beta : F }.
(** lines 169-213 *)
Record rc_s3 := mkRCS3 { rc_s3_s2 :> rc_s2; rc_r_vec : list F; rc_s_vec : list F; rc_beta_1 : F }.
(** lines 226-238 *)
Record rc_s4 := mkRCS4 { rc_s4_s3 :> rc_s3; rc_r_vec_tilde : list F; rc_alpha : F }.
(** lines 242-278 *)
Record rc_s5 := mkRCS5 { rc_s5_s4 :> rc_s4; rc_t_vec_1 : list F; rc_omega : F }.
""")
g.fields([('nsize','Z'),('range','Z'),('cap_d','Z'),('w_vec','V'),('m_vec','V'),('beta','F'),('r_vec','V'),('s_vec','V'),('beta_1','F'),('r_vec_tilde','V'),('t_vec_1','V'),('alpha','F'),('omega','F')])
g.alias('pk.t_vec','V','(rc_pk_t_vec e)')
g.stmts(142,142,'rc_pub')
# lines 150-197
g.raw("""(** lines 150-160 [m_vec]: how many of the first [nsize] values equal entry i of the table; the
    indexing [pk.t_vec[i]] panics when the table is shorter than [range] (never the case for keys
    made by [index]).  [to_field(1)] is 1. *)
Definition rc_count (w : list F) (t : F) : F :=
  fold_left (fun acc x => if feqb x t then acc + 1 else acc) w 0.
Definition rc_m_of (nsize range : nat) (w_vec t_vec : list F) : list F :=
  map (fun i => rc_count (firstn nsize w_vec) (nth i t_vec 0)) (seq 0 range).
(** lines 169-177 [r_vec] *)
Definition rc_r_of (nsize : nat) (w_vec : list F) (beta : F) : list F :=
  batch_inversion (map (fun x => x + beta) (firstn nsize w_vec)).
(** lines 185-197 [s_vec] *)
Definition rc_s_of (range : nat) (t_vec m_vec : list F) (beta : F) : list F :=
  map (fun ab => fst ab * snd ab)
      (combine (batch_inversion (map (fun x => x + beta) (firstn range t_vec))) m_vec).""")
g.stmts(214,225,'rc_s3')
a,b,args=g.find(226,226,'define_concat_vector','r_vec_tilde')
assert args==['r_vec_tilde','accumulate_vector_plus!(r_vec_1)','delta_vec_4'],args
g.raw(g.cite(a,b,'[r_vec_tilde] before the randomizer'))
g.raw('Definition rc_r_acc (e : rc_s3) : list F :=\n  accumulate_vector 0 (fun i => vidx (rc_r_vec_1 e) i) (Z.of_nat (length (rc_r_vec_1 e))) fadd.')
g.stmts(228,228,'rc_pub')
g.stmts(239,241,'rc_s4')
a,b,args=g.find(242,266,'define_vec','t_vec_1')
ex=P(args[1]); assert ex[1]=='vector_concat' and ex[2][0]==('id','delta_vec_5')
ev=ex[2][1]; t=g.tr()
g.raw(g.cite(a,b,'[t_vec_1]: entry i of the expression following the randomizer'))
g.raw(g.wrapc('Definition rc_t_vec_1_at (e : rc_s4) (i : Z) : F := %s.'%t.fn('i',ev[2][1])))
g.raw(g.wrapc('Definition rc_t_vec_1_tail (e : rc_s4) : list F := expression_vector (rc_t_vec_1_at e) %s.'%t.Zs(ev[2][2])))
sig='(e : rc_s5)'; arg='e'
ver={}          # mutable vectors: name -> version
checks=[]
def emit(name,ty,body,a,b,note):
    g.raw(g.cite(a,b,note)); g.raw(g.wrapc('Definition rc_%s %s : %s := %s.'%(name,sig,ty,body)))
def cur(v): return '(rc_%s_%d %s)'%(v,ver[v],arg)
def vecz(txt):  # vec!(zero!(); (e) as usize)
    m=re.match(r'vec!\(\s*zero!\(\)\s*;\s*\((.*)\)\s*as\s+usize\s*\)$',txt,re.S)
    return 'repeat 0 (Z.to_nat %s)'%g.tr().Zs(P(m.group(1)))
nsum=0
def dbg(lo,hi):
    global nsum
    for (a,b,m,txt) in rs.statements(src,lo,hi):
        args=rs.splitargs(txt); t=g.tr()
        if m in('define_mut','define_vec_mut') and args[0] in('sum_vec','hcheck_vec','naive_vec_g'):
            ver[args[0]]=0; emit(args[0]+'_0','list F',vecz(args[1]),a,b,'[%s]'%args[0])
            g.env[args[0]]=('V',cur(args[0]))
        elif m=='add_expression_vector_to_vector':
            v=args[0]; ver[v]+=1; k=ver[v]; i=args[1]
            g.raw(g.cite(a,b,'[%s], addition %d: entry %s'%(v,k,i)))
            g.raw(g.wrapc('Definition rc_%s_add_%d %s (%s : Z) : F := %s.'%(v,k,sig,i,t.fn(i,P(args[2])))))
            g.raw(g.wrapc('Definition rc_%s_%d %s : list F := add_expression_vector_to_vector (rc_%s_%d %s) (rc_%s_add_%d %s).'%(v,k,sig,v,k-1,arg,v,k,arg)))
            g.env[v]=('V',cur(v))
        elif m=='add_vector_to_vector':
            v=args[0]; ver[v]+=1; k=ver[v]
            emit('%s_%d'%(v,k),'list F','add_vector_to_vector (rc_%s_%d %s) %s'%(v,k-1,arg,t.V(P(args[1]))),a,b,'[%s]'%v)
            g.env[v]=('V',cur(v))
        elif m=='define_vector_poly_mul_no_dict':
            nm=args[0]
            for s,x in (('left',args[1]),('right',args[2])):
                ex=P(x); assert ex[1]=='expression_vector'
                i=ex[2][0][1]
                g.raw(g.cite(a,b,'[%s], %s factor, entry %s'%(nm,s,i)))
                g.raw(g.wrapc('Definition rc_%s_%s %s (%s : Z) : F := %s.'%(nm,s,sig,i,t.fn(i,ex[2][1]))))
                ln=t.Zs(ex[2][2])
            emit(nm,'list F','vector_poly_mul (expression_vector (rc_%s_left %s) %s) (expression_vector (rc_%s_right %s) %s) %s'%(nm,arg,ln,nm,arg,ln,t.F(P(args[3]))),a,b,'[%s]'%nm)
            g.env[nm]=('V','(rc_%s %s)'%(nm,arg))
        elif m=='check_vector_eq':
            k=len(checks)+1; zp=re.match(r'zero_pad!\((.*)\)$',args[1],re.S)
            if zp:
                z=rs.splitargs(zp.group(1))
                body='let! p := zero_pad %s (Z.to_nat %s) in check_vector_eq_o %s p'%(t.V(P(z[0])),t.Zs(P(z[1])),t.V(P(args[0])))
            elif args[1].startswith('vec!'):
                body='check_vector_eq_o %s (%s)'%(t.V(P(args[0])),vecz(args[1]))
            elif args[1].startswith('vector_concat!'):
                z=rs.splitargs(args[1][len('vector_concat!('):-1])
                body='check_vector_eq_o %s (vector_concat [%s])'%(t.V(P(args[0])),'; '.join('[0]' if x=='vec!(zero!())' else t.V(P(x)) for x in z))
            else: body='check_vector_eq_o %s %s'%(t.V(P(args[0])),t.V(P(args[1])))
            emit('check_%d'%k,'outcome error unit',body,a,b,'check %s'%args[2].replace('\n',' '))
            checks.append('rc_check_%d'%k)
        elif m=='assert_eq':
            k=len(checks)+1
            if args[0]=='h_osum': l='rc_h_osum %s'%arg
            else: l=t.Ftop(P(args[0]))
            g.raw(g.cite(a,b,'the two sides of the assertion'))
            g.raw(g.wrapc('Definition rc_assert_%d_l %s : F := %s.'%(k,sig,l)))
            g.raw(g.wrapc('Definition rc_assert_%d_r %s : F := %s.'%(k,sig,t.Ftop(P(args[1])))))
            g.raw('Definition rc_check_%d %s : outcome error unit := assert_ (feqb (rc_assert_%d_l %s) (rc_assert_%d_r %s)).'%(k,sig,k,arg,k,arg))
            checks.append('rc_check_%d'%k)
        elif m=='eval_vector_expression':
            nsum+=1; i=args[1]
            g.raw(g.cite(a,b,'summand %d of [h_osum]'%nsum))
            g.raw(g.wrapc('Definition rc_osum_at_%d %s (%s : Z) : F := %s.'%(nsum,sig,i,t.fn(i,P(args[2])))))
            g.raw(g.wrapc('Definition rc_osum_%d %s : F := eval_vector_expression %s (rc_osum_at_%d %s) %s.'%(nsum,sig,t.F(P(args[0])),nsum,arg,t.Zs(P(args[3])))))
            if nsum==9:
                g.raw('(** lines 675-756 [h_osum] *)\nDefinition rc_h_osum %s : F := 0 + %s.'%(sig,' + '.join('rc_osum_%d %s'%(j,arg) for j in range(1,10))))
        elif m=='define_mut' and args[0]=='h_osum': pass
        elif m in('define_commit_vector','get_randomness_from_hash','define_eval_vector_expression'): pass
        else: yield (a,b)

for x,y in dbg(279,844): g.stmts(x,y,'rc_s5')
n4=len(checks)
g.raw("""
(** *** The evaluation round: lines 860-1171 of [prove] and the same bindings of [verify].
    [rc_ctx] holds what both sides know after the challenge z. *)
Record rc_ctx := mkRCCtx {
  rc_ctx_pub :> rc_pub; rc_q_beta : F; rc_q_alpha : F; rc_q_omega : F; rc_q_z : F; rc_q_y : F; rc_q_y_1 : F; rc_q_y_2 : F }.""")
t=g.tr()
for nm in ('y','y_1','y_2'):
    a,b,args=g.find(860,862,'define_eval_vector_expression',nm)
    g.raw(g.cite(a,b,'[%s]'%nm))
    g.raw(g.wrapc('Definition rc_%s (e : rc_s5) (z : F) : F := eval_vector_expression (rc_omega e / z) (fun i => %s) %s.'%(nm,t.fn('i',P(args[3])),t.Zs(P(args[4])))))
saved=dict(g.env)
lines=open(src).read().split('\n'); L=len(lines)
v0=next(i for i,l in enumerate(lines) if 'fn verify' in l)+1
def ev(lo,hi,pre):
    g.pre=pre; g.env={}
    for n,k in [('nsize','Z'),('range','Z'),('cap_d','Z')]: g.env[n]=(k,'(rc_%s e)'%n)
    g.env['n']=('Z','(rc_n e)')
    for nm in ['beta','alpha','omega','z','y','y_1','y_2']: g.env[nm]=('F','(rc_q_%s e)'%nm)
    g.stmts(lo,hi,'rc_ctx')
ev(1144,1171,'rc_p_')
g.raw('\n(** the same bindings in [verify] *)')
vn=g.find(v0,L,'define','n'); assert vn[2][1]=='max!(nsize, range)'
vc=g.find(v0,L,'define','c_14'); vd=g.find(v0,L,'define','c_30')
ev(vc[0],vd[1],'rc_v_')
g.pre='rc_'; g.env=saved
for nm in ['z','y','y_1','y_2']: g.env[nm]=('F','(rc_q_%s q)'%nm)
sig='(e : rc_s5) (q : rc_ctx)'; arg='e q'
g.raw('\n(** *** Assertions of the prover on the evaluations (lines 863-1143) *)')
for x,y in dbg(863,1143):
    for (a,b,m,txt) in rs.statements(src,x,y):
        args=rs.splitargs(txt); assert m=='define'
        emit(args[0],'F',g.tr().Ftop(P(args[1])),a,b,'[%s]'%args[0])
        g.env[args[0]]=('F','(rc_%s e q)'%args[0])
n5=len(checks); NG=ver['naive_vec_g']
a,b,args=g.find(1172,1192,'define_vec_mut','g_vec')
ex=P(args[1]); assert ex[1]=='expression_vector'
for k in [14,15,19,25,28,29,30]: g.env['c_%d'%k]=('F','(rc_p_c_%d q)'%k)
t=g.tr()
g.raw(g.cite(a,b,'[g_vec], entry i before the addition of line 1193'))
g.raw(g.wrapc('Definition rc_g_at (e : rc_s5) (q : rc_ctx) (i : Z) : F := %s.'%t.fn('i',ex[2][1])))
g.raw(g.wrapc('Definition rc_g_vec (e : rc_s5) (q : rc_ctx) : outcome error (list F) := add_to_first_item (expression_vector (rc_g_at e q) %s) (rc_p_c_15 q).'%t.Zs(ex[2][2])))
assert rs.splitargs([s for s in rs.statements(src,1193,1193)][0][3])==['g_vec','c_15']
def seq(lo,hi,ar): return '\n'.join('  let! _ := %s %s in'%(c,ar) for c in checks[lo:hi])
g.raw("""
(** the checks of lines 324-844, in order *)
Definition rc_checks_1 (e : rc_s5) : outcome error unit :=
%s
  Ok tt.
(** divisors and assertions of lines 860-1143, in order; [power(z, -cap_d)] does not divide; lines 881,
    890, 961, 971 divide by omega - z, line 976 by z - omega *)
Definition rc_checks_2 (e : rc_s5) (q : rc_ctx) : outcome error unit :=
  let! _ := nonzero (rc_q_z q) in
%s
  let! _ := nonzero (rc_q_omega q - 1 * rc_q_z q) in
%s
  let! _ := nonzero (- rc_q_omega q + 1 * rc_q_z q) in
%s
  Ok tt.
(** divisors of c_15, c_25 in evaluation order (lines 1145-1165, and in verify): the verifier
    divides omega by z first *)
Definition rc_divisors (q : rc_ctx) : outcome error unit :=
  let! _ := nonzero (rc_q_z q) in
  let! _ := nonzero ((rc_q_omega q - 1 * rc_q_z q) * (1 - rc_q_z q)) in
  nonzero (rc_q_omega q - 1 * rc_q_z q).
"""%(seq(0,n4,'e'),seq(n4,n4+1,'e q'),seq(n4+1,n4+7,'e q'),seq(n4+7,n5,'e q')))
CMS='cm_w_vec cm_m_vec cm_r_vec cm_s_vec cm_r_vec_tilde cm_t_vec_1 cm_h_vec_1 cm_h_vec_2'
g.raw("""(** *** Keys, proofs, transcripts *)
(** lines 12-18 *)
Record rc_vk := mkRCVK { rc_vk_cm_t_vec : G1; rc_vk_kzg_vk : verifier_key G1 G2; rc_vk_size : rc_cs; rc_vk_degree_bound : nat }.
(** lines 4-10 *)
Record rc_pk := mkRCPK { rc_pk_verifier_key : rc_vk; rc_pk_powers : list G1; rc_pk_max_degree : nat; rc_pk_t : list F }.
(** lines 20-35 *)
Record rc_proof := mkRCProof {
  rc_cm_w_vec : G1; rc_cm_m_vec : G1; rc_cm_r_vec : G1; rc_cm_s_vec : G1; rc_cm_r_vec_tilde : G1;
  rc_cm_t_vec_1 : G1; rc_cm_h_vec_1 : G1; rc_cm_h_vec_2 : G1;
  rc_pf_y : F; rc_pf_y_1 : F; rc_pf_y_2 : F; rc_cap_w : G1; rc_cap_w_1 : G1 }.

Variable H : list (item F G1) -> F.
""")
for n in ['cm_t_vec']:
    g.alias('pk.verifier_key.'+n,'G','(rc_vk_%s vk)'%n); g.alias('vk.'+n,'G','(rc_vk_%s vk)'%n)
for n in (CMS+' cm_g').split(): g.alias(n,'G',n)
for n in ['omega','z','y','y_1','y_2']: g.alias(n,'F',n)
C=CMS.split()
sg={'beta':'(%s : G1)'%' '.join(C[:2]),'beta_1':'(%s : G1)'%' '.join(C[:4]),'alpha':'(%s : G1)'%' '.join(C[:5]),'omega':'(%s : G1)'%' '.join(C[:6]),
 'z':'(%s : G1)'%CMS,'rand_xi':'(%s cm_g : G1) (omega y y_1 y_2 z : F)'%CMS}
sg['rand_xi_2']=sg['rand_xi']
for side,lo,hi in [('p',116,v0),('v',v0,L)]:
    for n in ['beta','beta_1','alpha','omega','z','rand_xi','rand_xi_2']:
        it,a,b=g.hash(lo,hi,n)
        g.raw(g.cite(a,b,'challenge [%s] of %s'%(n,'prove' if side=='p' else 'verify')))
        g.raw(g.wrapc('Definition rc_%s_ch_%s (vk : rc_vk) %s : F := H %s.'%(side,n,sg[n],it)))
def lc(lo,hi,pre):
    a,b,args=g.find(lo,hi,'define_commitment_linear_combination','cm_g')
    one=args[2]; ps=args[3:]
    f=lambda c:'(%s%s q)'%(pre,c)
    l='; '.join('(%s, %s)'%(g.env[ps[k]][1],f(ps[k+1])) for k in range(0,len(ps),2))
    return 'commitment_linear_combination (vk_g (rc_vk_kzg_vk vk)) %s [%s]'%(f(one),l),a,b
for side,lo,hi,pre in [('p',1194,1210,'rc_p_'),('v',v0,L,'rc_v_')]:
    body,a,b=lc(lo,hi,pre)
    g.raw(g.cite(a,b,'[cm_g]'))
    g.raw(g.wrapc('Definition rc_%s_cm_g (vk : rc_vk) (q : rc_ctx) (cm_w_vec cm_r_vec_tilde cm_t_vec_1 cm_h_vec_1 cm_h_vec_2 : G1) : G1 := %s.'%(side,body)))
g.raw("""
(** lines 46-48 [get_max_degree] *)
Definition rc_get_max_degree (size : rc_cs) : nat :=
  Z.to_nat (Z.max (Z.of_nat (rc_lookup_size size)) (Z.of_nat (rc_range_size size))).

(** lines 60-63 [setup]: KZG setup with the sampled trapdoor and generators *)
Definition rc_setup (size : nat) (beta : F) (g : G1) (h : G2) := setup size beta g h.

(** lines 81-86 the table 0, ..., range - 1; [to_field] panics for values not below the modulus *)
Fixpoint rc_table {pf : PrimeFieldOps F} (i : Z) (k : nat) : outcome error (list F) :=
  match k with
  | O => Ok []
  | S k => let! x := to_field i in let! r := rc_table (i + 1) k in Ok (x :: r)
  end.
(** lines 65-115 [index] *)
Definition rc_index {pf : PrimeFieldOps F} (pp : universal_params G1 G2) (cs : rc_cs) : outcome error (rc_pk * rc_vk) :=
  let max_degree := rc_get_max_degree cs in
  let cap_d := length (up_powers_of_g pp) in
  let! _ := assert_ (max_degree <? cap_d)%nat in
  let powers_of_g := up_powers_of_g pp in
  let! t_vec := rc_table 0 (rc_range_size cs) in
  let! cm_t_vec := commit_vector powers_of_g t_vec (Z.of_nat (rc_lookup_size cs)) in
  let! kvk := kzg_vk pp in
  let vk := mkRCVK cm_t_vec kvk cs cap_d in
  Ok (mkRCPK vk powers_of_g max_degree t_vec, vk).

(** lines 117-140 of [prove], 1285-1305 of [verify] *)
Definition rc_pub_of (vk : rc_vk) : rc_pub :=
  mkRCPub (Z.of_nat (rc_lookup_size (rc_vk_size vk))) (Z.of_nat (rc_range_size (rc_vk_size vk)))
          (Z.of_nat (rc_vk_degree_bound vk)).

(** lines 141-162: witness and multiplicities *)
Definition rc_round1 (pk : rc_pk) (w : list F) (delta_vec delta_vec_1 : list F)
  : outcome error (rc_s1 * (G1 * G1)) :=
  let e := rc_pub_of (rc_pk_verifier_key pk) in
  let! w_vec := zero_pad_and_concat w (Z.to_nat (rc_n e)) [delta_vec] in
  let! cm_w_vec := commit_vector (rc_pk_powers pk) w_vec (rc_n e + 1)%Z in
  let! _ := assert_ ((rc_nsize e =? 0)%Z || (Z.to_nat (rc_range e) <=? length (rc_pk_t pk))%nat) in
  let! m_vec := zero_pad_and_concat (rc_m_of (Z.to_nat (rc_nsize e)) (Z.to_nat (rc_range e)) w_vec (rc_pk_t pk))
                  (Z.to_nat (rc_n e)) [delta_vec_1] in
  let! cm_m_vec := commit_vector (rc_pk_powers pk) m_vec (rc_n e + 1)%Z in
  Ok (mkRCS1 e (rc_pk_t pk) w_vec m_vec, (cm_w_vec, cm_m_vec)).

(** lines 169-199: the inverses *)
Definition rc_round2 (pk : rc_pk) (e : rc_s2) (delta_vec_2 delta_vec_3 : list F)
  : outcome error (list F * list F * (G1 * G1)) :=
  let! r_vec := zero_pad_and_concat (rc_r_of (Z.to_nat (rc_nsize e)) (rc_w_vec e) (rc_beta e))
                  (Z.to_nat (rc_n e)) [delta_vec_2] in
  let! cm_r_vec := commit_vector (rc_pk_powers pk) r_vec (rc_n e + 1)%Z in
  let! _ := assert_ (Z.to_nat (rc_range e) <=? length (rc_pk_t_vec e))%nat in
  let! s_vec := zero_pad_and_concat (rc_s_of (Z.to_nat (rc_range e)) (rc_pk_t_vec e) (rc_m_vec e) (rc_beta e))
                  (Z.to_nat (rc_n e)) [delta_vec_3] in
  let! cm_s_vec := commit_vector (rc_pk_powers pk) s_vec (rc_n e + 1)%Z in
  Ok (r_vec, s_vec, (cm_r_vec, cm_s_vec)).

(** lines 214-227 *)
Definition rc_round3 (pk : rc_pk) (e : rc_s3) (delta_vec_4 : list F) : outcome error (list F * G1) :=
  let r_vec_tilde := vector_concat [rc_r_acc e; delta_vec_4] in
  let! cm_r_vec_tilde := commit_vector (rc_pk_powers pk) r_vec_tilde (rc_n e + 1)%Z in
  Ok (r_vec_tilde, cm_r_vec_tilde).

(** lines 242-267 *)
Definition rc_round4 (pk : rc_pk) (e : rc_s4) (delta_vec_5 : list F) : outcome error (list F * G1) :=
  let t_vec_1 := vector_concat [delta_vec_5; rc_t_vec_1_tail e] in
  let! cm_t_vec_1 := commit_vector (rc_pk_powers pk) t_vec_1 (rc_maxshift e + 2)%Z in
  Ok (t_vec_1, cm_t_vec_1).

(** lines 279-846 *)
Definition rc_round5 (pk : rc_pk) (e : rc_s5) : outcome error (G1 * G1) :=
  let! _ := rc_checks_1 e in
  let! cm_h_vec_1 := commit_vector (rc_pk_powers pk) (rc_h_vec_1 e) (rc_cap_d e) in
  let! cm_h_vec_2 := commit_vector (rc_pk_powers pk) (rc_h_vec_2 e) (rc_maxshift e + rc_n e)%Z in
  Ok (cm_h_vec_1, cm_h_vec_2).

(** the values known after the challenge z (lines 860-862) *)
Definition rc_ctx_of (e : rc_s5) (z : F) : rc_ctx :=
  mkRCCtx e (rc_beta e) (rc_alpha e) (rc_omega e) z (rc_y e z) (rc_y_1 e z) (rc_y_2 e z).

(** lines 860-1223: the combined polynomial; its commitment is compared with the linear combination
    of the commitments, and it is checked to vanish at z *)
Definition rc_round6 (pk : rc_pk) (e : rc_s5) (z : F) (cm_w_vec cm_r_vec_tilde cm_t_vec_1 cm_h_vec_1 cm_h_vec_2 : G1)
  : outcome error (rc_ctx * list F * G1) :=
  let q := rc_ctx_of e z in
  let! _ := rc_checks_2 e q in
  let! _ := rc_divisors q in
  let! g_vec := rc_g_vec e q in
  let cm_g := rc_p_cm_g (rc_pk_verifier_key pk) q cm_w_vec cm_r_vec_tilde cm_t_vec_1 cm_h_vec_1 cm_h_vec_2 in
  let! c := commit_vector (rc_pk_powers pk) g_vec (rc_cap_d e) in
  let! _ := assert_ (veqb cm_g c) in
  let! _ := check_poly_eval (strip (rc_naive_vec_g_@NG e q)) z 0 in
  let! _ := check_poly_eval (strip g_vec) z 0 in
  Ok (q, g_vec, cm_g).

(** lines 116-1283 [prove]; the six randomizer vectors are sampled with one element each *)
Definition rc_prove (pk : rc_pk) (w : list F) (d0 d1 d2 d3 d4 d5 : F) : outcome error rc_proof :=
  let vk := rc_pk_verifier_key pk in
  let! (s1, (cm_w_vec, cm_m_vec)) := rc_round1 pk w [d0] [d1] in
  let s2 := mkRCS2 s1 (rc_p_ch_beta vk cm_w_vec cm_m_vec) in
  let! (r_vec, s_vec, (cm_r_vec, cm_s_vec)) := rc_round2 pk s2 [d2] [d3] in
  let s3 := mkRCS3 s2 r_vec s_vec (rc_p_ch_beta_1 vk cm_w_vec cm_m_vec cm_r_vec cm_s_vec) in
  let! (r_vec_tilde, cm_r_vec_tilde) := rc_round3 pk s3 [d4] in
  let s4 := mkRCS4 s3 r_vec_tilde (rc_p_ch_alpha vk cm_w_vec cm_m_vec cm_r_vec cm_s_vec cm_r_vec_tilde) in
  let! (t_vec_1, cm_t_vec_1) := rc_round4 pk s4 [d5] in
  let omega := rc_p_ch_omega vk cm_w_vec cm_m_vec cm_r_vec cm_s_vec cm_r_vec_tilde cm_t_vec_1 in
  let s5 := mkRCS5 s4 t_vec_1 omega in
  let! (cm_h_vec_1, cm_h_vec_2) := rc_round5 pk s5 in
  let z := rc_p_ch_z vk cm_w_vec cm_m_vec cm_r_vec cm_s_vec cm_r_vec_tilde cm_t_vec_1 cm_h_vec_1 cm_h_vec_2 in
  let! (q, g_vec, cm_g) := rc_round6 pk s5 z cm_w_vec cm_r_vec_tilde cm_t_vec_1 cm_h_vec_1 cm_h_vec_2 in
  let y := rc_q_y q in
  let y_1 := rc_q_y_1 q in
  let y_2 := rc_q_y_2 q in
  let rand_xi := rc_p_ch_rand_xi vk cm_w_vec cm_m_vec cm_r_vec cm_s_vec cm_r_vec_tilde cm_t_vec_1 cm_h_vec_1
                   cm_h_vec_2 cm_g omega y y_1 y_2 z in
  let rand_xi_2 := rc_p_ch_rand_xi_2 vk cm_w_vec cm_m_vec cm_r_vec cm_s_vec cm_r_vec_tilde cm_t_vec_1 cm_h_vec_1
                     cm_h_vec_2 cm_g omega y y_1 y_2 z in
  let! (cap_w, cap_w_1) := batch_open (rc_pk_powers pk)
                             [strip (rc_r_vec s5); strip (rc_s_vec s5); strip (rc_m_vec s5)] [strip g_vec]
                             (omega / z) z rand_xi rand_xi_2 in
  Ok (mkRCProof cm_w_vec cm_m_vec cm_r_vec cm_s_vec cm_r_vec_tilde cm_t_vec_1 cm_h_vec_1 cm_h_vec_2 y y_1 y_2
        cap_w cap_w_1).

(** lines 1284-1459 [verify]; [randomizer] is the random scalar of [batch_check] *)
Definition rc_verify (vk : rc_vk) (pf : rc_proof) (randomizer : F) : outcome error unit :=
  let cm_w_vec := rc_cm_w_vec pf in
  let cm_m_vec := rc_cm_m_vec pf in
  let cm_r_vec := rc_cm_r_vec pf in
  let cm_s_vec := rc_cm_s_vec pf in
  let cm_r_vec_tilde := rc_cm_r_vec_tilde pf in
  let cm_t_vec_1 := rc_cm_t_vec_1 pf in
  let cm_h_vec_1 := rc_cm_h_vec_1 pf in
  let cm_h_vec_2 := rc_cm_h_vec_2 pf in
  let y := rc_pf_y pf in
  let y_1 := rc_pf_y_1 pf in
  let y_2 := rc_pf_y_2 pf in
  let beta := rc_v_ch_beta vk cm_w_vec cm_m_vec in
  let alpha := rc_v_ch_alpha vk cm_w_vec cm_m_vec cm_r_vec cm_s_vec cm_r_vec_tilde in
  let omega := rc_v_ch_omega vk cm_w_vec cm_m_vec cm_r_vec cm_s_vec cm_r_vec_tilde cm_t_vec_1 in
  let z := rc_v_ch_z vk cm_w_vec cm_m_vec cm_r_vec cm_s_vec cm_r_vec_tilde cm_t_vec_1 cm_h_vec_1 cm_h_vec_2 in
  let q := mkRCCtx (rc_pub_of vk) beta alpha omega z y y_1 y_2 in
  let! _ := rc_divisors q in
  let cm_g := rc_v_cm_g vk q cm_w_vec cm_r_vec_tilde cm_t_vec_1 cm_h_vec_1 cm_h_vec_2 in
  let z1 := omega / z in
  let z2 := z in
  let rand_xi := rc_v_ch_rand_xi vk cm_w_vec cm_m_vec cm_r_vec cm_s_vec cm_r_vec_tilde cm_t_vec_1 cm_h_vec_1
                   cm_h_vec_2 cm_g omega y y_1 y_2 z in
  let rand_xi_2 := rc_v_ch_rand_xi_2 vk cm_w_vec cm_m_vec cm_r_vec cm_s_vec cm_r_vec_tilde cm_t_vec_1 cm_h_vec_1
                     cm_h_vec_2 cm_g omega y y_1 y_2 z in
  if batch_check (rc_vk_kzg_vk vk) [cm_r_vec; cm_s_vec; cm_m_vec] [cm_g] z1 z2 rand_xi rand_xi_2
       [y; y_1; y_2] [0] (rc_cap_w pf) (rc_cap_w_1 pf) randomizer
  then Ok tt else Err VerificationFail.

End RC.
Arguments rc_s1 F : clear implicits.
Arguments rc_s2 F : clear implicits.
Arguments rc_s3 F : clear implicits.
Arguments rc_s4 F : clear implicits.
Arguments rc_s5 F : clear implicits.
Arguments rc_ctx F : clear implicits.
Arguments rc_vk G1 G2 : clear implicits.
Arguments rc_pk F G1 G2 : clear implicits.
Arguments rc_proof F G1 : clear implicits.""".replace("@NG",str(NG)))
g.write('/verif/rocq/theories/RC.v')
print(n4,n5,NG)

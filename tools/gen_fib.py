import rs,pp,re
from gen import Gen
P=rs.parse
src='/repo/voproof/src/snarks/fibonacci.rs'
S='snarks/fibonacci.rs'
g=Gen(src,S,'fb_')
g.raw('''(** Fib.v: model of voproof/src/snarks/fibonacci.rs (generalised Fibonacci argument) and of
    voproof/src/cs/fibonacci.rs.  The long index expressions are transcribed mechanically from the
    Rust text (one Definition per Rust binding, named fb_<binding>).  [H] is the hash oracle, the
    randomizers are arguments.  Printing is not modelled. *)
From Verif Require Import Base Tools KZG Snark.
Local Open Scope F_scope.

Section Fib.
Context {F G1 G2 GT : Type} {fo : FieldOps F} {po : PairingOps F G1 G2 GT}.

(** cs/fibonacci.rs:3-7 [Fibonacci]; 16-19 and 23-27: the size is [n] *)
Record fib_cs := mkFibCS { fib_n : nat; fib_t : list F }.
(** cs/fibonacci.rs:29-34 [FibonacciInstance] *)
Record fib_instance := mkFibIns { fib_a : F; fib_b : F; fib_c : F }.

(** *** Values in scope.  Each record adds the bindings of one round to the previous one. *)
(** public data of a run (lines 107-119, 983-1002) *)
Record fb_pub := mkFBPub { fb_n : Z; fb_cap_d : Z; fb_a : F; fb_b : F; fb_c : F }.
(** bindings of lines 120-143; [fb_pk_t_vec] is [pk.t_vec] *)
Record fb_s1 := mkFBS1 {
  fb_s1_pub :> fb_pub; fb_pk_t_vec : list F; fb_w_vec : list F; fb_r_vec : list F }.
(** lines 144-146 *)
Record fb_s2 := mkFBS2 { fb_s2_s1 :> fb_s1; fb_alpha : F }.
(** lines 147-167 *)
Record fb_s3 := mkFBS3 { fb_s3_s2 :> fb_s2; fb_t_vec_1 : list F; fb_omega : F }.
''')
g.fields([('n','Z'),('cap_d','Z'),('a','F'),('b','F'),('c','F'),('w_vec','V'),('r_vec','V'),('t_vec_1','V'),('alpha','F'),('omega','F')])
g.alias('pk.t_vec','V','(fb_pk_t_vec e)')
g.stmts(119,119,'fb_pub')
g.stmts(144,146,'fb_pub' if False else 'fb_s2')
a,b,args=g.find(147,158,'define_vec','t_vec_1')
ex=P(args[1]); assert ex[1]=='vector_concat' and ex[2][0]==('id','delta_vec_2')
ev=ex[2][1]; t=g.tr()
g.raw(g.cite(a,b,'[t_vec_1]: entry i of the expression following the randomizer'))
g.raw(g.wrapc('Definition fb_t_vec_1_at (e : fb_s2) (i : Z) : F := %s.'%t.fn('i',ev[2][1])))
g.raw(g.wrapc('Definition fb_t_vec_1_tail (e : fb_s2) : list F := expression_vector (fb_t_vec_1_at e) %s.'%t.Zs(ev[2][2])))
sig='(e : fb_s3)'; arg='e'
ver={}          # mutable vectors: name -> version
checks=[]
def emit(name,ty,body,a,b,note):
    g.raw(g.cite(a,b,note)); g.raw(g.wrapc('Definition fb_%s %s : %s := %s.'%(name,sig,ty,body)))
def cur(v): return '(fb_%s_%d %s)'%(v,ver[v],arg)
def vecz(txt):  # vec!(zero!(); (e) as usize)
    m=re.match(r'vec!\(\s*zero!\(\)\s*;\s*\((.*)\)\s*as\s+usize\s*\)$',txt,re.S)
    return 'repeat 0 (Z.to_nat %s)'%g.tr().Zs(P(m.group(1)))
nsum=0
def dbg(lo,hi):
    global nsum
    for (a,b,m,txt) in rs.statements(src,lo,hi):
        args=rs.splitargs(txt); t=g.tr()
        if m in('define_mut','define_vec_mut') and args[0] in('sum_vec','hcheck_vec','naive_vec_g'):
            ver[args[0]]=0; emit(args[0]+'_0','list F',vecz(args[1]),a,b,'[%s]'%args[0])
            g.env[args[0]]=('V',cur(args[0]))
        elif m=='add_expression_vector_to_vector':
            v=args[0]; ver[v]+=1; k=ver[v]; i=args[1]
            g.raw(g.cite(a,b,'[%s], addition %d: entry %s'%(v,k,i)))
            g.raw(g.wrapc('Definition fb_%s_add_%d %s (%s : Z) : F := %s.'%(v,k,sig,i,t.fn(i,P(args[2])))))
            g.raw(g.wrapc('Definition fb_%s_%d %s : list F := add_expression_vector_to_vector (fb_%s_%d %s) (fb_%s_add_%d %s).'%(v,k,sig,v,k-1,arg,v,k,arg)))
            g.env[v]=('V',cur(v))
        elif m=='add_vector_to_vector':
            v=args[0]; ver[v]+=1; k=ver[v]
            emit('%s_%d'%(v,k),'list F','add_vector_to_vector (fb_%s_%d %s) %s'%(v,k-1,arg,t.V(P(args[1]))),a,b,'[%s]'%v)
            g.env[v]=('V',cur(v))
        elif m=='define_vector_poly_mul_no_dict':
            nm=args[0]
            for s,x in (('left',args[1]),('right',args[2])):
                ex=P(x); assert ex[1]=='expression_vector'
                i=ex[2][0][1]
                g.raw(g.cite(a,b,'[%s], %s factor, entry %s'%(nm,s,i)))
                g.raw(g.wrapc('Definition fb_%s_%s %s (%s : Z) : F := %s.'%(nm,s,sig,i,t.fn(i,ex[2][1]))))
                ln=t.Zs(ex[2][2])
            emit(nm,'list F','vector_poly_mul (expression_vector (fb_%s_left %s) %s) (expression_vector (fb_%s_right %s) %s) %s'%(nm,arg,ln,nm,arg,ln,t.F(P(args[3]))),a,b,'[%s]'%nm)
            g.env[nm]=('V','(fb_%s %s)'%(nm,arg))
        elif m=='check_vector_eq':
            k=len(checks)+1; zp=re.match(r'zero_pad!\((.*)\)$',args[1],re.S)
            if zp:
                z=rs.splitargs(zp.group(1))
                body='let! p := zero_pad %s (Z.to_nat %s) in check_vector_eq_o %s p'%(t.V(P(z[0])),t.Zs(P(z[1])),t.V(P(args[0])))
            elif args[1].startswith('vec!'):
                body='check_vector_eq_o %s (%s)'%(t.V(P(args[0])),vecz(args[1]))
            elif args[1].startswith('vector_concat!'):
                z=rs.splitargs(args[1][len('vector_concat!('):-1])
                body='check_vector_eq_o %s (vector_concat [%s])'%(t.V(P(args[0])),'; '.join('[0]' if x=='vec!(zero!())' else t.V(P(x)) for x in z))
            else: body='check_vector_eq_o %s %s'%(t.V(P(args[0])),t.V(P(args[1])))
            emit('check_%d'%k,'outcome error unit',body,a,b,'check %s'%args[2].replace('\n',' '))
            checks.append('fb_check_%d'%k)
        elif m=='assert_eq':
            k=len(checks)+1
            if args[0]=='h_osum': l='fb_h_osum %s'%arg
            else: l=t.Ftop(P(args[0]))
            g.raw(g.cite(a,b,'the two sides of the assertion'))
            g.raw(g.wrapc('Definition fb_assert_%d_l %s : F := %s.'%(k,sig,l)))
            g.raw(g.wrapc('Definition fb_assert_%d_r %s : F := %s.'%(k,sig,t.Ftop(P(args[1])))))
            g.raw('Definition fb_check_%d %s : outcome error unit := assert_ (feqb (fb_assert_%d_l %s) (fb_assert_%d_r %s)).'%(k,sig,k,arg,k,arg))
            checks.append('fb_check_%d'%k)
        elif m=='eval_vector_expression':
            nsum+=1; i=args[1]
            g.raw(g.cite(a,b,'summand %d of [h_osum]'%nsum))
            g.raw(g.wrapc('Definition fb_osum_at_%d %s (%s : Z) : F := %s.'%(nsum,sig,i,t.fn(i,P(args[2])))))
            g.raw(g.wrapc('Definition fb_osum_%d %s : F := eval_vector_expression %s (fb_osum_at_%d %s) %s.'%(nsum,sig,t.F(P(args[0])),nsum,arg,t.Zs(P(args[3])))))
            if nsum==7:
                g.raw('(** lines 478-547 [h_osum] *)\nDefinition fb_h_osum %s : F := 0 + %s.'%(sig,' + '.join('fb_osum_%d %s'%(j,arg) for j in range(1,8))))
        elif m=='define_mut' and args[0]=='h_osum': pass
        elif m in('define_commit_vector','get_randomness_from_hash','define_eval_vector_expression'): pass
        else: yield (a,b)
for x,y in dbg(168,641): g.stmts(x,y,'fb_s3')
n4=len(checks)
g.raw('''
(** *** The evaluation round: lines 654-886 of [prove] and 1016-1040 of [verify].
    [fb_ctx] holds what both sides know after the challenge z. *)
Record fb_ctx := mkFBCtx {
  fb_ctx_pub :> fb_pub; fb_q_alpha : F; fb_q_omega : F; fb_q_z : F; fb_q_y : F; fb_q_y_1 : F; fb_q_y_2 : F }.''')
t=g.tr()
for nm in ('y','y_1','y_2'):
    a,b,args=g.find(654,656,'define_eval_vector_expression',nm)
    g.raw(g.cite(a,b,'[%s]'%nm))
    g.raw(g.wrapc('Definition fb_%s (e : fb_s3) (z : F) : F := eval_vector_expression (fb_omega e / z) (fun i => %s) %s.'%(nm,t.fn('i',P(args[3])),t.Zs(P(args[4])))))
saved=dict(g.env)
lines=open(src).read().split('\n'); L=len(lines)
v0=next(i for i,l in enumerate(lines) if 'fn verify' in l)+1
def ev(lo,hi,pre):
    g.pre=pre; g.env={}
    for n,k in [('n','Z'),('cap_d','Z'),('a','F'),('b','F'),('c','F')]: g.env[n]=(k,'(fb_%s e)'%n)
    g.env['n_1']=('Z','(fb_n_1 e)')
    for nm in ['alpha','omega','z','y','y_1','y_2']: g.env[nm]=('F','(fb_q_%s e)'%nm)
    g.stmts(lo,hi,'fb_ctx')
ev(866,886,'fb_p_')
g.raw('\n(** the same bindings in [verify] *)')
vc=[s for s in rs.statements(src,v0,L) if s[2]=='define' and rs.splitargs(s[3])[0]=='c_17'][0]
vd=[s for s in rs.statements(src,v0,L) if s[2]=='define' and rs.splitargs(s[3])[0]=='c_25'][0]
ev(vc[0],vd[1],'fb_v_')
g.pre='fb_'; g.env=saved
for nm in ['z','y','y_1','y_2']: g.env[nm]=('F','(fb_q_%s q)'%nm)
# mixed definitions over e and q
sig='(e : fb_s3) (q : fb_ctx)'; arg='e q'
g.raw('\n(** *** Assertions of the prover on the evaluations (lines 657-865) *)')
for x,y in dbg(657,865):
    for (a,b,m,txt) in rs.statements(src,x,y):
        args=rs.splitargs(txt); assert m=='define'
        emit(args[0],'F',g.tr().Ftop(P(args[1])),a,b,'[%s]'%args[0])
        g.env[args[0]]=('F','(fb_%s e q)'%args[0])
n5=len(checks)
a,b,args=g.find(887,903,'define_vec_mut','g_vec')
ex=P(args[1]); assert ex[1]=='expression_vector'
for k in [17,20,23,24,25]: g.env['c_%d'%k]=('F','(fb_p_c_%d q)'%k)
t=g.tr()
g.raw(g.cite(a,b,'[g_vec], entry i before the addition of line 904'))
g.raw(g.wrapc('Definition fb_g_at (e : fb_s3) (q : fb_ctx) (i : Z) : F := %s.'%t.fn('i',ex[2][1])))
g.raw(g.wrapc('Definition fb_g_vec (e : fb_s3) (q : fb_ctx) : outcome error (list F) := add_to_first_item (expression_vector (fb_g_at e q) %s) (fb_p_c_17 q).'%t.Zs(ex[2][2])))
def seq(lo,hi,ar): return '\n'.join('  let! _ := %s %s in'%(c,ar) for c in checks[lo:hi])
g.raw('''
(** the checks of lines 208-641, in order *)
Definition fb_checks_1 (e : fb_s3) : outcome error unit :=
%s
  Ok tt.
(** divisors and assertions of lines 654-865, in order; [power(z, -cap_d)] does not divide *)
Definition fb_checks_2 (e : fb_s3) (q : fb_ctx) : outcome error unit :=
  let! _ := nonzero (fb_q_z q) in
%s
  let! _ := nonzero (power (fb_q_z q) 2 * (fb_q_omega q - 1 * fb_q_z q)) in
%s
  Ok tt.
(** divisors of c_17, c_20, c_23 in evaluation order (lines 866-884, 1016-1037): the verifier
    divides omega by z first *)
Definition fb_divisors (q : fb_ctx) : outcome error unit :=
  let! _ := nonzero (fb_q_z q) in
  let! _ := nonzero (power (fb_q_z q) 2 * (1 - fb_q_z q)) in
  nonzero (fb_q_omega q - 1 * fb_q_z q).
'''%(seq(0,n4,'e'),seq(n4,n4+6,'e q'),seq(n4+6,n5,'e q')))
g.raw('''(** *** Keys, proofs, transcripts *)
(** lines 12-18 *)
Record fb_vk := mkFBVK { fb_vk_cm_t_vec : G1; fb_vk_kzg_vk : verifier_key G1 G2; fb_vk_size : nat; fb_vk_degree_bound : nat }.
(** lines 4-10 *)
Record fb_pk := mkFBPK { fb_pk_verifier_key : fb_vk; fb_pk_powers : list G1; fb_pk_max_degree : nat; fb_pk_t : list F }.
(** lines 20-32 *)
Record fb_proof := mkFBProof {
  fb_cm_w_vec : G1; fb_cm_r_vec : G1; fb_cm_t_vec_1 : G1; fb_cm_h_vec_1 : G1; fb_cm_h_vec_2 : G1;
  fb_pf_y : F; fb_pf_y_1 : F; fb_pf_y_2 : F; fb_cap_w : G1; fb_cap_w_1 : G1 }.

Variable H : list (item F G1) -> F.
''')
for n in ['cm_t_vec']:
    g.alias('pk.verifier_key.'+n,'G','(fb_vk_%s vk)'%n); g.alias('vk.'+n,'G','(fb_vk_%s vk)'%n)
for n in ['cm_w_vec','cm_r_vec','cm_t_vec_1','cm_h_vec_1','cm_h_vec_2','cm_g']: g.alias(n,'G',n)
for n in ['omega','z','y','y_1','y_2']: g.alias(n,'F',n)
sg={'alpha':'(cm_w_vec cm_r_vec : G1)','omega':'(cm_w_vec cm_r_vec cm_t_vec_1 : G1)',
 'z':'(cm_w_vec cm_r_vec cm_t_vec_1 cm_h_vec_1 cm_h_vec_2 : G1)',
 'rand_xi':'(cm_w_vec cm_r_vec cm_t_vec_1 cm_h_vec_1 cm_h_vec_2 cm_g : G1) (omega y y_1 y_2 z : F)'}
sg['rand_xi_2']=sg['rand_xi']
for side,lo,hi in [('p',106,981),('v',v0,L)]:
    for n in ['alpha','omega','z','rand_xi','rand_xi_2']:
        it,a,b=g.hash(lo,hi,n)
        g.raw(g.cite(a,b,'challenge [%s] of %s'%(n,'prove' if side=='p' else 'verify')))
        g.raw(g.wrapc('Definition fb_%s_ch_%s (vk : fb_vk) %s : F := H %s.'%(side,n,sg[n],it)))
def lc(lo,hi,pre):
    a,b,args=g.find(lo,hi,'define_commitment_linear_combination','cm_g')
    one=args[2]; ps=args[3:]
    f=lambda c:'(%s%s q)'%(pre,c)
    l='; '.join('(%s, %s)'%(g.env[ps[k]][1],f(ps[k+1])) for k in range(0,len(ps),2))
    return 'commitment_linear_combination (vk_g (fb_vk_kzg_vk vk)) %s [%s]'%(f(one),l),a,b
for side,lo,hi,pre in [('p',904,918,'fb_p_'),('v',v0,L,'fb_v_')]:
    body,a,b=lc(lo,hi,pre)
    g.raw(g.cite(a,b,'[cm_g]'))
    g.raw(g.wrapc('Definition fb_%s_cm_g (vk : fb_vk) (q : fb_ctx) (cm_w_vec cm_r_vec cm_t_vec_1 cm_h_vec_1 cm_h_vec_2 : G1) : G1 := %s.'%(side,body)))
g.raw('''
(** lines 42-46 [get_max_degree] *)
Definition fb_get_max_degree (n : nat) : nat := (n + 2)%nat.

(** lines 58-61 [setup]: KZG setup with the sampled trapdoor and generators *)
Definition fb_setup (size : nat) (beta : F) (g : G1) (h : G2) := setup size beta g h.

(** lines 63-105 [index] *)
Definition fb_index (pp : universal_params G1 G2) (cs : fib_cs) : outcome error (fb_pk * fb_vk) :=
  let max_degree := fb_get_max_degree (fib_n cs) in
  let cap_d := length (up_powers_of_g pp) in
  let! _ := assert_ (max_degree <? cap_d)%nat in
  let powers_of_g := up_powers_of_g pp in
  let t_vec := fib_t cs in
  let! cm_t_vec := commit_vector powers_of_g t_vec (Z.of_nat (fib_n cs)) in
  let! kvk := kzg_vk pp in
  let vk := mkFBVK cm_t_vec kvk (fib_n cs) cap_d in
  Ok (mkFBPK vk powers_of_g max_degree t_vec, vk).

(** lines 107-119 of [prove], 983-1002 of [verify] *)
Definition fb_pub_of (vk : fb_vk) (x : fib_instance) : fb_pub :=
  mkFBPub (Z.of_nat (fb_vk_size vk)) (Z.of_nat (fb_vk_degree_bound vk)) (fib_a x) (fib_b x) (fib_c x).

(** lines 120-143: witness vectors and their commitments *)
Definition fb_round1 (pk : fb_pk) (x : fib_instance) (w : list F) (delta_vec delta_vec_1 : list F)
  : outcome error (fb_s1 * (G1 * G1)) :=
  let e := fb_pub_of (fb_pk_verifier_key pk) x in
  let! w_vec := zero_pad_and_concat w (Z.to_nat (fb_n_1 e)) [delta_vec] in
  let! cm_w_vec := commit_vector (fb_pk_powers pk) w_vec (fb_n_1 e + 1)%Z in
  let r := map (fun ab => fst ab * snd ab) (combine (firstn (Z.to_nat (fb_n e)) ([0] ++ w_vec)) (fb_pk_t pk)) in
  let! r_vec := zero_pad_and_concat r (Z.to_nat (fb_n_1 e)) [delta_vec_1] in
  let! cm_r_vec := commit_vector (fb_pk_powers pk) r_vec (fb_n_1 e + 1)%Z in
  Ok (mkFBS1 e (fb_pk_t pk) w_vec r_vec, (cm_w_vec, cm_r_vec)).

(** lines 147-159 *)
Definition fb_round2 (pk : fb_pk) (e : fb_s2) (delta_vec_2 : list F) : outcome error (list F * G1) :=
  let t_vec_1 := vector_concat [delta_vec_2; fb_t_vec_1_tail e] in
  let! cm_t_vec_1 := commit_vector (fb_pk_powers pk) t_vec_1 (fb_maxshift e + 2)%Z in
  Ok (t_vec_1, cm_t_vec_1).

(** lines 168-643 *)
Definition fb_round3 (pk : fb_pk) (e : fb_s3) : outcome error (G1 * G1) :=
  let! _ := fb_checks_1 e in
  let! cm_h_vec_1 := commit_vector (fb_pk_powers pk) (fb_h_vec_1 e) (fb_cap_d e) in
  let! cm_h_vec_2 := commit_vector (fb_pk_powers pk) (fb_h_vec_2 e) (fb_maxshift e + fb_n_1 e)%Z in
  Ok (cm_h_vec_1, cm_h_vec_2).

(** the values known after the challenge z (lines 654-656) *)
Definition fb_ctx_of (e : fb_s3) (z : F) : fb_ctx :=
  mkFBCtx e (fb_alpha e) (fb_omega e) z (fb_y e z) (fb_y_1 e z) (fb_y_2 e z).

(** lines 654-930: the combined polynomial; its commitment is compared with the linear combination
    of the commitments, and it is checked to vanish at z *)
Definition fb_round4 (pk : fb_pk) (e : fb_s3) (z : F) (cm_w_vec cm_r_vec cm_t_vec_1 cm_h_vec_1 cm_h_vec_2 : G1)
  : outcome error (fb_ctx * list F * G1) :=
  let q := fb_ctx_of e z in
  let! _ := fb_checks_2 e q in
  let! _ := fb_divisors q in
  let! g_vec := fb_g_vec e q in
  let cm_g := fb_p_cm_g (fb_pk_verifier_key pk) q cm_w_vec cm_r_vec cm_t_vec_1 cm_h_vec_1 cm_h_vec_2 in
  let! c := commit_vector (fb_pk_powers pk) g_vec (fb_cap_d e) in
  let! _ := assert_ (veqb cm_g c) in
  let! _ := check_poly_eval (strip (fb_naive_vec_g_9 e q)) z 0 in
  let! _ := check_poly_eval (strip g_vec) z 0 in
  Ok (q, g_vec, cm_g).

(** lines 106-981 [prove]; the three randomizer vectors are sampled with one element each *)
Definition fb_prove (pk : fb_pk) (x : fib_instance) (w : list F) (delta delta_1 delta_2 : F)
  : outcome error fb_proof :=
  let vk := fb_pk_verifier_key pk in
  let! (s1, (cm_w_vec, cm_r_vec)) := fb_round1 pk x w [delta] [delta_1] in
  let alpha := fb_p_ch_alpha vk cm_w_vec cm_r_vec in
  let s2 := mkFBS2 s1 alpha in
  let! (t_vec_1, cm_t_vec_1) := fb_round2 pk s2 [delta_2] in
  let omega := fb_p_ch_omega vk cm_w_vec cm_r_vec cm_t_vec_1 in
  let s3 := mkFBS3 s2 t_vec_1 omega in
  let! (cm_h_vec_1, cm_h_vec_2) := fb_round3 pk s3 in
  let z := fb_p_ch_z vk cm_w_vec cm_r_vec cm_t_vec_1 cm_h_vec_1 cm_h_vec_2 in
  let! (q, g_vec, cm_g) := fb_round4 pk s3 z cm_w_vec cm_r_vec cm_t_vec_1 cm_h_vec_1 cm_h_vec_2 in
  let y := fb_q_y q in
  let y_1 := fb_q_y_1 q in
  let y_2 := fb_q_y_2 q in
  let rand_xi := fb_p_ch_rand_xi vk cm_w_vec cm_r_vec cm_t_vec_1 cm_h_vec_1 cm_h_vec_2 cm_g omega y y_1 y_2 z in
  let rand_xi_2 := fb_p_ch_rand_xi_2 vk cm_w_vec cm_r_vec cm_t_vec_1 cm_h_vec_1 cm_h_vec_2 cm_g omega y y_1 y_2 z in
  let! (cap_w, cap_w_1) := batch_open (fb_pk_powers pk)
                             [strip (fb_w_vec s3); strip (fb_pk_t_vec s3); strip (fb_r_vec s3)] [strip g_vec]
                             (omega / z) z rand_xi rand_xi_2 in
  Ok (mkFBProof cm_w_vec cm_r_vec cm_t_vec_1 cm_h_vec_1 cm_h_vec_2 y y_1 y_2 cap_w cap_w_1).

(** lines 982-1106 [verify]; [randomizer] is the random scalar of [batch_check] *)
Definition fb_verify (vk : fb_vk) (x : fib_instance) (pf : fb_proof) (randomizer : F) : outcome error unit :=
  let cm_w_vec := fb_cm_w_vec pf in
  let cm_r_vec := fb_cm_r_vec pf in
  let cm_t_vec_1 := fb_cm_t_vec_1 pf in
  let cm_h_vec_1 := fb_cm_h_vec_1 pf in
  let cm_h_vec_2 := fb_cm_h_vec_2 pf in
  let y := fb_pf_y pf in
  let y_1 := fb_pf_y_1 pf in
  let y_2 := fb_pf_y_2 pf in
  let alpha := fb_v_ch_alpha vk cm_w_vec cm_r_vec in
  let omega := fb_v_ch_omega vk cm_w_vec cm_r_vec cm_t_vec_1 in
  let z := fb_v_ch_z vk cm_w_vec cm_r_vec cm_t_vec_1 cm_h_vec_1 cm_h_vec_2 in
  let q := mkFBCtx (fb_pub_of vk x) alpha omega z y y_1 y_2 in
  let! _ := fb_divisors q in
  let cm_g := fb_v_cm_g vk q cm_w_vec cm_r_vec cm_t_vec_1 cm_h_vec_1 cm_h_vec_2 in
  let z1 := omega / z in
  let z2 := z in
  let rand_xi := fb_v_ch_rand_xi vk cm_w_vec cm_r_vec cm_t_vec_1 cm_h_vec_1 cm_h_vec_2 cm_g omega y y_1 y_2 z in
  let rand_xi_2 := fb_v_ch_rand_xi_2 vk cm_w_vec cm_r_vec cm_t_vec_1 cm_h_vec_1 cm_h_vec_2 cm_g omega y y_1 y_2 z in
  if batch_check (fb_vk_kzg_vk vk) [cm_w_vec; fb_vk_cm_t_vec vk; cm_r_vec] [cm_g] z1 z2 rand_xi rand_xi_2
       [y; y_1; y_2] [0] (fb_cap_w pf) (fb_cap_w_1 pf) randomizer
  then Ok tt else Err VerificationFail.

End Fib.
Arguments fib_cs F : clear implicits.
Arguments fib_instance F : clear implicits.
Arguments fb_pub F : clear implicits.
Arguments fb_s1 F : clear implicits.
Arguments fb_s2 F : clear implicits.
Arguments fb_s3 F : clear implicits.
Arguments fb_ctx F : clear implicits.
Arguments fb_vk G1 G2 : clear implicits.
Arguments fb_pk F G1 G2 : clear implicits.
Arguments fb_proof F G1 : clear implicits.''')
g.write('/verif/rocq/theories/Fib.v')

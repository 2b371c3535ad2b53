import rs,pp,re
from gen import Gen
P=rs.parse
src='/repo/voproof/src/snarks/voproof_r1cs.rs'
S='snarks/voproof_r1cs.rs'
lines=open(src).read().split('\n'); L=len(lines)
p0=next(i for i,l in enumerate(lines) if 'fn prove' in l)+1
v0=next(i for i,l in enumerate(lines) if 'fn verify' in l)+1
g=Gen(src,S,'r1_')
g.raw('''(** R1.v: model of voproof/src/snarks/voproof_r1cs.rs, the argument for R1CS.  The long index
    expressions are transcribed mechanically from the Rust text (one Definition per Rust binding,
    named r1_<binding>; tools/gen_r1.py).  [H] is the hash oracle, the randomizers are arguments. *)
From Verif Require Import Base Tools CS KZG Snark.
Local Open Scope F_scope.

Section R1.
Context {F G1 G2 GT : Type} {fo : FieldOps F} {po : PairingOps F G1 G2 GT}.

(** *** Values in scope.  Each record adds the bindings of one round to the previous one. *)

(** public data of a run: sizes (as i64), degree bound, generator and instance
    (%s:132-144, 929-952) *)
Record r1_pub := mkR1Pub {
  r1_cap_h : Z; r1_cap_k : Z; r1_cap_s_a : Z; r1_cap_s_b : Z; r1_cap_s_c : Z; r1_ell : Z;
  r1_cap_d : Z; r1_gamma : F; r1_x_vec : list F }.
(** bindings of lines 144-162; the matrix vectors are those of the prover key *)
Record r1_s1 := mkR1S1 {
  r1_s1_pub :> r1_pub; r1_u_vec : list F; r1_w_vec : list F; r1_v_vec : list F; r1_y_vec : list F;
  r1_u_vec_1 : list F }.
(** lines 163-172 *)
Record r1_s2 := mkR1S2 { r1_s2_s1 :> r1_s1; r1_mu : F }.
(** lines 173-192 *)
Record r1_s3 := mkR1S3 { r1_s3_s2 :> r1_s2; r1_s_vec : list F; r1_nu : F }.
(** lines 193-212 *)
Record r1_s4 := mkR1S4 { r1_s4_s3 :> r1_s3; r1_h_vec : list F; r1_beta : F }.
(** lines 213-249 *)
Record r1_s5 := mkR1S5 { r1_s5_s4 :> r1_s4; r1_r_vec_tilde : list F; r1_alpha : F }.
(** lines 250-337 *)
Record r1_s6 := mkR1S6 { r1_s6_s5 :> r1_s5; r1_t_vec : list F; r1_omega : F }.
'''%S)
g.fields([(n,'Z') for n in ['cap_h','cap_k','cap_s_a','cap_s_b','cap_s_c','ell','cap_d']]+[('gamma','F'),('x_vec','V')])
g.fields([('pk.u_vec','V'),('pk.w_vec','V'),('pk.v_vec','V'),('pk.y_vec','V'),('u_vec_1','V')])
def one(mac,name,rec):
    a,b,_=g.find(p0,v0,mac,name); g.stmts(a,b,rec)
one('define','vovectorsize','r1_pub'); one('define','ell_1','r1_pub')
g.fields([('mu','F')])
one('define_expression_vector_inverse','r_vec','r1_s2')
g.fields([('s_vec','V'),('nu','F')])
one('define_expression_vector_inverse','rnu_vec','r1_s3')
a,b,args=g.find(p0,v0,'define_concat_uwinverse_vector','h_vec')
assert args==['h_vec','rnu_vec','mu','pk.u_vec','nu','pk.w_vec'],args
g.raw(g.cite(a,b,'[h_vec]'))
g.raw('Definition r1_h_val (e : r1_s3) : list F :=\n  concat_uwinverse_vector (r1_rnu_vec e) (r1_mu e) (r1_u_vec e) (r1_nu e) (r1_w_vec e).')
g.fields([('h_vec','V'),('beta','F')])
one('define_expression_vector','r_vec_1','r1_s4')
a,b,args=g.find(p0,v0,'define_concat_vector','r_vec_tilde')
assert args==['r_vec_tilde','accumulate_vector_plus!(r_vec_1)','delta_vec_1'],args
g.raw(g.cite(a,b,'[r_vec_tilde], before the randomizer is appended'))
g.raw('Definition r1_r_acc (e : r1_s4) : list F :=\n  accumulate_vector 0 (fun i => vidx (r1_r_vec_1 e) i) (Z.of_nat (length (r1_r_vec_1 e))) fadd.')
one('define','maxshift','r1_pub')
g.fields([('r_vec_tilde','V'),('alpha','F')])
a1,_,_=g.find(p0,v0,'define','c'); _,b1,_=g.find(p0,v0,'define','c_11')
g.stmts(a1,b1,'r1_s5')
a,b,args=g.find(p0,v0,'define_vec','t_vec')
ex=P(args[1]); assert ex[1]=='vector_concat' and ex[2][0]==('id','delta_vec_2')
ev=ex[2][1]; t=g.tr()
g.raw(g.cite(a,b,'[t_vec]: entry i of the expression following the randomizer'))
g.raw(g.wrapc('Definition r1_t_vec_at (e : r1_s5) (i : Z) : F := %s.'%t.fn('i',ev[2][1])))
g.raw(g.wrapc('Definition r1_t_vec_tail (e : r1_s5) : list F := expression_vector (r1_t_vec_at e) %s.'%t.Zs(ev[2][2])))
g.fields([('t_vec','V'),('omega','F')])
a1,_,_=g.find(p0,v0,'define','c_12'); _,b1,_=g.find(p0,v0,'define_expression_vector','h_vec_3')
g.stmts(a1,b1,'r1_s6')
# evaluation stage
g.raw('''
(** *** The evaluation round: lines 697-801 of [prove] and 1036-1128 of [verify].
    [r1_ctx] holds what both sides know after the challenge z. *)
Record r1_ctx := mkR1Ctx {
  r1_ctx_pub :> r1_pub; r1_q_mu : F; r1_q_nu : F; r1_q_beta : F; r1_q_alpha : F; r1_q_omega : F;
  r1_q_z : F; r1_q_y : F; r1_q_y_1 : F }.''')
t=g.tr()
for nm in ['y','y_1']:
    a,b,args=g.find(p0,v0,'define_eval_vector_expression',nm)
    g.raw(g.cite(a,b,'[%s]'%nm))
    g.raw(g.wrapc('Definition r1_%s (e : r1_s6) (z : F) : F := eval_vector_expression (r1_omega e / z) (fun i => %s) %s.'%(nm,t.fn('i',P(args[3])),t.Zs(P(args[4])))))
    assert args[1]=='omega / z'
for nm in ['mu','nu','beta','alpha','omega','z','y','y_1']:
    g.env[nm]=('F','(r1_q_%s e)'%nm)
saved=dict(g.env)
def evs(lo,hi,pre):
    g.pre=pre; g.env=dict(saved)
    a1,_,_=g.find(lo,hi,'define','c_35'); _,b1,_=g.find(lo,hi,'define','c_46')
    g.stmts(a1,b1,'r1_ctx')
evs(p0,v0,'r1_p_')
g.raw('\n(** the same bindings in [verify] *)')
evs(v0,L,'r1_v_')
g.pre='r1_'; g.env=dict(saved)
g.raw('''
(** divisors of lines 697-799 in evaluation order (z of omega / z; then those of c_35, c_36, c_37,
    c_41, c_43, c_44); [power(z, -cap_d)] returns z unchanged for z = 0 and does not divide. *)
Definition r1_divisors (e : r1_ctx) : outcome error unit :=
  let z := r1_q_z e in let omega := r1_q_omega e in let gamma := r1_gamma e in
  let! _ := nonzero z in
  let! _ := nonzero ((omega - 1 * z) * (gamma * omega - 1 * z)) in
  let! _ := nonzero ((omega - 1 * z) * (1 - z)) in
  let! _ := nonzero ((omega - 1 * z) * (gamma * omega - 1 * z)) in
  let! _ := nonzero (omega - 1 * z) in
  let! _ := nonzero (omega - 1 * z) in
  nonzero (omega - 1 * z).
''')
a,b,args=g.find(p0,v0,'define_vec_mut','g_vec')
ex=P(args[1]); assert ex[1]=='expression_vector'
for k in range(35,47): g.env['c_%d'%k]=('F','(r1_p_c_%d q)'%k)
g.fields([('h_vec_2','V'),('h_vec_3','V')])
t=g.tr()
a2,b2,args2=g.find(p0,v0,'add_to_first_item')
assert args2==['g_vec','c_36']
g.raw(g.cite(a,b,'[g_vec], entry i before the addition of line %d'%a2))
g.raw(g.wrapc('Definition r1_g_at (e : r1_s6) (q : r1_ctx) (i : Z) : F := %s.'%t.fn('i',ex[2][1])))
g.raw(g.wrapc('Definition r1_g_vec (e : r1_s6) (q : r1_ctx) : outcome error (list F) := add_to_first_item (expression_vector (r1_g_at e q) %s) (r1_p_c_36 q).'%t.Zs(ex[2][2])))
g.raw('''
(** *** Keys, proofs, transcripts *)
(** lines 16-25 *)
Record r1_vk := mkR1VK {
  r1_vk_cm_u_vec : G1; r1_vk_cm_w_vec : G1; r1_vk_cm_v_vec : G1; r1_vk_cm_y_vec : G1;
  r1_vk_kzg_vk : verifier_key G1 G2; r1_vk_size : R1CSSize; r1_vk_degree_bound : nat }.
(** lines 4-14 *)
Record r1_pk := mkR1PK {
  r1_pk_verifier_key : r1_vk; r1_pk_powers : list G1; r1_pk_max_degree : nat;
  r1_pk_cap_m_mat : list nat * list nat * list F;
  r1_pk_u_vec : list F; r1_pk_w_vec : list F; r1_pk_v_vec : list F; r1_pk_y_vec : list F }.
(** lines 27-40 *)
Record r1_proof := mkR1Proof {
  r1_cm_u_vec_1 : G1; r1_cm_s_vec : G1; r1_cm_h_vec : G1; r1_cm_r_vec_tilde : G1; r1_cm_t_vec : G1;
  r1_cm_h_vec_2 : G1; r1_cm_h_vec_3 : G1; r1_pf_y : F; r1_pf_y_1 : F;
  r1_cap_w : G1; r1_cap_w_1 : G1 }.

Variable H : list (item F G1) -> F.
Variable gamma : F.   (* generator_of!: FftField::GENERATOR *)
''')
cms=['cm_u_vec_1','cm_s_vec','cm_h_vec','cm_r_vec_tilde','cm_t_vec','cm_h_vec_2','cm_h_vec_3']
for n in ['cm_u_vec','cm_w_vec','cm_v_vec','cm_y_vec']:
    g.alias('pk.verifier_key.'+n,'G','(r1_vk_%s vk)'%n); g.alias('vk.'+n,'G','(r1_vk_%s vk)'%n)
for n in cms+['cm_g']: g.alias(n,'G',n)
g.alias('x_vec','V','x')
for n in ['omega','z','y','y_1']: g.alias(n,'F',n)
def sg(k,extra=''): return '(%s : G1)%s'%(' '.join(cms[:k]+([] if not extra else ['cm_g'])),extra)
sig={'mu':sg(1),'nu':sg(2),'beta':sg(3),'alpha':sg(4),'omega':sg(5),'z':sg(7),'rand_xi':sg(7,' (omega y y_1 z : F)')}
sig['rand_xi_2']=sig['rand_xi']
chs=['mu','nu','beta','alpha','omega','z','rand_xi','rand_xi_2']
for side,lo,hi in [('p',p0,v0),('v',v0,L)]:
    for n in chs:
        it,a,b=g.hash(lo,hi,n)
        g.raw(g.cite(a,b,'challenge [%s] of %s'%(n,'prove' if side=='p' else 'verify')))
        g.raw(g.wrapc('Definition r1_%s_ch_%s (vk : r1_vk) (x : list F) %s : F := H %s.'%(side,n,sig[n],it)))
def lc(lo,hi,pre):
    a,b,args=g.find(lo,hi,'define_commitment_linear_combination','cm_g')
    one_=args[2]; ps=args[3:]
    f=lambda c:'(%s%s q)'%(pre,c)
    l='; '.join('(%s, %s)'%(g.env[ps[k]][1],f(ps[k+1])) for k in range(0,len(ps),2))
    return 'commitment_linear_combination (vk_g (r1_vk_kzg_vk vk)) %s [%s]'%(f(one_),l),a,b
for side,lo,hi,pre in [('p',p0,v0,'r1_p_'),('v',v0,L,'r1_v_')]:
    body,a,b=lc(lo,hi,pre)
    g.raw(g.cite(a,b,'[cm_g]'))
    g.raw(g.wrapc('Definition r1_%s_cm_g (vk : r1_vk) (q : r1_ctx) (%s : G1) : G1 := %s.'%(side,' '.join(cms),body)))
g.raw('''
(** lines 50-58 [get_max_degree]: computed in i64 and cast with [as usize] (a negative value would
    wrap to a huge number and trip the assertion of [index]: [None] here) *)
Definition r1_get_max_degree (size : R1CSSize) : option nat :=
  let d := (- Z.of_nat (rs_nrows size) + 2 * Z.of_nat (rs_ncols size)
            + 2 * Z.of_nat (rs_adensity size) + 2 * Z.of_nat (rs_bdensity size)
            + 2 * Z.of_nat (rs_cdensity size))%Z in
  if (d <? 0)%Z then None else Some (Z.to_nat d).

(** lines 70-73 [setup]: KZG setup with the sampled trapdoor and generators *)
Definition r1_setup (size : nat) (beta : F) (g : G1) (h : G2) := setup size beta g h.

(** lines 75-129 [index] *)
Definition r1_index (pp : universal_params G1 G2) (cs : R1CS F) : outcome error (r1_pk * r1_vk) :=
  let! size := r1cs_get_size cs in
  let cap_d := length (up_powers_of_g pp) in
  match r1_get_max_degree size with
  | None => Panic
  | Some max_degree =>
    let! _ := assert_ (max_degree <? cap_d)%nat in
    let powers_of_g := up_powers_of_g pp in
    let cap_s := (Z.of_nat (rs_adensity size) + Z.of_nat (rs_bdensity size)
                  + Z.of_nat (rs_cdensity size))%Z in
    let cap_m_mat := concat_matrix_vertically (rs_nrows size) (r_arows cs) (r_brows cs) (r_crows cs)
                       (r_acols cs) (r_bcols cs) (r_ccols cs) (r_avals cs) (r_bvals cs) (r_cvals cs) in
    let u_vec := int_array_to_power_vector (fst (fst cap_m_mat)) gamma in
    let w_vec := int_array_to_power_vector (snd (fst cap_m_mat)) gamma in
    let v_vec := snd cap_m_mat in
    let y_vec := hadamard_vector u_vec w_vec in
    let! cm_u_vec := commit_vector powers_of_g u_vec cap_s in
    let! cm_w_vec := commit_vector powers_of_g w_vec cap_s in
    let! cm_v_vec := commit_vector powers_of_g v_vec cap_s in
    let! cm_y_vec := commit_vector powers_of_g y_vec cap_s in
    let! kvk := kzg_vk pp in
    let vk := mkR1VK cm_u_vec cm_w_vec cm_v_vec cm_y_vec kvk size cap_d in
    Ok (mkR1PK vk powers_of_g max_degree cap_m_mat u_vec w_vec v_vec y_vec, vk)
  end.

(** lines 132-144 of [prove], 929-952 of [verify] *)
Definition r1_pub_of (vk : r1_vk) (x : list F) : r1_pub :=
  let size := r1_vk_size vk in
  mkR1Pub (Z.of_nat (rs_nrows size)) (Z.of_nat (rs_ncols size)) (Z.of_nat (rs_adensity size))
          (Z.of_nat (rs_bdensity size)) (Z.of_nat (rs_cdensity size))
          (Z.of_nat (rs_input_size size)) (Z.of_nat (r1_vk_degree_bound vk)) gamma x.

(** lines 144-161: the matrix applied to the assignment, the assignment, and their commitment *)
Definition r1_round1 (pk : r1_pk) (x w : list F) (delta_vec : list F) : outcome error (r1_s1 * G1) :=
  let e := r1_pub_of (r1_pk_verifier_key pk) x in
  let z := [1] ++ x ++ w in
  let '(rows, cols, vals) := r1_pk_cap_m_mat pk in
  let! mz := sparse_mvp (3 * r1_cap_h e)%Z (r1_cap_k e) rows cols vals z in
  let! u_vec_1 := zero_pad_and_concat (vector_concat [mz; z]) (Z.to_nat (r1_vovectorsize e)) [delta_vec] in
  let! cm_u_vec_1 := commit_vector (r1_pk_powers pk) u_vec_1 (r1_vovectorsize e + 1)%Z in
  Ok (mkR1S1 e (r1_pk_u_vec pk) (r1_pk_w_vec pk) (r1_pk_v_vec pk) (r1_pk_y_vec pk) u_vec_1, cm_u_vec_1).

(** lines 173-181 *)
Definition r1_round2 (pk : r1_pk) (e : r1_s2) : outcome error (list F * G1) :=
  let! c_vec := left_sparse_mvp (r1_pk_cap_m_mat pk) (r1_r_vec e) (3 * r1_cap_h e)%Z (r1_cap_k e) in
  let s_vec := concat_neg_vector (r1_r_vec e) c_vec in
  let! cm_s_vec := commit_vector (r1_pk_powers pk) s_vec (3 * r1_cap_h e + r1_cap_k e)%Z in
  Ok (s_vec, cm_s_vec).

(** lines 193-200 *)
Definition r1_round3 (pk : r1_pk) (e : r1_s3) : outcome error (list F * G1) :=
  let! cm_h_vec := commit_vector (r1_pk_powers pk) (r1_h_val e) (r1_cap_k e + r1_ell_1 e)%Z in
  Ok (r1_h_val e, cm_h_vec).

(** lines 213-235 *)
Definition r1_round4 (pk : r1_pk) (e : r1_s4) (delta_vec_1 : list F) : outcome error (list F * G1) :=
  let r_vec_tilde := vector_concat [r1_r_acc e; delta_vec_1] in
  let! cm_r_vec_tilde := commit_vector (r1_pk_powers pk) r_vec_tilde (r1_vovectorsize e + 1)%Z in
  Ok (r_vec_tilde, cm_r_vec_tilde).

(** lines 250-324 *)
Definition r1_round5 (pk : r1_pk) (e : r1_s5) (delta_vec_2 : list F) : outcome error (list F * G1) :=
  let t_vec := vector_concat [delta_vec_2; r1_t_vec_tail e] in
  let! cm_t_vec := commit_vector (r1_pk_powers pk) t_vec (r1_maxshift e + 2)%Z in
  Ok (t_vec, cm_t_vec).

(** lines 338-680; the division of c_13 panics when its divisor is zero *)
Definition r1_round6 (pk : r1_pk) (e : r1_s6) : outcome error (G1 * G1) :=
  let! _ := nonzero (r1_gamma e * r1_omega e) in
  let! cm_h_vec_2 := commit_vector (r1_pk_powers pk) (r1_h_vec_2 e) (r1_cap_d e) in
  let! cm_h_vec_3 := commit_vector (r1_pk_powers pk) (r1_h_vec_3 e) (r1_maxshift e + r1_vovectorsize e)%Z in
  Ok (cm_h_vec_2, cm_h_vec_3).

(** lines 697-704 *)
Definition r1_ctx_of (e : r1_s6) (z : F) : r1_ctx :=
  mkR1Ctx e (r1_mu e) (r1_nu e) (r1_beta e) (r1_alpha e) (r1_omega e) z (r1_y e z) (r1_y_1 e z).

(** lines 697-865: the combined polynomial, checked to vanish at z *)
Definition r1_round7 (e : r1_s6) (z : F) : outcome error (r1_ctx * list F) :=
  let q := r1_ctx_of e z in
  let! _ := r1_divisors q in
  let! g_vec := r1_g_vec e q in
  let! _ := check_poly_eval (strip g_vec) z 0 in
  Ok (q, g_vec).

(** lines 131-927 [prove]; the three randomizer vectors are sampled with one element each *)
Definition r1_prove (pk : r1_pk) (x w : list F) (delta delta_1 delta_2 : F)
  : outcome error r1_proof :=
  let vk := r1_pk_verifier_key pk in
  let! (s1, cm_u_vec_1) := r1_round1 pk x w [delta] in
  let s2 := mkR1S2 s1 (r1_p_ch_mu vk x cm_u_vec_1) in
  let! (s_vec, cm_s_vec) := r1_round2 pk s2 in
  let s3 := mkR1S3 s2 s_vec (r1_p_ch_nu vk x cm_u_vec_1 cm_s_vec) in
  let! (h_vec, cm_h_vec) := r1_round3 pk s3 in
  let s4 := mkR1S4 s3 h_vec (r1_p_ch_beta vk x cm_u_vec_1 cm_s_vec cm_h_vec) in
  let! (r_vec_tilde, cm_r_vec_tilde) := r1_round4 pk s4 [delta_1] in
  let s5 := mkR1S5 s4 r_vec_tilde (r1_p_ch_alpha vk x cm_u_vec_1 cm_s_vec cm_h_vec cm_r_vec_tilde) in
  let! (t_vec, cm_t_vec) := r1_round5 pk s5 [delta_2] in
  let omega := r1_p_ch_omega vk x cm_u_vec_1 cm_s_vec cm_h_vec cm_r_vec_tilde cm_t_vec in
  let s6 := mkR1S6 s5 t_vec omega in
  let! (cm_h_vec_2, cm_h_vec_3) := r1_round6 pk s6 in
  let z := r1_p_ch_z vk x cm_u_vec_1 cm_s_vec cm_h_vec cm_r_vec_tilde cm_t_vec cm_h_vec_2 cm_h_vec_3 in
  let! (q, g_vec) := r1_round7 s6 z in
  let cm_g := r1_p_cm_g vk q cm_u_vec_1 cm_s_vec cm_h_vec cm_r_vec_tilde cm_t_vec cm_h_vec_2 cm_h_vec_3 in
  let y := r1_q_y q in
  let y_1 := r1_q_y_1 q in
  let rand_xi := r1_p_ch_rand_xi vk x cm_u_vec_1 cm_s_vec cm_h_vec cm_r_vec_tilde cm_t_vec
                   cm_h_vec_2 cm_h_vec_3 cm_g omega y y_1 z in
  let rand_xi_2 := r1_p_ch_rand_xi_2 vk x cm_u_vec_1 cm_s_vec cm_h_vec cm_r_vec_tilde cm_t_vec
                   cm_h_vec_2 cm_h_vec_3 cm_g omega y y_1 z in
  let! (cap_w, cap_w_1) := batch_open (r1_pk_powers pk) [strip h_vec; strip (r1_u_vec_1 s6)]
                             [strip g_vec] (omega / z) z rand_xi rand_xi_2 in
  Ok (mkR1Proof cm_u_vec_1 cm_s_vec cm_h_vec cm_r_vec_tilde cm_t_vec cm_h_vec_2 cm_h_vec_3
        y y_1 cap_w cap_w_1).

(** lines 928-1227 [verify]; [randomizer] is the random scalar of [batch_check] *)
Definition r1_verify (vk : r1_vk) (x : list F) (pf : r1_proof) (randomizer : F)
  : outcome error unit :=
  let cm_u_vec_1 := r1_cm_u_vec_1 pf in
  let cm_s_vec := r1_cm_s_vec pf in
  let cm_h_vec := r1_cm_h_vec pf in
  let cm_r_vec_tilde := r1_cm_r_vec_tilde pf in
  let cm_t_vec := r1_cm_t_vec pf in
  let cm_h_vec_2 := r1_cm_h_vec_2 pf in
  let cm_h_vec_3 := r1_cm_h_vec_3 pf in
  let y := r1_pf_y pf in
  let y_1 := r1_pf_y_1 pf in
  let mu := r1_v_ch_mu vk x cm_u_vec_1 in
  let nu := r1_v_ch_nu vk x cm_u_vec_1 cm_s_vec in
  let beta := r1_v_ch_beta vk x cm_u_vec_1 cm_s_vec cm_h_vec in
  let alpha := r1_v_ch_alpha vk x cm_u_vec_1 cm_s_vec cm_h_vec cm_r_vec_tilde in
  let omega := r1_v_ch_omega vk x cm_u_vec_1 cm_s_vec cm_h_vec cm_r_vec_tilde cm_t_vec in
  let z := r1_v_ch_z vk x cm_u_vec_1 cm_s_vec cm_h_vec cm_r_vec_tilde cm_t_vec cm_h_vec_2 cm_h_vec_3 in
  let q := mkR1Ctx (r1_pub_of vk x) mu nu beta alpha omega z y y_1 in
  let! _ := r1_divisors q in
  let cm_g := r1_v_cm_g vk q cm_u_vec_1 cm_s_vec cm_h_vec cm_r_vec_tilde cm_t_vec cm_h_vec_2 cm_h_vec_3 in
  let z1 := omega / z in
  let z2 := z in
  let rand_xi := r1_v_ch_rand_xi vk x cm_u_vec_1 cm_s_vec cm_h_vec cm_r_vec_tilde cm_t_vec
                   cm_h_vec_2 cm_h_vec_3 cm_g omega y y_1 z in
  let rand_xi_2 := r1_v_ch_rand_xi_2 vk x cm_u_vec_1 cm_s_vec cm_h_vec cm_r_vec_tilde cm_t_vec
                   cm_h_vec_2 cm_h_vec_3 cm_g omega y y_1 z in
  if batch_check (r1_vk_kzg_vk vk) [cm_h_vec; cm_u_vec_1] [cm_g] z1 z2 rand_xi rand_xi_2
       [y; y_1] [0] (r1_cap_w pf) (r1_cap_w_1 pf) randomizer
  then Ok tt else Err VerificationFail.

End R1.
Arguments r1_pub F : clear implicits.
Arguments r1_s1 F : clear implicits.
Arguments r1_s2 F : clear implicits.
Arguments r1_s3 F : clear implicits.
Arguments r1_s4 F : clear implicits.
Arguments r1_s5 F : clear implicits.
Arguments r1_s6 F : clear implicits.
Arguments r1_ctx F : clear implicits.
Arguments r1_vk G1 G2 : clear implicits.
Arguments r1_pk F G1 G2 : clear implicits.
Arguments r1_proof F G1 : clear implicits.''')
g.write('/verif/rocq/theories/R1.v')
# hK for the proofs
g2=Gen(src,S,'r1_'); g2.env=dict(saved)
for n in ['mu','nu','beta','alpha','omega']: g2.env[n]=('F','(r1_%s e)'%n)
a,b,args=g2.find(p0,v0,'define_expression_vector','h_vec_3')
body=re.sub(r'\bi \+ 1\b','K',args[2]); assert not re.search(r'\bi\b',body)
g2.raw(g2.wrapc('Definition r1_hK (e : r1_s6 F) (K : Z) : F := %s.'%g2.tr().fn('K',P(body))))
g2.write('/tmp/w/tr/r1_hK.txt')

import rs,pp,re
from gen import Gen
P=rs.parse
src='/repo/voproof/src/snarks/voproof_hpr.rs'
S='snarks/voproof_hpr.rs'
lines=open(src).read().split('\n'); L=len(lines)
p0=next(i for i,l in enumerate(lines) if 'fn prove' in l)+1
v0=next(i for i,l in enumerate(lines) if 'fn verify' in l)+1
g=Gen(src,S,'hp_')
g.raw('''(** HP.v: model of voproof/src/snarks/voproof_hpr.rs, the argument for Hadamard-product relations (HPR).  The long index
    expressions are transcribed mechanically from the Rust text (one Definition per Rust binding,
    named hp_<binding>; tools/gen_hp.py).  [H] is the hash oracle, the randomizers are arguments. *)
From Verif Require Import Base Tools CS KZG Snark.
Local Open Scope F_scope.

Section HP.
Context {F G1 G2 GT : Type} {fo : FieldOps F} {po : PairingOps F G1 G2 GT}.

(** *** Values in scope.  Each record adds the bindings of one round to the previous one. *)

(** public data of a run: sizes (as i64), degree bound, generator and instance
    (%s:153-165, 981-1002) *)
Record hp_pub := mkHPPub {
  hp_cap_h : Z; hp_cap_k : Z; hp_cap_s_a : Z; hp_cap_s_b : Z; hp_cap_s_c : Z; hp_cap_s_d : Z;
  hp_cap_d : Z; hp_gamma : F; hp_x_vec : list F }.
(** bindings of lines 166-175; the matrix vectors are those of the prover key *)
Record hp_s1 := mkHPS1 {
  hp_s1_pub :> hp_pub; hp_u_vec : list F; hp_w_vec : list F; hp_v_vec : list F; hp_y_vec : list F;
  hp_w_vec_1 : list F }.
(** lines 176-186 *)
Record hp_s2 := mkHPS2 { hp_s2_s1 :> hp_s1; hp_mu : F }.
(** lines 187-206 *)
Record hp_s3 := mkHPS3 { hp_s3_s2 :> hp_s2; hp_s_vec : list F; hp_nu : F }.
(** lines 207-226 *)
Record hp_s4 := mkHPS4 { hp_s4_s3 :> hp_s3; hp_h_vec : list F; hp_beta : F }.
(** lines 227-269 *)
Record hp_s5 := mkHPS5 { hp_s5_s4 :> hp_s4; hp_r_vec_tilde : list F; hp_alpha : F }.
(** lines 270-361 *)
Record hp_s6 := mkHPS6 { hp_s6_s5 :> hp_s5; hp_t_vec : list F; hp_omega : F }.
'''%S)
g.fields([(n,'Z') for n in ['cap_h','cap_k','cap_s_a','cap_s_b','cap_s_c','cap_s_d','cap_d']]+[('gamma','F'),('x_vec','V')])
g.fields([('pk.u_vec','V'),('pk.w_vec','V'),('pk.v_vec','V'),('pk.y_vec','V'),('w_vec_1','V')])
def one(mac,name,rec):
    a,b,_=g.find(p0,v0,mac,name); g.stmts(a,b,rec)
one('define','vovectorsize','hp_pub'); one('define','ell','hp_pub')
g.fields([('mu','F')])
one('define_expression_vector_inverse','r_vec','hp_s2')
g.fields([('s_vec','V'),('nu','F')])
one('define_expression_vector_inverse','rnu_vec','hp_s3')
a,b,args=g.find(p0,v0,'define_concat_uwinverse_vector','h_vec')
assert args==['h_vec','rnu_vec','mu','pk.u_vec','nu','pk.w_vec'],args
g.raw(g.cite(a,b,'[h_vec]'))
g.raw('Definition hp_h_val (e : hp_s3) : list F :=\n  concat_uwinverse_vector (hp_rnu_vec e) (hp_mu e) (hp_u_vec e) (hp_nu e) (hp_w_vec e).')
g.fields([('h_vec','V'),('beta','F')])
one('define_expression_vector','r_vec_1','hp_s4')
a,b,args=g.find(p0,v0,'define_concat_vector','r_vec_tilde')
assert args==['r_vec_tilde','accumulate_vector_plus!(r_vec_1)','delta_vec_1'],args
g.raw(g.cite(a,b,'[r_vec_tilde], before the randomizer is appended'))
g.raw('Definition hp_r_acc (e : hp_s4) : list F :=\n  accumulate_vector 0 (fun i => vidx (hp_r_vec_1 e) i) (Z.of_nat (length (hp_r_vec_1 e))) fadd.')
one('define','maxshift','hp_pub')
g.fields([('r_vec_tilde','V'),('alpha','F')])
a1,_,_=g.find(p0,v0,'define','c'); _,b1,_=g.find(p0,v0,'define','c_11')
g.stmts(a1,b1,'hp_s5')
a,b,args=g.find(p0,v0,'define_vec','t_vec')
ex=P(args[1]); assert ex[1]=='vector_concat' and ex[2][0]==('id','delta_vec_2')
ev=ex[2][1]; t=g.tr()
g.raw(g.cite(a,b,'[t_vec]: entry i of the expression following the randomizer'))
g.raw(g.wrapc('Definition hp_t_vec_at (e : hp_s5) (i : Z) : F := %s.'%t.fn('i',ev[2][1])))
g.raw(g.wrapc('Definition hp_t_vec_tail (e : hp_s5) : list F := expression_vector (hp_t_vec_at e) %s.'%t.Zs(ev[2][2])))
g.fields([('t_vec','V'),('omega','F')])
a1,_,_=g.find(p0,v0,'define','c_12'); _,b1,_=g.find(p0,v0,'define_expression_vector','h_vec_3')
g.stmts(a1,b1,'hp_s6')
# evaluation stage
g.raw('''
(** *** The evaluation round: lines 738-854 of [prove] and 1084-1192 of [verify].
    [hp_ctx] holds what both sides know after the challenge z. *)
Record hp_ctx := mkHPCtx {
  hp_ctx_pub :> hp_pub; hp_q_mu : F; hp_q_nu : F; hp_q_beta : F; hp_q_alpha : F; hp_q_omega : F;
  hp_q_z : F; hp_q_y : F; hp_q_y_1 : F }.''')
t=g.tr()
for nm in ['y','y_1']:
    a,b,args=g.find(p0,v0,'define_eval_vector_expression',nm)
    g.raw(g.cite(a,b,'[%s]'%nm))
    g.raw(g.wrapc('Definition hp_%s (e : hp_s6) (z : F) : F := eval_vector_expression (hp_omega e / z) (fun i => %s) %s.'%(nm,t.fn('i',P(args[3])),t.Zs(P(args[4])))))
    assert args[1]=='omega / z'
for nm in ['mu','nu','beta','alpha','omega','z','y','y_1']:
    g.env[nm]=('F','(hp_q_%s e)'%nm)
saved=dict(g.env)
def evs(lo,hi,pre):
    g.pre=pre; g.env=dict(saved)
    a1,_,_=g.find(lo,hi,'define','y_2'); _,b1,_=g.find(lo,hi,'define','c_46')
    g.stmts(a1,b1,'hp_ctx')
evs(p0,v0,'hp_p_')
g.raw('\n(** the same bindings in [verify] *)')
evs(v0,L,'hp_v_')
g.pre='hp_'; g.env=dict(saved)
g.raw('''
(** divisors of lines 738-852 in evaluation order (z of omega / z; then those of c_35, c_36, c_37,
    c_41, c_43, c_44); [power(z, -cap_d)] returns z unchanged for z = 0 and does not divide. *)
Definition hp_divisors (e : hp_ctx) : outcome error unit :=
  let z := hp_q_z e in let omega := hp_q_omega e in let gamma := hp_gamma e in
  let! _ := nonzero z in
  let! _ := nonzero ((omega - 1 * z) * (gamma * omega - 1 * z)) in
  let! _ := nonzero ((omega - 1 * z) * (1 - z)) in
  let! _ := nonzero ((omega - 1 * z) * (gamma * omega - 1 * z)) in
  let! _ := nonzero (omega - 1 * z) in
  let! _ := nonzero (omega - 1 * z) in
  nonzero (omega - 1 * z).
''')
a,b,args=g.find(p0,v0,'define_vec_mut','g_vec')
ex=P(args[1]); assert ex[1]=='expression_vector'
for k in range(35,47): g.env['c_%d'%k]=('F','(hp_p_c_%d q)'%k)
g.fields([('h_vec_2','V'),('h_vec_3','V')])
t=g.tr()
a2,b2,args2=g.find(p0,v0,'add_to_first_item')
assert args2==['g_vec','c_36']
g.raw(g.cite(a,b,'[g_vec], entry i before the addition of line %d'%a2))
g.raw(g.wrapc('Definition hp_g_at (e : hp_s6) (q : hp_ctx) (i : Z) : F := %s.'%t.fn('i',ex[2][1])))
g.raw(g.wrapc('Definition hp_g_vec (e : hp_s6) (q : hp_ctx) : outcome error (list F) := add_to_first_item (expression_vector (hp_g_at e q) %s) (hp_p_c_36 q).'%t.Zs(ex[2][2])))
g.raw('''
(** *** Keys, proofs, transcripts *)
(** lines 16-25 *)
Record hp_vk := mkHPVK {
  hp_vk_cm_u_vec : G1; hp_vk_cm_w_vec : G1; hp_vk_cm_v_vec : G1; hp_vk_cm_y_vec : G1;
  hp_vk_kzg_vk : verifier_key G1 G2; hp_vk_size : HPRSize; hp_vk_degree_bound : nat }.
(** lines 4-14 *)
Record hp_pk := mkHPPK {
  hp_pk_verifier_key : hp_vk; hp_pk_powers : list G1; hp_pk_max_degree : nat;
  hp_pk_cap_m_mat : list nat * list nat * list F;
  hp_pk_u_vec : list F; hp_pk_w_vec : list F; hp_pk_v_vec : list F; hp_pk_y_vec : list F }.
(** lines 27-40 *)
Record hp_proof := mkHPProof {
  hp_cm_w_vec_1 : G1; hp_cm_s_vec : G1; hp_cm_h_vec : G1; hp_cm_r_vec_tilde : G1; hp_cm_t_vec : G1;
  hp_cm_h_vec_2 : G1; hp_cm_h_vec_3 : G1; hp_pf_y : F; hp_pf_y_1 : F;
  hp_cap_w : G1; hp_cap_w_1 : G1 }.

Variable H : list (item F G1) -> F.
Variable gamma : F.   (* generator_of!: FftField::GENERATOR *)
''')
cms=['cm_w_vec_1','cm_s_vec','cm_h_vec','cm_r_vec_tilde','cm_t_vec','cm_h_vec_2','cm_h_vec_3']
for n in ['cm_u_vec','cm_w_vec','cm_v_vec','cm_y_vec']:
    g.alias('pk.verifier_key.'+n,'G','(hp_vk_%s vk)'%n); g.alias('vk.'+n,'G','(hp_vk_%s vk)'%n)
for n in cms+['cm_g']: g.alias(n,'G',n)
g.alias('x_vec','V','x')
for n in ['omega','z','y','y_1']: g.alias(n,'F',n)
def sg(k,extra=''): return '(%s : G1)%s'%(' '.join(cms[:k]+([] if not extra else ['cm_g'])),extra)
sig={'mu':sg(1),'nu':sg(2),'beta':sg(3),'alpha':sg(4),'omega':sg(5),'z':sg(7),'rand_xi':sg(7,' (omega y y_1 z : F)')}
sig['rand_xi_2']=sig['rand_xi']
chs=['mu','nu','beta','alpha','omega','z','rand_xi','rand_xi_2']
for side,lo,hi in [('p',p0,v0),('v',v0,L)]:
    for n in chs:
        it,a,b=g.hash(lo,hi,n)
        g.raw(g.cite(a,b,'challenge [%s] of %s'%(n,'prove' if side=='p' else 'verify')))
        g.raw(g.wrapc('Definition hp_%s_ch_%s (vk : hp_vk) (x : list F) %s : F := H %s.'%(side,n,sig[n],it)))
def lc(lo,hi,pre):
    a,b,args=g.find(lo,hi,'define_commitment_linear_combination','cm_g')
    one_=args[2]; ps=args[3:]
    f=lambda c:'(%s%s q)'%(pre,c)
    l='; '.join('(%s, %s)'%(g.env[ps[k]][1],f(ps[k+1])) for k in range(0,len(ps),2))
    return 'commitment_linear_combination (vk_g (hp_vk_kzg_vk vk)) %s [%s]'%(f(one_),l),a,b
for side,lo,hi,pre in [('p',p0,v0,'hp_p_'),('v',v0,L,'hp_v_')]:
    body,a,b=lc(lo,hi,pre)
    g.raw(g.cite(a,b,'[cm_g]'))
    g.raw(g.wrapc('Definition hp_%s_cm_g (vk : hp_vk) (q : hp_ctx) (%s : G1) : G1 := %s.'%(side,' '.join(cms),body)))
g.raw('''
(** lines 51-58 [get_max_degree] *)
Definition hp_get_max_degree (size : HPRSize) : nat :=
  5 * hs_ncols size + 2 * hs_adensity size + 2 * hs_bdensity size + 2 * hs_cdensity size
  + 2 * hs_ddensity size + 2.

(** lines 70-73 [setup]: KZG setup with the sampled trapdoor and generators *)
Definition hp_setup (size : nat) (beta : F) (g : G1) (h : G2) := setup size beta g h.

(** lines 75-151 [index] *)
Definition hp_index (pp : universal_params G1 G2) (cs : HPR F) : outcome error (hp_pk * hp_vk) :=
  let! size := hpr_get_size cs in
  let max_degree := hp_get_max_degree size in
  let cap_d := length (up_powers_of_g pp) in
  let! _ := assert_ (max_degree <? cap_d)%nat in
  let powers_of_g := up_powers_of_g pp in
  let cap_s := (Z.of_nat (hs_adensity size) + Z.of_nat (hs_bdensity size)
                + Z.of_nat (hs_cdensity size) + Z.of_nat (hs_ddensity size))%Z in
  let cap_m_mat := concat_matrix_horizontally (hs_ncols size) (h_arows cs) (h_brows cs) (h_crows cs)
                     (h_acols cs) (h_bcols cs) (h_ccols cs) (h_avals cs) (h_bvals cs) (h_cvals cs)
                     (h_drows cs) (h_dvals cs) in
  let u_vec := int_array_to_power_vector (fst (fst cap_m_mat)) gamma in
  let w_vec := int_array_to_power_vector (snd (fst cap_m_mat)) gamma in
  let v_vec := snd cap_m_mat in
  let y_vec := hadamard_vector u_vec w_vec in
  let! cm_u_vec := commit_vector powers_of_g u_vec cap_s in
  let! cm_w_vec := commit_vector powers_of_g w_vec cap_s in
  let! cm_v_vec := commit_vector powers_of_g v_vec cap_s in
  let! cm_y_vec := commit_vector powers_of_g y_vec cap_s in
  let! kvk := kzg_vk pp in
  let vk := mkHPVK cm_u_vec cm_w_vec cm_v_vec cm_y_vec kvk size cap_d in
  Ok (mkHPPK vk powers_of_g max_degree cap_m_mat u_vec w_vec v_vec y_vec, vk).

(** lines 153-165 of [prove], 981-1002 of [verify] *)
Definition hp_pub_of (vk : hp_vk) (x : list F) : hp_pub :=
  let size := hp_vk_size vk in
  mkHPPub (Z.of_nat (hs_nrows size)) (Z.of_nat (hs_ncols size)) (Z.of_nat (hs_adensity size))
          (Z.of_nat (hs_bdensity size)) (Z.of_nat (hs_cdensity size))
          (Z.of_nat (hs_ddensity size)) (Z.of_nat (hp_vk_degree_bound vk)) gamma x.

(** lines 166-175: the three witness parts concatenated, padded, randomized and committed *)
Definition hp_round1 (pk : hp_pk) (x : list F) (w : list F * list F * list F) (delta_vec : list F)
  : outcome error (hp_s1 * G1) :=
  let e := hp_pub_of (hp_pk_verifier_key pk) x in
  let '(wa, wb, wc) := w in
  let! w_vec_1 := zero_pad_and_concat (vector_concat [wa; wb; wc]) (Z.to_nat (hp_vovectorsize e)) [delta_vec] in
  let! cm_w_vec_1 := commit_vector (hp_pk_powers pk) w_vec_1 (hp_vovectorsize e + 1)%Z in
  Ok (mkHPS1 e (hp_pk_u_vec pk) (hp_pk_w_vec pk) (hp_pk_v_vec pk) (hp_pk_y_vec pk) w_vec_1, cm_w_vec_1).

(** lines 187-195 *)
Definition hp_round2 (pk : hp_pk) (e : hp_s2) : outcome error (list F * G1) :=
  let! c_vec := left_sparse_mvp (hp_pk_cap_m_mat pk) (hp_r_vec e) (hp_cap_h e) (3 * hp_cap_k e + 1)%Z in
  let s_vec := concat_neg_vector (hp_r_vec e) c_vec in
  let! cm_s_vec := commit_vector (hp_pk_powers pk) s_vec (hp_cap_h e + 3 * hp_cap_k e + 1)%Z in
  Ok (s_vec, cm_s_vec).

(** lines 207-214 *)
Definition hp_round3 (pk : hp_pk) (e : hp_s3) : outcome error (list F * G1) :=
  let! cm_h_vec := commit_vector (hp_pk_powers pk) (hp_h_val e) (3 * hp_cap_k e + hp_ell e + 1)%Z in
  Ok (hp_h_val e, cm_h_vec).

(** lines 227-252 *)
Definition hp_round4 (pk : hp_pk) (e : hp_s4) (delta_vec_1 : list F) : outcome error (list F * G1) :=
  let r_vec_tilde := vector_concat [hp_r_acc e; delta_vec_1] in
  let! cm_r_vec_tilde := commit_vector (hp_pk_powers pk) r_vec_tilde (hp_vovectorsize e + 1)%Z in
  Ok (r_vec_tilde, cm_r_vec_tilde).

(** lines 270-347 *)
Definition hp_round5 (pk : hp_pk) (e : hp_s5) (delta_vec_2 : list F) : outcome error (list F * G1) :=
  let t_vec := vector_concat [delta_vec_2; hp_t_vec_tail e] in
  let! cm_t_vec := commit_vector (hp_pk_powers pk) t_vec (hp_maxshift e + 2)%Z in
  Ok (t_vec, cm_t_vec).

(** lines 362-721; the division of c_13 panics when its divisor is zero, and [vector_power_mul!] of
    line 447-452 overflows (a panic in the debug profile) when its length argument is negative *)
Definition hp_round6 (pk : hp_pk) (e : hp_s6) : outcome error (G1 * G1) :=
  let! _ := nonzero (hp_gamma e * hp_omega e) in
  let! _ := assert_ (0 <=? - hp_cap_h e + hp_ell e)%Z in
  let! cm_h_vec_2 := commit_vector (hp_pk_powers pk) (hp_h_vec_2 e) (hp_cap_d e) in
  let! cm_h_vec_3 := commit_vector (hp_pk_powers pk) (hp_h_vec_3 e) (hp_maxshift e + hp_vovectorsize e)%Z in
  Ok (cm_h_vec_2, cm_h_vec_3).

(** lines 738-745 *)
Definition hp_ctx_of (e : hp_s6) (z : F) : hp_ctx :=
  mkHPCtx e (hp_mu e) (hp_nu e) (hp_beta e) (hp_alpha e) (hp_omega e) z (hp_y e z) (hp_y_1 e z).

(** lines 738-917: the combined polynomial, checked to vanish at z *)
Definition hp_round7 (e : hp_s6) (z : F) : outcome error (hp_ctx * list F) :=
  let q := hp_ctx_of e z in
  let! _ := hp_divisors q in
  let! g_vec := hp_g_vec e q in
  let! _ := check_poly_eval (strip g_vec) z 0 in
  Ok (q, g_vec).

(** lines 152-979 [prove]; the three randomizer vectors are sampled with one element each *)
Definition hp_prove (pk : hp_pk) (x : list F) (w : list F * list F * list F) (delta delta_1 delta_2 : F)
  : outcome error hp_proof :=
  let vk := hp_pk_verifier_key pk in
  let! (s1, cm_w_vec_1) := hp_round1 pk x w [delta] in
  let s2 := mkHPS2 s1 (hp_p_ch_mu vk x cm_w_vec_1) in
  let! (s_vec, cm_s_vec) := hp_round2 pk s2 in
  let s3 := mkHPS3 s2 s_vec (hp_p_ch_nu vk x cm_w_vec_1 cm_s_vec) in
  let! (h_vec, cm_h_vec) := hp_round3 pk s3 in
  let s4 := mkHPS4 s3 h_vec (hp_p_ch_beta vk x cm_w_vec_1 cm_s_vec cm_h_vec) in
  let! (r_vec_tilde, cm_r_vec_tilde) := hp_round4 pk s4 [delta_1] in
  let s5 := mkHPS5 s4 r_vec_tilde (hp_p_ch_alpha vk x cm_w_vec_1 cm_s_vec cm_h_vec cm_r_vec_tilde) in
  let! (t_vec, cm_t_vec) := hp_round5 pk s5 [delta_2] in
  let omega := hp_p_ch_omega vk x cm_w_vec_1 cm_s_vec cm_h_vec cm_r_vec_tilde cm_t_vec in
  let s6 := mkHPS6 s5 t_vec omega in
  let! (cm_h_vec_2, cm_h_vec_3) := hp_round6 pk s6 in
  let z := hp_p_ch_z vk x cm_w_vec_1 cm_s_vec cm_h_vec cm_r_vec_tilde cm_t_vec cm_h_vec_2 cm_h_vec_3 in
  let! (q, g_vec) := hp_round7 s6 z in
  let cm_g := hp_p_cm_g vk q cm_w_vec_1 cm_s_vec cm_h_vec cm_r_vec_tilde cm_t_vec cm_h_vec_2 cm_h_vec_3 in
  let y := hp_q_y q in
  let y_1 := hp_q_y_1 q in
  let rand_xi := hp_p_ch_rand_xi vk x cm_w_vec_1 cm_s_vec cm_h_vec cm_r_vec_tilde cm_t_vec
                   cm_h_vec_2 cm_h_vec_3 cm_g omega y y_1 z in
  let rand_xi_2 := hp_p_ch_rand_xi_2 vk x cm_w_vec_1 cm_s_vec cm_h_vec cm_r_vec_tilde cm_t_vec
                   cm_h_vec_2 cm_h_vec_3 cm_g omega y y_1 z in
  let! (cap_w, cap_w_1) := batch_open (hp_pk_powers pk) [strip h_vec; strip (hp_w_vec_1 s6)]
                             [strip g_vec] (omega / z) z rand_xi rand_xi_2 in
  Ok (mkHPProof cm_w_vec_1 cm_s_vec cm_h_vec cm_r_vec_tilde cm_t_vec cm_h_vec_2 cm_h_vec_3
        y y_1 cap_w cap_w_1).

(** lines 980-1287 [verify]; [randomizer] is the random scalar of [batch_check] *)
Definition hp_verify (vk : hp_vk) (x : list F) (pf : hp_proof) (randomizer : F)
  : outcome error unit :=
  let cm_w_vec_1 := hp_cm_w_vec_1 pf in
  let cm_s_vec := hp_cm_s_vec pf in
  let cm_h_vec := hp_cm_h_vec pf in
  let cm_r_vec_tilde := hp_cm_r_vec_tilde pf in
  let cm_t_vec := hp_cm_t_vec pf in
  let cm_h_vec_2 := hp_cm_h_vec_2 pf in
  let cm_h_vec_3 := hp_cm_h_vec_3 pf in
  let y := hp_pf_y pf in
  let y_1 := hp_pf_y_1 pf in
  let mu := hp_v_ch_mu vk x cm_w_vec_1 in
  let nu := hp_v_ch_nu vk x cm_w_vec_1 cm_s_vec in
  let beta := hp_v_ch_beta vk x cm_w_vec_1 cm_s_vec cm_h_vec in
  let alpha := hp_v_ch_alpha vk x cm_w_vec_1 cm_s_vec cm_h_vec cm_r_vec_tilde in
  let omega := hp_v_ch_omega vk x cm_w_vec_1 cm_s_vec cm_h_vec cm_r_vec_tilde cm_t_vec in
  let z := hp_v_ch_z vk x cm_w_vec_1 cm_s_vec cm_h_vec cm_r_vec_tilde cm_t_vec cm_h_vec_2 cm_h_vec_3 in
  let q := mkHPCtx (hp_pub_of vk x) mu nu beta alpha omega z y y_1 in
  let! _ := hp_divisors q in
  let cm_g := hp_v_cm_g vk q cm_w_vec_1 cm_s_vec cm_h_vec cm_r_vec_tilde cm_t_vec cm_h_vec_2 cm_h_vec_3 in
  let z1 := omega / z in
  let z2 := z in
  let rand_xi := hp_v_ch_rand_xi vk x cm_w_vec_1 cm_s_vec cm_h_vec cm_r_vec_tilde cm_t_vec
                   cm_h_vec_2 cm_h_vec_3 cm_g omega y y_1 z in
  let rand_xi_2 := hp_v_ch_rand_xi_2 vk x cm_w_vec_1 cm_s_vec cm_h_vec cm_r_vec_tilde cm_t_vec
                   cm_h_vec_2 cm_h_vec_3 cm_g omega y y_1 z in
  if batch_check (hp_vk_kzg_vk vk) [cm_h_vec; cm_w_vec_1] [cm_g] z1 z2 rand_xi rand_xi_2
       [y; y_1] [0] (hp_cap_w pf) (hp_cap_w_1 pf) randomizer
  then Ok tt else Err VerificationFail.

End HP.
Arguments hp_pub F : clear implicits.
Arguments hp_s1 F : clear implicits.
Arguments hp_s2 F : clear implicits.
Arguments hp_s3 F : clear implicits.
Arguments hp_s4 F : clear implicits.
Arguments hp_s5 F : clear implicits.
Arguments hp_s6 F : clear implicits.
Arguments hp_ctx F : clear implicits.
Arguments hp_vk G1 G2 : clear implicits.
Arguments hp_pk F G1 G2 : clear implicits.
Arguments hp_proof F G1 : clear implicits.''')
g.write('/verif/rocq/theories/HP.v')
# hK for the proofs
g2=Gen(src,S,'hp_'); g2.env=dict(saved)
for n in ['mu','nu','beta','alpha','omega']: g2.env[n]=('F','(hp_%s e)'%n)
a,b,args=g2.find(p0,v0,'define_expression_vector','h_vec_3')
body=re.sub(r'\bi \+ 1\b','K',args[2]); assert not re.search(r'\bi\b',body)
g2.raw(g2.wrapc('Definition hp_hK (e : hp_s6 F) (K : Z) : F := %s.'%g2.tr().fn('K',P(body))))
g2.write('/tmp/w/tr/hp_hK.txt')

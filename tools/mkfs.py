import re,sys
TH='/verif/rocq/theories/'
def block(px,file,mod,xtype,okdef,mp):
    s=re.sub(r'\s+',' ',open(TH+file).read())
    ds=re.findall(r'Definition %s_v_ch_(\w+) (\(vk.*?) : F := H \[(.*?)\]\.'%px,s,re.S)
    out=[]
    fields=[];chs=[]
    for nm,args,items in ds:
        args=re.sub(r'\s+',' ',args)
        names=[]
        for grp in re.findall(r'\(([^()]*?) : ((?:[^()]|\([^()]*\))*)\)',args):
            for n in grp[0].split(): names.append((n,grp[1]))
        chs.append((nm,[n for n,_ in names],re.sub(r'\s+',' ',items)))
        for n,t in names:
            if n not in [f for f,_ in fields]: fields.append((n,t))
    key=[]
    for nm,_,items in chs:
        for k in re.findall(r'\(%s_vk_(\w+) vk\)'%px,items):
            if k not in key: key.append(k)
    T={'vk':'%s_vk G1 G2'%px}
    ft=lambda n,t: T.get(n, xtype if n=='x' else t)
    U=px.upper()
    out.append('(** ** %s *)\n(** everything that is sent in a run of the argument *)'%mod)
    out.append('Record %s_msgs := mk%sMsgs { %s }.'%(px,U,'; '.join('%s_%s : %s'%(mp,n,ft(n,t)) for n,t in fields)))
    out.append('Definition %s_ok (a : %s_msgs) : Prop := %s.'%(px,px,okdef))
    for nm,ns,_ in chs:
        out.append('Definition %s_fs_%s H (a : %s_msgs) : F := %s_v_ch_%s H %s.'%(px,nm,px,px,nm,' '.join('(%s_%s a)'%(mp,n) for n in ns)))
    out.append('(** the commitments in the verifier key *)')
    out.append('Definition %s_key (a : %s_msgs) := (%s).'%(px,px,', '.join('%s_vk_%s (%s_vk a)'%(px,k,mp) for k in key)))
    out.append('\nTheorem c50_%s_binds : good_ser ser_F -> good_ser ser_G ->'%px)
    L=[]
    for nm,ns,_ in chs:
        v=['%s_key a'%px]+['%s_%s a'%(mp,n) for n in ns if n not in('vk','omega')]
        if 'omega' in ns: v.append('%s_omega a / %s_z a'%(mp,mp))
        L.append('  binds %s_fs_%s %s_ok (fun a => (%s))'%(px,nm,px,', '.join(v)))
    out.append(' /\\\n'.join(L)+'.')
    out.append('Proof. intros GF GG. repeat match goal with |- _ /\\ _ => split end; bt. Qed.')
    out.append('(** No two challenges of a run hash the same bytes. *)')
    out.append('Theorem c50_%s_separate : good_ser ser_F -> good_ser ser_G ->\n  ForallOrdPairs (separate %s_ok) [%s].'%(px,px,'; '.join('%s_fs_%s'%(px,n) for n,_,_ in chs)))
    out.append('Proof.\n  intros GF GG. repeat (apply FOP_nil || apply FOP_cons || apply Forall_nil || apply Forall_cons); st.\nQed.\n')
    return '\n'.join(out)
if __name__=='__main__':
    head=r'''(** Properties_FS2.v: the challenges of the R1CS arguments depend on every earlier message (C50, continued). *)
From Verif Require Import Base Spec Tools CS KZG Snark R1 RP Transcript TranscriptProofs TranscriptSpec Properties_Tools Properties_Snark Properties_FS.
Local Open Scope F_scope.

Section S.
Context {F G1 G2 GT : Type} {fo : FieldOps F} {fl : FieldLaws F} {po : PairingOps F G1 G2 GT}.
Variable ser_F : F -> list nat.
Variable ser_G : G1 -> list nat.
Notation binds := (binds ser_F ser_G).
Notation separate := (separate ser_F ser_G).
Ltac msg_eq := repeat apply pair_eq; cbn [fst snd]; assumption.
Ltac bt := eapply binds_of; [assumption|assumption|intros; reflexivity
  |let a := fresh in let Ha := fresh in intros a Ha; repeat constructor; cbn [item_ok]; try assumption
  |intros; reflexivity
  |let a := fresh in let b := fresh in let E := fresh in intros a b E; injection E; intros; msg_eq].
Ltac st := eapply separate_of; [assumption|assumption|intros; reflexivity
  |let a := fresh in let Ha := fresh in intros a Ha; repeat constructor; cbn [item_ok]; try assumption
  |intros; reflexivity
  |let a := fresh in let Ha := fresh in intros a Ha; repeat constructor; cbn [item_ok]; try assumption
  |intros; cbn [map kind_of app]; reflexivity
  |let a := fresh in let b := fresh in let E := fresh in intros a b E;
   solve [discriminate E | injection E; intros; apply one_two; congruence]].

'''
    body=block('r1','R1.v','voproof_r1cs','list F','u64_ok (length (qm_x a))','qm')+'\n'+block('rp','RP.v','voproof_r1cs_prover_efficient','list F','u64_ok (length (nm_x a))','nm')
    tail='''
End S.

Print Assumptions c50_r1_binds.
Print Assumptions c50_r1_separate.
Print Assumptions c50_rp_binds.
Print Assumptions c50_rp_separate.
'''
    open(TH+'Properties_FS2.v','w').write(head+body+tail)

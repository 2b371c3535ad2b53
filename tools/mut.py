#!/usr/bin/env python3
"""mutation harness.  usage: mut.py queue.json worker_id results.jsonl"""
import sys,os,re,json,subprocess,shutil,time
BASE='/tmp/mut/base'
def files():
    return [l.split('/')[-1].strip() for l in open(BASE+'/_CoqProject') if l.strip().endswith('.v')]
FS=files()
def deps(f):
    t=open('%s/theories/%s'%(BASE,f)).read()
    d=set()
    for m in re.finditer(r'From Verif Require (?:Import|Export)\s+([^.]*)\.',t):
        d|=set(x+'.v' for x in m.group(1).split())
    return d
DEP={f:deps(f) for f in FS}
def closure(f):
    s=set(); st=[f]
    while st:
        x=st.pop()
        if x in s: continue
        s.add(x); st+=list(DEP[x])
    return s
PROPS=[f for f in FS if f.startswith('Properties_')]
HDR=re.compile(r'^[ \t]*(?:#\[[^\]]*\]\s*)?(?:Local |Global )?(Lemma|Theorem|Example|Corollary|Fact|Remark|Instance|Definition|Fixpoint|Record|Inductive|Program Definition)\s+([A-Za-z0-9_\']+)',re.M)
def coqc(w,f,to):
    cmd='cd %s && ulimit -v 9000000; exec timeout %d coqc -time -q -Q theories Verif theories/%s'%(w,to,f)
    p=subprocess.run(['bash','-c',cmd],stdout=subprocess.PIPE,stderr=subprocess.STDOUT,text=True,errors='replace')
    return p.returncode,p.stdout
def flags(w):
    pass
def errpos(w,f,rc,out):
    b=open('%s/theories/%s'%(w,f),'rb').read()
    if rc==124 or rc==137:
        ms=re.findall(r'^Chars (\d+) - (\d+)',out,re.M)
        return int(ms[-1][1])+1 if ms else 0
    ms=list(re.finditer(r'File "[^"]*", line (\d+), characters (\d+)-(\d+):\s*\nError',out))
    if not ms:
        ms=list(re.finditer(r'File "[^"]*", line (\d+), characters (\d+)-(\d+):',out))
    if not ms:
        ms=re.findall(r'^Chars (\d+) - (\d+)',out,re.M)
        return int(ms[-1][1])+1 if ms else 0
    l=int(ms[-1].group(1)); c=int(ms[-1].group(2))
    pos=0
    for i,line in enumerate(b.split(b'\n')):
        if i==l-1: return pos+c
        pos+=len(line)+1
    return pos
def admit(w,f,pos):
    """replace the proof containing byte pos by Admitted; return lemma name or None"""
    p='%s/theories/%s'%(w,f)
    b=open(p,'rb').read(); t=b.decode()
    cpos=len(b[:pos].decode(errors='replace'))
    hs=[m for m in HDR.finditer(t) if m.start()<=cpos]
    if not hs: return None
    h=hs[-1]
    pr=re.compile(r'\bProof\b[^.]*\.').search(t,h.start())
    if not pr: return None
    qed=re.compile(r'\b(Qed|Defined|Admitted)\.').search(t,pr.end())
    if not qed: return None
    nxt=HDR.search(t,h.end())
    if nxt and nxt.start()<pr.start(): return None
    if qed.group(1)=='Admitted': return None
    if cpos>qed.end()+2 and False: return None
    t=t[:pr.start()]+'Admitted.'+t[qed.end():]
    open(p,'w').write(t)
    return h.group(2)
def run(mu,w,stop_early=True):
    shutil.rmtree(w,ignore_errors=True); subprocess.run(['cp','-a',BASE,w],check=True)
    p='%s/theories/%s'%(w,mu['file']); t=open(p).read()
    # locate definition
    m=re.search(r'^\s*(?:Fixpoint|Definition|Inductive|Record)\s+%s\b'%re.escape(mu['def']),t,re.M)
    if not m: return {'status':'nodef'}
    e=re.compile(r'\.\s*(?:\n|$)').search(t,m.end())
    # definition may hold several sentences?  take up to next (** or blank Definition
    seg=t[m.start():e.end()]
    if seg.count(mu['old'])!=1 and not mu.get('first'): return {'status':'old occurs %d times'%seg.count(mu['old'])}
    seg2=seg.replace(mu['old'],mu['new'],1)
    t=t[:m.start()]+seg2+t[e.end():]
    open(p,'w').write(t)
    dirty={mu['file']}; done=set(); failed=[]; broken=[]; cfail=[]
    allf=FS
    t0=time.time()
    for P in PROPS:
        cl=closure(P)
        if not (mu['file'] in cl): continue
        for f in FS:
            if f not in cl or f in done: continue
            if f!=mu['file'] and not (closure(f)&dirty): continue
            tries=0
            while True:
                rc,out=coqc(w,f,mu.get('timeout',900))
                if rc==0: break
                tries+=1
                pos=errpos(w,f,rc,out)
                nm=admit(w,f,pos)
                if nm is None:
                    broken.append(f+': '+out[-400:]); break
                failed.append(f[:-2]+'.'+nm)
                if tries>40: broken.append(f+' too many'); break
            done.add(f); dirty.add(f)
            if broken: break
        if broken: break
        if P in done:
            ths=re.findall(r'^(?:Theorem|Example)\s+(c\d\d\w*)',open('%s/theories/%s'%(w,P)).read(),re.M)
            chk='From Verif Require Import %s.\n'%P[:-2]+''.join('Goal True. idtac "THM %s". Abort.\nPrint Assumptions %s.\n'%(n,n) for n in ths)
            open(w+'/theories/Chk.v','w').write(chk)
            rc,out=coqc(w,'Chk.v',900)
            cur=None
            for line in out.split('\n'):
                mm=re.match(r'THM (\S+)',line)
                if mm: cur=mm.group(1)
                elif line.startswith('Axioms:') and cur: cfail.append(cur)
            if stop_early and [c for c in cfail if '_example' not in c]: break
    # a Definition broken: find names
    return {'status':'broken' if broken else ('killed' if cfail else 'SURVIVED'),'lemmas':failed,'theorems':cfail,'broken':broken,'secs':round(time.time()-t0)}
if __name__=='__main__':
    q=json.load(open(sys.argv[1])); wid=sys.argv[2]; res=sys.argv[3]
    nw=int(sys.argv[4]) if len(sys.argv)>4 else 1
    for i,mu in enumerate(q):
        if i%nw!=int(wid): continue
        try: r=run(mu,'/tmp/mut/w'+wid)
        except Exception as ex: r={'status':'exception '+repr(ex)}
        with open(res,'a') as fo: fo.write(json.dumps({**mu,**r})+'\n')

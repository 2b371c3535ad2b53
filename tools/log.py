import json,sys,glob
out=[]
tight=json.load(open('/tmp/mut/tight.json')) if glob.glob('/tmp/mut/tight.json') else {}
for fn in sorted(glob.glob('/tmp/mut/r*.jsonl')):
  for l in open(fn):
    r=json.loads(l)
    if r['status'].startswith('old occurs') or r['status']=='nodef': continue
    if r['status']=='broken' and not r.get('keep'): continue
    d={'definition':'%s (%s)'%(r['def'],r['file']),'edit':'%s  ==>  %s'%(r['old'],r['new']),'claim':r['claim'],'outcome':r['status'].lower(),'theorems_failed':r['theorems'],'lemmas_failed':r['lemmas'],'theorems_tightened':tight.get(r['def']+'|'+r['new'],[])}
    if r['status']=='SURVIVED': d['note']=r.get('note') or 'equivalent program: '+r['claim']
    out.append(d)
open('/verif/seeded/LOG.jsonl','w').write(''.join(json.dumps(x)+'\n' for x in out))
print(len(out), sum(x['outcome']=='killed' for x in out))
for x in out:
    if x['outcome']=='killed' and not [t for t in x['theorems_failed'] if '_example' not in t]: print('ONLYEX',x['definition'],x['edit'],x['theorems_failed'],x['claim'])
    if x['outcome']!='killed': print(x)

import re, textwrap, rs, pp
class Gen:
    def __init__(g,path,short,prefix):
        g.path=path; g.short=short; g.pre=prefix; g.root=prefix; g.out=[]; g.env={}
    def wrapc(g,txt,ind=2):
        txt=re.sub(r'([A-Za-z_0-9]+) ([eq])(?=[ ).;,]|$)',lambda m:m.group(1)+'\x01'+m.group(2) if m.group(1).startswith(g.root) else m.group(0),txt)
        txt=re.sub(r' (?=[^ ()]|\()',lambda m:' ',txt)
        txt=re.sub(r'(vidx|power_vidx|power|range_index|delta|minus_i64|finv) ',lambda m:m.group(1)+'\x01',txt)
        txt=re.sub(r'([-*/]) ',lambda m:m.group(1)+'\x01',txt)
        return g.wrapd(txt,ind).replace('\x01',' ')
    def wrapd(g,txt,ind=2):
        lines=[]
        for para in txt.split('\n'):
            w=textwrap.wrap(para,width=100,subsequent_indent=' '*ind,break_long_words=False,break_on_hyphens=False)
            lines+= w or ['']
        return '\n'.join(lines)
    def raw(g,txt): g.out.append(txt.rstrip('\n'))
    def cite(g,a,b,what=''):
        return '(** %s:%s%s *)'%(g.short,a if a==b else '%d-%d'%(a,b),' '+what if what else '')
    def defn(g,name,rec,ty,body,a,b,kind,note=''):
        """emit Definition pre_name (e : rec) : ty := body and register"""
        g.raw(g.cite(a,b,'[%s]%s'%(name,(': '+note) if note else '')))
        g.raw(g.wrapc('Definition %s%s (e : %s) : %s := %s.'%(g.pre,name,rec,ty,body)))
        g.env[name]=(kind,'(%s%s e)'%(g.pre,name))
    def fields(g,names):
        for n,k in names: g.env[n]=(k,'(%s%s e)'%(g.pre,n.split('.')[-1] if '.' in n else n))
    def alias(g,rust,kind,coq): g.env[rust]=(kind,coq)
    def tr(g): return pp.Tr(g.env)
    def stmts(g,lo,hi,rec,skip=(),only=None,rename=lambda n:n):
        P=rs.parse
        for (a,b,m,txt) in rs.statements(g.path,lo,hi):
            args=rs.splitargs(txt); t=g.tr()
            if m in skip: continue
            nm=rename(args[0]) if args else None
            def reg(rust,kind): g.env[rust]=(kind,'(%s%s e)'%(g.pre,rename(rust)))
            def emit(rust,ty,body,kind,note=''):
                g.raw(g.cite(a,b,'[%s]%s'%(rust,(': '+note) if note else '')))
                g.raw(g.wrapc('Definition %s%s (e : %s) : %s := %s.'%(g.pre,rename(rust),rec,ty,body)))
                reg(rust,kind)
            if m=='define':
                ex=P(args[1])
                try: body=t.Zp(ex)[0]; emit(args[0],'Z','(%s)%%Z'%body,'Z')
                except Exception as zerr:
                    try: body=t.Ftop(ex)
                    except Exception as ferr: raise Exception('line %d: Z:%s F:%s'%(a,zerr,ferr))
                    emit(args[0],'F',body,'F')
            elif m in('define_vector_poly_mul_shift',):
                u=t.V(P(args[1])); v=t.V(P(args[2])); om=t.F(P(args[3]))
                emit(args[0],'list F','vector_poly_mul %s %s %s'%(u,v,om),'V')
                emit(args[4],'Z','(Z.of_nat (length %s) - 1)%%Z'%u,'Z')
            elif m=='define_vector_poly_mul_no_dict':
                u=t.V(P(args[1])); v=t.V(P(args[2])); om=t.F(P(args[3]))
                emit(args[0],'list F','vector_poly_mul %s %s %s'%(u,v,om),'V')
            elif m=='define_vector_reverse_omega_shift':
                u=t.V(P(args[1])); om=t.F(P(args[2]))
                emit(args[0],'list F','vector_reverse_omega %s %s'%(u,om),'V')
                emit(args[3],'Z','(Z.of_nat (length %s) - 1)%%Z'%u,'Z')
            elif m=='define_vector_power_mul':
                emit(args[0],'list F','vector_power_mul %s %s (Z.to_nat %s)'%(t.V(P(args[1])),t.F(P(args[2])),t.Zs(P(args[3]))),'V')
            elif m=='define_power_power_mul':
                emit(args[0],'list F','power_power_mul %s (Z.to_nat %s) %s (Z.to_nat %s)'%(t.F(P(args[1])),t.Zs(P(args[2])),t.F(P(args[3])),t.Zs(P(args[4]))),'V')
            elif m=='define_expression_vector':
                i=args[1]
                g.raw(g.cite(a,b,'[%s], entry %s (from 1)'%(args[0],i)))
                g.raw(g.wrapc('Definition %s%s_at (e : %s) (%s : Z) : F := %s.'%(g.pre,rename(args[0]),rec,i,t.fn(i,P(args[2])))))
                g.raw(g.wrapc('Definition %s%s (e : %s) : list F := expression_vector (%s%s_at e) %s.'%(g.pre,rename(args[0]),rec,g.pre,rename(args[0]),t.Zs(P(args[3])))))
                reg(args[0],'V')
            elif m=='define_expression_vector_inverse':
                i=args[1]
                g.raw(g.cite(a,b,'[%s], entry %s (from 1) before inversion'%(args[0],i)))
                g.raw(g.wrapc('Definition %s%s_at (e : %s) (%s : Z) : F := %s.'%(g.pre,rename(args[0]),rec,i,t.fn(i,P(args[2])))))
                g.raw(g.wrapc('Definition %s%s (e : %s) : list F := expression_vector_inverse (%s%s_at e) %s.'%(g.pre,rename(args[0]),rec,g.pre,rename(args[0]),t.Zs(P(args[3])))))
                reg(args[0],'V')
            elif m=='define_eval_vector_expression':
                i=args[2]
                emit(args[0],'F','eval_vector_expression %s (fun %s => %s) %s'%(t.F(P(args[1])),i,t.fn(i,P(args[3])),t.Zs(P(args[4]))),'F')
            elif m=='get_randomness_from_hash': pass
            elif m in('define_vec','define_vec_mut'):
                emit(args[0],'list F',t.V(P(args[1])),'V')
            elif m=='define_vector_domain_evaluations_dict': pass
            else: raise Exception('statement %s at %d'%(m,a))
    def hashitems(g,txt,var='e'):
        items=[]
        for x in txt: items.append(g.item(x))
        return '[%s]'%'; '.join(items)
    def item(g,x):
        if x=='one!()': return 'IF 1'
        if x.startswith('scalar_to_field'): return 'IF (1 + 1)'
        k,c=g.env[x] if x in g.env else (None,None)
        if k=='F': return 'IF '+c
        if k=='G': return 'IG '+c
        if k=='NL': return 'INs '+c
        if k=='V': return 'IFs '+c
        a=rs.parse(x); return 'IF '+g.tr().F(a)
    def hash(g,lo,hi,name):
        for (a,b,m,txt) in rs.statements(g.path,lo,hi):
            args=rs.splitargs(txt)
            if m=='get_randomness_from_hash' and args[0]==name:
                return g.hashitems(args[1:]),a,b
        raise Exception('no hash '+name)
    def find(g,lo,hi,mac,name=None):
        for (a,b,m,txt) in rs.statements(g.path,lo,hi):
            args=rs.splitargs(txt)
            if m==mac and (name is None or args[0]==name): return a,b,args
        raise Exception('no %s %s'%(mac,name))
    def write(g,f):
        open(f,'w').write('\n'.join(g.out)+'\n')

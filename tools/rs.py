"""Rust expression -> Coq translator for the generated argument files."""
import re
TOK=re.compile(r'\s*(?:(\d+)|([A-Za-z_][A-Za-z_0-9]*(?:\s*\.\s*[A-Za-z_0-9]+)*!?)|(::|\+=|==|[-+*/(),\[\]<>&|{};=.!:?]))')
def lex(s):
    out=[];i=0
    while i<len(s):
        if s[i:].strip()=='' : break
        if s[i:].lstrip().startswith('//'):
            j=s.index('//',i); k=s.find('\n',j); i=k if k>=0 else len(s); continue
        if s[i:].lstrip().startswith('"'):
            j=s.index('"',i); k=s.index('"',j+1); out.append(('str',s[j:k+1])); i=k+1; continue
        m=TOK.match(s,i)
        if not m: raise Exception('lex '+repr(s[i:i+40]))
        if m.group(1): out.append(('int',m.group(1)))
        elif m.group(2): out.append(('id',re.sub(r'\s','',m.group(2))))
        else: out.append(('op',m.group(3)))
        i=m.end()
    return out
class P:
    def __init__(s,toks): s.t=toks; s.i=0
    def pk(s): return s.t[s.i] if s.i<len(s.t) else (None,None)
    def nx(s): x=s.pk(); s.i+=1; return x
    def ex(s,o):
        x=s.nx()
        if x[1]!=o: raise Exception('expected %s got %s at %s'%(o,x,s.t[max(0,s.i-6):s.i+6]))
    def expr(s):
        a=s.term()
        while s.pk()==('op','+') or s.pk()==('op','-'):
            o=s.nx()[1]; b=s.term(); a=(o,a,b)
        return a
    def term(s):
        a=s.unary()
        while s.pk()==('op','*') or s.pk()==('op','/'):
            o=s.nx()[1]; b=s.unary(); a=(o,a,b)
        return a
    def unary(s):
        if s.pk()==('op','-'):
            s.nx(); a=s.unary(); return ('neg',a)
        if s.pk()==('op','&'):
            s.nx(); return s.unary()
        return s.post()
    def post(s):
        a=s.atom()
        while True:
            if s.pk()==('op','.'):
                s.nx(); m=s.nx()[1]
                if s.pk()==('op','('):
                    args=s.args(); a=('meth',m,a,args)
                else: a=('field',a,m)
            elif s.pk()==('id','as'):
                s.nx(); s.nx()
            elif s.pk()==('op','?'):
                s.nx(); a=('try',a)
            else: return a
    def args(s):
        s.ex('('); l=[]
        while s.pk()!=('op',')'):
            l.append(s.expr())
            if s.pk()==('op',','): s.nx()
        s.ex(')'); return l
    def atom(s):
        k,v=s.nx()
        if k=='int': return ('int',v)
        if k=='str': return ('str',v)
        if k=='op' and v=='(':
            a=s.expr(); s.ex(')'); return ('par',a)
        if k=='id':
            if v.endswith('!'): return ('mac',v[:-1],s.args())
            if s.pk()==('op','('):
                parts=v.split('.')
                if len(parts)==1: return ('call',v,s.args())
                # method call on dotted ident
                base='.'.join(parts[:-1]); return ('meth',parts[-1],('id',base),s.args())
            return ('id',v)
        raise Exception('atom %s %s at %s'%(k,v,s.t[max(0,s.i-6):s.i+6]))
def parse(txt):
    p=P(lex(txt)); a=p.expr()
    if p.i!=len(p.t): raise Exception('trailing %s'%p.t[p.i:p.i+8])
    return a

class Tr:
    """kinds: names -> (kind, coq) ; kind in F,Z,V (vector), N list"""
    def __init__(s,env): s.env=env
    def name(s,v): 
        if v in s.env: return s.env[v][1]
        raise Exception('unknown name '+v)
    def kind(s,v): return s.env[v][0]
    def Z(s,a):
        t=a[0]
        if t=='int': return a[1]
        if t=='id':
            assert s.kind(a[1])=='Z',a; return s.name(a[1])
        if t in '+-*': return '(%s %s %s)'%(s.Z(a[1]),t,s.Z(a[2]))
        if t=='neg': return '(- %s)'%s.Z(a[1])
        if t=='par': return s.Z(a[1])
        if t=='mac':
            m,args=a[1],a[2]
            if m=='minus_i64': return '(minus_i64 %s %s)'%(s.Z(args[0]),s.Z(args[1]))
            if m=='max':
                r=s.Z(args[-1])
                for b in reversed(args[:-1]): r='(Z.max %s %s)'%(s.Z(b),r)
                return r
        if t=='meth' and a[1]=='len': return '(Z.of_nat (length %s))'%s.V(a[2])
        if t=='meth' and a[1]=='clone': return s.Z(a[2])
        raise Exception('Z? %s'%(a,))
    def Zs(s,a):
        r=s.Z(a); return r if re.match(r'^[\w\d]+$',r) and not r.isdigit() else r+'%Z'
    def V(s,a):
        if a[0]=='id':
            assert s.kind(a[1]) in('V','NL'),a; return s.name(a[1])
        if a[0]=='meth' and a[1] in('clone','to_vec'): return s.V(a[2])
        if a[0]=='par': return s.V(a[1])
        if a[0]=='mac':
            m,x=a[1],a[2]
            if m=='vector_concat':
                return '(vector_concat [%s])'%('; '.join(s.V(y) for y in x))
            if m=='expression_vector':
                return s.exprvec(x[0][1],x[1],x[2])
            if m=='zero_pad': return '(zero_pad_total %s %s)'%(s.V(x[0]),s.Zs(x[1]))
            if m=='accumulate_vector_plus' and len(x)==1: return '(accumulate_vector 0 (fun i => vidx %s i) (Z.of_nat (length %s)) fadd)'%(s.V(x[0]),s.V(x[0]))
        raise Exception('V? %s'%(a,))
    def exprvec(s,i,e,n):
        old=s.env.get(i); s.env[i]=('Z',i)
        r='(expression_vector (fun %s => %s) %s)'%(i,s.F(e),s.Zs(n))
        if old: s.env[i]=old
        else: del s.env[i]
        return r
    def fn(s,i,e):
        old=s.env.get(i); s.env[i]=('Z',i); r=s.F(e)
        if old: s.env[i]=old
        else: del s.env[i]
        return r
    def F(s,a):
        t=a[0]
        if t=='id':
            assert s.kind(a[1])=='F',a; return s.name(a[1])
        if t in '+-*/': return '(%s %s %s)'%(s.F(a[1]),t,s.F(a[2]))
        if t=='neg': return '(- %s)'%s.F(a[1])
        if t=='par': return s.F(a[1])
        if t=='call' and a[1]=='power': return '(power %s %s)'%(s.F(a[2][0]),s.Zs(a[2][1]))
        if t=='meth' and a[1]=='unwrap' and a[2][0]=='meth' and a[2][1]=='inverse':
            return '(finv %s)'%s.F(a[2][2])
        if t=='meth' and a[1]=='clone': return s.F(a[2])
        if t=='mac':
            m,x=a[1],a[2]
            if m=='one': return '1'
            if m=='zero': return '0'
            if m=='vector_index': return '(vidx %s %s)'%(s.V(x[0]),s.Zs(x[1]))
            if m=='power_vector_index': return '(power_vidx %s %s %s)'%(s.F(x[0]),s.Zs(x[1]),s.Zs(x[2]))
            if m=='range_index': return '(range_index %s %s %s)'%tuple(s.Zs(y) for y in x)
            if m=='delta': return '(delta %s %s)'%tuple(s.Zs(y) for y in x)
            if m=='mul':
                r=s.F(x[0])
                for y in x[1:]: r='(%s * %s)'%(r,s.F(y))
                return r
            if m=='minus': return '(%s - %s)'%(s.F(x[0]),s.F(x[1]))
            if m=='inverse': return '(finv %s)'%s.F(x[0])
            if m=='scalar_to_field' and x[0]==('int','2'): return '(1 + 1)'
            if m=='eval_sparse_vector': return '(eval_sparse_vector %s %s %s)'%(s.F(x[0]),s.V(x[1]),s.V(x[2]))
            if m=='eval_sparse_zero_one_vector': return '(eval_sparse_zero_one_vector %s %s)'%(s.F(x[0]),s.V(x[1]))
            if m=='eval_vector_as_poly': return '(eval_vector_as_poly %s %s)'%(s.V(x[0]),s.F(x[1]))
            if m=='eval_vector_expression':
                i=x[1][1]
                return '(eval_vector_expression %s (fun %s => %s) %s)'%(s.F(x[0]),i,s.fn(i,x[2]),s.Zs(x[3]))
            if m in('linear_combination_base_zero','linear_combination'):
                if m=='linear_combination': b=s.F(x[0]); x=x[1:]
                else: b='0'
                ps=['(%s, %s)'%(s.F(x[k]),s.F(x[k+1])) for k in range(0,len(x),2)]
                return '(linear_combination %s [%s])'%(b,'; '.join(ps))
            if m=='power_linear_combination':
                return '(power_linear_combination %s [%s])'%(s.F(x[0]),'; '.join(s.F(y) for y in x[1:]))
        raise Exception('F? %s'%(a,))

def statements(path,lo,hi):
    """top level macro statements between lines lo..hi: (l0,l1,macro,argtext)"""
    lines=open(path).read().split('\n')
    text='\n'.join(lines[lo-1:hi]); res=[]; i=0
    pat=re.compile(r'([a-z_0-9]+)!\s*([\(\{])')
    while True:
        m=pat.search(text,i)
        if not m: break
        # must be at statement start
        j=m.end()-1; depth=0; k=j; instr=False
        while True:
            c=text[k]
            if c=='"': instr=not instr
            if not instr:
                if c in '([{': depth+=1
                if c in ')]}':
                    depth-=1
                    if depth==0: break
            k+=1
        l0=lo+text.count('\n',0,m.start()); l1=lo+text.count('\n',0,k)
        res.append((l0,l1,m.group(1),text[j+1:k])); i=k+1
    return res
def splitargs(txt):
    out=[];d=0;cur=''; instr=False
    for c in txt:
        if c=='"': instr=not instr
        if not instr:
            if c in '([{': d+=1
            if c in ')]}': d-=1
            if c==',' and d==0: out.append(cur.strip()); cur=''; continue
        cur+=c
    if cur.strip(): out.append(cur.strip())
    return out

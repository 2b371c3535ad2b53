"""precedence printing layer over rs.Tr"""
import re, rs
class Tr(rs.Tr):
    # returns strings with minimal parens; prec: 0 atom/app, 35 neg, 40 mul, 50 add
    def app(s,st): return st
    def unp(s,r):
        if r.startswith('(') and r.endswith(')'):
            d=0
            for k,c in enumerate(r):
                if c=='(':d+=1
                if c==')':
                    d-=1
                    if d==0 and k<len(r)-1: return r,0
            return r[1:-1],10
        return r,0
    def wrap(s,st,p,maxp): return '('+st+')' if p>maxp else st
    def Fp(s,a):
        t=a[0]
        if t in ('+','-'):
            l,lp=s.Fp(a[1]); r,rp=s.Fp(a[2])
            return '%s %s %s'%(s.wrap(l,lp,50),t,s.wrap(r,rp,49)),50
        if t in ('*','/'):
            l,lp=s.Fp(a[1]); r,rp=s.Fp(a[2])
            return '%s %s %s'%(s.wrap(l,lp,40),t,s.wrap(r,rp,39)),40
        if t=='neg':
            l,lp=s.Fp(a[1]); return '- %s'%('(1)' if l=='1' else s.wrap(l,lp,34)),35
        if t=='par': return s.Fp(a[1])
        r=rs.Tr.F(s,a)
        return s.unp(r)
    def F(s,a):
        r,p=s.Fp(a)
        return s.wrap(r,p,1) 
    def Ftop(s,a): return s.Fp(a)[0]
    def Zp(s,a):
        t=a[0]
        if t in ('+','-'):
            l,lp=s.Zp(a[1]); r,rp=s.Zp(a[2])
            return '%s %s %s'%(s.wrap(l,lp,50),t,s.wrap(r,rp,49)),50
        if t=='*':
            l,lp=s.Zp(a[1]); r,rp=s.Zp(a[2])
            return '%s * %s'%(s.wrap(l,lp,40),s.wrap(r,rp,39)),40
        if t=='neg':
            l,lp=s.Zp(a[1]); return '- %s'%s.wrap(l,lp,34),35
        if t=='par': return s.Zp(a[1])
        return s.unp(rs.Tr.Z(s,a))
    def Z(s,a):
        r,p=s.Zp(a); return s.wrap(r,p,1)
    def Zs(s,a):
        r,p=s.Zp(a)
        if p==0: return r if not r.isdigit() else r+'%Z'
        if p==10 and not any(ch in r for ch in '+-*') and not r.startswith('minus'): return '('+r+')'
        return '('+r+')%Z'
    def exprvec(s,i,e,n):
        return '(expression_vector (fun %s => %s) %s)'%(i,s.fn(i,e),s.Zs(n))
    def fn(s,i,e):
        old=s.env.get(i); s.env[i]=('Z',i); r=s.Fp(e)[0]
        if old: s.env[i]=old
        else: del s.env[i]
        return r

# usage: gen.py cfg  -> Gallina definitions for the straight-line part of a generated C file
import re,sys
def tokens(s): return re.findall(r'[A-Za-z_]\w*|\d+\.?\d*|\.\d+|<=|>=|==|[-+*/()\[\],<>]',s)
class P:
    def __init__(s,t,env,decls,args): s.t=t;s.i=0;s.env=env;s.d=decls;s.args=args
    def pk(s): return s.t[s.i] if s.i<len(s.t) else None
    def nx(s): s.i+=1; return s.t[s.i-1]
    def expr(s):
        r=s.term()
        while s.pk() in('+','-'):
            o=s.nx(); r='%s %s %s'%(r,o,s.term())
        return r
    def term(s):
        r=s.unary()
        while s.pk() in('*','/'):
            o=s.nx(); r='%s %s %s'%(r,o,s.unary(True))
        return r
    def unary(s,par=False):
        if s.pk()=='-':
            s.nx(); r='- '+s.atom(); return '('+r+')' if par else '('+r+')'
        return s.atom()
    def num(s,x):
        if '.' not in x: return x
        a,b=x.split('.'); b=b.rstrip('0')
        if b=='': return a or '0'
        if x in('0.5',): return '(1 / 2)'
        if re.match(r'^0\.3{16,}$',x): return '(1 / 3)'
        if re.match(r'^0\.6{15,}7$',x): return '(2 / 3)'
        if re.match(r'^0\.16{15,}7$',x): return '(1 / 6)'
        if x=='0.25': return '(1 / 4)'
        if x=='1.5': return '(3 / 2)'
        return '(%d / %d)'%(int(a+b),10**len(b))
    def atom(s):
        x=s.nx()
        if x=='(':
            r=s.expr(); assert s.nx()==')'; return '('+r+')'
        if re.match(r'[\d.]',x): return s.num(x)
        if s.pk()=='(':
            s.nx(); a=[s.cexpr()]
            while s.pk()==',': s.nx(); a.append(s.cexpr())
            assert s.nx()==')'
            return s.call(x,a)
        if s.pk()=='[':
            s.nx(); assert s.nx()=='ijk'; assert s.nx()==']'
        return s.var(x)
    def cexpr(s):
        r=s.expr()
        if s.pk()=='<=':
            s.nx(); q=s.expr(); return 'Rle_dec (%s) (%s)'%(r,q)
        return r
    def call(s,f,a):
        if f=='pow2': return 'pow2 (%s)'%a[0] if not re.match(r'^\w+$',a[0]) else 'pow2 '+a[0]
        if f=='Power':
            m=re.match(r'^\(?- ?(\d+)\)?$',a[1])
            if re.match(r'^\d+$',a[1]): return '(%s) ^ %s'%(a[0],a[1]) if not re.match(r'^\w+$',a[0]) else '%s ^ %s'%(a[0],a[1])
            if m: return '/ ((%s) ^ %s)'%(a[0],m.group(1))
            return 'Rpower (%s) (%s)'%(a[0],a[1])
        if f=='Cal': return '(if %s then %s else %s)'%tuple(a)
        if f in('fabs','sqrt','log','exp'): return {'fabs':'Rabs','sqrt':'sqrt','log':'ln','exp':'exp'}[f]+' (%s)'%a[0]
        raise Exception(f)
    def var(s,x):
        if x=='PI': return 'PI'
        if x in s.env: return '(%s %s)'%(s.env[x],s.args)
        if x in s.d: return '(%s %s)'%(s.d[x],s.args)
        raise Exception('unknown '+x)
def statements(src,lo,hi):
    # returns list of (kind, text, l0, l1): from lines lo..hi (1-based)
    L=open(src).read().split('\n'); out=[];cur='';l0=None
    incom=False
    for n in range(lo,hi+1):
        s=re.sub(r'/\*.*?\*/','',L[n-1]).strip().rstrip('\\').strip()
        if not s: continue
        if s.startswith('//'): continue
        if not cur: l0=n
        cur+=(' ' if cur else '')+s
        if re.match(r'^if ?\(.*\) ?\{$',cur): out.append(('if',re.match(r'^if ?\((.*)\) ?\{$',cur).group(1),l0,n));cur=''
        elif re.match(r'^\} ?else ?\{$',cur): out.append(('else','',l0,n));cur=''
        elif cur=='}': out.append(('end','',l0,n));cur=''
        elif cur.endswith(';'):
            m=re.match(r'^([A-Za-z_]\w*)(\[ijk\])? *= *(.*);$',cur,re.S)
            if m: out.append(('set',(m.group(1),m.group(3)),l0,n))
            else: raise Exception('stmt '+cur)
            cur=''
    return out
class Gen:
    def __init__(s,prefix,fname,rec,args='a'):
        s.p=prefix;s.f=fname;s.rec=rec;s.args=args;s.env={};s.ver={};s.decl={};s.out=[];s.cond={}
    def d(s,x,e,c): # input
        s.decl[x]=s.p+x; s.out.append('Definition %s%s (a : %s) : R := %s. (* %s:%s *)'%(s.p,x,s.rec,e,s.f,c))
    def new(s,x):
        s.ver[x]=s.ver.get(x,0)+1
        n=s.p+x
        k=s.ver[x]+(1 if x in s.decl else 0)
        return n if k==1 else '%s_%d'%(n,k)
    def define(s,x,e,c):
        n=s.new(x); s.out.append('Definition %s (a : %s) : R := %s. (* %s:%s *)'%(n,s.rec,e,s.f,c)); s.env[x]=n
    def parse(s,e):
        p=P(tokens(e),s.env,s.decl,s.args); r=p.expr(); assert p.i==len(p.t),(e,p.i,p.t); return r
    def run(s,st):
        stack=[]
        for k,t,a,b in st:
            c='%d'%a if a==b else '%d-%d'%(a,b)
            if k=='set': s.define(t[0],s.parse(t[1]),c)
            elif k=='if': stack.append([t,dict(s.env),None,c])
            elif k=='else': stack[-1][2]=dict(s.env); s.env=dict(stack[-1][1])
            elif k=='end':
                if not stack: continue
                cnd,e0,et,c=stack.pop(); cd=s.cond[cnd]
                ee=dict(s.env)
                if et is None: et=ee; ee=e0
                res=dict(e0)
                for x in sorted(set(et)|set(ee),key=lambda z:(len(s.out),z)):
                    t_=et.get(x);e_=ee.get(x)
                    if t_==e_: res[x]=t_; continue
                    if t_ is None: t_=s.decl.get(x)
                    if e_ is None: e_=s.decl.get(x)
                    if t_ and e_:
                        n=s.new(x); s.out.append('Definition %s (a : %s) : R := if %s then %s a else %s a. (* %s:%s *)'%(n,s.rec,cd,t_,e_,s.f,c)); res[x]=n
                    else: res[x]=t_ or e_
                s.env=res

# emit views
import itertools
def view(nm,base,rank,sym=None,suffix='',pre='adm_'):
    # sym: tuple of index pairs symmetric (canonical = sorted)
    out=[];cs=[];names=set()
    for ix in itertools.product('123',repeat=rank):
        c=list(ix)
        for (p,q) in (sym or []):
            if c[p]>c[q]: c[p],c[q]=c[q],c[p]
        n=pre+base+''.join(c)+suffix; names.add(n)
        cs.append('%s => %s a'%(', '.join('D'+i for i in ix),n))
    vs=['i','j','k','l'][:rank]
    s='Definition %s (a : adm_in) (%s : d3) : R := match %s with %s end.\n'%(nm,' '.join(vs),', '.join(vs),' | '.join(cs))
    s+='Ltac u_%s := cbv beta iota delta [%s %s].\n'%(nm,nm,' '.join(sorted(names)))
    return s

import sys,re; sys.path.insert(0,'/root/work/gen')
from gen import *
src='/repo/src/physics/ADMvars/ADMconstraints.c'
g=Gen('adm_','ADMconstraints.c','adm_in')
L=open(src).read().split('\n')
lists={'psiandderivs':'a_psi','u':'a_u'}
idx={'ADMvars_dgxxx':'a_dg','ADMvars_ddgxxxx':'a_ddg','ADMvars_dKxxx':'a_dK','ADMvars_dalpx':'a_dalp','ADMvars_ddalpxx':'a_ddalp'}
unused=set('beta1 '.split())
for n,l in enumerate(L,1):
    m=re.match(r'double \*(\w+) = vlldataptr\((\w+), box, (\d+)\);',l)
    if m:
        if int(m.group(3))>=26 and m.group(2)=='u': continue
        g.d(m.group(1),'%s a %s'%(lists[m.group(2)],m.group(3)),n)
    m=re.match(r'double \*(\w+) = box->v\[index_(\w+) \+ (\d+)\];',l)
    if m: g.d(m.group(1),'%s a %s'%(idx[m.group(2)],m.group(3)),n)
start=[n for n,l in enumerate(L,1) if 'Jetzt geht' in l][0]+1
end=[n for n,l in enumerate(L,1) if 'end of points' in l or 'end of loop over' in l]
g.cond={'rho==NULL':'a_null a 16','j1==NULL':'a_null a 17','S11==NULL':'a_null a 20','normConstr':'a_norm a','TermByTerm':'a_term a'}
print(start,end,L[start-1:start+2],file=sys.stderr)
st=statements(src,start,end[0]-1)
g.run(st)
hdr=r'''(** Model of src/physics/ADMvars/ADMconstraints.c: the constraints of general relativity at one grid point.
    The C code is straight-line code (made with Mathematica) for each point ijk; there is one definition here for each assignment, in the same order, with the same expression, and the lines it comes from.
    A variable that is assigned again becomes a new definition with a number at the end of its name.
    Simplifications: the value at one point, as a real number; the derivatives (lines 31-40) are inputs. *)
From Verif Require Import Rutil.
Local Open Scope R_scope.
(** The values at the point ijk: the list psiandderivs, the variable list u, the derivatives of g, K and alpha (ADMconstraints.c:44-181); whether component n of u has no storage; the parameters ADMvars_normalizedConstraints and ADMvars_ConstraintNorm (22-23) *)
Record adm_in := MkAdm { a_psi : nat -> R; a_u : nat -> R; a_dg : nat -> R; a_ddg : nat -> R; a_dK : nat -> R; a_dalp : nat -> R; a_ddalp : nat -> R; a_null : nat -> bool; a_norm : bool; a_term : bool }.
(** #define pow2(x), ADMconstraints.c:10 *)
Definition pow2 (x : R) : R := x * x.
'''
open('/verif/rocq/theories/Adm_model.v','w').write(hdr+'\n'.join(g.out)+'\n')

import sys,re; sys.path.insert(0,'/root/work/gen')
import gen
from gen import *
src='/repo/src/physics/BSSN/BSSN_rhs.c'
text=open(src).read(); L=text.split('\n')
flags='addlinear recomputeAzz recomputegzz subtractA normalizedetg GReplacedBydg GentlePhiRHS densitizedLapse densitizedoplogWithoutShift'.split()
flagsR='evolveGamma nonconstantlapse oploglapse oploglapse2 oplogwithshift harmoniclapse subtractK0 addliealpha addalphaRHSterm forceKzerofactor gamma0factor gamma2factor evolveshift'.split()
pars='YoTermFactor RtoRminusHfactor alphaDensityWeight lapsepsipower lapseharmonicf shiftpsipower shiftalphapower shiftgammacoeff shiftdriver'.split()
def ln(n): return [k for k,l in enumerate(L,1) if re.match(r'(int|double) +%s *='%n,l)][0]
fl=flags[1:]+flagsR
hdr=r'''(** Model of src/physics/BSSN/BSSN_rhs.c: one time step, or the right hand sides, of the BSSN evolution equations at one grid point.
    One definition for each assignment of the straight-line C code, in the same order, with the same expression and the lines it comes from; a variable that is assigned again becomes a new definition with a number at the end of its name, and after a conditional there is a definition that chooses between the two.
    Simplifications: the values at one point, as real numbers; the derivatives (BSSN_rhs.c:656-703) are inputs; the literals 0.333..., 0.666...7 and 0.1666...7 with 16 or more digits are 1/3, 2/3, 1/6; pow with a real exponent is Rpower, which agrees with it for a positive base; usepsi is 1 (22), so 2179 is always true; the errorexit at 3366 is bs_error. *)
From Verif Require Import Rutil Adm_model.
Local Open Scope R_scope.
(** the parameters that are switches, BSSN_rhs.c:21-46 *)
Inductive bflag := '''+' | '.join('F'+x for x in fl)+r'''.
(** the numerical parameters, 29-52 *)
Inductive bpar := '''+' | '.join('P'+x for x in pars)+r'''.
(** The values at the point: K_initial, psiandderivs, ucur, upre, the derivatives of g, A, phi, G, K, alpha, beta, the term alphaRHS, and dt (BSSN_rhs.c:64-317) *)
Record bs_in := MkBs { s_K0 : R; s_psi : nat -> R; s_u : nat -> R; s_pre : nat -> R; s_dg : nat -> R; s_ddg : nat -> R; s_dA : nat -> R; s_dphi : nat -> R; s_ddphi : nat -> R; s_dG : nat -> R; s_dK : nat -> R;
  s_dalp : nat -> R; s_ddalp : nat -> R; s_dbeta : nat -> R; s_ddbeta : nat -> R; s_rhs : R; s_dt : R; s_flag : bflag -> bool; s_par : bpar -> R }.
(** BSSN_rhs.c:21 *)
Definition bs_addlinear (a : bs_in) : bool := if Req_EM_T (s_dt a) 0 then false else true.
'''
g=Gen('bs_','BSSN_rhs.c','bs_in')
for x in flagsR: g.d(x,'if s_flag a F%s then 1 else 0'%x,ln(x))
for x in pars: g.d(x,'s_par a P%s'%x,ln(x))
g.d('dt','s_dt a',17)
lists={'psiandderivs':'s_psi','ucur':'s_u','upre':'s_pre'}
idx={'ADMvars_dgxxx':'s_dg','ADMvars_ddgxxxx':'s_ddg','ADMvars_dKxxx':'s_dA','BSSN_dphix':'s_dphi','BSSN_ddphixx':'s_ddphi','BSSN_dGxx':'s_dG','BSSN_dKx':'s_dK','BSSN_dalpx':'s_dalp','BSSN_ddalpxx':'s_ddalp','BSSN_dbetaxx':'s_dbeta','BSSN_ddbetaxxx':'s_ddbeta'}
for n,l in enumerate(L,1):
    m=re.match(r'double \*(\w+) = vlldataptr\((\w+), box, (\d+)\);',l)
    if m:
        if m.group(2)=='unew': continue
        if m.group(2)=='K_initial': g.d('K0','s_K0 a',n); continue
        g.d(m.group(1),'%s a %s'%(lists[m.group(2)],m.group(3)),n)
    m=re.match(r'double \*(\w+) = box->v\[index_(\w+) \+ (\d+)\];',l)
    if m:
        if m.group(2)=='BSSN_alphaRHSterm': g.d('alphaRHS','s_rhs a',n); continue
        g.d(m.group(1),'%s a %s'%(idx[m.group(2)],m.group(3)),n)
g.cond={x:'s_flag a F'+x for x in flags}
g.cond['addlinear']='bs_addlinear a'
g.cond['GentlePhiRHS && KK > Abshamil']='(s_flag a FGentlePhiRHS && (if Rlt_dec (bs_Abshamil a) (bs_KK a) then true else false))%bool'
# drop errorexit line and the usepsi conditional
tmp=list(L)
for k,l in enumerate(tmp):
    if l.startswith('errorexit("error in nalpha'): tmp[k]='';print('err',k+1,file=sys.stderr)
    if 2179<=k+1<=2242 and (l.startswith('if (usepsi)') or l.strip()=='}'): print('drop',k+1,l,file=sys.stderr); tmp[k]=''
open('/tmp/bs.c','w').write('\n'.join(tmp))
st=statements('/tmp/bs.c',709,3413)
g.run(st)
out=hdr+'\n'.join(g.out)+'\n'
names='g11 g12 g13 g22 g23 g33 phi A11 A12 A13 A22 A23 A33 K G1 G2 G3 alpha beta1 beta2 beta3 B1 B2 B3 alphaDensity'.split()
print({k:g.env.get('n'+k) for k in names},file=sys.stderr)
g.env['nalphaDensity']=g.env['nalphaDensity']
out+='''(** What is left in unew (BSSN_rhs.c:101-125); alphaDensity is written with densitizedLapse only, so bs_nalphaDensity_out takes its old value x *)
Definition bs_new (a : bs_in) (n : nat) : R := match n with %s end%%nat.
(** BSSN_rhs.c:3026-3044 and 3352-3360 *)
Definition bs_nalphaDensity_out (a : bs_in) (x : R) : R := if s_flag a FdensitizedLapse then bs_nalphaDensity_3 a else x.
(** BSSN_rhs.c:3352-3366: the code stops with an error here *)
Definition bs_error (a : bs_in) : bool := (negb (bs_addlinear a) && s_flag a FdensitizedLapse)%%bool.
'''%(' | '.join(('%d => '%k if k<23 else '_ => ')+g.env['n'+x]+' a' for k,x in enumerate(names[:24])))
open('/verif/rocq/theories/Bssn_model.v','w').write(out)
import json; json.dump(g.env,open('/tmp/bsenv.json','w'))

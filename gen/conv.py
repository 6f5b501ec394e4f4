import sys,re; sys.path.insert(0,'/root/work/gen')
from gen import *
hdr=r'''(** Model of the conversion between the ADM and the BSSN variables at one grid point: src/physics/BSSN/BSSN_init.c, src/physics/BSSN/BSSN_AlgConstr.c, BSSNtoADM and part of ADMtoBSSN in src/physics/BSSN/BSSN.c, src/physics/ADMvars/utility.c.
    One definition for each assignment of the straight-line C code, in the same order, with the lines it comes from; a variable that is assigned again becomes a new definition with a number at its end.
    Simplifications: real numbers; values at one point; the derivatives of the conformal metric (BSSN_init.c:271) are inputs; the literals 0.3333333333333333 and 0.33333333333333333333333333333333333333 are 1/3; pow(x,y) with a real exponent is Rpower, which agrees with it for x > 0 only. *)
From Verif Require Import Rutil Adm_model.
Local Open Scope R_scope.
(** ** BSSN_init.c *)
(** gb_ij, K_ij (11,12,13,22,23,33), psi, alpha, the parameter BSSN_alphaDensityWeight, the derivatives of the conformal metric (BSSN_init.c:20-79) *)
Record bi_in := MkBi { bv_g : nat -> R; bv_K : nat -> R; bv_psi : R; bv_alpha : R; bv_w : R; bv_dg : nat -> R }.
'''
src='/repo/src/physics/BSSN/BSSN_init.c'
L=open(src).read().split('\n')
g=Gen('bi_','BSSN_init.c','bi_in')
lists={"igb":"bv_g","iK":"bv_K"}
for n,l in enumerate(L,1):
    m=re.match(r'double \*(\w+) = box->v\[(igb|iK)\+(\d+)\];',l)
    if m: g.d(m.group(1),'%s a %s'%(lists[m.group(2)],m.group(3)),n)
    m=re.match(r'double \*(\w+) = box->v\[index_ADMvars_dgxxx \+ (\d+)\];',l)
    if m: g.d(m.group(1),"bv_dg a %s"%(m.group(2)),n)
    if l.startswith('double *psi'): g.d('psi',"bv_psi a",n)
    if l.startswith('double *alpha '): g.d('alpha',"bv_alpha a",n)
    if l.startswith('double alphaDensityW'): g.d('alphaDensityWeight',"bv_w a",n)
# usepsi = 1
st=statements(src,106,267)+statements(src,275,348)
st=[(k,(t[0],t[1].replace('Cal(usepsi,Power(psi[ijk],-4),1.)','Power(psi[ijk],-4)')) if k=='set' else t,a,b) for k,t,a,b in st]
g.run(st)
out=hdr+'\n'.join(g.out)+'\n'
six=lambda f: ' | '.join(('%d => '%n if n<5 else '_ => ')+f%x+' a' for n,x in enumerate('11 12 13 22 23 33'.split()))
out+='''(** What BSSN_init leaves in the fields of the point: the components of gt, At (44-55) and G (56-58) *)
Definition bi_gt (a : bi_in) (n : nat) : R := match n with %s end%%nat.
Definition bi_At (a : bi_in) (n : nat) : R := match n with %s end%%nat.
Definition bi_G (a : bi_in) (n : nat) : R := match n with 0 => bi_G1 a | 1 => bi_G2 a | _ => bi_G3 a end%%nat.
'''%(six('bi_gt%s'),six('bi_At%s'))
out+='''(** ** BSSN_AlgConstr.c *)
(** g_ij, A_ij, the parameters BSSN_subtractA and BSSN_normalizedetg (BSSN_AlgConstr.c:22-44) *)
Record ac_in := MkAc { av_g : nat -> R; av_A : nat -> R; ac_sub : bool; ac_norm : bool }.
(** BSSN_AlgConstr.c:24 *)
Definition ac_oothree (a : ac_in) : R := 1 / 3.
'''
src='/repo/src/physics/BSSN/BSSN_AlgConstr.c'
L=open(src).read().split('\n')
g=Gen('ac_','BSSN_AlgConstr.c','ac_in')
g.decl['oothree']='ac_oothree'
for n,l in enumerate(L,1):
    m=re.match(r'double \*(\w+) = vlldataptr\(ucur, box, (\d+)\);',l)
    if m:
        k=int(m.group(2)); g.d(m.group(1),'av_g a %d'%k if k<6 else 'av_A a %d'%(k-6),n)
g.cond={'normalizedetg':'ac_norm a','subtractA':'ac_sub a'}
g.run(statements(src,57,175))
out+='\n'.join(g.out)+'\n'
print({k:v for k,v in g.env.items()},file=sys.stderr)
out+='''(** What BSSN_AlgConstr leaves in g and A *)
Definition ac_gout (a : ac_in) (n : nat) : R := match n with %s end%%nat.
Definition ac_Aout (a : ac_in) (n : nat) : R := match n with %s end%%nat.
'''%(six('ac_g%s_3'),six('ac_A%s_3'))
out+='''(** ** BSSN.c *)
(** BSSN.c:99-100: fg, fK *)
Definition ba_fg (phi : R) : R := exp (4 * phi).
Definition ba_fK (phi psi : R) : R := ba_fg phi * psi ^ 4.
(** BSSN.c:107-108: g and K at one point, component n *)
Definition ba_g (phi : R) (gt : nat -> R) (n : nat) : R := ba_fg phi * gt n.
Definition ba_K (phi psi trK : R) (gt At : nat -> R) (n : nat) : R := ba_fK phi psi * (At n + trK * gt n / 3).
(** ** ADMvars/utility.c *)
(** ADMvars_detg, utility.c:9-18; ADMvars_invg, 22-43 *)
Definition ut_i11 (g : nat -> R) : R := g 3%nat * g 5%nat - g 4%nat * g 4%nat.
Definition ut_i12 (g : nat -> R) : R := g 2%nat * g 4%nat - g 1%nat * g 5%nat.
Definition ut_i13 (g : nat -> R) : R := g 1%nat * g 4%nat - g 2%nat * g 3%nat.
Definition ut_i22 (g : nat -> R) : R := g 0%nat * g 5%nat - g 2%nat * g 2%nat.
Definition ut_i23 (g : nat -> R) : R := g 1%nat * g 2%nat - g 0%nat * g 4%nat.
Definition ut_i33 (g : nat -> R) : R := g 0%nat * g 3%nat - g 1%nat * g 1%nat.
Definition ut_detg (g : nat -> R) : R := g 0%nat * ut_i11 g + g 1%nat * ut_i12 g + g 2%nat * ut_i13 g.
Definition ut_invg (g : nat -> R) (n : nat) : R := match n with O => ut_i11 g | 1%nat => ut_i12 g | 2%nat => ut_i13 g | 3%nat => ut_i22 g | 4%nat => ut_i23 g | _ => ut_i33 g end / ut_detg g.
(** set_K_initial, utility.c:76-83 *)
Definition ut_K_initial (psi : R) (g K : nat -> R) : R := / psi ^ 4 * (ut_invg g 0 * K 0%nat + ut_invg g 3 * K 3%nat + ut_invg g 5 * K 5%nat + 2 * (ut_invg g 1 * K 1%nat + ut_invg g 2 * K 2%nat + ut_invg g 4 * K 4%nat)).
(** ADMvars_undo_conformal_split, utility.c:105-122: psi, g, dpsiopsi (if it has storage) and ddpsiopsi afterwards *)
Definition ut_undo (psi : R) (g dp ddp : nat -> R) (stored : bool) : R * (nat -> R) * (nat -> R) * (nat -> R) :=
  (1, fun n => g n * psi ^ 4, fun n => if stored then 0 else dp n, fun n => if stored then 0 else ddp n).
'''
open('/verif/rocq/theories/Conv_model.v','w').write(out)

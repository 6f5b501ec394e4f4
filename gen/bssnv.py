import sys
sys.path.insert(0,'/root/work/gen')
from views import view
def v(nm,base,rank,sym=None,suffix='',over=None):
    s=view(nm,base,rank,sym,suffix,'bs_').replace('adm_in','bs_in')
    return s
import re
def v2(nm,base,offs):   # symmetric rank 2 whose offdiagonal components carry a suffix
    s=view(nm,base,2,[(0,1)],'','bs_').replace('adm_in','bs_in')
    for p in ('12','13','23'): s=re.sub(r'bs_%s%s\b'%(base,p),'bs_%s%s%s'%(base,p,offs),s)
    return s
o=[]
o.append('''(** From the generated assignments of BSSN_rhs.c to formulas with indices. *)
From Verif Require Import Rutil Coord_model Coord_spec Adm_model Adm_spec Adm_proofs Conf_proofs Bssn_model.
Local Open Scope R_scope.
(** ** the scalar variables of the code as tensors *)
''')
for a in [('w_g','g',2,[(0,1)]),('w_A','A',2,[(0,1)]),('w_gi','ginv',2,[(0,1)]),('w_dg','delg',3,[(1,2)]),('w_ddg','deldelg',4,[(0,1),(2,3)]),('w_dA','dA',3,[(1,2)]),('w_dG','delG',2),
          ('w_df','df',1,None,'_2'),('w_ddf','ddf',2,[(0,1)],'_2'),('w_da','da',1),('w_dda','dda',2,[(0,1)]),('w_db','db',2),('w_be','beta',1),('w_G','undiffdG',1,None,'_3'),('w_Gg','Gfromg',1),
          ('w_gd','gammado',3,[(1,2)]),('w_ga','gamma',3,[(1,2)]),('w_cddf','cddf',2,[(0,1)]),('w_rphi','Rphi',2,[(0,1)]),('w_cdda','cdda',2,[(0,1)]),('w_AA','AA',2,[(0,1)]),('w_rg','rg',2,[(0,1)]),('w_rA','rA',2,[(0,1)])]:
    o.append(v(*a))
for a in [('w_R','R','_2'),('w_lieg','lieg','_2'),('w_lieA','lieA','_2')]: o.append(v2(*a))
o.append(r'''(** ** what they are *)
Section B.
Variable a : bs_in.
Lemma gd_w c i j : w_gd a c i j = low (w_dg a) c i j.
Proof. unfold low. destruct c, i, j; u_w_gd; cbv beta iota delta [w_dg]; field. Qed.
Lemma ga_w c i j : w_ga a c i j = S3 (fun d => w_gi a c d * w_gd a d i j).
Proof. idx. destruct c, i, j; u_w_ga; cbv beta iota delta [w_gi w_gd]; ring. Qed.
Lemma Gg_w k : w_Gg a k = SS (fun i j => w_gi a i j * w_ga a k i j).
Proof. idx. destruct k; u_w_Gg; cbv beta iota delta [w_gi w_ga]; ring. Qed.
Lemma R_w i j : (n3 i <= n3 j)%nat -> w_R a i j = - (1 / 2) * SS (fun l m => w_gi a l m * w_ddg a l m i j) + 1 / 2 * S3 (fun k => w_g a k i * w_dG a j k + w_g a k j * w_dG a i k) + 1 / 2 * S3 (fun k => w_G a k * (w_gd a i j k + w_gd a j i k))
  + SS (fun l m => w_gi a l m * S3 (fun k => w_ga a k l i * w_gd a j k m + w_ga a k l j * w_gd a i k m + w_ga a k i m * w_gd a k l j)).
Proof.
  intros L. destruct i, j; try (exfalso; cbn [n3] in L; lia); idx; u_w_R; cbv beta iota delta [w_gi w_ddg w_g w_dG w_G w_gd w_ga]; field.
Qed.
Lemma cddf_w i j : w_cddf a i j = hessian (w_ga a) (w_df a) (w_ddf a) i j.
Proof. unfold hessian. idx. destruct i, j; u_w_cddf; cbv beta iota delta [w_ddf w_df w_ga]; ring. Qed.
Lemma trcddf_w : bs_trcddf a = trace (w_gi a) (w_cddf a).
Proof. unfold trace. idx. unfold bs_trcddf. cbv beta iota delta [w_gi w_cddf]. ring. Qed.
Lemma rphi_w i j : w_rphi a i j = - 2 * w_cddf a i j - 2 * w_g a i j * bs_trcddf a + 4 * (w_df a i * w_df a j) - 4 * w_g a i j * S3 (fun k => S3 (fun l => w_gi a k l * w_df a l) * w_df a k).
Proof. idx. destruct i, j; u_w_rphi; unfold pow2; cbv beta iota delta [w_cddf w_g w_df w_gi]; ring. Qed.
Lemma cdda_w i j : w_cdda a i j = hessian (w_ga a) (w_da a) (w_dda a) i j - 2 * (w_da a i * w_df a j + w_da a j * w_df a i) + 2 * w_g a i j * SS (fun k l => w_gi a k l * w_da a k * w_df a l).
Proof. unfold hessian. idx. destruct i, j; u_w_cdda; cbv beta iota delta [w_dda w_da w_df w_ga w_g w_gi]; ring. Qed.
Lemma trcdda_w : bs_trcdda a = bs_psim4 a * trace (w_gi a) (w_cdda a).
Proof. unfold trace. idx. unfold bs_trcdda. cbv beta iota delta [w_gi w_cdda]. ring. Qed.
Lemma AA_w i j : w_AA a i j = SS (fun k l => w_gi a k l * w_A a i k * w_A a j l).
Proof. idx. destruct i, j; u_w_AA; unfold pow2; cbv beta iota delta [w_A w_gi]; ring. Qed.
Lemma AAs_w : bs_AA a = trace (w_gi a) (w_AA a).
Proof. unfold trace. idx. unfold bs_AA. cbv beta iota delta [w_gi w_AA]. ring. Qed.
Lemma trRicci_w : bs_trRicci a = bs_psim4 a * trace (w_gi a) (fun i j => w_R a i j + w_rphi a i j).
Proof. unfold trace. idx. unfold bs_trRicci. cbv beta iota delta [w_gi w_R w_rphi]. ring. Qed.
Definition divb : R := S3 (fun k => w_db a k k).
Lemma lieg_w i j : w_lieg a i j = S3 (fun k => w_be a k * w_dg a k i j + w_g a k j * w_db a i k + w_g a i k * w_db a j k) - 2 / 3 * divb * w_g a i j.
Proof.
  unfold divb. idx. destruct i, j; cbv beta iota delta [w_lieg w_db]; cbv beta iota delta [bs_lieg11 bs_lieg12_2 bs_lieg13_2 bs_lieg22 bs_lieg23_2 bs_lieg33 bs_betadg11 bs_betadg21 bs_betadg31 bs_betadg22 bs_betadg32 bs_betadg33 bs_totdivbeta bs_divbeta];
    u_w_dg; cbv beta iota delta [w_be w_g]; ring.
Qed.
Lemma lieA_w i j : w_lieA a i j = S3 (fun k => w_be a k * w_dA a k i j + w_A a k j * w_db a i k + w_A a i k * w_db a j k) - 2 / 3 * divb * w_A a i j.
Proof.
  unfold divb. idx. destruct i, j; cbv beta iota delta [w_lieA w_db]; cbv beta iota delta [bs_lieA11 bs_lieA12_2 bs_lieA13_2 bs_lieA22 bs_lieA23_2 bs_lieA33 bs_betadA11 bs_betadA21 bs_betadA31 bs_betadA22 bs_betadA32 bs_betadA33 bs_totdivbeta bs_divbeta];
    u_w_dA; cbv beta iota delta [w_be w_A]; ring.
Qed.
Lemma rg_w i j : w_rg a i j = w_lieg a i j - 2 * bs_alpha a * w_A a i j.
Proof. destruct i, j; u_w_rg; cbv beta iota delta [w_lieg w_A]; ring. Qed.
Lemma rA_w i j : w_rA a i j = w_lieA a i j + bs_psim4 a * (- w_cdda a i j + bs_alpha a * (w_R a i j + w_rphi a i j)) + 1 / 3 * bs_trcdda a * w_g a i j + bs_alpha a * (- 2 * w_AA a i j - 1 / 3 * bs_R a * w_g a i j + w_A a i j * bs_K_2 a).
Proof. destruct i, j; u_w_rA; cbv beta iota delta [w_lieA w_g w_cdda w_R w_rphi w_AA w_A]; ring. Qed.
Lemma rphi_s : bs_rphi a = S3 (fun k => w_be a k * w_df a k) + 1 / 6 * divb - 1 / 6 * bs_alpha a * bs_K_2 a.
Proof. unfold divb. idx. unfold bs_rphi, bs_liephi, bs_betadf_2, bs_betadf, bs_divbeta. u_w_df. cbv beta iota delta [w_be w_db bs_df1 bs_df2 bs_df3]. ring. Qed.
End B.
''')
open('/verif/rocq/theories/Bssn_proofs.v','w').write(''.join(o))

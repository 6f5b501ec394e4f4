import sys; sys.path.insert(0,'/root/work/gen')
from views import view
o=''
o+=view('v_delg0','delg',3,[(1,2)])+view('v_ddg0','deldelg',4,[(0,1),(2,3)])+view('v_delf','delf',1)+view('v_ddf','deldelf',2,[(0,1)])
o+=view('v_ddg','deldelg',4,[(0,1),(2,3)],'_2')+view('v_dg','delg',3,[(1,2)],'_2')+view('v_ginv','ginv',2,[(0,1)])
o+=view('v_gd','gammado',3)+view('v_ga','gamma',3)+view('v_g','g',2,[(0,1)])+view('v_K','K',2,[(0,1)])+view('v_Kud','Kud',2)+view('v_delK','delK',3,[(1,2)])
o+=view('v_cK','codelK',3,[(1,2)])+view('v_cKu','cdKudd',3,[(1,2)])
o+=view('v_momu','momu',1)+view('v_cdda','cdda',2)+view('v_dtrK','dtrK',1)+view('v_mom','mom',1)
o+='''Definition v_R (a : adm_in) (i j : d3) : R := match i, j with D1, D1 => adm_R11 a | D1, D2 | D2, D1 => adm_R12_2 a | D1, D3 | D3, D1 => adm_R13_2 a | D2, D2 => adm_R22 a | D2, D3 | D3, D2 => adm_R23_2 a | D3, D3 => adm_R33 a end.
Ltac u_v_R := cbv beta iota delta [v_R adm_R11 adm_R12_2 adm_R13_2 adm_R22 adm_R23_2 adm_R33].
'''
print(o)

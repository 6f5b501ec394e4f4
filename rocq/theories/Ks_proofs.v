(** Lemmas on the Kerr radius r, the vector l and their derivatives.  With A = r^3/(r^4 + w^2), B = r w/(r^4 + w^2) and w = a.x, the number 1/(A - iB) is the complex distance of the point from the place ia. *)
From Verif Require Import Rutil Coord_model Coord_spec Adm_model Adm_spec Adm_proofs Adm2_proofs Adm_props Bh_model Bh_proofs Ks_model.
From Coq Require Import List Lia Psatz.
Import ListNotations.
Local Open Scope R_scope.
Lemma pd_sqrt (f : fn3) k X Y Z l : 0 < f X Y Z -> pd f k X Y Z l -> pd (fun x y z => sqrt (f x y z)) k X Y Z (l / (2 * sqrt (f X Y Z))).
Proof.
  intros P D. assert (G : forall (f : R -> R) t l, 0 < f t -> derivable_pt_lim f t l -> derivable_pt_lim (fun u => sqrt (f u)) t (l / (2 * sqrt (f t)))).
  { clear. intros f t l P D. replace (l / (2 * sqrt (f t))) with (/ (2 * sqrt (f t)) * l) by (unfold Rdiv; ring). apply (derivable_pt_lim_comp f sqrt); auto. now apply derivable_pt_lim_sqrt. }
  destruct k; cbn [pd] in *; now apply (G _ _ _ P D).
Qed.
Lemma pd_div (f g : fn3) k X Y Z l m : g X Y Z <> 0 -> pd f k X Y Z l -> pd g k X Y Z m -> pd (fun x y z => f x y z / g x y z) k X Y Z ((l * g X Y Z - f X Y Z * m) / (g X Y Z * g X Y Z)).
Proof. intros N F G. eapply pd_val; [|apply (pd_mult f (fun x y z => / g x y z)); [exact F|apply pd_inv; [exact N|exact G]]]. cbv beta. field. exact N. Qed.
Lemma pd_ext' (f g : fn3) k X Y Z l : (forall x y z, f x y z = g x y z) -> pd f k X Y Z l -> pd g k X Y Z l.
Proof. intros E. apply (pd_ext f g k X Y Z l 1); [lra|auto]. Qed.
Definition eps3 (i j k : d3) : R :=
  match i, j, k with D1, D2, D3 | D2, D3, D1 | D3, D1, D2 => 1 | D1, D3, D2 | D2, D1, D3 | D3, D2, D1 => -1 | _, _, _ => 0 end.
Lemma alg1 u v : 0 <= u * u + 4 * (v * v). Proof. nra. Qed.
Lemma alg2 u v : v <> 0 \/ 0 < u -> 0 < u * u + 4 * (v * v).
Proof. intros [D|D]; [assert (0 < v * v) by nra|]; nra. Qed.
Lemma alg3 u v o : o * o = u * u + 4 * (v * v) -> 0 < o -> v <> 0 \/ 0 < u -> 0 < 1 / 2 * (u + o).
Proof. intros E P [D|D]; [|lra]. assert (W : 0 < v * v) by nra. apply Rnot_le_lt. intros L. assert (0 <= (- u - o) * (- u + o)) by (apply Rmult_le_pos; lra). nra. Qed.
Lemma alg4 u v o r : o * o = u * u + 4 * (v * v) -> r * r = 1 / 2 * (u + o) -> r ^ 4 = u * r ^ 2 + v ^ 2 /\ o * r ^ 2 = r ^ 4 + v ^ 2.
Proof. intros E R. replace (r ^ 4) with ((r * r) * (r * r)) by ring. replace (r ^ 2) with (r * r) by ring. rewrite R. split; nra. Qed.
(** ** algebra with the Kerr quartic *)
Section ALG.
Variables (x y z a b c r : R).
Let a2 := a * a + b * b + c * c.
Let w := a * x + b * y + c * z.
Hypothesis Q : r ^ 4 = (x * x + y * y + z * z - (a * a + b * b + c * c)) * r ^ 2 + (a * x + b * y + c * z) ^ 2.
Let D := a2 * r + r ^ 3.
Let N := r ^ 4 + w ^ 2.
Let n1 := w * a - (b * z - c * y) * r + x * r ^ 2.
Let n2 := w * b - (c * x - a * z) * r + y * r ^ 2.
Let n3 := w * c - (a * y - b * x) * r + z * r ^ 2.
Let t1 := 2 * (b * z - c * y) * r ^ 3 - w * a * (a2 + 3 * r ^ 2) + x * (a2 * r ^ 2 - r ^ 4).
Lemma alg_unit : n1 * n1 + n2 * n2 + n3 * n3 = D * D.
Proof. unfold n1, n2, n3, D, w, a2. ring [Q]. Qed.
Lemma alg_pq : (r ^ 3 * x + r * w * a) * D = n1 * N + ((r ^ 3 * b - r * w * y) * n3 - (r ^ 3 * c - r * w * z) * n2).
Proof. unfold n1, n2, n3, D, N, w, a2. ring [Q]. Qed.
Lemma alg_d11 : (a * a + r ^ 2) * D * N + t1 * (r ^ 3 * x + r * w * a) = r ^ 3 * (D * D - n1 * n1).
Proof. unfold t1, n1, n2, n3, D, N, w, a2. ring [Q]. Qed.
Lemma alg_d12 : (a * b + c * r) * D * N + t1 * (r ^ 3 * y + r * w * b) = - r ^ 3 * (n1 * n2) + r * w * D * n3.
Proof. unfold t1, n1, n2, n3, D, N, w, a2. ring [Q]. Qed.
Lemma alg_d13 : (a * c - b * r) * D * N + t1 * (r ^ 3 * z + r * w * c) = - r ^ 3 * (n1 * n3) - r * w * D * n2.
Proof. unfold t1, n1, n2, n3, D, N, w, a2. ring [Q]. Qed.
End ALG.
Section KERR.
Variables (Sx Sy Sz : R).
Definition av (i : d3) : R := match i with D1 => Sx | D2 => Sy | D3 => Sz end.
Definition a2 : R := Sx * Sx + Sy * Sy + Sz * Sz.
Definition wf : fn3 := fun x y z => Sx * x + Sy * y + Sz * z.
Definition rho2 : fn3 := fun x y z => x * x + y * y + z * z.
Definition cr (i : d3) : fn3 := fun x y z => match i with D1 => Sy * z - Sz * y | D2 => Sz * x - Sx * z | D3 => Sx * y - Sy * x end.
Definition rf : fn3 := fun x y z => ks_r Sx Sy Sz x y z.
Definition Of : fn3 := fun x y z => ks_Omega Sx Sy Sz x y z.
Definition Af : fn3 := fun x y z => rf x y z ^ 3 / (rf x y z ^ 4 + wf x y z ^ 2).
Definition Bf : fn3 := fun x y z => rf x y z * wf x y z / (rf x y z ^ 4 + wf x y z ^ 2).
Definition pv (i : d3) : fn3 := fun x y z => Af x y z * co i x y z + Bf x y z * av i.
Definition qv (i : d3) : fn3 := fun x y z => Af x y z * av i - Bf x y z * co i x y z.
Definition lf (i : d3) : fn3 := fun x y z => (wf x y z * av i - cr i x y z * rf x y z + co i x y z * rf x y z ^ 2) / (a2 * rf x y z + rf x y z ^ 3).
(** away from the disc of radius |a| *)
Definition off_disc (x y z : R) : Prop := wf x y z <> 0 \/ a2 < rho2 x y z.
Lemma O_eq x y z : Of x y z = sqrt ((rho2 x y z - a2) * (rho2 x y z - a2) + 4 * (wf x y z * wf x y z)).
Proof.
  unfold Of, ks_Omega. f_equal. assert (E : ks_rho x y z * ks_rho x y z = rho2 x y z). { unfold ks_rho, rho2. rewrite sqrt_sqrt; [ring|nra]. }
  replace (ks_rho x y z ^ 4) with ((ks_rho x y z * ks_rho x y z) * (ks_rho x y z * ks_rho x y z)) by ring. replace (ks_rho x y z ^ 2) with (ks_rho x y z * ks_rho x y z) by ring. rewrite E. unfold ks_a2, ks_adotx, ks_aS1, ks_aS2, ks_aS3, a2, wf. ring.
Qed.
Lemma r_eq x y z : rf x y z = sqrt (1 / 2 * (rho2 x y z - a2 + Of x y z)).
Proof.
  unfold rf, ks_r. f_equal. assert (E : ks_rho x y z * ks_rho x y z = rho2 x y z). { unfold ks_rho, rho2. rewrite sqrt_sqrt; [ring|nra]. }
  replace (ks_rho x y z ^ 2) with (ks_rho x y z * ks_rho x y z) by ring. rewrite E. fold (Of x y z). unfold ks_a2, ks_aS1, ks_aS2, ks_aS3, a2. ring.
Qed.
Section PT.
Variables (X Y Z : R).
Hypothesis OD : off_disc X Y Z.
Let r := rf X Y Z. Let w := wf X Y Z. Let O := Of X Y Z. Let ro := rho2 X Y Z.
Lemma OD' : w <> 0 \/ 0 < ro - a2.
Proof. destruct OD as [D|D]; [now left|right; unfold ro; lra]. Qed.
Lemma O2 : O * O = (ro - a2) * (ro - a2) + 4 * (w * w).
Proof. unfold O. rewrite O_eq. apply sqrt_sqrt, alg1. Qed.
Lemma O_pos : 0 < O.
Proof. unfold O. rewrite O_eq. apply sqrt_lt_R0, alg2, OD'. Qed.
Lemma r2_pos : 0 < 1 / 2 * (ro - a2 + O).
Proof. apply (alg3 _ w); [apply O2|apply O_pos|apply OD']. Qed.
Lemma r_pos : 0 < r.
Proof. unfold r. rewrite r_eq. apply sqrt_lt_R0, r2_pos. Qed.
Lemma r2 : r * r = 1 / 2 * (ro - a2 + O).
Proof. unfold r. rewrite r_eq. apply sqrt_sqrt. apply Rlt_le, r2_pos. Qed.
Lemma quartic : r ^ 4 = (ro - a2) * r ^ 2 + w ^ 2.
Proof. apply (alg4 _ _ O); [apply O2|apply r2]. Qed.
Lemma O_r : O * r ^ 2 = r ^ 4 + w ^ 2.
Proof. apply (alg4 (ro - a2)); [apply O2|apply r2]. Qed.
Lemma N_pos : 0 < r ^ 4 + w ^ 2.
Proof. pose proof r_pos. assert (0 < r ^ 4) by now apply pow_lt. assert (0 <= w ^ 2) by apply pow2_ge_0. lra. Qed.
Lemma a2_nn : 0 <= a2. Proof. unfold a2. nra. Qed.
Lemma D_pos : 0 < a2 * r + r ^ 3.
Proof. pose proof r_pos. pose proof a2_nn. assert (0 < r ^ 3) by now apply pow_lt. assert (0 <= a2 * r) by (apply Rmult_le_pos; lra). lra. Qed.
Lemma pd_rho2 k : pd rho2 k X Y Z (2 * co k X Y Z).
Proof. unfold rho2. eapply pd_val; [|apply (pd_plus (fun x y z => x * x + y * y) (fun x y z => z * z)); [apply (pd_plus (fun x y z => x * x) (fun x y z => y * y))|]; [apply (pd_mult (co D1) (co D1))|apply (pd_mult (co D2) (co D2))|apply (pd_mult (co D3) (co D3))]; apply pd_co]. destruct k; cbn [co delta]; ring. Qed.
Lemma pd_wf k : pd wf k X Y Z (av k).
Proof. unfold wf. eapply pd_val; [|apply (pd_plus (fun x y z => Sx * x + Sy * y) (fun x y z => Sz * z)); [apply (pd_plus (fun x y z => Sx * x) (fun x y z => Sy * y))|]; [apply (pd_scal Sx (co D1))|apply (pd_scal Sy (co D2))|apply (pd_scal Sz (co D3))]; apply pd_co]. destruct k; cbn [av delta]; ring. Qed.
Lemma pd_Of k : pd Of k X Y Z ((2 * (ro - a2) * co k X Y Z + 4 * w * av k) / O).
Proof.
  pose proof O_pos as OP. apply (pd_ext' (fun x y z => sqrt ((rho2 x y z - a2) * (rho2 x y z - a2) + 4 * (wf x y z * wf x y z)))); [intros; symmetry; apply O_eq|].
  eapply pd_val; [|apply (pd_sqrt (fun x y z => (rho2 x y z - a2) * (rho2 x y z - a2) + 4 * (wf x y z * wf x y z))); [|apply pd_plus; [apply (pd_mult (fun x y z => rho2 x y z - a2) (fun x y z => rho2 x y z - a2)); (apply pd_minus; [apply pd_rho2|apply pd_const])|apply pd_scal, pd_mult; apply pd_wf]]]; cbv beta.
  - rewrite <- O_eq. fold O w ro. field. lra.
  - fold ro w. apply alg2, OD'.
Qed.
Lemma dr_A k : ((w * av k - 1 / 2 * a2 * co k X Y Z) / O + 1 / 2 * (co k X Y Z + co k X Y Z * ro / O)) / r = pv k X Y Z.
Proof.
  pose proof O_pos as OP. pose proof r_pos as RP. pose proof N_pos as NP. pose proof O_r as OR. pose proof r2 as R2. unfold pv, Af, Bf. fold r w.
  assert (EO : O = (r ^ 4 + w ^ 2) / r ^ 2) by (rewrite <- OR; field; lra). assert (Er : ro = 2 * (r * r) + a2 - O) by lra. rewrite Er, EO. field. repeat split; lra.
Qed.
Lemma pd_rf k : pd rf k X Y Z (pv k X Y Z).
Proof.
  pose proof O_pos as OP. pose proof r_pos as RP. apply (pd_ext' (fun x y z => sqrt (1 / 2 * (rho2 x y z - a2 + Of x y z)))); [intros; symmetry; apply r_eq|].
  eapply pd_val; [|apply (pd_sqrt (fun x y z => 1 / 2 * (rho2 x y z - a2 + Of x y z))); [|apply pd_scal, pd_plus; [apply pd_minus; [apply pd_rho2|apply pd_const]|apply pd_Of]]]; cbv beta.
  - rewrite <- r_eq. fold r. rewrite <- dr_A. field. lra.
  - apply r2_pos.
Qed.
Lemma pow_nz n : r ^ n <> 0. Proof. apply pow_nonzero. pose proof r_pos. lra. Qed.
Lemma pd_N k : pd (fun x y z => rf x y z ^ 4 + wf x y z ^ 2) k X Y Z (4 * r ^ 3 * pv k X Y Z + 2 * w * av k).
Proof. apply pd_plus; [apply pd_pow4, pd_rf|apply (pd_pow2' wf), pd_wf]. Qed.
Lemma pd_Af k : pd Af k X Y Z (- (Af X Y Z * Af X Y Z - Bf X Y Z * Bf X Y Z) * pv k X Y Z - 2 * Af X Y Z * Bf X Y Z * qv k X Y Z).
Proof.
  pose proof r_pos as RP. pose proof N_pos as NP. unfold Af at 1. eapply pd_val; [|apply (pd_div (fun x y z => rf x y z ^ 3) (fun x y z => rf x y z ^ 4 + wf x y z ^ 2)); [|apply pd_pow3, pd_rf|apply pd_N]]; cbv beta; fold r w; [|lra].
  unfold qv, pv, Af, Bf. fold r w. field. lra.
Qed.
Lemma pd_Bf k : pd Bf k X Y Z ((Af X Y Z * Af X Y Z - Bf X Y Z * Bf X Y Z) * qv k X Y Z - 2 * Af X Y Z * Bf X Y Z * pv k X Y Z).
Proof.
  pose proof r_pos as RP. pose proof N_pos as NP. unfold Bf at 1. eapply pd_val; [|apply (pd_div (fun x y z => rf x y z * wf x y z) (fun x y z => rf x y z ^ 4 + wf x y z ^ 2)); [|apply pd_mult; [apply pd_rf|apply pd_wf]|apply pd_N]]; cbv beta; fold r w; [|lra].
  unfold qv, pv, Af, Bf. fold r w. field. lra.
Qed.
Lemma pd_cr i k : pd (cr i) k X Y Z (S3 (fun j => eps3 i j k * av j)).
Proof.
  unfold cr. destruct i.
  - eapply pd_val; [|apply pd_minus; [apply (pd_scal Sy (co D3)), pd_co|apply (pd_scal Sz (co D2)), pd_co]]. destruct k; unfold S3; cbn [eps3 av delta]; ring.
  - eapply pd_val; [|apply pd_minus; [apply (pd_scal Sz (co D1)), pd_co|apply (pd_scal Sx (co D3)), pd_co]]. destruct k; unfold S3; cbn [eps3 av delta]; ring.
  - eapply pd_val; [|apply pd_minus; [apply (pd_scal Sx (co D2)), pd_co|apply (pd_scal Sy (co D1)), pd_co]]. destruct k; unfold S3; cbn [eps3 av delta]; ring.
Qed.
(** the vector l *)
Let Qx : r ^ 4 = (X * X + Y * Y + Z * Z - (Sx * Sx + Sy * Sy + Sz * Sz)) * r ^ 2 + (Sx * X + Sy * Y + Sz * Z) ^ 2 := quartic.
Lemma l_unit : S3 (fun i => lf i X Y Z * lf i X Y Z) = 1.
Proof.
  pose proof D_pos as DP. fold r in DP. pose proof (alg_unit _ _ _ _ _ _ _ Qx) as E. cbv zeta in E. unfold S3, lf. cbn [av co cr]. fold r. change (wf X Y Z) with (Sx * X + Sy * Y + Sz * Z). unfold a2 in *.
  apply (Rmult_eq_reg_r ((a2 * r + r ^ 3) * (a2 * r + r ^ 3))); [|unfold a2; nra]. rewrite Rmult_1_l. unfold a2. refine (eq_trans _ E). clear - DP. field. lra.
Qed.
Definition dlf (i k : d3) : fn3 := fun x y z => Af x y z * (delta i k - lf i x y z * lf k x y z) + Bf x y z * S3 (fun j => eps3 i k j * lf j x y z).
Definition tv (i : d3) : R := 2 * cr i X Y Z * r ^ 3 - w * av i * (a2 + 3 * r ^ 2) + co i X Y Z * (a2 * r ^ 2 - r ^ 4).
Definition hat (i k : d3) : R := S3 (fun j => eps3 i j k * av j).
Lemma dl_A i k : (av i * av k - hat i k * r + delta i k * r ^ 2) / (a2 * r + r ^ 3) + pv k X Y Z * tv i / ((a2 * r + r ^ 3) * (a2 * r + r ^ 3)) = dlf i k X Y Z.
Proof.
  pose proof D_pos as DP. pose proof N_pos as NP. fold r in DP.
  assert (C1 := alg_d11 X Y Z Sx Sy Sz r Qx); cbv zeta in C1. assert (C2 := alg_d12 X Y Z Sx Sy Sz r Qx); cbv zeta in C2. assert (C3 := alg_d13 X Y Z Sx Sy Sz r Qx); cbv zeta in C3.
  assert (Qy : r ^ 4 = (Y * Y + Z * Z + X * X - (Sy * Sy + Sz * Sz + Sx * Sx)) * r ^ 2 + (Sy * Y + Sz * Z + Sx * X) ^ 2) by (rewrite Qx; ring).
  assert (Qz : r ^ 4 = (Z * Z + X * X + Y * Y - (Sz * Sz + Sx * Sx + Sy * Sy)) * r ^ 2 + (Sz * Z + Sx * X + Sy * Y) ^ 2) by (rewrite Qx; ring).
  assert (C4 := alg_d11 Y Z X Sy Sz Sx r Qy); cbv zeta in C4. assert (C5 := alg_d12 Y Z X Sy Sz Sx r Qy); cbv zeta in C5. assert (C6 := alg_d13 Y Z X Sy Sz Sx r Qy); cbv zeta in C6.
  assert (C7 := alg_d11 Z X Y Sz Sx Sy r Qz); cbv zeta in C7. assert (C8 := alg_d12 Z X Y Sz Sx Sy r Qz); cbv zeta in C8. assert (C9 := alg_d13 Z X Y Sz Sx Sy r Qz); cbv zeta in C9.
  replace (Sy * Y + Sz * Z + Sx * X) with w in * by (unfold w, wf; ring). replace (Sz * Z + Sx * X + Sy * Y) with w in * by (unfold w, wf; ring). change (Sx * X + Sy * Y + Sz * Z) with w in *.
  replace (Sy * Sy + Sz * Sz + Sx * Sx) with a2 in * by (unfold a2; ring). replace (Sz * Sz + Sx * Sx + Sy * Sy) with a2 in * by (unfold a2; ring). change (Sx * Sx + Sy * Sy + Sz * Sz) with a2 in *.
  unfold dlf, tv, hat, pv, Af, Bf, S3, lf. destruct i, k; cbn [av co cr delta eps3]; fold r w;
    (apply (Rmult_eq_reg_r ((a2 * r + r ^ 3) * (a2 * r + r ^ 3) * (r ^ 4 + w ^ 2))); [|apply Rgt_not_eq, Rmult_lt_0_compat; [apply Rmult_lt_0_compat|]; assumption]);
    [eapply eq_trans; [eapply eq_trans; [|exact C1]|]|eapply eq_trans; [eapply eq_trans; [|exact C2]|]|eapply eq_trans; [eapply eq_trans; [|exact C3]|]|eapply eq_trans; [eapply eq_trans; [|exact C6]|]|eapply eq_trans; [eapply eq_trans; [|exact C4]|]|eapply eq_trans; [eapply eq_trans; [|exact C5]|]|eapply eq_trans; [eapply eq_trans; [|exact C8]|]|eapply eq_trans; [eapply eq_trans; [|exact C9]|]|eapply eq_trans; [eapply eq_trans; [|exact C7]|]];
    clear - DP NP; field; lra.
Qed.
Lemma pd_lf i k : pd (lf i) k X Y Z (dlf i k X Y Z).
Proof.
  pose proof D_pos as DP. fold r in DP. rewrite <- dl_A. unfold lf. eapply pd_val; [|apply (pd_div (fun x y z => wf x y z * av i - cr i x y z * rf x y z + co i x y z * rf x y z ^ 2) (fun x y z => a2 * rf x y z + rf x y z ^ 3)); [|apply pd_plus; [apply pd_minus; [apply (pd_mult wf (fun _ _ _ => av i)); [apply pd_wf|apply pd_const]|apply pd_mult; [apply pd_cr|apply pd_rf]]|apply (pd_mult (co i) (fun x y z => rf x y z ^ 2)); [apply pd_co|apply pd_pow2', pd_rf]]|apply pd_plus; [apply pd_scal, pd_rf|apply pd_pow3, pd_rf]]]; cbv beta; fold r w; [|lra].
  unfold tv, hat. field. lra.
Qed.
Lemma q_l : S3 (fun i => qv i X Y Z * lf i X Y Z) = 0.
Proof.
  pose proof D_pos as DP. pose proof N_pos as NP. fold r in DP. unfold S3, qv, Af, Bf, lf. cbn [av co cr]. fold r w.
  apply (Rmult_eq_reg_r ((a2 * r + r ^ 3) * (r ^ 4 + w ^ 2))); [|apply Rgt_not_eq, Rmult_lt_0_compat; assumption]. rewrite Rmult_0_l. transitivity (r ^ 3 * w * (w ^ 2 + a2 * r ^ 2 * 0 - w ^ 2) + r * w * (r ^ 4 + a2 * r ^ 2 - w ^ 2 - (X * X + Y * Y + Z * Z) * r ^ 2)).
  - transitivity ((r ^ 3 * Sx - r * w * X) * (w * Sx - (Sy * Z - Sz * Y) * r + X * r ^ 2) + (r ^ 3 * Sy - r * w * Y) * (w * Sy - (Sz * X - Sx * Z) * r + Y * r ^ 2) + (r ^ 3 * Sz - r * w * Z) * (w * Sz - (Sx * Y - Sy * X) * r + Z * r ^ 2)); [clear - DP NP; field; lra|]. unfold w, wf, a2. ring.
  - rewrite Qx. change (Sx * Sx + Sy * Sy + Sz * Sz) with a2. change (Sx * X + Sy * Y + Sz * Z) with w. ring.
Qed.
(** p = l + q x l *)
Lemma p_l i : pv i X Y Z = lf i X Y Z + S3 (fun j => S3 (fun k => eps3 i j k * qv j X Y Z * lf k X Y Z)).
Proof.
  pose proof D_pos as DP. pose proof N_pos as NP. fold r in DP.
  assert (C1 := alg_pq X Y Z Sx Sy Sz r Qx); cbv zeta in C1.
  assert (Qy : r ^ 4 = (Y * Y + Z * Z + X * X - (Sy * Sy + Sz * Sz + Sx * Sx)) * r ^ 2 + (Sy * Y + Sz * Z + Sx * X) ^ 2) by (rewrite Qx; ring).
  assert (Qz : r ^ 4 = (Z * Z + X * X + Y * Y - (Sz * Sz + Sx * Sx + Sy * Sy)) * r ^ 2 + (Sz * Z + Sx * X + Sy * Y) ^ 2) by (rewrite Qx; ring).
  assert (C2 := alg_pq Y Z X Sy Sz Sx r Qy); cbv zeta in C2. assert (C3 := alg_pq Z X Y Sz Sx Sy r Qz); cbv zeta in C3.
  replace (Sy * Y + Sz * Z + Sx * X) with w in * by (unfold w, wf; ring). replace (Sz * Z + Sx * X + Sy * Y) with w in * by (unfold w, wf; ring). change (Sx * X + Sy * Y + Sz * Z) with w in *.
  replace (Sy * Sy + Sz * Sz + Sx * Sx) with a2 in * by (unfold a2; ring). replace (Sz * Sz + Sx * Sx + Sy * Sy) with a2 in * by (unfold a2; ring). change (Sx * Sx + Sy * Sy + Sz * Sz) with a2 in *.
  unfold qv, pv, Af, Bf, S3, lf. destruct i; cbn [av co cr eps3]; fold r w;
    (apply (Rmult_eq_reg_r ((a2 * r + r ^ 3) * (r ^ 4 + w ^ 2))); [|apply Rgt_not_eq, Rmult_lt_0_compat; assumption]);
    [eapply eq_trans; [eapply eq_trans; [|exact C1]|]|eapply eq_trans; [eapply eq_trans; [|exact C2]|]|eapply eq_trans; [eapply eq_trans; [|exact C3]|]]; clear - DP NP; field; lra.
Qed.
End PT.
End KERR.

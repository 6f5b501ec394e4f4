(** C125: the outer boundary condition of the scalar field in second order form. *)
From Verif Require Import Rutil Coord_model Coord_spec Adm_model Adm_spec Adm_proofs Adm2_proofs Ks_model Ks_spec Ks_proofs Ks_props Bound_props Sok_model Sok_spec Sok_props Sok3_model Sok3_props Sokr_model Sokr_proofs Sokr_props Sokp_model.
Local Open Scope R_scope.
(** the covector (w, n) contracted with itself, for the inverse metric of the hole *)
Definition norm4 (M Sx Sy Sz x y z : R) (p : d4 -> R) : R := S4 (fun m => S4 (fun n => kerr_gup M Sx Sy Sz x y z (n10 m n) * p m * p n)).
Definition point (x y z : R) (n : nat) : R := match n with 0%nat => x | 1%nat => y | _ => z end.
Definition radius (x y z : R) : R := sqrt (x * x + y * y + z * z).
(** the phase of a front with outward normal (x, y, z)/r that moves with speed v *)
Definition front (x y z v : R) (m : d4) : R := match m with Tm => - v | Sp D1 => x / radius x y z | Sp D2 => y / radius x y z | Sp D3 => z / radius x y z end.
Lemma speed_alg gtt gtn gnn : gtt < 0 -> 0 < gnn -> let al2 := - 1 / gtt in let bn := al2 * gtn in let v := 1 / ((bn + sqrt (bn * bn + al2 * gnn)) / (al2 * gnn)) in
  0 < v /\ (bn + sqrt (bn * bn + al2 * gnn)) / (al2 * gnn) <> 0 /\ gtt * v * v - 2 * gtn * v + gnn = 0.
Proof.
  intros T G al2 bn v. assert (A : 0 < al2) by (unfold al2, Rdiv; pose proof (Rinv_lt_0_compat _ T); lra). assert (AG : 0 < al2 * gnn) by now apply Rmult_lt_0_compat.
  set (s := sqrt (bn * bn + al2 * gnn)) in *. assert (SS : s * s = bn * bn + al2 * gnn) by (unfold s; apply sqrt_sqrt; nra). assert (SP : 0 < s) by (unfold s; apply sqrt_lt_R0; nra).
  assert (L : 0 < bn + s) by nra. assert (V : v = s - bn) by (unfold v; apply (Rmult_eq_reg_r (bn + s)); [field_simplify; [nra|split; lra]|lra]).
  assert (VP : 0 < s - bn) by nra. split; [lra|]. split; [apply Rgt_not_eq; unfold Rdiv; apply Rmult_lt_0_compat; [lra|now apply Rinv_0_lt_compat]|].
  rewrite V. assert (E : gtt = - 1 / al2) by (unfold al2; field; lra). assert (E2 : gtn = bn / al2) by (unfold bn; field; lra). rewrite E, E2. apply (Rmult_eq_reg_l al2); [|lra]. field_simplify; [nra|lra].
Qed.
(** Where the radial direction is space-like (outside the horizon), the condition moves Pi outwards with the speed v for which the front is light-like, the only positive one, and damps it with a rate that does not depend on the derivatives: *)
Theorem C125_speed M Sx Sy Sz a b c x y z Pi dPi : 0 <= M -> spin_per_mass M Sx Sy Sz a b c -> outside_disc a b c x y z -> 0 < norm4 M Sx Sy Sz x y z (front x y z 0) ->
  exists v w, 0 < v /\ norm4 M Sx Sy Sz x y z (front x y z v) = 0 /\ (forall v', 0 < v' -> norm4 M Sx Sy Sz x y z (front x y z v') = 0 -> v' = v) /\
    (forall Pi dPi, p_rPi (hole4 M Sx Sy Sz x y z) (point x y z) Pi (v3 dPi) = - v * (front x y z 0 (Sp D1) * dPi D1 + front x y z 0 (Sp D2) * dPi D2 + front x y z 0 (Sp D3) * dPi D3) - w * Pi) /\
    (forall dt pre, dt <> 0 -> p_new (hole4 M Sx Sy Sz x y z) (point x y z) Pi dPi dt pre = pre + dt * p_rPi (hole4 M Sx Sy Sz x y z) (point x y z) Pi dPi).
Proof.
  intros HM SP D GN. pose proof (gtt_neg M Sx Sy Sz a b c x y z HM SP D) as T. set (m := hole4 M Sx Sy Sz x y z). set (gtn := w_gup4 m 1 * p_n (point x y z) 0 + w_gup4 m 2 * p_n (point x y z) 1 + w_gup4 m 3 * p_n (point x y z) 2).
  assert (F : forall v, norm4 M Sx Sy Sz x y z (front x y z v) = kerr_gup M Sx Sy Sz x y z 0%nat * v * v - 2 * gtn * v + p_gnn m (point x y z)).
  { intros v. unfold norm4, gtn, p_gnn, p_n, p_r, S4, S3, front, m, hole4, radius. cbn [n10 n4 w_gup4 point]. ring. }
  rewrite F in GN. replace (kerr_gup M Sx Sy Sz x y z 0%nat * 0 * 0 - 2 * gtn * 0 + p_gnn m (point x y z)) with (p_gnn m (point x y z)) in GN by ring.
  pose proof (speed_alg _ gtn _ T GN) as SA. cbv zeta in SA. fold gtn in SA. set (gnn := p_gnn m (point x y z)) in *. set (gtt := kerr_gup M Sx Sy Sz x y z 0%nat) in *.
  change ((- 1 / gtt * gtn + sqrt (- 1 / gtt * gtn * (- 1 / gtt * gtn) + - 1 / gtt * gnn)) / (- 1 / gtt * gnn)) with (p_ap m (point x y z)) in SA. destruct SA as (V0 & A0 & Q).
  exists (1 / p_ap m (point x y z)), (p_cp m (point x y z) / p_ap m (point x y z)). set (v := 1 / p_ap m (point x y z)) in *. split; [exact V0|]. split; [rewrite F; exact Q|]. split; [|split].
  - intros v' V' Q'. rewrite F in Q'. assert (P : (v' - v) * (gtt * (v' + v) - 2 * gtn) = 0) by lra. apply Rmult_integral in P. destruct P as [P|P]; [lra|]. exfalso.
    assert (E : gnn = gtt * v * v' ). { replace (2 * gtn) with (gtt * (v' + v)) in Q by lra. lra. } assert (0 < v * v') by now apply Rmult_lt_0_compat. nra.
  - intros Pi' dPi'. unfold p_rPi, p_bp, p_dnPi, v, p_n, p_r, front, radius. cbn [v3 point]. field. split; [exact A0|]. intros Z. apply (Rlt_irrefl 0).
    assert (G0 : gnn = 0). { unfold gnn, p_gnn, p_n, p_r. cbn [point]. rewrite Z. unfold Rdiv. rewrite Rinv_0. ring. } lra.
  - intros dt pre ND. unfold p_new, r_new. destruct (Req_EM_T dt 0); [contradiction|reflexivity].
Qed.
Print Assumptions C125_speed.
Section SCHW.
Variables (M x y z : R).
Hypothesis R0' : 0 < x * x + y * y + z * z.
Notation r := (radius x y z).
Notation k f := (f M 0 0 0 x y z).
Lemma rP : 0 < r. Proof. now apply sqrt_lt_R0. Qed.
Lemma rr : r * r = x * x + y * y + z * z. Proof. apply sqrt_sqrt. lra. Qed.
Lemma a0 : sk_aS1 M 0 = 0 /\ sk_aS2 M 0 = 0 /\ sk_aS3 M 0 = 0.
Proof. unfold sk_aS1, sk_aS2, sk_aS3. destruct (Req_EM_T M 0) as [E|E]; repeat split; try reflexivity; unfold Rdiv; ring. Qed.
Lemma rho0 : sk_rho x y z = r. Proof. unfold sk_rho, radius. f_equal. ring. Qed.
Lemma adx0 : k sk_adotx = 0. Proof. destruct a0 as (A1 & A2 & A3). unfold sk_adotx. rewrite A1, A2, A3. ring. Qed.
Lemma a20 : sk_a2 M 0 0 0 = 0. Proof. destruct a0 as (A1 & A2 & A3). unfold sk_a2. rewrite A1, A2, A3. ring. Qed.
Lemma Om0 : k sk_Omega = r * r.
Proof. unfold sk_Omega. rewrite adx0, a20, rho0. replace (r ^ 4 + 0 ^ 2 + 4 * 0 ^ 2 - 2 * 0 * r ^ 2) with ((r * r) * (r * r)) by ring. apply sqrt_square. pose proof rP. nra. Qed.
Lemma r0' : k sk_r = r.
Proof. unfold sk_r. rewrite Om0, a20, rho0. replace (1 / 2 * (- 0 + r * r + r ^ 2)) with (r * r) by field. apply sqrt_square. pose proof rP. lra. Qed.
Lemma H0' : k sk_H = M / r. Proof. unfold sk_H. rewrite adx0, r0'. pose proof rP. field. lra. Qed.
Lemma dr0' : k sk_dr1 = x / r /\ k sk_dr2 = y / r /\ k sk_dr3 = z / r.
Proof. destruct a0 as (A1 & A2 & A3). unfold sk_dr1, sk_dr2, sk_dr3. rewrite Om0, adx0, a20, r0', rho0. pose proof rP. repeat split; field; lra. Qed.
Definition co (i : d3) : R := match i with D1 => x | D2 => y | D3 => z end.
Lemma dH0' i : dH_sk M 0 0 0 x y z i = - M * co i / (r * r * r).
Proof. destruct dr0' as (E1 & E2 & E3). pose proof rP. destruct i; cbn [dH_sk co]; unfold sk_dH1, sk_dH2, sk_dH3; rewrite ?E1, ?E2, ?E3, H0', adx0, r0'; field; lra. Qed.
Lemma l0' i : l_sk M 0 0 0 x y z i = co i / r.
Proof. destruct a0 as (A1 & A2 & A3). pose proof rP. destruct i; cbn [l_sk co]; unfold sk_l1, sk_l2, sk_l3, sk_acrossx1, sk_acrossx2, sk_acrossx3; rewrite A1, A2, A3, a20, r0'; field; lra. Qed.
Lemma dl0' i j : dl_sk M 0 0 0 x y z i j = delta i j / r - co i * co j / (r * r * r).
Proof.
  destruct a0 as (A1 & A2 & A3). destruct dr0' as (E1 & E2 & E3). pose proof rP.
  destruct i, j; cbn [dl_sk co delta]; unfold sk_dl11, sk_dl12, sk_dl13, sk_dl21, sk_dl22, sk_dl23, sk_dl31, sk_dl32, sk_dl33, sk_acrossx1, sk_acrossx2, sk_acrossx3, sk_ahat12, sk_ahat13, sk_ahat23; rewrite ?A1, ?A2, ?A3, a20, adx0, r0', ?E1, ?E2, ?E3; field; lra.
Qed.
Lemma spm0 : spin_per_mass M 0 0 0 0 0 0. Proof. split; intros; repeat split; ring. Qed.
Lemma od0 : outside_disc 0 0 0 x y z. Proof. right. lra. Qed.
Lemma nn1 : x / r * (x / r) + y / r * (y / r) + z / r * (z / r) = 1.
Proof. pose proof rP. replace (x / r * (x / r) + y / r * (y / r) + z / r * (z / r)) with ((x * x + y * y + z * z) / (r * r)) by (field; lra). rewrite <- rr. field. lra. Qed.
Lemma G0' i : kerr_G M 0 0 0 x y z (n4 (Sp i)) = 2 * M * (co i / r) / (r * r).
Proof.
  rewrite (C116_trace M 0 0 0 0 0 0 x y z (dgup_sk M 0 0 0 x y z) spm0 od0 (fun q m n => pd4_gup M 0 0 0 0 0 0 spm0 x y z (disc_eq _ _ _ _ _ _ od0) q m n)).
  pose proof rP as P. pose proof nn1 as N. transitivity (2 * M * (co i / r) / (r * r) + 6 * M * (co i / r) / (r * r) * (1 - (x / r * (x / r) + y / r * (y / r) + z / r * (z / r)))); [|rewrite N; ring].
  unfold S4, S3, dgup_sk. cbn [dH4 Lu_sk dL4]. rewrite !dH0', !l0', !dl0', H0'. destruct i; cbn [co delta]; field; lra.
Qed.
Lemma gup0' m n : kerr_gup M 0 0 0 x y z (n10 m n) = eta m n - 2 * (M / r) * (match m with Tm => - 1 | Sp i => co i / r end) * (match n with Tm => - 1 | Sp i => co i / r end).
Proof. rewrite gup_sk, H0'. destruct m, n; cbn [Lu_sk]; rewrite ?l0'; reflexivity. Qed.
(** Around a hole without spin, outside r = 2 M, the condition is  d Pi/dt = - (r - 2M)/(r + 2M) d Pi/dr - (r - M)/(r (r + 2M)) Pi;  (r - 2M)/(r + 2M) is the coordinate speed of outgoing light. *)
Theorem C125_schwarzschild Pi dPi : 0 <= M -> 2 * M < r ->
  p_rPi (hole4 M 0 0 0 x y z) (point x y z) Pi (v3 dPi) = - ((r - 2 * M) / (r + 2 * M)) * (x / r * dPi D1 + y / r * dPi D2 + z / r * dPi D3) - (r - M) / (r * (r + 2 * M)) * Pi.
Proof.
  intros HM HR. pose proof rP as P. pose proof nn1 as N. set (m := hole4 M 0 0 0 x y z). set (h := M / r).
  assert (HH : 0 <= h < 1 / 2). { split; [apply Rmult_le_pos; [exact HM|apply Rlt_le, Rinv_0_lt_compat, P]|]. apply (Rmult_lt_reg_r r); [exact P|]. unfold h. replace (M / r * r) with M by (field; lra). lra. }
  assert (T : w_gup4 m 0 = - 1 - 2 * h). { change (w_gup4 m 0) with (kerr_gup M 0 0 0 x y z (n10 Tm Tm)). rewrite gup0'. cbn [eta]. unfold h. ring. }
  assert (B1 : w_gup4 m 1 = 2 * h * (x / r)). { change (w_gup4 m 1) with (kerr_gup M 0 0 0 x y z (n10 Tm (Sp D1))). rewrite gup0'. cbn [eta co]. unfold h. ring. }
  assert (B2 : w_gup4 m 2 = 2 * h * (y / r)). { change (w_gup4 m 2) with (kerr_gup M 0 0 0 x y z (n10 Tm (Sp D2))). rewrite gup0'. cbn [eta co]. unfold h. ring. }
  assert (B3 : w_gup4 m 3 = 2 * h * (z / r)). { change (w_gup4 m 3) with (kerr_gup M 0 0 0 x y z (n10 Tm (Sp D3))). rewrite gup0'. cbn [eta co]. unfold h. ring. }
  assert (S1 : w_gup4 m 4 = 1 - 2 * h * (x / r) * (x / r)). { change (w_gup4 m 4) with (kerr_gup M 0 0 0 x y z (n10 (Sp D1) (Sp D1))). rewrite gup0'. reflexivity. }
  assert (S2 : w_gup4 m 5 = - 2 * h * (x / r) * (y / r)). { change (w_gup4 m 5) with (kerr_gup M 0 0 0 x y z (n10 (Sp D1) (Sp D2))). rewrite gup0'. cbn [eta delta co]. unfold h. ring. }
  assert (S3' : w_gup4 m 6 = - 2 * h * (x / r) * (z / r)). { change (w_gup4 m 6) with (kerr_gup M 0 0 0 x y z (n10 (Sp D1) (Sp D3))). rewrite gup0'. cbn [eta delta co]. unfold h. ring. }
  assert (S4' : w_gup4 m 7 = 1 - 2 * h * (y / r) * (y / r)). { change (w_gup4 m 7) with (kerr_gup M 0 0 0 x y z (n10 (Sp D2) (Sp D2))). rewrite gup0'. reflexivity. }
  assert (S5 : w_gup4 m 8 = - 2 * h * (y / r) * (z / r)). { change (w_gup4 m 8) with (kerr_gup M 0 0 0 x y z (n10 (Sp D2) (Sp D3))). rewrite gup0'. cbn [eta delta co]. unfold h. ring. }
  assert (S6 : w_gup4 m 9 = 1 - 2 * h * (z / r) * (z / r)). { change (w_gup4 m 9) with (kerr_gup M 0 0 0 x y z (n10 (Sp D3) (Sp D3))). rewrite gup0'. reflexivity. }
  assert (Q1 : w_G4 m 1 = 2 * h * (x / r) / r). { change (w_G4 m 1) with (kerr_G M 0 0 0 x y z (n4 (Sp D1))). rewrite G0'. cbn [co]. unfold h. field. lra. }
  assert (Q2 : w_G4 m 2 = 2 * h * (y / r) / r). { change (w_G4 m 2) with (kerr_G M 0 0 0 x y z (n4 (Sp D2))). rewrite G0'. cbn [co]. unfold h. field. lra. }
  assert (Q3 : w_G4 m 3 = 2 * h * (z / r) / r). { change (w_G4 m 3) with (kerr_G M 0 0 0 x y z (n4 (Sp D3))). rewrite G0'. cbn [co]. unfold h. field. lra. }
  assert (PR : p_r (point x y z) = r) by reflexivity. assert (N1 : p_n (point x y z) 0 = x / r) by reflexivity. assert (N2 : p_n (point x y z) 1 = y / r) by reflexivity. assert (N3 : p_n (point x y z) 2 = z / r) by reflexivity.
  set (a := x / r) in *. set (b := y / r) in *. set (c := z / r) in *.
  assert (GNN : p_gnn m (point x y z) = 1 - 2 * h). { unfold p_gnn. rewrite N1, N2, N3, S1, S2, S3', S4', S5, S6. transitivity ((a * a + b * b + c * c) - 2 * h * (a * a + b * b + c * c) * (a * a + b * b + c * c)); [ring|rewrite N; ring]. }
  assert (AL : p_alpha2 m = 1 / (1 + 2 * h)). { unfold p_alpha2. rewrite T. field. lra. }
  assert (BN : p_betan m (point x y z) = 2 * h / (1 + 2 * h)). { unfold p_betan. rewrite AL, N1, N2, N3, B1, B2, B3. transitivity (2 * h / (1 + 2 * h) * (a * a + b * b + c * c)); [field; lra|rewrite N; ring]. }
  assert (LP : p_lambdap m (point x y z) = 1). { unfold p_lambdap. rewrite BN, AL, GNN. replace (2 * h / (1 + 2 * h) * (2 * h / (1 + 2 * h)) + 1 / (1 + 2 * h) * (1 - 2 * h)) with ((1 / (1 + 2 * h)) * (1 / (1 + 2 * h))) by (field; lra). rewrite sqrt_square by (apply Rlt_le; unfold Rdiv; rewrite Rmult_1_l; apply Rinv_0_lt_compat; lra). field. lra. }
  assert (AP : p_ap m (point x y z) = (1 + 2 * h) / (1 - 2 * h)). { unfold p_ap. rewrite LP, AL, GNN. field. lra. }
  assert (CP : p_cp m (point x y z) = (1 - h) / (1 - 2 * h) / r). { unfold p_cp, p_gdn, p_Gn. replace 0.5 with (/ 2) by lra. rewrite GNN, PR, N1, N2, N3, Q1, Q2, Q3, S1, S4', S6. transitivity (/ 2 * ((3 - 2 * h * (a * a + b * b + c * c) - (1 - 2 * h)) / r - 2 * h / r * (a * a + b * b + c * c)) / (1 - 2 * h)); [field; lra|rewrite N; field; lra]. }
  unfold p_rPi, p_bp, p_dnPi. rewrite AP, CP, N1, N2, N3. cbn [v3]. assert (MH : M = h * r) by (unfold h; field; lra). rewrite MH. field. repeat split; try lra; nra.
Qed.
End SCHW.
Print Assumptions C125_schwarzschild.
(** Without a hole it is exact for every outgoing spherical wave: the rate is the time derivative of  Pi = w(r - t)/r,  for every differentiable profile w *)
Theorem C125_outgoing (w : R -> R) w' t x y z dPi : 0 < x * x + y * y + z * z -> derivable_pt_lim w (radius x y z - t) w' ->
  let Pi := fun s x y z => w (radius x y z - s) / radius x y z in (forall i, pd (Pi t) i x y z (dPi i)) ->
  derivable_pt_lim (fun s => Pi s x y z) t (p_rPi (hole4 0 0 0 0 x y z) (point x y z) (Pi t x y z) (v3 dPi)).
Proof.
  intros R0' W Pi HD. set (r := radius x y z) in *. assert (P : 0 < r) by now apply sqrt_lt_R0. assert (E : r * r = x * x + y * y + z * z) by (apply sqrt_sqrt; lra).
  assert (W1 : derivable_pt_lim w (r - 1 * t) w') by (now rewrite Rmult_1_l).
  assert (Dg : derivable_pt_lim (fun s => 0 + w (s - 1 * t) / s) r (w' / r - w (r - 1 * t) / r²)) by (apply shell_deriv; [lra|exact W1]).
  assert (U : forall i, dPi i = (w' / r - w (r - 1 * t) / r²) * (match i with D1 => x | D2 => y | D3 => z end / r)).
  { intros i. apply (pd_unique' _ _ _ _ _ _ _ (HD i)). apply (pd_ext' (fun x y z => 0 + w (sqrt (x * x + y * y + z * z) - 1 * t) / sqrt (x * x + y * y + z * z))); [intros; unfold Pi, radius; rewrite Rplus_0_l, Rmult_1_l; reflexivity|].
    exact (pd_radial (fun s => 0 + w (s - 1 * t) / s) _ i x y z R0' Dg). }
  rewrite (C125_schwarzschild 0 x y z R0' (Pi t x y z) dPi); [|lra|fold r; lra]. fold r. rewrite !U. rewrite Rmult_1_l in *.
  match goal with |- derivable_pt_lim _ _ ?V => replace V with (- w' / r) end.
  - unfold Pi. fold r. replace (- w' / r) with (w' * (0 - 1) * (/ r)) by (field; lra). apply (derivable_pt_lim_ext (fun s => (/ r) * w (r - s))); [intros; unfold Rdiv; ring|].
    rewrite Rmult_comm. apply derivable_pt_lim_scal. apply (derivable_pt_lim_comp (fun s => r - s) w); [|exact W]. apply (derivable_pt_lim_minus (fun _ => r) id); [apply derivable_pt_lim_const|apply derivable_pt_lim_id].
  - unfold Pi, Rsqr. fold r. transitivity (- (w' / r - w (r - t) / (r * r)) * ((x * x + y * y + z * z) / (r * r)) - w (r - t) / (r * r)); [rewrite <- E; field; lra|field; lra].
Qed.
Print Assumptions C125_outgoing.
(** a spinning hole of mass 2 seen at (3, 4, 12): the point is off the disc and the radial direction is space-like far out *)
Example C125_ex : 0 < 3 * 3 + 4 * 4 + 12 * 12 /\ radius 3 4 12 = 13 /\ 2 * 2 < radius 3 4 12 /\ derivable_pt_lim (fun u => u * u) (13 - 1) 24 /\ 0 < norm4 2 0 0 0 3 4 12 (front 3 4 12 0).
Proof.
  assert (R13 : radius 3 4 12 = 13) by (unfold radius; replace (3 * 3 + 4 * 4 + 12 * 12) with (13 * 13) by ring; apply sqrt_square; lra).
  split; [lra|]. split; [exact R13|]. split; [rewrite R13; lra|]. split.
  - replace 24 with (1 * id (13 - 1) + id (13 - 1) * 1) by (unfold id; lra). apply (derivable_pt_lim_mult id id); apply derivable_pt_lim_id.
  - assert (P : 0 < 3 * 3 + 4 * 4 + 12 * 12) by lra. unfold norm4, S4, S3. rewrite !(gup0' 2 3 4 12 P), R13. cbn [front eta delta co]. rewrite R13. lra.
Qed.

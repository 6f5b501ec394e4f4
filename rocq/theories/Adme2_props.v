(** C115, second part: conformally flat data, and the energy of a black hole on a grid of spheres. *)
From Verif Require Import Base Loops Arrays Sparse_model Sparse_proofs Mat_model Mat_spec Mat_proofs Four_model Four_spec Four_proofs Four_props Dir_model Dir_spec Dir_props
  Lines_model Lines_spec Lines_proofs Lines_props Integ_spec Integ_proofs Integ_props Dcov_model Dcov_spec Dcov_props Sphere_model Sphere_props Modes_math Modes_spec Modes_props.
From Verif Require Import Coord_model Coord_spec Adm_spec Adm2_proofs Adme_model Adme_props.
From Coq Require Import Lra Lia.
From Coquelicot Require Import Coquelicot.
Local Open Scope R_scope.
Notation inbox := Lines_spec.inbox.
Notation integral := Integ_spec.integral.
(** the flat metric *)
Definition flat (i j : d3) : fn3 := fun _ _ _ => delta i j.
(** For psi^4 times the flat metric the integrand is  - psi^7 (nu . grad psi) / 2 pi. *)
Theorem C115_conformally_flat : forall a X Y Z psi (dpsi : d3 -> R), holds a X Y Z psi flat -> psi X Y Z <> 0 -> (forall k, pd psi k X Y Z (dpsi k)) -> 0 < X * X + Y * Y + Z * Z ->
  integrand_at a = - (psi X Y Z ^ 7 * S3 (fun i => dpsi i * position X Y Z i)) / (2 * PI * sqrt (X * X + Y * Y + Z * Z)).
Proof.
  intros a X Y Z psi dpsi Hh Hpsi Hd Hr. pose proof Hh as (_ & _ & _ & _ & Hdp & _ & _).
  assert (Hdv : forall k, e_dpop a (n3 k) * psi X Y Z = dpsi k) by (intro k; apply (pd_unique psi k X Y Z); [apply Hdp|apply Hd]).
  assert (Hs : sqrt (X * X + Y * Y + Z * Z) <> 0) by (apply Rgt_not_eq, sqrt_lt_R0; exact Hr). pose proof PI_RGT_0 as HP.
  assert (Hp : psi X Y Z ^ 4 <> 0) by (apply pow_nonzero; exact Hpsi).
  rewrite (C115_integrand a X Y Z psi flat (fun i j => delta i j / psi X Y Z ^ 4) (fun k i j => psi X Y Z ^ 4 * (4 * e_dpop a (n3 k) * delta i j + 0)) Hh).
  - unfold energy_flux, det3, SS, S3, flat, delta. cbv beta iota. rewrite <- (Hdv D1), <- (Hdv D2), <- (Hdv D3). field. repeat split; assumption || lra.
  - intros i j. unfold flat. destruct i, j; reflexivity.
  - exact Hr.
  - unfold det3, flat, delta. cbv beta iota. replace (_ - _ + _) with ((psi X Y Z ^ 4) ^ 3) by ring. apply pow_nonzero. exact Hp.
  - intros i j. unfold S3, flat, delta. destruct i, j; cbv beta iota; field; exact Hpsi.
  - intros k i j. apply (pd_conformal psi (flat i j) k X Y Z); [apply Hdp|apply pd_const].
Qed.
(** a black hole of mass M in isotropic coordinates *)
Definition psi_bh (M : R) : fn3 := fun x y z => 1 + M / (2 * sqrt (x * x + y * y + z * z)).
Lemma psi_bh_pd : forall M X Y Z k, 0 < X * X + Y * Y + Z * Z -> pd (psi_bh M) k X Y Z (- M * position X Y Z k / (2 * sqrt (X * X + Y * Y + Z * Z) ^ 3)).
Proof.
  intros M X Y Z k Hr. assert (Hs : 0 < sqrt (X * X + Y * Y + Z * Z)) by (apply sqrt_lt_R0; exact Hr).
  assert (Hsq : sqrt (X * X + Y * Y + Z * Z) * sqrt (X * X + Y * Y + Z * Z) = X * X + Y * Y + Z * Z) by (apply sqrt_sqrt; lra).
  unfold pd, psi_bh, position. destruct k; apply is_derive_Reals; (auto_derive; [repeat split; try lra; try (apply Rgt_not_eq; lra)|]); field; lra.
Qed.
Theorem C115_black_hole : forall a X Y Z M, holds a X Y Z (psi_bh M) flat -> 0 < X * X + Y * Y + Z * Z -> psi_bh M X Y Z <> 0 ->
  integrand_at a = M * (1 + M / (2 * sqrt (X * X + Y * Y + Z * Z))) ^ 7 / (4 * PI * (X * X + Y * Y + Z * Z)).
Proof.
  intros a X Y Z M Hh Hr Hp. rewrite (C115_conformally_flat a X Y Z (psi_bh M) _ Hh Hp (fun k => psi_bh_pd M X Y Z k Hr) Hr).
  fold (psi_bh M X Y Z). set (q := psi_bh M X Y Z ^ 7). clearbody q. assert (Hs : 0 < sqrt (X * X + Y * Y + Z * Z)) by (apply sqrt_lt_R0; exact Hr).
  assert (Hsq : sqrt (X * X + Y * Y + Z * Z) * sqrt (X * X + Y * Y + Z * Z) = X * X + Y * Y + Z * Z) by (apply sqrt_sqrt; lra).
  unfold S3, position. pose proof PI_RGT_0.
  replace (- M * X / (2 * sqrt (X * X + Y * Y + Z * Z) ^ 3) * X + - M * Y / (2 * sqrt (X * X + Y * Y + Z * Z) ^ 3) * Y + - M * Z / (2 * sqrt (X * X + Y * Y + Z * Z) ^ 3) * Z) with (- M * (X * X + Y * Y + Z * Z) / (2 * sqrt (X * X + Y * Y + Z * Z) ^ 3)) by (field; lra).
  set (s := sqrt (X * X + Y * Y + Z * Z)) in *. rewrite <- Hsq. field. lra.
Qed.

(** * the integral over a sphere of a function that is constant on it *)
Lemma sphere_const : forall b sc rad X Y Z_ u K, mode_box b -> (forall d, schedule b d (sc d)) -> mode_coords b rad X Y Z_ -> List.length u = npoints b ->
  (forall i j k, inbox b (i, j, k) -> val b u (i, j, k) = K i) ->
  exists V, spec_sphericalDF2dIntegral b sc (fun _ => fourmeth) X true u u = Ok V /\ List.length V = npoints b /\ forall i j k, inbox b (i, j, k) -> val b V (i, j, k) = 4 * PI * rad i ^ 2 * K i.
Proof.
  intros b sc rad X Y Z_ u K (B2 & B3 & L2 & H2 & L3 & H3 & E2 & E3 & N2 & N3) Sc (LX & LY & LZ & HC) Lu Hu. assert (PP := PI_RGT_0).
  destruct (C44_exact_partial Fourier b sc X true u u) as (W & V & E & LV & HW & H); auto; try lia. { destruct E2 as [h ->]. intros Q. assert (A := Nat.div_mod (2 * h) 4 ltac:(lia)). lia. }
  exists V. split. { rewrite <- E. reflexivity. } split; auto. intros i j k I0.
  destruct (H _ I0) as (c & x & Lc & Hc & Hx & HV). cbv zeta in Hc, Hx. destruct (HC i j k I0) as (R0 & XR & _).
  set (N := nn b X2) in *. set (sh := PI / (INR (1 + N mod 2) * INR N)) in *. assert (PN : 0 < INR N) by (apply lt_0_INR; lia). assert (PN3 : 0 < INR (nn b X3)) by (apply lt_0_INR; lia).
  assert (Hx2 : x = 4 * PI * K i).
  { apply (theta_exact N 0 c (fun _ => 2 * PI * K i) sh); auto; [lia|lia|apply TP_const| |].
    - intros m Hm. rewrite Hc by auto. cbn [setc].
      assert (I1 : inbox b (i, m, k)). { pose proof (I0 X1) as J1. pose proof (I0 X3) as J3. intros d. destruct d; cbn [comp] in *; [exact J1|exact Hm|exact J3]. }
      rewrite (fourier_sum (bd b X3) (line b X3 u (i, m, k)) (val b W (i, m, k))); [|lra|exact N3|unfold line; rewrite map_length; apply seq_length|now apply HW]. rewrite L3, H3. change (b_n (bd b X3)) with (nn b X3).
      rewrite (Sig_ext _ _ (fun _ => K i)). 2:{ intros q Hq. rewrite line_nth by auto. cbn [setc]. apply Hu. intros d. pose proof (I1 d) as J. destruct d; cbn [comp] in *; auto. }
      rewrite Sig_const. field. lra.
    - exists (fun t => - (2 * PI * K i) * cos t). split; [|rewrite cos_PI, cos_0; ring]. intros t. apply is_derive_Reals. auto_derive; [exact I|ring]. }
  rewrite HV, XR, Hx2. ring.
Qed.
(** E_ADM of a black hole, at every point of every sphere: M (1 + M/2r)^7 where r is the radius. *)
Theorem C115_energy : forall b sc rad X Y Z_ pts M, mode_box b -> (forall d, schedule b d (sc d)) -> mode_coords b rad X Y Z_ -> List.length pts = npoints b -> 
  (forall i j k, inbox b (i, j, k) -> 0 < rad i /\ 1 + M / (2 * rad i) <> 0 /\
     exists x y z, holds (nth (Ix b i j k) pts (MkE (fun _ => 0) (fun _ => 0) 0 (fun _ => 0) (fun _ => 0))) x y z (psi_bh M) flat /\ x * x + y * y + z * z = rad i ^ 2) ->
  exists V, E_ADM b sc X pts = Ok V /\ List.length V = npoints b /\ forall i j k, inbox b (i, j, k) -> val b V (i, j, k) = M * (1 + M / (2 * rad i)) ^ 7.
Proof.
  intros b sc rad X Y Z_ pts M Hb Sc HC Lp Hp. unfold E_ADM.
  destruct (sphere_const b sc rad X Y Z_ (map integrand_at pts) (fun i => M * (1 + M / (2 * rad i)) ^ 7 / (4 * PI * rad i ^ 2)) Hb Sc HC) as (V & E & LV & HV).
  - rewrite map_length. exact Lp.
  - intros i j k I0. destruct (Hp i j k I0) as (Hr & Hne & x & y & z & Hh & Hxyz).
    assert (Hs : sqrt (x * x + y * y + z * z) = rad i) by (rewrite Hxyz; rewrite <- (Rsqr_pow2 (rad i)); apply sqrt_Rsqr; lra).
    unfold val. set (a0 := MkE (fun _ => 0) (fun _ => 0) 0 (fun _ => 0) (fun _ => 0)) in *. cbv beta iota.
    assert (Hlt : (Ix b i j k < List.length pts)%nat) by (rewrite Lp; exact (Ixp_lt b (i, j, k) I0)).
    rewrite (nth_indep _ 0 (integrand_at a0)) by (rewrite map_length; exact Hlt). rewrite map_nth.
    change (i + nn b X1 * (j + nn b X2 * k))%nat with (Ix b i j k). rewrite (C115_black_hole _ x y z M Hh) by (unfold psi_bh; rewrite ?Hs, ?Hxyz; try (apply pow_lt; exact Hr); exact Hne). rewrite Hs, Hxyz. reflexivity.
  - exists V. split; [exact E|]. split; [exact LV|]. intros i j k I0. rewrite HV by exact I0. destruct (Hp i j k I0) as (Hr & _). pose proof PI_RGT_0. field. lra.
Qed.
(** It tends to M for large radii, and is M at no radius unless M is zero. *)
Theorem C115_limit : forall M eps, 0 < eps -> exists r0, 0 < r0 /\ forall r, r0 < r -> Rabs (M * (1 + M / (2 * r)) ^ 7 - M) < eps.
Proof.
  intros M eps He.
  assert (Hc : continuity_pt (fun t => M * (1 + M / 2 * t) ^ 7) 0). { apply derivable_continuous_pt. reg. }
  destruct (Hc eps He) as [d [Hd Hl]]. exists (2 / d). split; [apply Rdiv_lt_0_compat; lra|]. intros r Hr.
  assert (Hr0 : 0 < r) by (apply (Rlt_trans _ (2 / d)); [apply Rdiv_lt_0_compat; lra|exact Hr]).
  assert (Hi : 0 < / r < d). { split; [apply Rinv_0_lt_compat; exact Hr0|]. apply (Rmult_lt_reg_r r); [exact Hr0|]. rewrite Rinv_l by lra. apply (Rmult_lt_compat_l d) in Hr; [|exact Hd]. replace (d * (2 / d)) with 2 in Hr by (field; lra). lra. }
  specialize (Hl (/ r)). unfold dist in Hl. cbn [Base R_met] in Hl. unfold R_dist in Hl.
  replace (M * (1 + M / (2 * r)) ^ 7 - M) with (M * (1 + M / 2 * / r) ^ 7 - M * (1 + M / 2 * 0) ^ 7).
  - apply Hl. split; [split; [exact I|lra]|]. rewrite Rminus_0_r, Rabs_right; lra.
  - replace (1 + M / 2 * 0) with 1 by ring. rewrite pow1. replace (M / 2 * / r) with (M / (2 * r)) by (field; lra). ring.
Qed.
Theorem C115_finite_radius : forall M r, 0 < M -> 0 < r -> M < M * (1 + M / (2 * r)) ^ 7.
Proof.
  intros M r HM Hr. assert (H1 : 1 < 1 + M / (2 * r)). { assert (0 < M / (2 * r)) by (apply Rdiv_lt_0_compat; lra). lra. }
  assert (1 < (1 + M / (2 * r)) ^ 7) by (apply Rlt_pow_R1; [exact H1|lia]). nra.
Qed.
(** Concrete cases: a point for a black hole of mass 1, and a box of spheres. *)
Definition bh_point (X Y Z : R) : adme_in :=
  MkE (fun c => match c with O | 3%nat | 5%nat => 1 | _ => 0 end) (fun c => match c with O => X | 1%nat => Y | _ => Z end) (psi_bh 1 X Y Z)
      (fun c => match c with O => - 1 * X | 1%nat => - 1 * Y | _ => - 1 * Z end / (2 * sqrt (X * X + Y * Y + Z * Z) ^ 3) / psi_bh 1 X Y Z) (fun _ => 0).
Lemma bh_holds : forall X Y Z, 0 < X * X + Y * Y + Z * Z -> holds (bh_point X Y Z) X Y Z (psi_bh 1) flat.
Proof.
  intros X Y Z Hr. assert (Hp : psi_bh 1 X Y Z <> 0). { unfold psi_bh. assert (0 < 1 / (2 * sqrt (X * X + Y * Y + Z * Z))) by (apply Rdiv_lt_0_compat; [lra|]; assert (0 < sqrt (X * X + Y * Y + Z * Z)) by (apply sqrt_lt_R0; exact Hr); lra). lra. }
  assert (Hs : 0 < sqrt (X * X + Y * Y + Z * Z)) by (apply sqrt_lt_R0; exact Hr).
  unfold holds, bh_point. cbn [e_x e_psi e_dpop e_gb e_dgb]. do 4 (split; [reflexivity|]). split; [|split].
  - intro k. refine (pd_val _ _ _ _ _ _ _ _ (psi_bh_pd 1 X Y Z k Hr)). destruct k; cbn [n3 position]; field; split; (exact Hp || lra).
  - intros i j. destruct i, j; reflexivity.
  - intros k i j. apply pd_const.
Qed.
Example C115_ex : holds (bh_point 3 0 4) 3 0 4 (psi_bh 1) flat /\ integrand_at (bh_point 3 0 4) = (1 + 1 / 10) ^ 7 / (100 * PI).
Proof.
  split; [apply bh_holds; lra|]. rewrite (C115_black_hole _ 3 0 4 1 (bh_holds 3 0 4 ltac:(lra))) by (try lra; destruct (bh_holds 3 0 4 ltac:(lra)) as (_ & _ & _ & _ & _ & _); unfold psi_bh; replace (3 * 3 + 0 * 0 + 4 * 4) with (5 * 5) by ring; rewrite sqrt_square by lra; lra).
  replace (3 * 3 + 0 * 0 + 4 * 4) with (5 * 5) by ring. rewrite sqrt_square by lra. pose proof PI_RGT_0. field. lra.
Qed.
(** the energy of a black hole of mass 1 on a 3 x 8 x 6 box of spheres of radii 1, 2 and 3 *)
Example C115_energy_ex : exists b X pts V, nn b X2 = 8%nat /\ inbox b (1, 2, 3)%nat /\ E_ADM b (sequential b) X pts = Ok V /\ val b V (1, 2, 3)%nat = (1 + / 4) ^ 7.
Proof.
  destruct (mode_box_ex 3 8 6) as (b & MB & N1 & N2 & N3); try lia; try (now exists 4%nat); try (now exists 3%nat). assert (MC := coords_ok b). destruct (coords_of b) as [[X Y] Z_].
  assert (IB : inbox b (1, 2, 3)%nat) by (intros d; destruct d; cbn [comp]; lia).
  set (pts := map (fun n => bh_point (1 + INR (n mod nn b X1)) 0 0) (seq 0 (npoints b))).
  destruct (C115_energy b (sequential b) (fun i => 1 + INR i) X Y Z_ pts 1 MB) as (V & E & LV & HV); auto using sequential_schedule.
  - unfold pts. now rewrite map_length, seq_length.
  - intros i j k I0. assert (Pi := pos_INR i). split; [lra|]. split. { assert (0 < 1 / (2 * (1 + INR i))) by (apply Rdiv_lt_0_compat; lra). lra. }
    exists (1 + INR i), 0, 0. split; [|ring]. assert (L := Ixp_lt b (i, j, k) I0). unfold Ixp in L.
    set (a0 := MkE (fun _ => 0) (fun _ => 0) 0 (fun _ => 0) (fun _ => 0)).
    assert (Q : nth (Ix b i j k) pts a0 = bh_point (1 + INR i) 0 0).
    { unfold pts. rewrite (nth_indep _ a0 (bh_point (1 + INR (0 mod nn b X1)) 0 0)) by (rewrite map_length, seq_length; exact L).
      rewrite (map_nth (fun n => bh_point (1 + INR (n mod nn b X1)) 0 0) (seq 0 (npoints b)) 0%nat (Ix b i j k)).
      rewrite seq_nth by exact L. rewrite Nat.add_0_l. unfold Ix. rewrite (Nat.mul_comm (nn b X1)), Nat.mod_add by lia. pose proof (I0 X1) as J. cbn [comp] in J. rewrite Nat.mod_small by exact J. reflexivity. }
    rewrite Q. apply bh_holds. nra.
  - exists b, X, pts, V. split; [exact N2|]. split; [exact IB|]. split; [exact E|]. rewrite HV by exact IB. cbn [INR]. field.
Qed.
Print Assumptions C115_integrand.
Print Assumptions C115_conformally_flat.
Print Assumptions C115_black_hole.
Print Assumptions C115_energy.
Print Assumptions C115_limit.
Print Assumptions C115_finite_radius.

(** C75 (continued): derivatives of the spherical angles of a sphered cube; C76: stretched sphered cubes. *)
From Coquelicot Require Import Coquelicot.
From Verif Require Import Rutil Base Cart_model Sparse_model Coord_model Coord_spec Cub_model Cub_spec Cub_proofs Cub_props Cub2_props Angle_model Angle_spec Angle_proofs Angle_props Atten_props.
Local Open Scope R_scope.

Lemma unit_angle x y r : 0 < r -> r * r = x * x + y * y -> cos (Arg_plus x y) = x / r /\ sin (Arg_plus x y) = y / r.
Proof.
  intros P E. assert (N : x <> 0 \/ y <> 0) by (destruct (Req_dec x 0) as [->|]; [right; intros ->; nra|auto]).
  destruct (Arg_plus_angle x y N) as ((r' & P' & X & Y) & _). set (a := Arg_plus x y) in *. clearbody a. pose proof (sin2_cos2 a) as SC. unfold Rsqr in SC.
  assert (ER : r' * r' = r * r). { rewrite E, X, Y. transitivity (r' * r' * (sin a * sin a + cos a * cos a)); [rewrite SC; ring|ring]. }
  assert (r' = r) as -> by nra. rewrite X, Y. split; field; lra.
Qed.
Lemma root_A A : 0 < sqrt (1 + A * A) /\ sqrt (1 + A * A) * sqrt (1 + A * A) = 1 + A * A.
Proof. split; [apply sqrt_lt_R0; nra|apply sqrt_sqrt; nra]. Qed.
Lemma inv_root_d k A : derivable_pt_lim (fun t => k / sqrt (1 + t * t)) A (- (k * A) / (sqrt (1 + A * A) * (1 + A * A))).
Proof.
  destruct (root_A A) as [P E]. apply is_derive_Reals. auto_derive. { split; [nra|]. split; [lra|auto]. }
  set (w := sqrt (1 + A * A)) in *. assert (E' : A * A = w * w - 1) by lra. replace (1 + A * A) with (w * w) by lra. field. lra.
Qed.
Lemma lin_d k A : derivable_pt_lim (fun t => k * t) A k.
Proof. pose proof (derivable_pt_lim_scal _ k _ _ (derivable_pt_lim_id A)) as H. rewrite Rmult_1_r in H. exact H. Qed.
Lemma comp_d f g x l m : derivable_pt_lim g x l -> derivable_pt_lim f (g x) m -> derivable_pt_lim (fun t => f (g t)) x (m * l).
Proof. intros Dg Df. exact (derivable_pt_lim_comp g f x l m Dg Df). Qed.
(** the values of ThetaPhi_of_AB_CubSph, one by one *)
Definition ThetaOf (b : cbox) (A B : R) : R := fst (ThetaPhi_of_AB_CubSph b A B).
Definition PhiOf (b : cbox) (A B : R) : R := snd (ThetaPhi_of_AB_CubSph b A B).
(** the direction (A,B) points along the z axis *)
Definition at_pole (b : cbox) (A B : R) : Prop := axis (dom (ci b)) = D3 /\ A = 0 /\ B = 0.
(** the direction lies in the half plane y=0, x>0, where Phi jumps from 2 PI to 0 *)
Definition at_cut (b : cbox) (A B : R) : Prop := ray (dom (ci b)) A B D2 = 0 /\ 0 < ray (dom (ci b)) A B D1.
(** C75: ThetaPhi_dThetaPhidAB_of_AB_CubSph returns the same angles and, except at the pole, their derivatives; only dPhi/dA needs the direction to be off the cut. *)
Theorem C75_angle_derivs b A B : (dom (ci b) < 6)%nat -> exists TA TB PA PB,
  ThetaPhi_dThetaPhidAB_of_AB_CubSph b A B = (ThetaOf b A B, PhiOf b A B, TA, TB, PA, PB) /\
  (~ at_pole b A B -> derivable_pt_lim (fun t => ThetaOf b t B) A TA /\ derivable_pt_lim (fun t => ThetaOf b A t) B TB /\ derivable_pt_lim (fun t => PhiOf b A t) B PB /\
     (~ at_cut b A B -> derivable_pt_lim (fun t => PhiOf b t B) A PA)).
Proof.
  intros D. unfold ThetaOf, PhiOf, ThetaPhi_dThetaPhidAB_of_AB_CubSph, ThetaPhi_of_AB_CubSph, at_pole, at_cut. rewrite (pm_sgn b D). pose proof (cdir_axis b D) as DA. unfold ray. set (s := sgn (dom (ci b))).
  assert (SN : s <> 0) by (unfold s; destruct (sgn_or (dom (ci b))); lra). assert (SS : s * s = 1) by (unfold s; destruct (sgn_or (dom (ci b))) as [-> | ->]; ring).
  destruct (axis (dom (ci b))) eqn:AX; rewrite DA; cbn [Nat.eqb fst snd]; do 4 eexists; (split; [reflexivity|]); intros NP.
  - (* x *)
    assert (CS : forall a, cos (Arg_plus s (s * a)) = s / sqrt (1 + a * a) /\ sin (Arg_plus s (s * a)) = s * a / sqrt (1 + a * a)).
    { intros a. destruct (root_A a) as [P E]. apply unit_angle; auto. rewrite E. transitivity (s * s * (1 + a * a)); [rewrite SS; ring|ring]. }
    destruct (root_A A) as [P E]. destruct (CS A) as [C S].
    assert (PA : dArgdy s (s * A) * s = / (1 + A * A)). { unfold dArgdy. replace (s * s + s * A * (s * A)) with (s * s * (1 + A * A)) by ring. field. repeat split; auto; nra. }
    repeat split.
    + eapply dlim_eq. { eapply (dlim_loc (fun t => Arg_plus ((B * s) / sqrt (1 + t * t)) 1) _ A 1); [lra| |]. { intros t _. cbv beta. destruct (CS t) as [-> _]. f_equal. unfold Rdiv. ring. }
        apply (comp_d (fun u => Arg_plus u 1) (fun t => (B * s) / sqrt (1 + t * t))); [apply inv_root_d|]. apply (C68_arg_first _ 1 (or_intror R1_neq_R0)). }
      cbv beta. rewrite Rmult_assoc, Rmult_assoc, Rmult_assoc, PA, C, S. replace (B * (s / sqrt (1 + A * A))) with (B * s / sqrt (1 + A * A)) by (unfold Rdiv; ring).
      rewrite <- !Rmult_assoc. rewrite !Rmult_assoc. f_equal. assert (1 + A * A <> 0) by nra. field. split; [auto|lra] || split; lra.
    + eapply dlim_eq. { apply (comp_d (fun u => Arg_plus u 1) (fun t => t * cos (Arg_plus s (s * A)))). { eapply (dlim_loc (fun t => cos (Arg_plus s (s * A)) * t) _ B 1); [lra| |apply lin_d]. intros; cbv beta; ring. }
        apply (C68_arg_first _ 1 (or_intror R1_neq_R0)). } cbv beta. ring.
    + apply derivable_pt_lim_const.
    + intros NC. apply (comp_d (fun u => Arg_plus s u) (fun t => s * t)); [apply lin_d|]. apply (C68_arg_first s (s * A) (or_introl SN)).
      destruct (Req_dec (s * A) 0) as [Z|Z]; auto. right. destruct (Rlt_dec s 0); auto. exfalso. apply NC. split; [auto|lra].
  - (* y *)
    assert (CS : forall a, cos (Arg_plus (s * a) s) = s * a / sqrt (1 + a * a) /\ sin (Arg_plus (s * a) s) = s / sqrt (1 + a * a)).
    { intros a. destruct (root_A a) as [P E]. apply unit_angle; auto. rewrite E. transitivity (s * s * (1 + a * a)); [rewrite SS; ring|ring]. }
    destruct (root_A A) as [P E]. destruct (CS A) as [C S].
    assert (PA : dArgdx (s * A) s * s = - / (1 + A * A)). { unfold dArgdx. replace (s * A * (s * A) + s * s) with (s * s * (1 + A * A)) by ring. field. repeat split; auto; nra. }
    repeat split.
    + eapply dlim_eq. { eapply (dlim_loc (fun t => Arg_plus ((B * s) / sqrt (1 + t * t)) 1) _ A 1); [lra| |]. { intros t _. cbv beta. destruct (CS t) as [_ ->]. f_equal. unfold Rdiv. ring. }
        apply (comp_d (fun u => Arg_plus u 1) (fun t => (B * s) / sqrt (1 + t * t))); [apply inv_root_d|]. apply (C68_arg_first _ 1 (or_intror R1_neq_R0)). }
      cbv beta. rewrite Rmult_assoc, Rmult_assoc, PA, C, S. replace (B * (s / sqrt (1 + A * A))) with (B * s / sqrt (1 + A * A)) by (unfold Rdiv; ring).
      rewrite <- !Rmult_assoc. rewrite !Rmult_assoc. f_equal. assert (1 + A * A <> 0) by nra. field. split; [auto|lra] || split; lra.
    + eapply dlim_eq. { apply (comp_d (fun u => Arg_plus u 1) (fun t => t * sin (Arg_plus (s * A) s))). { eapply (dlim_loc (fun t => sin (Arg_plus (s * A) s) * t) _ B 1); [lra| |apply lin_d]. intros; cbv beta; ring. }
        apply (C68_arg_first _ 1 (or_intror R1_neq_R0)). } cbv beta. ring.
    + apply derivable_pt_lim_const.
    + intros _. apply (comp_d (fun u => Arg_plus u s) (fun t => s * t)); [apply lin_d|]. apply (C68_arg_first (s * A) s (or_intror SN)).
  - (* z *)
    assert (Q : 0 < A * A + B * B). { destruct (Req_dec A 0) as [ZA|ZA]; [destruct (Req_dec B 0) as [ZB|ZB]; [tauto|]|]; [assert (0 < B * B) by nra|assert (0 < A * A) by nra]; nra. }
    pose proof (sqrt_lt_R0 _ Q) as P. pose proof (sqrt_sqrt (A * A + B * B) ltac:(lra)) as E. set (w := sqrt (A * A + B * B)) in *.
    destruct (unit_angle (s * B) (s * A) w P) as [C S]. { rewrite E. transitivity (s * s * (A * A + B * B)); [rewrite SS; ring|ring]. }
    assert (N : s * B <> 0 \/ s * A <> 0). { destruct (Req_dec B 0); [right|left]; intros H0; apply Rmult_integral in H0; destruct H0; subst; try lra; nra. }
    assert (TD : derivable_pt_lim (fun u => Arg_plus s u) w (dArgdy s w)) by (apply (C68_arg_first s w (or_introl SN)); left; lra).
    destruct (Req_EM_T w 0); [lra|]. assert (R2 : s * B * (s * B) + s * A * (s * A) = w * w) by (rewrite E; transitivity (s * s * (A * A + B * B)); [ring|rewrite SS; ring]).
    repeat split.
    + eapply dlim_eq. { apply (comp_d (fun u => Arg_plus s u) (fun t => sqrt (t * t + B * B)) A (A / w)); [|exact TD]. apply is_derive_Reals. auto_derive; [lra|]. fold w. field. lra. }
      rewrite S. transitivity (dArgdy s w * (s * s * A / w)); [rewrite SS; field; lra|field; lra].
    + eapply dlim_eq. { apply (comp_d (fun u => Arg_plus s u) (fun t => sqrt (A * A + t * t)) B (B / w)); [|exact TD]. apply is_derive_Reals. auto_derive; [lra|]. fold w. field. lra. }
      rewrite C. transitivity (dArgdy s w * (s * s * B / w)); [rewrite SS; field; lra|field; lra].
    + eapply dlim_eq. { apply (comp_d (fun u => Arg_plus u (s * A)) (fun t => s * t)); [apply lin_d|]. apply (C68_arg_first _ _ N). }
      rewrite S. unfold dArgdx. rewrite R2. field. lra.
    + intros NC. eapply dlim_eq. { apply (comp_d (fun u => Arg_plus (s * B) u) (fun t => s * t)); [apply lin_d|]. apply (C68_arg_first _ _ N).
        destruct (Req_dec (s * A) 0) as [Z|Z]; auto. right. destruct (Rlt_dec (s * B) 0); auto. exfalso. destruct N; [|tauto]. apply NC. split; [auto|lra]. }
      rewrite C. unfold dArgdy. rewrite R2. field. lra.
Qed.
Print Assumptions C75_angle_derivs.
Example C75_ex : ~ at_pole (six_ex CubedShell 5) 1 0 /\ ~ at_cut (six_ex CubedShell 5) 1 0 /\ ~ at_pole (six_ex CubedShell 0) 0 0 /\ ~ at_cut (six_ex CubedShell 0) 0 0 /\ at_cut (six_ex CubedShell 1) 0 0.
Proof. unfold at_pole, at_cut, six_ex, ray, sgn; cbn [dom ci axis Nat.odd Nat.even negb]. repeat split; try (intros [? ?]); try lra; try (destruct H0; lra); try discriminate. Qed.

(** *** C76 *)
(** C76: rho is such that 1/r is linear in rho: 1/r = (1-rho)/sig0 + rho/sig1; it is the inverse of lam_of_rho, leaves the ends in place, and drho_dlam is its derivative. *)
Theorem C76_stretch s0 s1 u : 0 < s0 -> 0 < s1 -> s0 <> s1 ->
  (0 < r_of_lam_sig0sig1 u s0 s1 -> lam_of_rho_sig0sig1 (rho_of_lam_sig0sig1 u s0 s1) s0 s1 = u) /\
  (0 < (1 - u) * s1 + u * s0 -> rho_of_lam_sig0sig1 (lam_of_rho_sig0sig1 u s0 s1) s0 s1 = u /\
     1 / r_of_lam_sig0sig1 (lam_of_rho_sig0sig1 u s0 s1) s0 s1 = (1 - u) / s0 + u / s1 /\
     derivable_pt_lim (fun l => rho_of_lam_sig0sig1 l s0 s1) (lam_of_rho_sig0sig1 u s0 s1) (drho_dlam_of_rho_sig0sig1 u s0 s1)) /\
  (forall z, z = 0 \/ z = 1 -> rho_of_lam_sig0sig1 z s0 s1 = z /\ lam_of_rho_sig0sig1 z s0 s1 = z).
Proof.
  intros P0 P1 N. unfold r_of_lam_sig0sig1, lam_of_rho_sig0sig1, rho_of_lam_sig0sig1, drho_dlam_of_rho_sig0sig1. cbv zeta. split; [|split].
  - intros P. field. repeat split; try lra; nra.
  - intros P. assert (Q : s1 - (s1 - s0) * u <> 0) by nra. assert (EL : (s1 - s0) * (s0 / (s1 - s0) * (s1 / (s1 - (s1 - s0) * u) - 1)) + s0 = s0 * s1 / (s1 - (s1 - s0) * u)) by (field; repeat split; lra).
    split; [|split].
    + rewrite EL. field. repeat split; lra.
    + rewrite EL. field. repeat split; lra.
    + set (l := s0 / (s1 - s0) * (s1 / (s1 - (s1 - s0) * u) - 1)) in *. assert (QL : (s1 - s0) * l + s0 <> 0). { rewrite EL. unfold Rdiv. assert (0 < s1 - (s1 - s0) * u) by lra. apply Rgt_not_eq. apply Rmult_lt_0_compat; [nra|now apply Rinv_0_lt_compat]. }
      apply is_derive_Reals. auto_derive; [auto|]. rewrite EL. field. repeat split; try lra.
  - intros z [-> | ->]; split; field; repeat split; try lra; try nra.
Qed.
Print Assumptions C76_stretch.
(** C76: xyz_of_rhoAB_CubSph puts the point in direction (A,B) at the distance r with 1/r = (1-rho)/sig0 + rho/sig1, and rhoAB_of_xyz_CubSph finds (rho,A,B) again. *)
Theorem C76_there b ind rho A B g0 g1 : (dom (ci b) < 6)%nat -> typ (ci b) = CubedShell -> CubedSphere_sigma b false ind A B = Ok (g0 A B) -> CubedSphere_sigma b true ind A B = Ok (g1 A B) ->
  within A (bbox2 b) (bbox3 b) -> within B (bbox4 b) (bbox5 b) -> 0 < g0 A B -> 0 < g1 A B -> g0 A B <> g1 A B -> 0 < (1 - rho) * g1 A B + rho * g0 A B ->
  exists x y z, xyz_of_rhoAB_CubSph b ind rho A B = Ok (x, y, z) /\ in_pyramid (dom (ci b)) (fun k => vec (x, y, z) k - centre b k) A B /\
    1 / norm3 (fun k => vec (x, y, z) k - centre b k) = (1 - rho) / g0 A B + rho / g1 A B /\ rhoAB_of_xyz_CubSph b ind x y z = Ok (0%Z, (rho, A, B)).
Proof.
  intros D T E0 E1 WA WB P0 P1 N P. set (lam := lam_of_rho_sig0sig1 rho (g0 A B) (g1 A B)). destruct (C76_stretch (g0 A B) (g1 A B) rho P0 P1 N) as (_ & Q & _). destruct (Q P) as (Q1 & Q2 & _). fold lam in Q1, Q2. clear Q.
  pose proof (sq_pos A B) as SQ.
  assert (AL : along (Curved g0) (Curved g1) lam A B = r_of_lam_sig0sig1 lam (g0 A B) (g1 A B) / sqrt (q A B)). { unfold along, r_of_lam_sig0sig1. cbn [height]. fold (q A B). field. lra. }
  assert (RP : 0 < r_of_lam_sig0sig1 lam (g0 A B) (g1 A B)). { assert (0 < 1 / r_of_lam_sig0sig1 lam (g0 A B) (g1 A B)). { rewrite Q2. replace ((1 - rho) / g0 A B + rho / g1 A B) with (((1 - rho) * g1 A B + rho * g0 A B) / (g0 A B * g1 A B)) by (field; lra). apply Rdiv_lt_0_compat; nra. } unfold Rdiv in H. rewrite Rmult_1_l in H. rewrite <- (Rinv_inv (r_of_lam_sig0sig1 lam (g0 A B) (g1 A B))). now apply Rinv_0_lt_compat. }
  assert (BS : box_surfaces b ind A B (Curved g0) (Curved g1)) by (unfold box_surfaces; rewrite T; repeat split; auto; discriminate).
  assert (AP : 0 < along (Curved g0) (Curved g1) lam A B) by (rewrite AL; now apply Rdiv_lt_0_compat).
  destruct (C72_there b ind lam A B (Curved g0) (Curved g1)) as (x & y & z & X1 & X2); auto.
  { cbn [height]. fold (q A B). intros H. apply N. apply (Rmult_eq_reg_r (/ sqrt (q A B))); [exact H|]. apply Rinv_neq_0_compat. lra. }
  exists x, y, z. unfold xyz_of_rhoAB_CubSph, rhoAB_of_xyz_CubSph. rewrite X2, T. cbn [rbind]. rewrite E0, E1. cbn [rbind]. rewrite Q1. fold lam. split; auto.
  destruct (C71_place b ind lam A B _ _ D BS) as (p & E & V). rewrite X1 in E. injection E as <-.
  assert (VV : forall k, vec (x, y, z) k - centre b k = along (Curved g0) (Curved g1) lam A B * ray (dom (ci b)) A B k) by (intros k; rewrite V; unfold place; ring).
  split; [|split]; auto.
  - exists (along (Curved g0) (Curved g1) lam A B). auto.
  - rewrite (norm_ext _ _ VV), norm_ray by lra. fold (q A B). rewrite AL, <- Q2. f_equal. field. lra.
Qed.
Print Assumptions C76_there.
(** C76: with constant surfaces the table of drhoAB_dxyz_CubSph is the inverse Jacobian of (rho,A,B) -> (x,y,z). *)
Theorem C76_derivatives b ind rho A B : (dom (ci b) < 6)%nat -> typ (ci b) = CubedShell -> (forall si, iSurf (ci b) si <= 0)%Z -> (forall si, idA (ci b) si <= 0)%Z -> (forall si, idB (ci b) si <= 0)%Z ->
  let s0 := srad (ci b) false in let s1 := srad (ci b) true in 0 < s0 -> 0 < s1 -> s0 <> s1 -> 0 < (1 - rho) * s1 + rho * s0 ->
  exists p t, drhoAB_dxyz_CubSph b ind rho A B = Ok (p, t) /\ xyz_of_rhoAB_CubSph b ind rho A B = Ok p /\
    let X := fun k r a b' => match xyz_of_rhoAB_CubSph b ind r a b' with Ok p => vec p k | _ => 0 end in
    inverse_jacobian (Coords X (fun i m _ _ _ => t i m) (fun _ _ _ => None)) rho A B.
Proof.
  intros D T IS IA IB s0 s1 P0 P1 N P. set (lam := lam_of_rho_sig0sig1 rho s0 s1). destruct (C76_stretch s0 s1 rho P0 P1 N) as (_ & Q & _). destruct (Q P) as (Q1 & Q2 & Q3). fold lam in Q1, Q2, Q3. clear Q.
  pose proof (sq_pos A B) as SQ. pose proof (IS false) as I0. pose proof (IS true) as I1.
  assert (SG : forall si a b', CubedSphere_sigma b si ind a b' = Ok (srad (ci b) si)). { intros si a b'. unfold CubedSphere_sigma, surf_val. destruct (Z.ltb_spec (iSurf (ci b) si) 1); auto. specialize (IS si). lia. }
  set (S0 := Curved (fun _ _ => s0)). set (S1 := Curved (fun _ _ => s1)).
  assert (BS : forall a b', box_surfaces b ind a b' S0 S1) by (intros; unfold box_surfaces; rewrite T; split; [discriminate|split; (split; [reflexivity|apply SG])]).
  assert (SD : forall si s, s = srad (ci b) si -> s <> 0 -> surf_d b ind A B si (Curved (fun _ _ => s))). { intros si s -> NZ. split; auto. exists 0, 0. repeat split; try apply derivable_pt_lim_const; unfold CubedSphere_dsigma_dA, CubedSphere_dsigma_dB, surf_val; [specialize (IA si); destruct (Z.ltb_spec (idA (ci b) si) 1)|specialize (IB si); destruct (Z.ltb_spec (idB (ci b) si) 1)]; auto; lia. }
  assert (AL : along S0 S1 lam A B = r_of_lam_sig0sig1 lam s0 s1 / sqrt (q A B)). { unfold along, r_of_lam_sig0sig1, S0, S1. cbn [height]. fold (q A B). field. lra. }
  assert (RP : r_of_lam_sig0sig1 lam s0 s1 <> 0). { intros Z. unfold Rdiv in Q2. rewrite Z, Rinv_0 in Q2. replace ((1 - rho) * / s0 + rho * / s1) with (((1 - rho) * s1 + rho * s0) * / (s0 * s1)) in Q2 by (field; lra). assert (0 < / (s0 * s1)) by (apply Rinv_0_lt_compat; nra). nra. }
  assert (AN : along S0 S1 lam A B <> 0). { rewrite AL. unfold Rdiv. apply Rmult_integral_contrapositive_currified; auto. apply Rinv_neq_0_compat. lra. }
  destruct (C73_derivatives b ind lam A B S0 S1 D (BS A B) (SD false s0 eq_refl ltac:(lra)) (SD true s1 eq_refl ltac:(lra)) AN) as (p & t & E1 & E2 & IJ).
  { unfold S0, S1. cbn [height]. fold (q A B). intros H. apply N. apply (Rmult_eq_reg_r (/ sqrt (q A B))); [exact H|]. apply Rinv_neq_0_compat. lra. }
  assert (XR : forall r a b', xyz_of_rhoAB_CubSph b ind r a b' = xyz_of_lamAB_CubSph b ind (lam_of_rho_sig0sig1 r s0 s1) a b'). { intros. unfold xyz_of_rhoAB_CubSph. rewrite T, !SG. reflexivity. }
  assert (XP : forall k r a b', match xyz_of_rhoAB_CubSph b ind r a b' with Ok p => vec p k | _ => 0 end = place (dom (ci b)) (centre b) S0 S1 (lam_of_rho_sig0sig1 r s0 s1) a b' k). { intros. rewrite XR. destruct (C71_place b ind (lam_of_rho_sig0sig1 r s0 s1) a b' S0 S1 D (BS a b')) as (p' & -> & V). apply V. }
  eexists p, _. split; [|split].
  - unfold drhoAB_dxyz_CubSph. rewrite T. destruct (Z.ltb_spec 0 (iSurf (ci b) false)); [lia|]. destruct (Z.ltb_spec 0 (iSurf (ci b) true)); [lia|]. cbn [orb]. rewrite !SG. cbn [rbind]. fold s0 s1 lam. rewrite E1. cbn [rbind]. reflexivity.
  - rewrite XR. exact E2.
  - cbv zeta. set (dl := drho_dlam_of_rho_sig0sig1 rho s0 s1) in *. assert (DN : dl <> 0). { unfold dl, drho_dlam_of_rho_sig0sig1. cbv zeta. assert (0 < s1 - (s1 - s0) * rho) by lra. apply Rgt_not_eq, Rdiv_lt_0_compat; nra. }
    assert (LD : derivable_pt_lim (fun r => lam_of_rho_sig0sig1 r s0 s1) rho (/ dl)). { unfold lam_of_rho_sig0sig1, dl, drho_dlam_of_rho_sig0sig1. cbv zeta. assert (s1 - (s1 - s0) * rho <> 0) by lra. apply is_derive_Reals. auto_derive; [auto|]. field. repeat split; lra. }
    intros j. destruct (IJ j) as (J & JD & JI). cbn [x_of_X dX_dx] in *. destruct j.
    + exists (fun k => J k * / dl). split.
      * intros k. specialize (JD k). cbn [pd x_of_X] in *. eapply (dlim_loc (fun r => place (dom (ci b)) (centre b) S0 S1 (lam_of_rho_sig0sig1 r s0 s1) A B k) _ rho 1); [lra| |]. { intros y _. now rewrite XP. }
        apply (comp_d (fun l => place (dom (ci b)) (centre b) S0 S1 l A B k) (fun r => lam_of_rho_sig0sig1 r s0 s1)); auto.
      * intros i. specialize (JI i). unfold S3 in *. destruct i; unfold delta in *; cbn [dX_dx] in *.
        -- transitivity (dl * / dl * (t D1 D1 * J D1 + t D1 D2 * J D2 + t D1 D3 * J D3)); [ring|rewrite JI; field; auto].
        -- transitivity (/ dl * (t D2 D1 * J D1 + t D2 D2 * J D2 + t D2 D3 * J D3)); [ring|rewrite JI; ring].
        -- transitivity (/ dl * (t D3 D1 * J D1 + t D3 D2 * J D2 + t D3 D3 * J D3)); [ring|rewrite JI; ring].
    + exists J. split.
      * intros k. specialize (JD k). cbn [pd x_of_X] in *. eapply (dlim_loc _ _ A 1); [lra| |exact JD]. intros y _. cbv beta. now rewrite XP.
      * intros i. specialize (JI i). unfold S3 in *. destruct i; unfold delta in *; auto. transitivity (dl * (t D1 D1 * J D1 + t D1 D2 * J D2 + t D1 D3 * J D3)); [ring|rewrite JI; ring].
    + exists J. split.
      * intros k. specialize (JD k). cbn [pd x_of_X] in *. eapply (dlim_loc _ _ B 1); [lra| |exact JD]. intros y _. cbv beta. now rewrite XP.
      * intros i. specialize (JI i). unfold S3 in *. destruct i; unfold delta in *; auto. transitivity (dl * (t D1 D1 * J D1 + t D1 D2 * J D2 + t D1 D3 * J D3)); [ring|rewrite JI; ring].
Qed.
Print Assumptions C76_derivatives.
(** C76: the stretched transformations refuse boxes that are no shells, and the derivatives refuse surfaces that are not constant. *)
Theorem C76_refused b ind u A B : (typ (ci b) <> CubedShell -> xyz_of_rhoAB_CubSph b ind u A B = Err /\ drhoAB_dxyz_CubSph b ind u A B = Err /\ (forall x y z r, rhoAB_of_xyz_CubSph b ind x y z <> Ok r)) /\
  (forall si, (0 < iSurf (ci b) si)%Z -> drhoAB_dxyz_CubSph b ind u A B = Err).
Proof.
  split.
  - intros NT. unfold xyz_of_rhoAB_CubSph, drhoAB_dxyz_CubSph, rhoAB_of_xyz_CubSph. split; [|split]; try (destruct (typ (ci b)); congruence).
    intros x y z r. destruct (lamAB_of_xyz_CubSph b ind x y z) as [(st, ((l, a), b'))| |]; cbn [rbind]; try discriminate. destruct (typ (ci b)); try discriminate. congruence.
  - intros si P. unfold drhoAB_dxyz_CubSph. destruct (typ (ci b)); auto. apply Z.ltb_lt in P. destruct si; rewrite P; rewrite ?orb_true_r; reflexivity.
Qed.
Print Assumptions C76_refused.
Example C76_ex : let b := six_ex CubedShell 2 in typ (ci b) = CubedShell /\ CubedSphere_sigma b false (-1) (1/2) 0 = Ok 1 /\ CubedSphere_sigma b true (-1) (1/2) 0 = Ok 2 /\ within (1/2) (bbox2 b) (bbox3 b) /\ 0 < (1 - 1/3) * 2 + 1/3 * 1 /\ (forall si, iSurf (ci b) si <= 0)%Z.
Proof. cbn. unfold within. repeat split; try lra. intros; lia. Qed.

(** C71: points and surfaces of sphered cubes; C72: the inverse transformation; C73: its derivatives. *)
From Verif Require Import Rutil Base Cart_model Sparse_model Sparse_proofs Coord_model Coord_spec Cheb_model Index_model Cub_model Cub_spec Cub_proofs Dcov_props.
Local Open Scope R_scope.

(** C71: where the radius of a curved surface comes from.  Without a variable it is the constant s; at a grid point (i,j,k) it is the variable's value at the same j,k on the plane i=0 (inner) or i=n1-1 (outer), whatever i is; at other points it is the surface function if there is one, else the interpolated variable. *)
Theorem C71_sigma b si ind A B :
  ((iSurf (ci b) si < 1)%Z -> CubedSphere_sigma b si ind A B = Ok (srad (ci b) si)) /\
  (forall i j k a, (1 <= iSurf (ci b) si)%Z -> bvar b (iSurf (ci b) si) = Ok a -> (0 <= i < bn1 b)%Z -> (0 <= j < bn2 b)%Z -> (0 <= k)%Z -> (Index (bn1 b) (bn2 b) (bn1 b - 1) j k < Z.of_nat (List.length a))%Z ->
     ind = Index (bn1 b) (bn2 b) i j k ->
     CubedSphere_sigma b si ind A B = Ok (nth (Z.to_nat (Index (bn1 b) (bn2 b) (if si then bn1 b - 1 else 0) j k)) a 0)) /\
  (forall F, (1 <= iSurf (ci b) si)%Z -> (ind < 0)%Z -> useF (ci b) = true -> FSurf (ci b) si = Some F -> CubedSphere_sigma b si ind A B = Ok (F A B)) /\
  (forall a, (1 <= iSurf (ci b) si)%Z -> (ind < 0)%Z -> useF (ci b) = false \/ FSurf (ci b) si = None -> bvar b (iSurf (ci b) si) = Ok a ->
     CubedSphere_sigma b si ind A B = Ok (ip b a (if si then bn1 b - 1 else 0)%Z A B)).
Proof.
  unfold CubedSphere_sigma, surf_val.
  assert (PL : plane_of b si = (if si then bn1 b - 1 else 0)%Z) by (unfold plane_of; destruct si; cbv iota; lia).
  split; [intros H; apply Z.ltb_lt in H; now rewrite H|]. split; [|split].
  - intros i j k a V EA Hi Hj Hk HB ->. destruct (Z.ltb_spec (iSurf (ci b) si) 1); [lia|]. cbv zeta.
    assert (JK : (0 <= j + bn2 b * k)%Z) by nia. assert (I0 : (0 <= Index (bn1 b) (bn2 b) i j k)%Z) by (unfold Index; nia). destruct (Z.leb_spec 0 (Index (bn1 b) (bn2 b) i j k)); [|lia].
    assert (EK : kOfInd (Index (bn1 b) (bn2 b) i j k) (bn1 b) (bn2 b) = k).
    { unfold kOfInd. rewrite Z.quot_div_nonneg by nia. unfold Index. symmetry. apply (Z.div_unique_pos _ (bn1 b * bn2 b) k (i + bn1 b * j)); [|ring]. assert (bn1 b * j <= bn1 b * (bn2 b - 1))%Z by nia. nia. }
    rewrite EK. assert (EJ : jOfInd (Index (bn1 b) (bn2 b) i j k) (bn1 b) (bn2 b) k = j).
    { unfold jOfInd, Index. replace (i + bn1 b * (j + bn2 b * k) - bn1 b * bn2 b * k)%Z with (j * bn1 b + i)%Z by ring. rewrite Z.quot_div_nonneg by nia. symmetry. apply (Z.div_unique_pos _ (bn1 b) j i); [lia|ring]. }
    rewrite EJ, EA, PL. cbn [rbind]. unfold zrd.
    assert (J0 : (0 <= Index (bn1 b) (bn2 b) (if si then bn1 b - 1 else 0) j k <= Index (bn1 b) (bn2 b) (bn1 b - 1) j k)%Z) by (unfold Index; destruct si; cbv iota; nia).
    destruct (Z.ltb_spec (Index (bn1 b) (bn2 b) (if si then bn1 b - 1 else 0)%Z j k) 0); [lia|]. apply rd_ok. lia.
  - intros F V N U EF. destruct (Z.ltb_spec (iSurf (ci b) si) 1); [lia|]. destruct (Z.leb_spec 0 ind); [lia|]. unfold surf_AB. now rewrite U, EF.
  - intros a V N U EA. destruct (Z.ltb_spec (iSurf (ci b) si) 1); [lia|]. destruct (Z.leb_spec 0 ind); [lia|]. unfold surf_AB.
    destruct U as [-> | ->]; [|destruct (useF (ci b))]; rewrite EA, PL; reflexivity.
Qed.
Print Assumptions C71_sigma.
(** C71: xyz_of_lamAB_CubSph puts (lam,A,B) on the ray of direction (A,B) from the centre, at the fraction lam of the way from the inner to the outer surface. *)
Theorem C71_place b ind lam A B S0 S1 : (dom (ci b) < 6)%nat -> box_surfaces b ind A B S0 S1 ->
  exists p, xyz_of_lamAB_CubSph b ind lam A B = Ok p /\ forall k, vec p k = place (dom (ci b)) (centre b) S0 S1 lam A B k.
Proof. apply xyz_place. Qed.
Print Assumptions C71_place.
(** |ray| = sqrt(1+A^2+B^2) *)
Lemma ray_norm d A B t : S3 (fun k => (t * ray d A B k) * (t * ray d A B k)) = t * t * (1 + A * A + B * B).
Proof. unfold S3, ray. destruct (sgn_or d) as [-> | ->]; destruct (axis d); ring. Qed.
Lemma norm_ray d A B t : 0 <= t -> norm3 (fun k => t * ray d A B k) = t * sqrt (1 + A * A + B * B).
Proof. intros P. unfold norm3. rewrite ray_norm. rewrite sqrt_mult; [|nra|nra]. now rewrite sqrt_square. Qed.
(** C71: so lam=0 gives the inner and lam=1 the outer surface: a curved surface has the distance sig(A,B) from the centre, a flat one lies in the plane at distance h, perpendicular to the axis of the domain.  For 0<=lam<=1 the point lies on the segment between them. *)
Theorem C71_surfaces b ind A B S0 S1 : (dom (ci b) < 6)%nat -> box_surfaces b ind A B S0 S1 -> 0 <= height S0 A B -> 0 <= height S1 A B ->
  exists p0 p1, xyz_of_lamAB_CubSph b ind 0 A B = Ok p0 /\ xyz_of_lamAB_CubSph b ind 1 A B = Ok p1 /\
  (forall S p, (S = S0 /\ p = p0) \/ (S = S1 /\ p = p1) -> match S with
     | Curved sig => norm3 (fun k => vec p k - centre b k) = sig A B
     | Flat h => vec p (axis (dom (ci b))) - centre b (axis (dom (ci b))) = sgn (dom (ci b)) * h
     end) /\
  (forall lam, exists p, xyz_of_lamAB_CubSph b ind lam A B = Ok p /\ forall k, vec p k = (1 - lam) * vec p0 k + lam * vec p1 k).
Proof.
  intros D BS P0 P1. destruct (xyz_place b ind 0 A B S0 S1 D BS) as (p0 & E0 & V0). destruct (xyz_place b ind 1 A B S0 S1 D BS) as (p1 & E1 & V1). exists p0, p1. split; auto. split; auto.
  pose proof (sq_pos A B) as SQ.
  assert (G : forall S p, 0 <= height S A B -> (forall k, vec p k = centre b k + height S A B * ray (dom (ci b)) A B k) -> match S with
     | Curved sig => norm3 (fun k => vec p k - centre b k) = sig A B
     | Flat h => vec p (axis (dom (ci b))) - centre b (axis (dom (ci b))) = sgn (dom (ci b)) * h
     end).
  { intros S p P V. destruct S as [h|sig].
    - rewrite V. cbn [height]. unfold ray. destruct (axis (dom (ci b))); ring.
    - assert (E : norm3 (fun k => vec p k - centre b k) = norm3 (fun k => height (Curved sig) A B * ray (dom (ci b)) A B k)). { unfold norm3, S3. rewrite !V. f_equal. ring. }
      rewrite E, norm_ray by auto. cbn [height]. fold (q A B). field. lra. }
  split.
  - intros S p [[-> ->]|[-> ->]]; apply G; auto; intros k; [rewrite V0|rewrite V1]; unfold place, along; ring.
  - intros lam. destruct (xyz_place b ind lam A B S0 S1 D BS) as (p & E & V). exists p. split; auto. intros k. rewrite V, V0, V1. unfold place, along. ring.
Qed.
Print Assumptions C71_surfaces.
(** C71: boxes whose type is not set are refused. *)
Theorem C71_unset b ind u A B : typ (ci b) = CoordInfoNotSet ->
  xyz_of_lamAB_CubSph b ind u A B = Err /\ (forall x y z, lamAB_of_xyz_CubSph b ind x y z = Err) /\ dlamAB_dxyz_CubSph b ind u A B = Err /\ r_dr_dlam_of_lamAB_CubSph b ind u A B = Err.
Proof.
  intros T. unfold xyz_of_lamAB_CubSph, dlamAB_dxyz_CubSph, r_dr_dlam_of_lamAB_CubSph. rewrite T. repeat split; auto. intros x y z. unfold lamAB_of_xyz_CubSph. rewrite T.
  cbv zeta. match goal with |- (let '(_, _) := ?X in _) = _ => destruct X as [a c] end. destruct (put_in_range a _ _), (put_in_range c _ _). reflexivity.
Qed.
Print Assumptions C71_unset.

(** *** C72 *)
(** C72: from (lam,A,B) to (x,y,z) and back gives lam, A, B again and status 0, if A,B are in the range of the box, the surfaces differ, and the point lies on the ray beyond the centre. *)
Theorem C72_there b ind lam A B S0 S1 : (dom (ci b) < 6)%nat -> box_surfaces b ind A B S0 S1 -> within A (bbox2 b) (bbox3 b) -> within B (bbox4 b) (bbox5 b) ->
  height S0 A B <> height S1 A B -> 0 < along S0 S1 lam A B ->
  exists x y z, xyz_of_lamAB_CubSph b ind lam A B = Ok (x, y, z) /\ lamAB_of_xyz_CubSph b ind x y z = Ok (0%Z, (lam, A, B)).
Proof.
  intros D BS WA WB NE P. destruct (xyz_place b ind lam A B S0 S1 D BS) as (((x, y), z) & E & V). exists x, y, z. split; auto.
  pose proof (inv_eval b ind (fun k => along S0 S1 lam A B * ray (dom (ci b)) A B k) A B A B false false S0 S1 _ D P (fun k => eq_refl) (put_in _ _ _ WA) (put_in _ _ _ WB) BS) as IE.
  assert (X : centre b D1 + along S0 S1 lam A B * ray (dom (ci b)) A B D1 = x) by (symmetry; apply (V D1)).
  assert (Y : centre b D2 + along S0 S1 lam A B * ray (dom (ci b)) A B D2 = y) by (symmetry; apply (V D2)).
  assert (Z : centre b D3 + along S0 S1 lam A B * ray (dom (ci b)) A B D3 = z) by (symmetry; apply (V D3)).
  cbv beta in IE. rewrite X, Y, Z in IE. rewrite IE. cbn [orb stat_of]. f_equal. f_equal. f_equal. f_equal. cbv zeta.
  change (match S0 with Flat h => h | Curved sig => sig A B / sqrt (q A B) end) with (height S0 A B). change (match S1 with Flat h => h | Curved sig => sig A B / sqrt (q A B) end) with (height S1 A B).
  unfold along. destruct (sgn_or (dom (ci b))) as [-> | ->]; field; lra.
Qed.
Print Assumptions C72_there.
(** C72: and from a point of the pyramid to (lam,A,B) and back gives the point. *)
Theorem C72_back b ind x y z A B S0 S1 : (dom (ci b) < 6)%nat -> in_pyramid (dom (ci b)) (fun k => vec (x, y, z) k - centre b k) A B ->
  box_surfaces b ind A B S0 S1 -> within A (bbox2 b) (bbox3 b) -> within B (bbox4 b) (bbox5 b) -> height S0 A B <> height S1 A B ->
  exists lam, lamAB_of_xyz_CubSph b ind x y z = Ok (0%Z, (lam, A, B)) /\ xyz_of_lamAB_CubSph b ind lam A B = Ok (x, y, z).
Proof.
  intros D (t & P & V) BS WA WB NE.
  assert (X : x = centre b D1 + t * ray (dom (ci b)) A B D1) by (rewrite <- (V D1); cbn; ring).
  assert (Y : y = centre b D2 + t * ray (dom (ci b)) A B D2) by (rewrite <- (V D2); cbn; ring).
  assert (Z : z = centre b D3 + t * ray (dom (ci b)) A B D3) by (rewrite <- (V D3); cbn; ring).
  pose proof (inv_eval b ind (fun k => t * ray (dom (ci b)) A B k) A B A B false false S0 S1 t D P (fun k => eq_refl) (put_in _ _ _ WA) (put_in _ _ _ WB) BS) as IE.
  eexists. split; [rewrite X, Y, Z; exact IE|]. cbv zeta.
  change (match S0 with Flat h => h | Curved sig => sig A B / sqrt (q A B) end) with (height S0 A B). change (match S1 with Flat h => h | Curved sig => sig A B / sqrt (q A B) end) with (height S1 A B).
  match goal with |- xyz_of_lamAB_CubSph _ _ ?l _ _ = _ => destruct (xyz_place b ind l A B S0 S1 D BS) as (p & E & W); assert (EL : along S0 S1 l A B = t) end.
  { unfold along. destruct (sgn_or (dom (ci b))) as [-> | ->]; field; lra. }
  rewrite E. f_equal. destruct p as ((p1, p2), p3). f_equal; [f_equal|].
  - rewrite X. change p1 with (vec (p1, p2, p3) D1). rewrite W. unfold place. now rewrite EL.
  - rewrite Y. change p2 with (vec (p1, p2, p3) D2). rewrite W. unfold place. now rewrite EL.
  - rewrite Z. change p3 with (vec (p1, p2, p3) D3). rewrite W. unfold place. now rewrite EL.
Qed.
Print Assumptions C72_back.
(** C72: the status and the returned A, B in general.  Values out of range by at most 1e-10 are moved to the end of the range; if this is possible for both the status is 0, else it is -1, or -2 if the radius of a surface had to be found off the grid. *)
Definition moved (A lo hi A' : R) (out : bool) : Prop :=
  (out = false -> within A' lo hi /\ Rabs (A - A') <= 1 / 10 ^ 10) /\ (out = true -> A' = A /\ (A < lo - 1 / 10 ^ 10 \/ hi + 1 / 10 ^ 10 < A)) /\ (within A lo hi -> out = false /\ A' = A).
Lemma put_moved A lo hi : lo <= hi -> exists A' out, put_in_range A lo hi = (A', out) /\ moved A lo hi A' out.
Proof.
  intros L. assert (E10 : 1 / 10 ^ 10 = 1 / 10000000000) by lra. unfold moved. rewrite E10. unfold put_in_range.
  destruct (Rlt_dec A lo) as [H|H]; [|destruct (Rlt_dec hi A) as [H'|H']].
  - destruct (dequal A lo) eqn:Q1.
    + apply dequal_abs in Q1. eexists _, _. split; [reflexivity|]. split; [split; [split; lra|auto]|]. split; [discriminate|]. intros [? ?]. lra.
    + assert (N1 : ~ Rabs (A - lo) <= 1 / 10000000000) by (intros C; apply dequal_abs in C; congruence). apply Rnot_le_lt in N1. rewrite Rabs_left1 in N1 by lra.
      destruct (dequal A hi) eqn:Q2; [apply dequal_abs in Q2; rewrite Rabs_left1 in Q2 by lra; lra|]. eexists _, _. split; [reflexivity|]. split; [discriminate|]. split; [intros _; split; [auto|left; lra]|]. intros [? ?]. lra.
  - destruct (dequal A lo) eqn:Q1; [apply dequal_abs in Q1; rewrite Rabs_pos_eq in Q1 by lra|].
    + eexists _, _. split; [reflexivity|]. split; [split; [split; lra|rewrite Rabs_pos_eq; lra]|]. split; [discriminate|]. intros [? ?]. lra.
    + destruct (dequal A hi) eqn:Q2.
      * apply dequal_abs in Q2. eexists _, _. split; [reflexivity|]. split; [split; [split; lra|auto]|]. split; [discriminate|]. intros [? ?]. lra.
      * assert (N1 : ~ Rabs (A - hi) <= 1 / 10000000000) by (intros C; apply dequal_abs in C; congruence). apply Rnot_le_lt in N1. rewrite Rabs_pos_eq in N1 by lra.
        eexists _, _. split; [reflexivity|]. split; [discriminate|]. split; [intros _; split; [auto|right; lra]|]. intros [? ?]. lra.
  - eexists _, _. split; [reflexivity|]. split; [intros _; split; [split; lra|]|]. { rewrite Rminus_eq_0, Rabs_R0. lra. } split; [discriminate|auto].
Qed.
Theorem C72_status b ind x y z A B : (dom (ci b) < 6)%nat -> in_pyramid (dom (ci b)) (fun k => vec (x, y, z) k - centre b k) A B -> bbox2 b <= bbox3 b -> bbox4 b <= bbox5 b ->
  (forall A B, exists S0 S1, box_surfaces b ind A B S0 S1) ->
  exists lam A' B' outA outB, moved A (bbox2 b) (bbox3 b) A' outA /\ moved B (bbox4 b) (bbox5 b) B' outB /\
  lamAB_of_xyz_CubSph b ind x y z = Ok ((if outA || outB then if (match typ (ci b) with PyramidFrustum => false | _ => true end) && (ind <? 0)%Z then -2 else -1 else 0)%Z, (lam, A', B')).
Proof.
  intros D (t & P & V) LA LB BS. destruct (put_moved A _ _ LA) as (A' & oA & EA & MA). destruct (put_moved B _ _ LB) as (B' & oB & EB & MB). destruct (BS A' B') as (S0 & S1 & BS').
  assert (X : x = centre b D1 + t * ray (dom (ci b)) A B D1) by (rewrite <- (V D1); cbn; ring).
  assert (Y : y = centre b D2 + t * ray (dom (ci b)) A B D2) by (rewrite <- (V D2); cbn; ring).
  assert (Z : z = centre b D3 + t * ray (dom (ci b)) A B D3) by (rewrite <- (V D3); cbn; ring).
  pose proof (inv_eval b ind (fun k => t * ray (dom (ci b)) A B k) A B A' B' oA oB S0 S1 t D P (fun k => eq_refl) EA EB BS') as IE.
  eexists _, A', B', oA, oB. split; [exact MA|]. split; [exact MB|]. cbv beta in IE. rewrite X, Y, Z, IE. cbv zeta. f_equal. f_equal.
  unfold stat_of. destruct (oA || oB); auto. destruct (typ (ci b)), (ind <? 0)%Z; reflexivity.
Qed.
Print Assumptions C72_status.

(** *** C73 *)
(** C73: the nine derivatives d(lam,A,B)/d(x,y,z) that dlamAB_dxyz_CubSph returns are the inverse of the Jacobian matrix of the transformation, for every type and domain and for all differentiable curved surfaces, and it also returns the point itself. *)
Theorem C73_derivatives b ind lam A B S0 S1 : (dom (ci b) < 6)%nat -> box_surfaces b ind A B S0 S1 -> surf_d b ind A B false S0 -> surf_d b ind A B true S1 ->
  along S0 S1 lam A B <> 0 -> height S0 A B <> height S1 A B ->
  exists p t, dlamAB_dxyz_CubSph b ind lam A B = Ok (p, t) /\ xyz_of_lamAB_CubSph b ind lam A B = Ok p /\
    inverse_jacobian (Coords (fun k l a b' => place (dom (ci b)) (centre b) S0 S1 l a b' k) (fun i m _ _ _ => t i m) (fun _ _ _ => None)) lam A B.
Proof.
  intros D BS DS0 DS1 NH NE. destruct (table_ok b ind lam A B S0 S1 D BS DS0 DS1 NH NE) as (p & t & E & V & IJ). exists p, t. split; auto. split; auto.
  destruct (xyz_place b ind lam A B S0 S1 D BS) as (p' & E' & V'). rewrite E'. f_equal. destruct p as ((p1, p2), p3), p' as ((q1, q2), q3).
  pose proof (V D1) as V1. rewrite <- (V' D1) in V1. pose proof (V D2) as V2. rewrite <- (V' D2) in V2. pose proof (V D3) as V3. rewrite <- (V' D3) in V3. cbn in V1, V2, V3. congruence.
Qed.
Print Assumptions C73_derivatives.
(** C73: with a surface function and its derivatives installed the hypotheses on the surface hold at every point off the grid. *)
Theorem C73_function b si ind A B F FA FB : useF (ci b) = true -> (ind < 0)%Z -> (1 <= iSurf (ci b) si)%Z -> (1 <= idA (ci b) si)%Z -> (1 <= idB (ci b) si)%Z ->
  FSurf (ci b) si = Some F -> dFA (ci b) si = Some FA -> dFB (ci b) si = Some FB -> F A B <> 0 -> derivable_pt_lim (fun t => F t B) A (FA A B) -> derivable_pt_lim (fun t => F A t) B (FB A B) ->
  CubedSphere_sigma b si ind A B = Ok (F A B) /\ surf_d b ind A B si (Curved F).
Proof.
  intros U N I1 I2 I3 E1 E2 E3 NZ DA DB. split; [now apply C71_sigma|]. split; auto. exists (FA A B), (FB A B).
  repeat split; auto; unfold CubedSphere_dsigma_dA, CubedSphere_dsigma_dB, surf_val, surf_AB; rewrite U, ?E2, ?E3; (destruct (Z.ltb_spec (idA (ci b) si) 1), (Z.ltb_spec (idB (ci b) si) 1), (Z.leb_spec 0 ind); auto; lia).
Qed.
Print Assumptions C73_function.
(** a shell from radius 1 to radius 2+A: domain 3 (y > 0), centre (1,0,0) *)
Definition exci (t : ctype) : CInfo := MkCI 3 t 1 0 0 (fun si => if si then 5 else 1) (fun si => if si then 7 else 0)%Z (fun si => if si then 8 else 0)%Z (fun si => if si then 9 else 0)%Z true
  (fun si => if si then Some (fun A B => 2 + A) else None) (fun si => if si then Some (fun A B => 1) else None) (fun si => if si then Some (fun A B => 0) else None).
Definition exbox (t : ctype) : cbox := MkCB (exci t) 3 3 (-1) 1 (-1) 1 (fun _ => None) (fun _ _ _ _ => 0).
Example C73_ex : box_surfaces (exbox CubedShell) (-1) 0 0 (Curved (fun _ _ => 1)) (Curved (fun A B => 2 + A)) /\ surf_d (exbox CubedShell) (-1) 0 0 false (Curved (fun _ _ => 1)) /\ surf_d (exbox CubedShell) (-1) 0 0 true (Curved (fun A B => 2 + A)) /\
  along (Curved (fun _ _ => 1)) (Curved (fun A B => 2 + A)) (1 / 2) 0 0 = 3 / 2 /\ height (Curved (fun _ _ => 1)) 0 0 = 1 /\ height (Curved (fun A B => 2 + A)) 0 0 = 2 /\
  box_surfaces (exbox innerCubedSphere) (-1) 0 0 (Curved (fun _ _ => 1)) (Flat 5).
Proof.
  assert (Q : sqrt (1 + 0 * 0 + 0 * 0) = 1) by (replace (1 + 0 * 0 + 0 * 0) with 1 by ring; apply sqrt_1).
  repeat split; try discriminate; try (cbn; lra); try (cbn [height]; unfold along; cbn [height]; rewrite ?Q; field).
  - exists 0, 0. repeat split; apply derivable_pt_lim_const.
  - exists 1, 0. repeat split; [|apply derivable_pt_lim_const]. replace 1 with (0 + 1) by ring. apply (derivable_pt_lim_plus (fun _ => 2) (fun t => t)); [apply derivable_pt_lim_const|apply derivable_pt_lim_id].
Qed.

(** C74: the six domains of a sphered cube fill the space between the surfaces and fit together; C75: radius and angles; C76: stretched sphered cubes. *)
From Verif Require Import Rutil Base Cart_model Sparse_model Coord_model Coord_spec Cub_model Cub_spec Cub_proofs Cub_props Angle_model Angle_spec Angle_proofs Angle_props Atten_props.
Local Open Scope R_scope.

(** *** C74 *)
Definition maxnorm (v : d3 -> R) : R := Rmax (Rabs (v D1)) (Rmax (Rabs (v D2)) (Rabs (v D3))).
Definition in_square (A B : R) : Prop := -1 <= A <= 1 /\ -1 <= B <= 1.
Lemma ray_max d A B t : 0 < t -> in_square A B -> maxnorm (fun k => t * ray d A B k) = t.
Proof.
  intros P [[A1 A2] [B1 B2]]. unfold maxnorm, ray.
  assert (NA : Rabs (t * (sgn d * A)) <= t). { rewrite !Rabs_mult. rewrite (Rabs_pos_eq t) by lra. assert (Rabs (sgn d) = 1) as -> by (destruct (sgn_or d) as [-> | ->]; [apply Rabs_R1|rewrite Rabs_left by lra; lra]). assert (Rabs A <= 1) by (apply Rabs_le; lra). nra. }
  assert (NB : Rabs (t * (sgn d * B)) <= t). { rewrite !Rabs_mult. rewrite (Rabs_pos_eq t) by lra. assert (Rabs (sgn d) = 1) as -> by (destruct (sgn_or d) as [-> | ->]; [apply Rabs_R1|rewrite Rabs_left by lra; lra]). assert (Rabs B <= 1) by (apply Rabs_le; lra). nra. }
  assert (N1 : Rabs (t * (sgn d * 1)) = t). { rewrite Rmult_1_r. destruct (sgn_or d) as [-> | ->]; [rewrite Rmult_1_r; apply Rabs_pos_eq; lra|]. replace (t * -1) with (- t) by ring. rewrite Rabs_Ropp. apply Rabs_pos_eq. lra. }
  destruct (axis d); rewrite N1; unfold Rmax; repeat destruct (Rle_dec _ _); lra.
Qed.
(** C74: every point other than the centre lies in one of the six pyramids with |A|,|B| <= 1, and if |A|,|B| < 1 in one of them it lies in no other and nowhere else in this one. *)
Lemma pick (u v w : R) : (Rabs v <= Rabs u /\ Rabs w <= Rabs u) \/ (Rabs u <= Rabs v /\ Rabs w <= Rabs v) \/ (Rabs u <= Rabs w /\ Rabs v <= Rabs w).
Proof. destruct (Rle_dec (Rabs v) (Rabs u)), (Rle_dec (Rabs w) (Rabs u)), (Rle_dec (Rabs w) (Rabs v)); lra. Qed.
Lemma quot_sq u v : u <> 0 -> Rabs v <= Rabs u -> -1 <= v / u <= 1.
Proof.
  intros N L. assert (H : Rabs (v / u) <= 1). { unfold Rdiv. rewrite Rabs_mult, Rabs_inv. assert (P := Rabs_pos_lt u N). apply Rmult_le_reg_r with (Rabs u); auto. rewrite Rmult_assoc, Rinv_l by lra. lra. }
  unfold Rabs in H. destruct (Rcase_abs (v / u)); lra.
Qed.
Theorem C74_cover v : (exists k, v k <> 0) -> exists d A B, (d < 6)%nat /\ in_square A B /\ in_pyramid d v A B.
Proof.
  intros (k0 & N).
  assert (G : forall u, u <> 0 -> 0 < u \/ u < 0) by (intros; lra).
  destruct (pick (v D1) (v D2) (v D3)) as [[L1 L2]|[[L1 L2]|[L1 L2]]].
  - assert (NZ : v D1 <> 0). { intros E. rewrite E, Rabs_R0 in *. assert (v D2 = 0 /\ v D3 = 0) by (split; (match goal with |- ?x = 0 => assert (Q := Rabs_pos x); destruct (Req_dec x 0) as [|H]; auto; apply Rabs_pos_lt in H; lra end)). destruct k0; tauto. }
    destruct (G _ NZ) as [P|P]; [exists 1%nat|exists 0%nat]; exists (v D2 / v D1), (v D3 / v D1); (split; [lia|]); (split; [split; apply quot_sq; auto|]).
    + exists (v D1). split; auto. intros k. destruct k; unfold ray, sgn; cbn [axis Nat.odd negb Nat.even]; field; lra.
    + exists (- v D1). split; [lra|]. intros k. destruct k; unfold ray, sgn; cbn [axis Nat.odd negb Nat.even]; field; lra.
  - assert (NZ : v D2 <> 0). { intros E. rewrite E, Rabs_R0 in *. assert (v D1 = 0 /\ v D3 = 0) by (split; (match goal with |- ?x = 0 => assert (Q := Rabs_pos x); destruct (Req_dec x 0) as [|H]; auto; apply Rabs_pos_lt in H; lra end)). destruct k0; tauto. }
    destruct (G _ NZ) as [P|P]; [exists 3%nat|exists 2%nat]; exists (v D1 / v D2), (v D3 / v D2); (split; [lia|]); (split; [split; apply quot_sq; auto|]).
    + exists (v D2). split; auto. intros k. destruct k; unfold ray, sgn; cbn [axis Nat.odd negb Nat.even]; field; lra.
    + exists (- v D2). split; [lra|]. intros k. destruct k; unfold ray, sgn; cbn [axis Nat.odd negb Nat.even]; field; lra.
  - assert (NZ : v D3 <> 0). { intros E. rewrite E, Rabs_R0 in *. assert (v D1 = 0 /\ v D2 = 0) by (split; (match goal with |- ?x = 0 => assert (Q := Rabs_pos x); destruct (Req_dec x 0) as [|H]; auto; apply Rabs_pos_lt in H; lra end)). destruct k0; tauto. }
    destruct (G _ NZ) as [P|P]; [exists 5%nat|exists 4%nat]; exists (v D2 / v D3), (v D1 / v D3); (split; [lia|]); (split; [split; apply quot_sq; auto|]).
    + exists (v D3). split; auto. intros k. destruct k; unfold ray, sgn; cbn [axis Nat.odd negb Nat.even]; field; lra.
    + exists (- v D3). split; [lra|]. intros k. destruct k; unfold ray, sgn; cbn [axis Nat.odd negb Nat.even]; field; lra.
Qed.
Print Assumptions C74_cover.
Theorem C74_once d d' v A B A' B' : (d < 6)%nat -> (d' < 6)%nat -> in_pyramid d v A B -> in_pyramid d' v A' B' -> -1 < A < 1 -> -1 < B < 1 -> in_square A' B' -> d = d' /\ A = A' /\ B = B'.
Proof.
  intros D D' (t & P & V) (t' & P' & V') HA HB [HA' HB']. pose proof (V D1) as X. pose proof (V D2) as Y. pose proof (V D3) as Z. rewrite V' in X, Y, Z.
  destruct (six d D) as [E|[E|[E|[E|[E|E]]]]], (six d' D') as [E'|[E'|[E'|[E'|[E'|E']]]]]; subst d d'; unfold ray, sgn in X, Y, Z; cbn [axis Nat.odd negb Nat.even] in X, Y, Z; try (exfalso; nra);
  (split; [reflexivity|]; assert (t = t') as -> by nra; split; apply (Rmult_eq_reg_l t'); lra).
Qed.
Print Assumptions C74_once.
(** surfaces around the centre, for all six domains together: a cube of half width h, or a surface of radius rad(direction) *)
Inductive gsurf := Cube (h : R) | Round (rad : (d3 -> R) -> R).
Definition homogeneous (S : gsurf) : Prop := match S with Cube _ => True | Round rad => (forall t v, 0 < t -> rad (fun k => t * v k) = rad v) /\ (forall v w, (forall k, v k = w k) -> rad v = rad w) end.
Definition in_domain (d : nat) (S : gsurf) : surface := match S with Cube h => Flat h | Round rad => Curved (fun A B => rad (ray d A B)) end.
Definition outside (S : gsurf) (v : d3 -> R) : Prop := match S with Cube h => h <= maxnorm v | Round rad => rad v <= norm3 v end.
Definition inside (S : gsurf) (v : d3 -> R) : Prop := match S with Cube h => maxnorm v <= h | Round rad => norm3 v <= rad v end.
Lemma norm_ext v w : (forall k, v k = w k) -> norm3 v = norm3 w. Proof. intros E. unfold norm3, S3. now rewrite !E. Qed.
Lemma max_ext v w : (forall k, v k = w k) -> maxnorm v = maxnorm w. Proof. intros E. unfold maxnorm. now rewrite !E. Qed.
Lemma side d S v A B t : homogeneous S -> 0 < t -> in_square A B -> (forall k, v k = t * ray d A B k) ->
  (outside S v <-> height (in_domain d S) A B <= t) /\ (inside S v <-> t <= height (in_domain d S) A B).
Proof.
  intros HS P SQ V. destruct S as [h|rad]; cbn [outside inside in_domain height].
  - rewrite (max_ext v _ V), ray_max by auto. tauto.
  - destruct HS as [HT HE]. rewrite (norm_ext v _ V), norm_ray by lra. rewrite (HE v _ V), HT by auto. fold (q A B). pose proof (sq_pos A B) as Q.
    split; split; intros H.
    + apply Rmult_le_reg_r with (sqrt (q A B)); auto. unfold Rdiv. rewrite Rmult_assoc, Rinv_l by lra. lra.
    + apply Rmult_le_compat_r with (r := sqrt (q A B)) in H; [|lra]. unfold Rdiv in H. rewrite Rmult_assoc, Rinv_l in H by lra. lra.
    + apply Rmult_le_reg_r with (sqrt (q A B)); auto. unfold Rdiv. rewrite Rmult_assoc, Rinv_l by lra. lra.
    + apply Rmult_le_compat_r with (r := sqrt (q A B)) in H; [|lra]. unfold Rdiv in H. rewrite Rmult_assoc, Rinv_l in H by lra. lra.
Qed.
(** six boxes around one centre with the same surfaces *)
Definition six_boxes (bx : nat -> cbox) (ind : Z) (c : d3 -> R) (G0 G1 : gsurf) : Prop :=
  forall d, (d < 6)%nat -> dom (ci (bx d)) = d /\ (forall k, centre (bx d) k = c k) /\ bbox2 (bx d) = -1 /\ bbox3 (bx d) = 1 /\ bbox4 (bx d) = -1 /\ bbox5 (bx d) = 1 /\
    (forall A B, in_square A B -> box_surfaces (bx d) ind A B (in_domain d G0) (in_domain d G1) /\ 0 < height (in_domain d G0) A B < height (in_domain d G1) A B).
(** C74: every point between the surfaces is a point of one of the boxes: the inverse returns status 0 and 0 <= lam <= 1 there, and the transformation brings the point back. *)
Theorem C74_fill bx ind c G0 G1 x y z : six_boxes bx ind c G0 G1 -> homogeneous G0 -> homogeneous G1 ->
  (exists k, vec (x, y, z) k <> c k) -> outside G0 (fun k => vec (x, y, z) k - c k) -> inside G1 (fun k => vec (x, y, z) k - c k) ->
  exists d lam A B, (d < 6)%nat /\ 0 <= lam <= 1 /\ in_square A B /\ lamAB_of_xyz_CubSph (bx d) ind x y z = Ok (0%Z, (lam, A, B)) /\ xyz_of_lamAB_CubSph (bx d) ind lam A B = Ok (x, y, z).
Proof.
  intros SB H0 H1 (k0 & NZ) O0 I1. set (v := fun k => vec (x, y, z) k - c k) in *.
  destruct (C74_cover v) as (d & A & B & D & SQ & PY). { exists k0. unfold v. lra. }
  destruct (SB d D) as (ED & EC & B2 & B3 & B4 & B5 & BS). destruct (BS A B SQ) as [BA [P0 P1]].
  assert (PY' : in_pyramid (dom (ci (bx d))) (fun k => vec (x, y, z) k - centre (bx d) k) A B). { rewrite ED. destruct PY as (t & P & V). exists t. split; auto. intros k. rewrite EC. apply V. }
  destruct (C72_back (bx d) ind x y z A B (in_domain d G0) (in_domain d G1)) as (lam & E1 & E2); auto.
  { now rewrite ED. } { rewrite B2, B3. apply SQ. } { rewrite B4, B5. apply SQ. } { lra. }
  exists d, lam, A, B. repeat split; auto; try apply SQ.
  all: destruct PY as (t & P & V); destruct (side d G0 v A B t H0 P SQ V) as [S0 _]; destruct (side d G1 v A B t H1 P SQ V) as [_ S1]; apply S0 in O0; apply S1 in I1.
  all: destruct (C71_place (bx d) ind lam A B (in_domain d G0) (in_domain d G1)) as (p & E3 & W); [now rewrite ED|auto|]; rewrite E2 in E3; injection E3 as <-; pose proof (W (axis d)) as WA; rewrite ED in WA; unfold place in WA; rewrite EC in WA.
  all: assert (EV : vec (x, y, z) (axis d) - c (axis d) = t * ray d A B (axis d)) by apply V.
  all: assert (AL : along (in_domain d G0) (in_domain d G1) lam A B = t) by (apply (Rmult_eq_reg_r (ray d A B (axis d))); [lra|unfold ray; destruct (axis d), (sgn_or d) as [-> | ->]; lra]).
  all: unfold along in AL; nra.
Qed.
Print Assumptions C74_fill.
(** C74: conversely the points with 0 <= lam <= 1 and |A|,|B| <= 1 lie between the surfaces. *)
Theorem C74_into bx ind c G0 G1 d lam A B : six_boxes bx ind c G0 G1 -> homogeneous G0 -> homogeneous G1 -> (d < 6)%nat -> 0 <= lam <= 1 -> in_square A B ->
  exists p, xyz_of_lamAB_CubSph (bx d) ind lam A B = Ok p /\ outside G0 (fun k => vec p k - c k) /\ inside G1 (fun k => vec p k - c k) /\ in_pyramid d (fun k => vec p k - c k) A B.
Proof.
  intros SB H0 H1 D L SQ. destruct (SB d D) as (ED & EC & _ & _ & _ & _ & BS). destruct (BS A B SQ) as [BA [P0 P1]].
  destruct (C71_place (bx d) ind lam A B (in_domain d G0) (in_domain d G1)) as (p & E & V); [now rewrite ED|auto|]. exists p. split; auto.
  set (t := along (in_domain d G0) (in_domain d G1) lam A B).
  assert (P : height (in_domain d G0) A B <= t <= height (in_domain d G1) A B) by (unfold t, along; nra).
  assert (VV : forall k, vec p k - c k = t * ray d A B k). { intros k. rewrite V, ED. unfold place. rewrite EC. fold t. ring. }
  repeat split.
  - apply (side d G0 _ A B t H0); auto; [lra|apply P].
  - apply (side d G1 _ A B t H1); auto; [lra|apply P].
  - exists t. split; [lra|auto].
Qed.
Print Assumptions C74_into.
(** C74: where two domains touch they give the same points: for a direction on the common face and the same lam both transformations return the same point. *)
Theorem C74_match bx ind c G0 G1 d d' v A B A' B' lam : six_boxes bx ind c G0 G1 -> homogeneous G0 -> homogeneous G1 -> (d < 6)%nat -> (d' < 6)%nat ->
  in_square A B -> in_square A' B' -> in_pyramid d v A B -> in_pyramid d' v A' B' ->
  exists p, xyz_of_lamAB_CubSph (bx d) ind lam A B = Ok p /\ xyz_of_lamAB_CubSph (bx d') ind lam A' B' = Ok p.
Proof.
  intros SB H0 H1 D D' SQ SQ' (t & P & V) (t' & P' & V').
  assert (T : t = t'). { rewrite <- (ray_max d A B t P SQ), <- (ray_max d' A' B' t' P' SQ'). apply max_ext. intros k. rewrite <- V, <- V'. reflexivity. }
  subst t'. assert (RR : forall k, ray d A B k = ray d' A' B' k). { intros k. apply (Rmult_eq_reg_l t); [|lra]. rewrite <- V, <- V'. reflexivity. }
  assert (QQ : 1 + A * A + B * B = 1 + A' * A' + B' * B'). { pose proof (ray_norm d A B 1) as Q1. pose proof (ray_norm d' A' B' 1) as Q2. unfold S3 in Q1, Q2. rewrite !RR in Q1. lra. }
  destruct (SB d D) as (ED & EC & _ & _ & _ & _ & BS). destruct (BS A B SQ) as [BA _]. destruct (SB d' D') as (ED' & EC' & _ & _ & _ & _ & BS'). destruct (BS' A' B' SQ') as [BA' _].
  destruct (C71_place (bx d) ind lam A B (in_domain d G0) (in_domain d G1)) as (p & E & W); [now rewrite ED|auto|].
  destruct (C71_place (bx d') ind lam A' B' (in_domain d' G0) (in_domain d' G1)) as (p' & E' & W'); [now rewrite ED'|auto|].
  exists p. split; auto. rewrite E'. f_equal.
  assert (HH : forall G, homogeneous G -> height (in_domain d G) A B = height (in_domain d' G) A' B').
  { intros [h|rad] HG; cbn [in_domain height]; auto. destruct HG as [_ HE]. rewrite (HE _ _ RR), QQ. reflexivity. }
  assert (EQ : forall k, vec p' k = vec p k). { intros k. rewrite W, W', ED, ED'. unfold place, along. rewrite EC, EC', (HH G0 H0), (HH G1 H1), RR. reflexivity. }
  destruct p as ((p1, p2), p3), p' as ((q1, q2), q3). pose proof (EQ D1) as Q1. pose proof (EQ D2) as Q2. pose proof (EQ D3) as Q3. cbn in Q1, Q2, Q3. congruence.
Qed.
Print Assumptions C74_match.
(** six shells from radius 1 to radius 2, and six domains between a ball of radius 1 and a cube of half width 2 *)
Definition six_ex (t : ctype) (d : nat) : cbox := MkCB (MkCI d t 0 0 3 (fun si => if si then 2 else 1) (fun _ => 0)%Z (fun _ => 0)%Z (fun _ => 0)%Z false (fun _ => None) (fun _ => None) (fun _ => None)) 3 3 (-1) 1 (-1) 1 (fun _ => None) (fun _ _ _ _ => 0).
Lemma sq_le A B : in_square A B -> sqrt (1 + A * A + B * B) <= 2 /\ 1 <= sqrt (1 + A * A + B * B).
Proof.
  intros [[? ?] [? ?]]. split.
  - rewrite <- (sqrt_square 2) by lra. apply sqrt_le_1; nra.
  - rewrite <- sqrt_1 at 1. apply sqrt_le_1; nra.
Qed.
Example C74_ex : six_boxes (six_ex CubedShell) (-1) (tab 0 0 3) (Round (fun _ => 1)) (Round (fun _ => 2)) /\ six_boxes (six_ex innerCubedSphere) (-1) (tab 0 0 3) (Round (fun _ => 1)) (Cube 2) /\ homogeneous (Round (fun _ => 1)) /\ homogeneous (Cube 2).
Proof.
  split; [|split; [|split; [split; auto|exact I]]]; intros d D; repeat split; try discriminate; cbn [in_domain height]; destruct (sq_le A B H) as [U L].
  - apply Rdiv_lt_0_compat; lra.
  - apply Rmult_lt_compat_r; [|lra]. apply Rinv_0_lt_compat. lra.
  - apply Rdiv_lt_0_compat; lra.
  - apply Rmult_lt_reg_r with (sqrt (1 + A * A + B * B)); [lra|]. unfold Rdiv. rewrite Rmult_assoc, Rinv_l by lra. lra.
Qed.

(** *** C75 *)
(** C75: r_dr_dlam_of_lamAB_CubSph returns the distance of the point from the centre, and its derivative with respect to lam. *)
Theorem C75_radius b ind lam A B S0 S1 : (dom (ci b) < 6)%nat -> box_surfaces b ind A B S0 S1 -> 0 <= along S0 S1 lam A B ->
  exists p r dr, xyz_of_lamAB_CubSph b ind lam A B = Ok p /\ r_dr_dlam_of_lamAB_CubSph b ind lam A B = Ok (r, dr) /\ r = norm3 (fun k => vec p k - centre b k) /\
  (0 < along S0 S1 lam A B -> derivable_pt_lim (fun l => norm3 (fun k => place (dom (ci b)) (centre b) S0 S1 l A B k - centre b k)) lam dr).
Proof.
  intros D BS P. destruct (C71_place b ind lam A B S0 S1 D BS) as (p & E & V). pose proof (sq_pos A B) as SQ.
  exists p, (along S0 S1 lam A B * sqrt (q A B)), ((height S1 A B - height S0 A B) * sqrt (q A B)). split; auto. split; [|split].
  - destruct BS as (NT & T0 & T1). unfold r_dr_dlam_of_lamAB_CubSph. fold (q A B). unfold r_of_lam_sig0sig1, dr_dlam_of_lam_sig0sig1.
    destruct S0 as [h0|g0], S1 as [h1|g1]; destruct T0 as [C0 T0], T1 as [C1 T1]; destruct (typ (ci b)); try discriminate; try congruence; rewrite ?T0, ?T1; cbn [rbind]; unfold along; cbn [height]; fold (q A B); f_equal; f_equal; rewrite <- ?T0, <- ?T1; field; lra.
  - unfold q. rewrite <- (norm_ray (dom (ci b))) by auto. apply norm_ext. intros k. rewrite V. unfold place. ring.
  - intros PP. assert (AD : derivable_pt_lim (fun l => along S0 S1 l A B * sqrt (q A B)) lam ((height S1 A B - height S0 A B) * sqrt (q A B))).
    { unfold along. set (a := height S0 A B). set (e := height S1 A B). set (w := sqrt (q A B)). replace ((e - a) * w) with (((0 - 1) * a + (1 - lam) * 0 + (1 * e + lam * 0)) * w + ((1 - lam) * a + lam * e) * 0) by ring.
      apply (derivable_pt_lim_mult (fun t => (1 - t) * a + t * e) (fun _ => w)); [|apply derivable_pt_lim_const]. apply (derivable_pt_lim_plus (fun t => (1 - t) * a) (fun t => t * e)).
      - apply (derivable_pt_lim_mult (fun t => 1 - t) (fun _ => a)); [|apply derivable_pt_lim_const]. apply derivable_pt_lim_minus; [apply derivable_pt_lim_const|apply derivable_pt_lim_id].
      - apply (derivable_pt_lim_mult (fun t => t) (fun _ => e)); [apply derivable_pt_lim_id|apply derivable_pt_lim_const]. }
    (* near lam the multiple of the ray stays positive *)
    set (e := along S0 S1 lam A B) in *. set (h := height S1 A B - height S0 A B).
    assert (DD : 0 < e / (Rabs h + 1)). { apply Rdiv_lt_0_compat; auto. pose proof (Rabs_pos h). lra. }
    eapply (dlim_loc (fun l => along S0 S1 l A B * sqrt (q A B)) _ lam (e / (Rabs h + 1)) _ DD); [|exact AD].
    intros l Hl. assert (PL : 0 <= along S0 S1 l A B).
    { assert (EL : along S0 S1 l A B = e + (l - lam) * h) by (unfold e, along, h; ring). rewrite EL.
      assert (BD : Rabs ((l - lam) * h) <= e). { rewrite Rabs_mult. pose proof (Rabs_pos h). pose proof (Rabs_pos (l - lam)). assert (Rabs (l - lam) * (Rabs h + 1) < e). { apply Rmult_lt_reg_r with (/ (Rabs h + 1)); [apply Rinv_0_lt_compat; lra|]. rewrite Rmult_assoc, Rinv_r by lra. unfold Rdiv in Hl. lra. } nra. }
      unfold Rabs in BD. destruct (Rcase_abs _) in BD; lra. }
    unfold q. symmetry. rewrite <- (norm_ray (dom (ci b))) by auto. apply norm_ext. intros k. unfold place. ring.
Qed.
Print Assumptions C75_radius.
(** C75: r and lam are inverse to each other, with the right derivatives. *)
Theorem C75_r_lam s0 s1 u : s0 <> s1 -> lam_of_r_sig0sig1 (r_of_lam_sig0sig1 u s0 s1) s0 s1 = u /\ r_of_lam_sig0sig1 (lam_of_r_sig0sig1 u s0 s1) s0 s1 = u /\
  r_of_lam_sig0sig1 0 s0 s1 = s0 /\ r_of_lam_sig0sig1 1 s0 s1 = s1 /\
  derivable_pt_lim (fun l => r_of_lam_sig0sig1 l s0 s1) u (dr_dlam_of_lam_sig0sig1 u s0 s1) /\ derivable_pt_lim (fun r => lam_of_r_sig0sig1 r s0 s1) (r_of_lam_sig0sig1 u s0 s1) (dlam_dr_of_lam_sig0sig1 u s0 s1).
Proof.
  intros N. unfold lam_of_r_sig0sig1, r_of_lam_sig0sig1, dr_dlam_of_lam_sig0sig1, dlam_dr_of_lam_sig0sig1. repeat split; try (field; lra); try ring.
  - assert (Q : derivable_pt_lim (fun l => (s1 - s0) * l + s0) u ((s1 - s0) * 1 + 0)). { apply (derivable_pt_lim_plus (fun l => (s1 - s0) * l) (fun _ => s0)); [|apply derivable_pt_lim_const]. apply (derivable_pt_lim_scal (fun l => l)). apply derivable_pt_lim_id. } rewrite Rmult_1_r, Rplus_0_r in Q. exact Q.
  - set (x := (s1 - s0) * u + s0). assert (Q : derivable_pt_lim (fun r => / (s1 - s0) * (r - s0)) x (/ (s1 - s0) * (1 - 0))). { apply (derivable_pt_lim_scal (fun r => r - s0)). apply derivable_pt_lim_minus; [apply derivable_pt_lim_id|apply derivable_pt_lim_const]. }
    replace (1 / (s1 - s0)) with (/ (s1 - s0) * (1 - 0)) by (field; lra). eapply (dlim_loc _ _ x 1); [lra| |exact Q]. intros r _. cbv beta. field. lra.
Qed.
Print Assumptions C75_r_lam.
(** C75: ThetaPhi_of_AB_CubSph returns the spherical angles of the direction (A,B): 0 <= Theta <= PI, 0 <= Phi < 2 PI. *)
Definition spherical_angles (v : d3 -> R) (Theta Phi : R) : Prop := exists r, 0 < r /\ v D1 = r * sin Theta * cos Phi /\ v D2 = r * sin Theta * sin Phi /\ v D3 = r * cos Theta.
Lemma Arg_plus_half x y : 0 <= y -> x <> 0 \/ y <> 0 -> Arg_plus x y <= PI.
Proof.
  intros P N. destruct (Arg_plus_angle x y N) as ((r & Pr & _ & Y) & L0 & L1). apply Rnot_lt_le. intros H. assert (sin (Arg_plus x y) < 0) by (apply sin_lt_0; lra). nra.
Qed.
Theorem C75_angles b A B : (dom (ci b) < 6)%nat -> let '(Theta, Phi) := ThetaPhi_of_AB_CubSph b A B in 0 <= Theta <= PI /\ 0 <= Phi < 2 * PI /\ spherical_angles (ray (dom (ci b)) A B) Theta Phi.
Proof.
  intros D. unfold ThetaPhi_of_AB_CubSph. rewrite (pm_sgn b D). pose proof (cdir_axis b D) as DA. destruct (sgn_or (dom (ci b))) as [S|S].
  all: set (s := sgn (dom (ci b))) in *; assert (SN : s <> 0) by lra; assert (SS : s * s = 1) by (rewrite S; ring).
  all: destruct (axis (dom (ci b))) eqn:AX; rewrite DA; cbn [Nat.eqb].
  1,4: destruct (Arg_plus_angle s (s * A) (or_introl SN)) as ((r & Pr & X & Y) & L); set (Phi := Arg_plus s (s * A)) in *;
       assert (N1 : B * cos Phi <> 0 \/ 1 <> 0) by (right; lra); pose proof (Arg_plus_half (B * cos Phi) 1 ltac:(lra) N1); destruct (Arg_plus_angle (B * cos Phi) 1 N1) as ((r' & Pr' & X' & Y') & L'); set (Th := Arg_plus (B * cos Phi) 1) in *;
       (split; [lra|]); (split; [lra|]); exists (r * r'); (split; [nra|]); unfold ray; fold s; rewrite AX;
       (split; [|split]); [rewrite Rmult_1_r, X; transitivity (r * cos Phi * 1); [ring|rewrite Y'; ring]|rewrite Y; transitivity (r * sin Phi * 1); [ring|rewrite Y'; ring]|transitivity (r * (B * cos Phi)); [rewrite X at 1; ring|rewrite X'; ring]].
  1,3: destruct (Arg_plus_angle (s * A) s (or_intror SN)) as ((r & Pr & X & Y) & L); set (Phi := Arg_plus (s * A) s) in *;
       assert (N1 : B * sin Phi <> 0 \/ 1 <> 0) by (right; lra); pose proof (Arg_plus_half (B * sin Phi) 1 ltac:(lra) N1); destruct (Arg_plus_angle (B * sin Phi) 1 N1) as ((r' & Pr' & X' & Y') & L'); set (Th := Arg_plus (B * sin Phi) 1) in *;
       (split; [lra|]); (split; [lra|]); exists (r * r'); (split; [nra|]); unfold ray; fold s; rewrite AX;
       (split; [|split]); [rewrite X; transitivity (r * cos Phi * 1); [ring|rewrite Y'; ring]|rewrite Rmult_1_r, Y; transitivity (r * sin Phi * 1); [ring|rewrite Y'; ring]|transitivity (r * (B * sin Phi)); [rewrite Y at 1; ring|rewrite X'; ring]].
  all: pose proof (sqrt_pos (A * A + B * B)) as SP; destruct (Arg_plus_angle s (sqrt (A * A + B * B)) (or_introl SN)) as ((r & Pr & X & Y) & L); pose proof (Arg_plus_half s _ SP (or_introl SN)); set (Th := Arg_plus s (sqrt (A * A + B * B))) in *;
       (split; [lra|]); assert (PH : 0 <= Arg_plus (s * B) (s * A) < 2 * PI /\ s * B = sqrt (A * A + B * B) * cos (Arg_plus (s * B) (s * A)) /\ s * A = sqrt (A * A + B * B) * sin (Arg_plus (s * B) (s * A))).
  1,3: destruct (Req_dec (A * A + B * B) 0) as [Z|Z];
    [assert (A = 0) by nra; assert (B = 0) by nra; subst A B; rewrite !Rmult_0_r, Rplus_0_r, sqrt_0, !Rmult_0_l; unfold Arg_plus; destruct (Req_EM_T 0 0); [|lra]; destruct (Rlt_dec 0 0); [lra|]; cbv zeta; pose proof PI_RGT_0; lra|];
    (assert (N : s * B <> 0 \/ s * A <> 0) by (destruct (Req_dec B 0) as [Zb|Zb]; [right|left]; intros C; (apply Rmult_integral in C; destruct C as [C|C]; [lra|]; apply Z; subst; nra)));
    destruct (Arg_plus_angle _ _ N) as ((r' & Pr' & X' & Y') & L'); split; auto;
    (assert (ER : r' = sqrt (A * A + B * B)) by (symmetry; apply sqrt_lem_1; [nra|lra|]; pose proof (sin2_cos2 (Arg_plus (s * B) (s * A))) as SC; unfold Rsqr in SC;
      transitivity (r' * r' * (sin (Arg_plus (s * B) (s * A)) * sin (Arg_plus (s * B) (s * A)) + cos (Arg_plus (s * B) (s * A)) * cos (Arg_plus (s * B) (s * A)))); [rewrite SC; ring|];
      transitivity ((r' * sin (Arg_plus (s * B) (s * A))) * (r' * sin (Arg_plus (s * B) (s * A))) + (r' * cos (Arg_plus (s * B) (s * A))) * (r' * cos (Arg_plus (s * B) (s * A)))); [ring|]; rewrite <- X', <- Y'; transitivity (s * s * (A * A + B * B)); [ring|rewrite SS; ring]));
    rewrite <- ER; auto.
  all: destruct PH as (LP & XP & YP); set (Ph := Arg_plus (s * B) (s * A)) in *; (split; [auto|]); exists r; (split; [auto|]); unfold ray; fold s; rewrite AX; rewrite XP, YP, Y; (split; [ring|split; [ring|rewrite Rmult_1_r; exact X]]).
Qed.
Print Assumptions C75_angles.

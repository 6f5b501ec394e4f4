(** Proofs about sphered cubes. *)
From Verif Require Import Rutil Base Cart_model Coord_model Coord_spec Cheb_model Cub_model Cub_spec Trans_proofs Cart3_proofs.
Local Open Scope R_scope.
(** which surfaces of a box are curved *)
Definition curved_in (t : ctype) : bool := match t with innerCubedSphere | CubedShell => true | _ => false end.
Definition curved_out (t : ctype) : bool := match t with outerCubedSphere | CubedShell => true | _ => false end.
(** S is the surface the box has, at the point of direction (A,B) *)
Definition surf_at (b : cbox) (ind : Z) (A B : R) (curved : bool) (si : bool) (S : surface) : Prop :=
  match S with Flat h => curved = false /\ h = srad (ci b) si | Curved sig => curved = true /\ CubedSphere_sigma b si ind A B = Ok (sig A B) end.
Definition box_surfaces (b : cbox) (ind : Z) (A B : R) (S0 S1 : surface) : Prop :=
  typ (ci b) <> CoordInfoNotSet /\ surf_at b ind A B (curved_in (typ (ci b))) false S0 /\ surf_at b ind A B (curved_out (typ (ci b))) true S1.
Definition centre (b : cbox) : d3 -> R := tab (xc (ci b)) (yc (ci b)) (zc (ci b)).
Lemma six d : (d < 6)%nat -> d = 0%nat \/ d = 1%nat \/ d = 2%nat \/ d = 3%nat \/ d = 4%nat \/ d = 5%nat. Proof. lia. Qed.
Definition q (A B : R) : R := 1 + A * A + B * B.
Lemma q_pos A B : 0 < q A B. Proof. unfold q. nra. Qed.
Lemma sq_pos A B : 0 < sqrt (q A B). Proof. apply sqrt_lt_R0, q_pos. Qed.
Lemma sgn_or d : sgn d = 1 \/ sgn d = -1. Proof. unfold sgn. destruct (Nat.odd d); auto. Qed.
Lemma pm_sgn b : (dom (ci b) < 6)%nat -> cpm b = sgn (dom (ci b)).
Proof. intros H. unfold cpm. destruct (six _ H) as [E|[E|[E|[E|[E|E]]]]]; rewrite E; cbn; lra. Qed.
Lemma cdir_axis b : (dom (ci b) < 6)%nat -> match axis (dom (ci b)) with D1 => cdir b = 1%nat | D2 => cdir b = 2%nat | D3 => cdir b = 3%nat end.
Proof. intros H. unfold cdir. destruct (six _ H) as [E|[E|[E|[E|[E|E]]]]]; rewrite E; reflexivity. Qed.
Lemma xyz_place b ind lam A B S0 S1 : (dom (ci b) < 6)%nat -> box_surfaces b ind A B S0 S1 ->
  exists p, xyz_of_lamAB_CubSph b ind lam A B = Ok p /\ forall k, vec p k = place (dom (ci b)) (centre b) S0 S1 lam A B k.
Proof.
  intros D (NT & T0 & T1). unfold xyz_of_lamAB_CubSph. rewrite (pm_sgn b D). pose proof (cdir_axis b D) as DA. fold (q A B).
  assert (E : match typ (ci b) with
    | CoordInfoNotSet => Err | PyramidFrustum => Ok (sgn (dom (ci b)) * srad (ci b) false, sgn (dom (ci b)) * srad (ci b) true)
    | innerCubedSphere => do sigma0 <- CubedSphere_sigma b false ind A B; Ok (sgn (dom (ci b)) * sigma0 / sqrt (q A B), sgn (dom (ci b)) * srad (ci b) true)
    | outerCubedSphere => do sigma1 <- CubedSphere_sigma b true ind A B; Ok (sgn (dom (ci b)) * srad (ci b) false, sgn (dom (ci b)) * sigma1 / sqrt (q A B))
    | CubedShell => do sigma0 <- CubedSphere_sigma b false ind A B; do sigma1 <- CubedSphere_sigma b true ind A B; Ok (sgn (dom (ci b)) * sigma0 / sqrt (q A B), sgn (dom (ci b)) * sigma1 / sqrt (q A B))
    end = Ok (sgn (dom (ci b)) * height S0 A B, sgn (dom (ci b)) * height S1 A B)).
  { destruct S0 as [h0|g0], S1 as [h1|g1]; destruct T0 as [C0 T0], T1 as [C1 T1]; destruct (typ (ci b)); try discriminate; try congruence; rewrite ?T0, ?T1; cbn [rbind height]; fold (q A B); auto; do 2 f_equal; field; apply Rgt_not_eq, sq_pos. }
  rewrite E. cbn [rbind]. eexists. split; [reflexivity|]. intros k. unfold place, along, ray. set (h0 := height S0 A B). set (h1 := height S1 A B). set (s := sgn _). unfold centre.
  destruct (axis (dom (ci b))); rewrite DA; cbn [Nat.eqb]; destruct k; cbn [vec fst snd tab]; ring.
Qed.

(** *** the inverse *)
Lemma put_in A lo hi : within A lo hi -> put_in_range A lo hi = (A, false).
Proof. intros [L H]. unfold put_in_range. destruct (Rlt_dec A lo); [lra|]. destruct (Rlt_dec hi A); [lra|]. reflexivity. Qed.
Lemma rc_eq s t A B : s = 1 \/ s = -1 -> sqrt (t * s * (t * s) + A * (t * s) * (A * (t * s)) + B * (t * s) * (B * (t * s))) = Rabs t * sqrt (q A B).
Proof.
  intros S. replace (_ + _) with ((t * t) * q A B). 2:{ unfold q. destruct S as [-> | ->]; ring. }
  rewrite sqrt_mult; [|nra|apply Rlt_le, q_pos]. replace (t * t) with (Rsqr t) by reflexivity. rewrite sqrt_Rsqr_abs. reflexivity.
Qed.
Lemma abs_ts s t : s = 1 \/ s = -1 -> Rabs (t * s) = Rabs t.
Proof. intros [-> | ->]; [now rewrite Rmult_1_r|]. replace (t * -1) with (- t) by ring. apply Rabs_Ropp. Qed.
(** evaluation of the inverse on a point of the pyramid, whether or not A,B are in range *)
Definition stat_of (b : cbox) (ind : Z) (out : bool) : Z :=
  if out then match typ (ci b) with PyramidFrustum => -1 | _ => if (ind <? 0)%Z then -2 else -1 end%Z else 0%Z.
Lemma inv_eval_nz b ind v A B A' B' oA oB S0 S1 t : (dom (ci b) < 6)%nat -> t <> 0 -> (forall k, v k = t * ray (dom (ci b)) A B k) ->
  put_in_range A (bbox2 b) (bbox3 b) = (A', oA) -> put_in_range B (bbox4 b) (bbox5 b) = (B', oB) ->
  box_surfaces b ind A' B' S0 S1 ->
  lamAB_of_xyz_CubSph b ind (centre b D1 + v D1) (centre b D2 + v D2) (centre b D3 + v D3) =
    Ok (stat_of b ind (oA || oB),
        (let h0 := match S0 with Flat h => h | Curved sig => sig A' B' / sqrt (q A B) end in
         let h1 := match S1 with Flat h => h | Curved sig => sig A' B' / sqrt (q A B) end in (sgn (dom (ci b)) * t - sgn (dom (ci b)) * h0) / (sgn (dom (ci b)) * h1 - sgn (dom (ci b)) * h0), A', B')).
Proof.
  intros D P V PA PB (NT & T0 & T1). unfold lamAB_of_xyz_CubSph. rewrite (pm_sgn b D). pose proof (cdir_axis b D) as DA.
  set (s := sgn (dom (ci b))). assert (S : s = 1 \/ s = -1) by apply sgn_or. assert (SN : s <> 0) by (destruct S; lra). pose proof (sq_pos A B) as SQ.
  cbn [centre tab]. replace (xc (ci b) + v D1 - xc (ci b)) with (v D1) by ring. replace (yc (ci b) + v D2 - yc (ci b)) with (v D2) by ring. replace (zc (ci b) + v D3 - zc (ci b)) with (v D3) by ring.
  assert (EV : exists rc : R, (if Nat.eqb (cdir b) 1 then Rabs (v D1) / sqrt (v D1 * v D1 + v D2 * v D2 + v D3 * v D3) else if Nat.eqb (cdir b) 2 then Rabs (v D2) / sqrt (v D1 * v D1 + v D2 * v D2 + v D3 * v D3) else Rabs (v D3) / sqrt (v D1 * v D1 + v D2 * v D2 + v D3 * v D3)) = rc /\ rc = 1 / sqrt (q A B)
    /\ (if Nat.eqb (cdir b) 1 then (v D2 / v D1, v D3 / v D1) else if Nat.eqb (cdir b) 2 then (v D1 / v D2, v D3 / v D2) else (v D2 / v D3, v D1 / v D3)) = (A, B)
    /\ (forall a0 a1 : R, (if Nat.eqb (cdir b) 1 then (v D1 - a0) / (a1 - a0) else if Nat.eqb (cdir b) 2 then (v D2 - a0) / (a1 - a0) else (v D3 - a0) / (a1 - a0)) = (s * t - a0) / (a1 - a0))).
  { pose proof (abs_ts s t S) as AB. pose proof (Rabs_pos_lt t P) as TP.
    rewrite !V. unfold ray. fold s. destruct (axis (dom (ci b))); rewrite DA; cbn [Nat.eqb]; eexists; (split; [reflexivity|]).
    all: split; [|split; [|intros; f_equal; ring]].
    all: try (f_equal; field; split; auto).
    all: replace (t * (s * 1)) with (t * s) by ring; replace (t * (s * A)) with (A * (t * s)) by ring; replace (t * (s * B)) with (B * (t * s)) by ring.
    all: match goal with |- _ / sqrt ?X = _ => replace X with (t * s * (t * s) + A * (t * s) * (A * (t * s)) + B * (t * s) * (B * (t * s))) by ring end.
    all: rewrite rc_eq, AB by auto; field; lra. }
  destruct EV as (rc & E1 & E2 & E3 & E4). rewrite E1, E3, PA, PB.
  match goal with |- rbind ?X _ = _ => assert (E : X = Ok (s * (match S0 with Flat h => h | Curved sig => sig A' B' / sqrt (q A B) end), s * (match S1 with Flat h => h | Curved sig => sig A' B' / sqrt (q A B) end), stat_of b ind (oA || oB))) end.
  { rewrite E2. unfold stat_of. destruct S0 as [h0|g0], S1 as [h1|g1]; destruct T0 as [C0 T0], T1 as [C1 T1]; destruct (typ (ci b)); try discriminate; try congruence; rewrite ?T0, ?T1; cbn [rbind].
    all: destruct (oA || oB), (ind <? 0)%Z; try (rewrite ?T0, ?T1; reflexivity).
    all: f_equal; f_equal; f_equal; rewrite ?T0, ?T1; field; lra. }
  rewrite E. cbn [rbind]. cbv zeta. rewrite E4. reflexivity.
Qed.
Lemma inv_eval b ind v A B A' B' oA oB S0 S1 t : (dom (ci b) < 6)%nat -> 0 < t -> (forall k, v k = t * ray (dom (ci b)) A B k) ->
  put_in_range A (bbox2 b) (bbox3 b) = (A', oA) -> put_in_range B (bbox4 b) (bbox5 b) = (B', oB) ->
  box_surfaces b ind A' B' S0 S1 ->
  lamAB_of_xyz_CubSph b ind (centre b D1 + v D1) (centre b D2 + v D2) (centre b D3 + v D3) =
    Ok (stat_of b ind (oA || oB),
        (let h0 := match S0 with Flat h => h | Curved sig => sig A' B' / sqrt (q A B) end in
         let h1 := match S1 with Flat h => h | Curved sig => sig A' B' / sqrt (q A B) end in (sgn (dom (ci b)) * t - sgn (dom (ci b)) * h0) / (sgn (dom (ci b)) * h1 - sgn (dom (ci b)) * h0), A', B')).
Proof. intros D P. apply inv_eval_nz; auto. lra. Qed.
(** *** the Jacobian *)
Lemma dl_scale f x l c : derivable_pt_lim f x l -> derivable_pt_lim (fun t => c * f t) x (c * l). Proof. intros. now apply derivable_pt_lim_scal. Qed.
(** derivatives hA, hB of the height and the factors of the code *)
Definition height_d (S : surface) (A B hA hB : R) : Prop := derivable_pt_lim (fun t => height S t B) A hA /\ derivable_pt_lim (fun t => height S A t) B hB.
Lemma place_d d c S0 S1 lam A B hA0 hB0 hA1 hB1 : height_d S0 A B hA0 hB0 -> height_d S1 A B hA1 hB1 ->
  let h := along S0 S1 lam A B in
  let dl := height S1 A B - height S0 A B in let dA := (1 - lam) * hA0 + lam * hA1 in let dB := (1 - lam) * hB0 + lam * hB1 in
  forall k, let '(rA, rB) := match axis d, k with D1, D2 => (sgn d, 0) | D1, D3 => (0, sgn d) | D2, D1 => (sgn d, 0) | D2, D3 => (0, sgn d) | D3, D2 => (sgn d, 0) | D3, D1 => (0, sgn d) | _, _ => (0, 0) end in
  pd (fun l a b => place d c S0 S1 l a b k) D1 lam A B (dl * ray d A B k) /\ pd (fun l a b => place d c S0 S1 l a b k) D2 lam A B (dA * ray d A B k + h * rA) /\
  pd (fun l a b => place d c S0 S1 l a b k) D3 lam A B (dB * ray d A B k + h * rB).
Proof.
  intros [H0A H0B] [H1A H1B] h dl dA dB k.
  assert (HA : derivable_pt_lim (fun t => along S0 S1 lam t B) A dA). { unfold along. apply derivable_pt_lim_plus; now apply derivable_pt_lim_scal. }
  assert (HB : derivable_pt_lim (fun t => along S0 S1 lam A t) B dB). { unfold along. apply derivable_pt_lim_plus; now apply derivable_pt_lim_scal. }
  assert (HL : derivable_pt_lim (fun t => along S0 S1 t A B) lam dl).
  { unfold along. set (a := height S0 A B). set (e := height S1 A B). replace dl with ((0 - 1) * a + (1 - lam) * 0 + (1 * e + lam * 0)) by (unfold dl; fold a e; ring).
    apply (derivable_pt_lim_plus (fun t => (1 - t) * a) (fun t => t * e)).
    - apply (derivable_pt_lim_mult (fun t => 1 - t) (fun _ => a)); [|apply derivable_pt_lim_const]. apply derivable_pt_lim_minus; [apply derivable_pt_lim_const|apply derivable_pt_lim_id].
    - apply (derivable_pt_lim_mult (fun t => t) (fun _ => e)); [apply derivable_pt_lim_id|apply derivable_pt_lim_const]. }
  assert (PL : forall (f g : R -> R) x f' g' c0 l, derivable_pt_lim f x f' -> derivable_pt_lim g x g' -> l = f' * g x + f x * g' -> derivable_pt_lim (fun t => c0 + f t * g t) x l).
  { intros f g x f' g' c0 l Df Dg ->. replace (f' * g x + f x * g') with (0 + (f' * g x + f x * g')) by ring. apply (derivable_pt_lim_plus (fun _ => c0)); [apply derivable_pt_lim_const|]. now apply derivable_pt_lim_mult. }
  assert (LI : forall c0, derivable_pt_lim (fun t => c0 * t) A c0 /\ derivable_pt_lim (fun t => c0 * t) B c0).
  { intros c0. assert (Q : forall x, derivable_pt_lim (fun t => c0 * t) x (c0 * 1)) by (intros x; apply (derivable_pt_lim_scal (fun t => t)); apply derivable_pt_lim_id).
    rewrite Rmult_1_r in Q. auto. }
  unfold place, ray. destruct (axis d), k; cbn [pd]; (split; [|split]);
  (eapply PL; [first [exact HL|exact HA|exact HB]|first [apply derivable_pt_lim_const|apply LI]|fold h; ring]).
Qed.
(** the table of the code, as a function of the numbers it computes *)
Definition fill (d : nat) (lam A B a0 a1 k0 k1 A0 B0 A1 B1 : R) : d3 -> d3 -> R :=
  let r := (a1 - a0) * lam + a0 in let qq := q A B in
  let dl0 := sgn d * k0 in let dl1 := sgn d * k1 in
  (* derivatives of a0, a1 in the direction of the axis and of A and B *)
  let n0 := dl0 * ((1 / r - 1 / (r * qq)) - A0 * (A / r) - B0 * (B / r)) in let n1 := dl1 * ((1 / r - 1 / (r * qq)) - A1 * (A / r) - B1 * (B / r)) in
  let u0 := dl0 * (- A / (r * qq) + A0 / r) in let u1 := dl1 * (- A / (r * qq) + A1 / r) in
  let w0 := dl0 * (- B / (r * qq) + B0 / r) in let w1 := dl1 * (- B / (r * qq) + B1 / r) in
  let n := (1 - n0 - (n1 - n0) * lam) / (a1 - a0) in let u := (- u0 - (u1 - u0) * lam) / (a1 - a0) in let w := (- w0 - (w1 - w0) * lam) / (a1 - a0) in
  match axis d with
  | D1 => tab (tab n u w) (tab (- A / r) (1 / r) 0) (tab (- B / r) 0 (1 / r))
  | D2 => tab (tab u n w) (tab (1 / r) (- A / r) 0) (tab 0 (- B / r) (1 / r))
  | D3 => tab (tab w u n) (tab 0 (1 / r) (- A / r)) (tab (1 / r) 0 (- B / r))
  end.
(** k is the height of a curved surface and 0 for a plane; (hA, hB) = k (alpha - A/q, beta - B/q) *)
Definition factors (S : surface) (A B hA hB k al be : R) : Prop := match S with Flat _ => k = 0 | Curved _ => k = height S A B end /\ hA = k * (al - A / q A B) /\ hB = k * (be - B / q A B).
Lemma fill_inverse d c S0 S1 lam A B hA0 hB0 hA1 hB1 k0 k1 A0 B0 A1 B1 : height_d S0 A B hA0 hB0 -> height_d S1 A B hA1 hB1 ->
  factors S0 A B hA0 hB0 k0 A0 B0 -> factors S1 A B hA1 hB1 k1 A1 B1 -> along S0 S1 lam A B <> 0 -> height S0 A B <> height S1 A B ->
  inverse_jacobian (Coords (fun k l a b => place d c S0 S1 l a b k) (fun i m _ _ _ => fill d lam A B (sgn d * height S0 A B) (sgn d * height S1 A B) k0 k1 A0 B0 A1 B1 i m) (fun _ _ _ => None)) lam A B.
Proof.
  intros H0 H1 (_ & FA0 & FB0) (_ & FA1 & FB1) NH NE j. pose proof (place_d d c S0 S1 lam A B _ _ _ _ H0 H1) as PD. cbv zeta in PD.
  pose proof (q_pos A B) as Q. unfold along in NH, PD.
  destruct j.
  1: exists (fun k => (height S1 A B - height S0 A B) * ray d A B k).
  2: exists (fun k => ((1 - lam) * hA0 + lam * hA1) * ray d A B k + ((1 - lam) * height S0 A B + lam * height S1 A B) * match axis d, k with D1, D2 => sgn d | D2, D1 => sgn d | D3, D2 => sgn d | _, _ => 0 end).
  3: exists (fun k => ((1 - lam) * hB0 + lam * hB1) * ray d A B k + ((1 - lam) * height S0 A B + lam * height S1 A B) * match axis d, k with D1, D3 => sgn d | D2, D3 => sgn d | D3, D1 => sgn d | _, _ => 0 end).
  all: split; [intros k; specialize (PD k); destruct (axis d), k; apply PD|].
  all: clear PD; intros i; cbn [dX_dx]; unfold S3, fill, ray; subst hA0 hB0 hA1 hB1.
  all: set (e0 := height S0 A B) in *; set (e1 := height S1 A B) in *; set (qq := q A B) in *.
  all: assert (N1 : (e1 - e0) * lam + e0 <> 0) by (intros C; apply NH; lra); assert (N2 : e1 - e0 <> 0) by lra.
  all: assert (EQ : qq = 1 + A * A + B * B) by reflexivity.
  all: destruct (sgn_or d) as [-> | ->]; destruct (axis d), i; cbn [tab delta]; field_simplify_eq; try (repeat split; lra); try (rewrite EQ; ring).
Qed.
(** the box has the surface S at (A,B), together with its derivatives *)
Definition surf_d (b : cbox) (ind : Z) (A B : R) (si : bool) (S : surface) : Prop :=
  match S with
  | Flat _ => True
  | Curved sig => sig A B <> 0 /\ exists sA sB, derivable_pt_lim (fun t => sig t B) A sA /\ derivable_pt_lim (fun t => sig A t) B sB /\
      CubedSphere_dsigma_dA b si ind A B = Ok sA /\ CubedSphere_dsigma_dB b si ind A B = Ok sB
  end.
Lemma sqrt_q_d A B : derivable_pt_lim (fun t => sqrt (1 + t * t + B * B)) A (A / sqrt (q A B)) /\ derivable_pt_lim (fun t => sqrt (1 + A * A + t * t)) B (B / sqrt (q A B)).
Proof.
  pose proof (q_pos A B) as Q. pose proof (sq_pos A B) as S. split.
  - replace (A / sqrt (q A B)) with (/ (2 * sqrt (q A B)) * (0 + (1 * A + A * 1) + 0)) by (field; lra).
    apply (derivable_pt_lim_comp (fun t => 1 + t * t + B * B) sqrt); [|now apply derivable_pt_lim_sqrt].
    apply (derivable_pt_lim_plus (fun t => 1 + t * t)); [|apply derivable_pt_lim_const]. apply (derivable_pt_lim_plus (fun _ => 1)); [apply derivable_pt_lim_const|].
    apply (derivable_pt_lim_mult (fun t => t) (fun t => t)); apply derivable_pt_lim_id.
  - replace (B / sqrt (q A B)) with (/ (2 * sqrt (q A B)) * (0 + (1 * B + B * 1))) by (field; lra).
    apply (derivable_pt_lim_comp (fun t => 1 + A * A + t * t) sqrt); [|now apply derivable_pt_lim_sqrt].
    apply (derivable_pt_lim_plus (fun _ => 1 + A * A)); [apply derivable_pt_lim_const|].
    apply (derivable_pt_lim_mult (fun t => t) (fun t => t)); apply derivable_pt_lim_id.
Qed.
Lemma height_curved_d sig A B sA sB : sig A B <> 0 -> derivable_pt_lim (fun t => sig t B) A sA -> derivable_pt_lim (fun t => sig A t) B sB ->
  exists hA hB, height_d (Curved sig) A B hA hB /\ factors (Curved sig) A B hA hB (height (Curved sig) A B) (sA / sig A B) (sB / sig A B).
Proof.
  intros N DA DB. pose proof (q_pos A B) as Q. pose proof (sq_pos A B) as S. destruct (sqrt_q_d A B) as [QA QB].
  assert (SS : sqrt (q A B) * sqrt (q A B) = q A B) by (apply sqrt_sqrt; lra).
  exists ((sA * sqrt (q A B) - A / sqrt (q A B) * sig A B) / (sqrt (q A B))²), ((sB * sqrt (q A B) - B / sqrt (q A B) * sig A B) / (sqrt (q A B))²). split.
  - split; cbn [height].
    + apply (derivable_pt_lim_div (fun t => sig t B) (fun t => sqrt (1 + t * t + B * B)) A); auto. fold (q A B). lra.
    + apply (derivable_pt_lim_div (fun t => sig A t) (fun t => sqrt (1 + A * A + t * t)) B); auto. fold (q A B). lra.
  - split; [reflexivity|]. cbn [height]. fold (q A B). unfold Rsqr. set (w := sqrt (q A B)) in *. rewrite <- SS. split; field; repeat split; lra.
Qed.
Lemma fill_ext d lam A B a0 a1 k0 k1 A0 B0 A1 B1 (t : d3 -> d3 -> R) C :
  (forall i m, t i m = fill d lam A B a0 a1 k0 k1 A0 B0 A1 B1 i m) ->
  inverse_jacobian (Coords C (fun i m _ _ _ => fill d lam A B a0 a1 k0 k1 A0 B0 A1 B1 i m) (fun _ _ _ => None)) lam A B ->
  inverse_jacobian (Coords C (fun i m _ _ _ => t i m) (fun _ _ _ => None)) lam A B.
Proof. intros E H j. destruct (H j) as (J & P & Q). exists J. split; auto. intros i. rewrite <- (Q i). unfold S3. cbn [dX_dx]. now rewrite !E. Qed.
(** the numbers the code computes before it fills the table *)
Definition da_eval (b : cbox) (ind : Z) (A B : R) : res (R * R * R * R * R * R * R * R) :=
  let sq := sqrt (q A B) in let pm := sgn (dom (ci b)) in
  match typ (ci b) with
    | PyramidFrustum => Ok (pm * srad (ci b) false, pm * srad (ci b) true, 0, 0, 0, 0, 0, 0)
    | innerCubedSphere => do sigma0 <- CubedSphere_sigma b false ind A B; do sA <- CubedSphere_dsigma_dA b false ind A B; do sB <- CubedSphere_dsigma_dB b false ind A B;
        let a0 := pm * sigma0 / sq in let a1 := pm * srad (ci b) true in Ok (a0, a1, a0, 0, sA / sigma0, sB / sigma0, 0, 0)
    | outerCubedSphere => let a0 := pm * srad (ci b) false in do sigma1 <- CubedSphere_sigma b true ind A B; do sA <- CubedSphere_dsigma_dA b true ind A B; do sB <- CubedSphere_dsigma_dB b true ind A B;
        let a1 := pm * sigma1 / sq in Ok (a0, a1, 0, a1, 0, 0, sA / sigma1, sB / sigma1)
    | CubedShell => do sigma0 <- CubedSphere_sigma b false ind A B; do sA0 <- CubedSphere_dsigma_dA b false ind A B; do sB0 <- CubedSphere_dsigma_dB b false ind A B;
        do sigma1 <- CubedSphere_sigma b true ind A B; do sA1 <- CubedSphere_dsigma_dA b true ind A B; do sB1 <- CubedSphere_dsigma_dB b true ind A B;
        let a0 := pm * sigma0 / sq in let a1 := pm * sigma1 / sq in Ok (a0, a1, a0, a1, sA0 / sigma0, sB0 / sigma0, sA1 / sigma1, sB1 / sigma1)
    | CoordInfoNotSet => Err
    end.
Lemma da_ok b ind A B S0 S1 : box_surfaces b ind A B S0 S1 -> surf_d b ind A B false S0 -> surf_d b ind A B true S1 ->
  exists k0 k1 A0 B0 A1 B1 hA0 hB0 hA1 hB1,
    da_eval b ind A B = Ok (sgn (dom (ci b)) * height S0 A B, sgn (dom (ci b)) * height S1 A B, sgn (dom (ci b)) * k0, sgn (dom (ci b)) * k1, A0, B0, A1, B1) /\
    height_d S0 A B hA0 hB0 /\ height_d S1 A B hA1 hB1 /\ factors S0 A B hA0 hB0 k0 A0 B0 /\ factors S1 A B hA1 hB1 k1 A1 B1.
Proof.
  intros (NT & T0 & T1) D0 D1. unfold da_eval. set (s := sgn _).
  assert (FL : forall h, height_d (Flat h) A B 0 0 /\ factors (Flat h) A B 0 0 0 0 0). { intros h. split; [split; apply derivable_pt_lim_const|]. split; [reflexivity|]. split; ring. }
  destruct S0 as [h0|g0], S1 as [h1|g1]; destruct T0 as [C0 T0], T1 as [C1 T1]; destruct (typ (ci b)); try discriminate; try congruence; cbn [surf_d] in D0, D1;
  repeat match goal with H : _ /\ exists _, _ |- _ => destruct H as (? & ? & ? & ? & ? & ? & ?) end;
  repeat match goal with N : ?g A B <> 0, HA : derivable_pt_lim (fun t => ?g t B) A ?sA, HB : derivable_pt_lim (fun t => ?g A t) B ?sB |- _ => 
    let HH := fresh in pose proof (height_curved_d g A B sA sB N HA HB) as HH; destruct HH as (? & ? & ? & ?); clear HA HB end;
  rewrite ?T0, ?T1; repeat match goal with H : _ = Ok _ |- _ => rewrite H; clear H end; cbn [rbind]; subst.
  - exists 0, 0, 0, 0, 0, 0, 0, 0, 0, 0. cbn [height]. rewrite Rmult_0_r. repeat split; try apply FL; auto.
  - do 2 eexists. exists 0, 0. do 2 eexists. exists 0, 0. do 2 eexists. split; [|split; [apply FL|split; [eassumption|split; [apply FL|eassumption]]]].
    cbn [height]. fold (q A B). rewrite Rmult_0_r. unfold Rdiv at 1 2. rewrite !Rmult_assoc. reflexivity.
  - eexists. exists 0. do 2 eexists. exists 0, 0. do 2 eexists. exists 0, 0. split; [|split; [eassumption|split; [apply FL|split; [eassumption|apply FL]]]].
    cbn [height]. fold (q A B). rewrite Rmult_0_r. unfold Rdiv at 1 2. rewrite !Rmult_assoc. reflexivity.
  - do 10 eexists. split; [|split; [eassumption|split; [eassumption|split; [eassumption|eassumption]]]].
    cbn [height]. fold (q A B). unfold Rdiv at 1 2 3 4. rewrite !Rmult_assoc. reflexivity.
Qed.
Lemma table_ok b ind lam A B S0 S1 : (dom (ci b) < 6)%nat -> box_surfaces b ind A B S0 S1 -> surf_d b ind A B false S0 -> surf_d b ind A B true S1 ->
  along S0 S1 lam A B <> 0 -> height S0 A B <> height S1 A B ->
  exists p t, dlamAB_dxyz_CubSph b ind lam A B = Ok (p, t) /\ (forall k, vec p k = place (dom (ci b)) (centre b) S0 S1 lam A B k) /\
    inverse_jacobian (Coords (fun k l a b' => place (dom (ci b)) (centre b) S0 S1 l a b' k) (fun i m _ _ _ => t i m) (fun _ _ _ => None)) lam A B.
Proof.
  intros D BS D0 D1 NH NE. destruct (da_ok b ind A B S0 S1 BS D0 D1) as (k0 & k1 & A0 & B0 & A1 & B1 & hA0 & hB0 & hA1 & hB1 & E & H0 & H1 & F0 & F1).
  unfold dlamAB_dxyz_CubSph. rewrite (pm_sgn b D). fold (q A B). fold (da_eval b ind A B). rewrite E. cbn [rbind]. pose proof (cdir_axis b D) as DA.
  set (a0 := sgn (dom (ci b)) * height S0 A B). set (a1 := sgn (dom (ci b)) * height S1 A B).
  assert (NR : (a1 - a0) * lam + a0 <> 0). { unfold along in NH. unfold a0, a1. destruct (sgn_or (dom (ci b))) as [-> | ->]; lra. }
  assert (NA : a1 - a0 <> 0). { unfold a0, a1. destruct (sgn_or (dom (ci b))) as [-> | ->]; lra. }
  pose proof (q_pos A B) as Q.
  assert (RS : (a1 - a0) * lam + a0 = along S0 S1 lam A B * sgn (dom (ci b))) by (unfold along, a0, a1; ring).
  set (r := (a1 - a0) * lam + a0) in *.
  assert (RQ : r * r + A * r * (A * r) + B * r * (B * r) = r * r * q A B) by (unfold q; ring).
  assert (RQ2 : A * r * (A * r) + r * r + B * r * (B * r) = r * r * q A B) by (unfold q; ring).
  assert (RQ3 : B * r * (B * r) + A * r * (A * r) + r * r = r * r * q A B) by (unfold q; ring).
  pose proof (fill_inverse (dom (ci b)) (centre b) S0 S1 lam A B _ _ _ _ _ _ _ _ _ _ H0 H1 F0 F1 NH NE) as FI.
  destruct (axis (dom (ci b))) eqn:AX; rewrite DA; cbn [Nat.eqb].
  all: eexists _, _; split; [reflexivity|]; split; [intros k; unfold place, ray; rewrite AX; fold r; destruct k; cbn [vec fst snd centre tab]; rewrite RS; ring|].
  all: eapply fill_ext; [|exact FI]; unfold fill; rewrite AX; fold a0 a1; fold r.
  all: replace (yc (ci b) + A * r - yc (ci b)) with (A * r) by ring; replace (zc (ci b) + B * r - zc (ci b)) with (B * r) by ring; replace (xc (ci b) + A * r - xc (ci b)) with (A * r) by ring; replace (xc (ci b) + B * r - xc (ci b)) with (B * r) by ring.
  all: rewrite ?RQ, ?RQ2, ?RQ3; intros i m; destruct i, m; cbn [tab]; try reflexivity; field; repeat split; try lra.
Qed.

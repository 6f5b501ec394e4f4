(** C78: the box and box coordinates of a point. *)
From Verif Require Import Rutil Base Loops Sparse_model Sparse_proofs Cheb_model Dcov_model Dcov_props Find_model.
From Verif Require Import Coord_model Coord_spec Cub_model Cub_spec Cub_proofs Cub_props Cub2_props.
Local Open Scope R_scope.
Definition eps : R := 1 / 10000000000.
(** C78: XYZ_of_xyz in a single box: Cartesian boxes return the point itself, boxes with their own inverse its result; otherwise the result is the last point of the Newton iteration, and a return value >= 0 means that the iteration reported success or that the point maps to (x,y,z) with a relative error of at most 100 tol. *)
Definition rel_error (xyz_of : pt -> pt) (p : pt) (x y z : R) : R :=
  let '(a, b, c) := xyz_of p in let d := sqrt ((a - x) ^ 2 + (b - y) ^ 2 + (c - z) ^ 2) in let r := sqrt (x ^ 2 + y ^ 2 + z ^ 2) in if Rlt_dec 0 r then d / r else d.
Theorem C78_single c tol g x y z :
  (Find_model.x_of_X c = None -> XYZ_of_xyz c tol g x y z = Ok (0%Z, (x, y, z))) /\
  (forall xyz_of, Find_model.x_of_X c = Some xyz_of ->
     (forall f, XYZ_Of c = Some f -> XYZ_of_xyz c tol g x y z = f x y z) /\
     (XYZ_Of c = None -> let g' := match guess c with Some h => h g x y z | None => g end in
        (forall r, recover c g' x y z = Some r -> XYZ_of_xyz c tol g x y z = r) /\
        (recover c g' x y z = None -> forall stat check p, newton c g' x y z = (stat, check, p) -> exists ret, XYZ_of_xyz c tol g x y z = Ok (ret, p) /\
           ((0 <= ret)%Z <-> (if check then rel_error xyz_of p x y z <= 100 * tol else (0 <= stat)%Z))))).
Proof.
  unfold XYZ_of_xyz. split; [now intros ->|]. intros xyz_of ->. split; [now intros f ->|]. intros ->. cbv zeta. set (g' := match guess c with Some h => h g x y z | None => g end). split; [now intros r ->|]. intros -> stat check p ->.
  assert (CE : forall st er, check_xyz_error xyz_of p x y z tol = (st, er) -> (st = 1%Z /\ rel_error xyz_of p x y z <= 100 * tol) \/ (st = (-1)%Z /\ ~ rel_error xyz_of p x y z <= 100 * tol)).
  { unfold check_xyz_error, rel_error. destruct (xyz_of p) as ((a, b), c'). intros st er E. injection E as <- <-.
    assert (E1 : sqrt ((a - x) ^ 2 + (b - y) ^ 2 + (c' - z) ^ 2) = sqrt ((a - x) * (a - x) + (b - y) * (b - y) + (c' - z) * (c' - z))) by (f_equal; ring). assert (E2 : sqrt (x ^ 2 + y ^ 2 + z ^ 2) = sqrt (x * x + y * y + z * z)) by (f_equal; ring). rewrite E1, E2.
    destruct (Rlt_dec (tol * 100) _); [right|left]; split; auto; lra. }
  destruct check; cbn [orb].
  - destruct (check_xyz_error _ _ _ _ _ _) as [st er]. destruct (CE st er eq_refl) as [[-> L]|[-> L]]; cbn [Z.eqb]; (eexists; split; [reflexivity|]); split; intros; try tauto; lia.
  - destruct (Z.ltb_spec stat 0); [destruct (check_xyz_error _ _ _ _ _ _)|]; eexists; (split; [reflexivity|]); lia.
Qed.
Print Assumptions C78_single.
(** *** the search in several boxes *)
(** box bi takes the point: its solver succeeds with coordinates inside the bbox, up to 1e-10 *)
Definition inside_up_to (e X lo hi : R) : Prop := lo - e <= X <= hi + e.
Definition takes (solve : nat -> pt -> res (Z * pt)) (bb : nat -> nat -> R) (g : pt) (bi : nat) (p : pt) : Prop :=
  let '(X, Y, Z) := p in exists stat, (0 <= stat)%Z /\ solve bi g = Ok (stat, p) /\ inside_up_to eps X (bb bi 0%nat) (bb bi 1%nat) /\ inside_up_to eps Y (bb bi 2%nat) (bb bi 3%nat) /\ inside_up_to eps Z (bb bi 4%nat) (bb bi 5%nat).
(** the point of the interval closest to X *)
Definition nearest_in (X lo hi X' : R) : Prop := lo <= X' <= hi /\ (lo <= X <= hi -> X' = X) /\ Rabs (X' - X) <= eps.
Lemma dless_iff a b : dless a b = true <-> a < b - eps.
Proof. unfold dless, dequaleps, eps. destruct (Rlt_dec _ _); split; intros; auto; try discriminate; lra. Qed.
Lemma out_iff X lo hi : outside_by X lo hi = false <-> inside_up_to eps X lo hi.
Proof.
  unfold outside_by, inside_up_to. destruct (dless X lo) eqn:A; [apply dless_iff in A|]; destruct (dless hi X) eqn:B; try (apply dless_iff in B); cbn [orb]; split; intros H; try discriminate; auto; try lra.
  split; apply Rnot_lt_le; intros C; [assert (dless X lo = true) by (apply dless_iff; lra)|assert (dless hi X = true) by (apply dless_iff; lra)]; congruence.
Qed.
Lemma round_near X lo hi : lo <= hi -> inside_up_to eps X lo hi -> nearest_in X lo hi (round_in X lo hi).
Proof.
  intros L [A B]. unfold nearest_in, round_in. assert (0 < eps) by (unfold eps; lra).
  destruct (Rlt_dec X lo); [destruct (Rlt_dec hi lo); [lra|]|destruct (Rlt_dec hi X)]; (split; [lra|split; [lra|]]); apply Rabs_le; lra.
Qed.
Lemma b_loop_spec solve bb g l : (forall bi, In bi l -> exists st p, solve bi g = Ok (st, p)) -> (forall bi d, In bi l -> (d < 3)%nat -> bb bi (2 * d)%nat <= bb bi (2 * d + 1)%nat) ->
  (b_loop solve bb l g = Ok None /\ forall bi p, In bi l -> ~ takes solve bb g bi p) \/
  (exists pre bi post X Y Z X' Y' Z', l = pre ++ bi :: post /\ b_loop solve bb l g = Ok (Some (bi, (X', Y', Z'))) /\ takes solve bb g bi (X, Y, Z) /\ (forall bj p, In bj pre -> ~ takes solve bb g bj p) /\
     nearest_in X (bb bi 0%nat) (bb bi 1%nat) X' /\ nearest_in Y (bb bi 2%nat) (bb bi 3%nat) Y' /\ nearest_in Z (bb bi 4%nat) (bb bi 5%nat) Z').
Proof.
  induction l as [|bi l IH]; intros TS BB; [left; split; auto|].
  destruct (TS bi (or_introl eq_refl)) as (st & ((X, Y), Z) & E).
  assert (SKIP : (forall p, ~ takes solve bb g bi p) -> b_loop solve bb (bi :: l) g = b_loop solve bb l g -> (b_loop solve bb (bi :: l) g = Ok None /\ forall bi0 p, In bi0 (bi :: l) -> ~ takes solve bb g bi0 p) \/
    (exists pre bi0 post X Y Z X' Y' Z', bi :: l = pre ++ bi0 :: post /\ b_loop solve bb (bi :: l) g = Ok (Some (bi0, (X', Y', Z'))) /\ takes solve bb g bi0 (X, Y, Z) /\ (forall bj p, In bj pre -> ~ takes solve bb g bj p) /\
     nearest_in X (bb bi0 0%nat) (bb bi0 1%nat) X' /\ nearest_in Y (bb bi0 2%nat) (bb bi0 3%nat) Y' /\ nearest_in Z (bb bi0 4%nat) (bb bi0 5%nat) Z')).
  { intros NT EQ. rewrite EQ. destruct IH as [[I1 I2]|(pre & b0 & post & H)]; [intros; apply TS; now right|intros; apply BB; auto; now right| |].
    - left. split; auto. intros b0 p [<-|H]; auto.
    - right. exists (bi :: pre), b0, post. destruct H as (X0 & Y0 & Z0 & X' & Y' & Z' & H1 & H2 & H3 & H4 & H5). exists X0, Y0, Z0, X', Y', Z'. cbn [app]. rewrite <- H1. split; auto. split; auto. split; auto. split; auto. intros bj p [<-|H]; auto. }
  assert (TK : forall p, takes solve bb g bi p -> p = (X, Y, Z) /\ (0 <= st)%Z /\ inside_up_to eps X (bb bi 0%nat) (bb bi 1%nat) /\ inside_up_to eps Y (bb bi 2%nat) (bb bi 3%nat) /\ inside_up_to eps Z (bb bi 4%nat) (bb bi 5%nat)).
  { intros ((X0, Y0), Z0) (s0 & P0 & E0 & H). rewrite E in E0. injection E0 as <- <- <- <-. tauto. }
  assert (OI := out_iff). cbn [b_loop] in *. rewrite E in *. cbn [rbind] in *.
  destruct (Z.ltb_spec st 0) as [LT|LT]. { apply SKIP; auto. intros p H. apply TK in H. lia. }
  destruct (outside_by X _ _) eqn:O1. { apply SKIP; auto. intros p H. apply TK in H. destruct H as (_ & _ & H & _). apply OI in H. congruence. }
  destruct (outside_by Y _ _) eqn:O2. { apply SKIP; auto. intros p H. apply TK in H. destruct H as (_ & _ & _ & H & _). apply OI in H. congruence. }
  destruct (outside_by Z _ _) eqn:O3. { apply SKIP; auto. intros p H. apply TK in H. destruct H as (_ & _ & _ & _ & H). apply OI in H. congruence. }
  clear SKIP. apply OI in O1, O2, O3. right. exists [], bi, l, X, Y, Z. do 3 eexists. split; [reflexivity|]. split; [reflexivity|]. split; [exists st; auto|]. split; [intros ? ? []|].
  pose proof (BB bi 0%nat (or_introl eq_refl) ltac:(lia)). pose proof (BB bi 1%nat (or_introl eq_refl) ltac:(lia)). pose proof (BB bi 2%nat (or_introl eq_refl) ltac:(lia)). repeat split; apply round_near; auto.
Qed.
(** C78: b_XYZ_of_xyz returns the first active box that takes the point, with its coordinates put inside the bbox (they change by at most 1e-10, and not at all if they are inside); if no box takes it the result is -nboxes-10000 and X,Y,Z keep the guess. *)
Definition found (solve : nat -> pt -> res (Z * pt)) (bb : nat -> nat -> R) (l : list nat) (g : pt) (fail ret : Z) (p' : pt) : Prop :=
  ((forall bi p, In bi l -> ~ takes solve bb g bi p) /\ ret = fail /\ p' = g) \/
  (exists pre bi post X Y Z, l = pre ++ bi :: post /\ ret = Z.of_nat bi /\ takes solve bb g bi (X, Y, Z) /\ (forall bj p, In bj pre -> ~ takes solve bb g bj p) /\
     let '(X', Y', Z') := p' in nearest_in X (bb bi 0%nat) (bb bi 1%nat) X' /\ nearest_in Y (bb bi 2%nat) (bb bi 3%nat) Y' /\ nearest_in Z (bb bi 4%nat) (bb bi 5%nat) Z').
Theorem C78_boxes solve bb active nboxes g : (forall bi, (bi < nboxes)%nat -> active bi = true -> exists st p, solve bi g = Ok (st, p)) -> (forall bi d, (bi < nboxes)%nat -> (d < 3)%nat -> bb bi (2 * d)%nat <= bb bi (2 * d + 1)%nat) ->
  exists ret p, b_XYZ_of_xyz solve bb active nboxes g = Ok (ret, p) /\ found solve bb (filter active (seq 0 nboxes)) g (- Z.of_nat nboxes - 10000)%Z ret p.
Proof.
  intros TS BB. unfold b_XYZ_of_xyz. destruct (b_loop_spec solve bb g (filter active (seq 0 nboxes))) as [[E N]|(pre & bi & post & X & Y & Z & X' & Y' & Z' & H1 & H2 & H3)].
  - intros bi H. apply filter_In in H. rewrite in_seq in H. apply TS; [lia|tauto].
  - intros bi d H. apply filter_In in H. rewrite in_seq in H. apply BB; lia.
  - rewrite E. cbn [rbind]. do 2 eexists. split; [reflexivity|]. left. auto.
  - rewrite H2. cbn [rbind]. do 2 eexists. split; [reflexivity|]. right. exists pre, bi, post, X, Y, Z. tauto.
Qed.
Print Assumptions C78_boxes.
(** the same for a list of boxes, in the order of the list *)
Theorem C78_boxlist solve bb blist g : (forall bi, In bi blist -> exists st p, solve bi g = Ok (st, p)) -> (forall bi d, In bi blist -> (d < 3)%nat -> bb bi (2 * d)%nat <= bb bi (2 * d + 1)%nat) ->
  exists ret p, b_XYZ_of_xyz_inboxlist solve bb blist g = Ok (ret, p) /\ found solve bb blist g (- Z.of_nat (last blist 0%nat) - 10000)%Z ret p.
Proof.
  intros TS BB. unfold b_XYZ_of_xyz_inboxlist. destruct (b_loop_spec solve bb g blist TS BB) as [[E N]|(pre & bi & post & X & Y & Z & X' & Y' & Z' & H1 & H2 & H3)].
  - rewrite E. cbn [rbind]. do 2 eexists. split; [reflexivity|]. left. auto.
  - rewrite H2. cbn [rbind]. do 2 eexists. split; [reflexivity|]. right. exists pre, bi, post, X, Y, Z. tauto.
Qed.
Print Assumptions C78_boxlist.
(** *** the six boxes of a sphered cube *)
Definition cub_solve (bx : nat -> cbox) (x y z : R) (bi : nat) (g : pt) : res (Z * pt) :=
  XYZ_of_xyz (CBox (Some (fun p => p)) (Some (lamAB_of_xyz_CubSph (bx bi) (-1))) (fun _ _ _ _ => None) (fun p _ _ _ => (0%Z, false, p)) None) 0 g x y z.
Definition unit_bb (bi f : nat) : R := match f with 0%nat => 0 | 1%nat => 1 | 2%nat => -1 | 3%nat => 1 | 4%nat => -1 | _ => 1 end.
(** (A,B) of a point, in the pyramid of domain d or in the opposite one *)
Definition slopes (d : nat) (v : d3 -> R) : R * R := match axis d with D1 => (v D2 / v D1, v D3 / v D1) | D2 => (v D1 / v D2, v D3 / v D2) | D3 => (v D2 / v D3, v D1 / v D3) end.
Lemma slopes_ray d v : (forall k, v k <> 0) -> let '(A, B) := slopes d v in forall k, v k = sgn d * v (axis d) * ray d A B k.
Proof.
  intros NZ. pose proof (NZ D1). pose proof (NZ D2). pose proof (NZ D3). assert (SS : sgn d * sgn d = 1) by (destruct (sgn_or d) as [-> | ->]; ring).
  unfold slopes, ray. destruct (axis d); intros k; match goal with |- v k = sgn d * ?x * (sgn d * ?m) => transitivity (sgn d * sgn d * (x * m)); [rewrite SS|ring] end; destruct k; field; auto.
Qed.
(** both slopes are inside [-1,1] or outside by more than the comparison accuracy *)
Definition clear1 (A : R) : Prop := Rabs A <= 1 \/ 1 + eps < Rabs A.
Definition clear_of_faces (v : d3 -> R) : Prop := forall d, (d < 6)%nat -> let '(A, B) := slopes d v in clear1 A /\ clear1 B.
Lemma clear_put A A' o : clear1 A -> put_in_range A (-1) 1 = (A', o) -> (o = false /\ A' = A /\ -1 <= A <= 1) \/ (o = true /\ 1 + eps < Rabs A).
Proof.
  intros C E. destruct (put_moved A (-1) 1 ltac:(lra)) as (A0 & o0 & E0 & M). rewrite E in E0. injection E0 as <- <-. destruct M as (M0 & M1 & M2). unfold within in *. assert (EE : 1 / 10 ^ 10 = eps) by (unfold eps; lra). rewrite EE in *.
  destruct C as [C|C].
  - left. assert (W : -1 <= A <= 1) by (unfold Rabs in C; destruct (Rcase_abs A); lra). destruct (M2 W). auto.
  - right. split; auto. destruct o; auto. destruct (M0 eq_refl) as [W N]. assert (Rabs A' <= 1) by (apply Rabs_le; lra). pose proof (Rabs_triang (A - A') A') as T. replace (A - A' + A') with A in T by ring. unfold eps in *. lra.
Qed.
(** C78: in a grid of the six boxes of a sphered cube every point between the surfaces is found; away from the planes through the centre and from the accuracy zone at the faces of the pyramids, the coordinates returned are inside the box and map exactly to the point. *)
Theorem C78_cubes bx c G0 G1 x y z g : six_boxes bx (-1) c G0 G1 -> homogeneous G0 -> homogeneous G1 ->
  (forall d A B, (d < 6)%nat -> exists S0 S1, box_surfaces (bx d) (-1) A B S0 S1) ->
  (forall d A B, (d < 6)%nat -> in_square A B -> eps * height (in_domain d G1) A B <= height (in_domain d G0) A B) ->
  let v := fun k => vec (x, y, z) k - c k in (forall k, v k <> 0) -> clear_of_faces v -> outside G0 v -> inside G1 v ->
  exists d lam A B, b_XYZ_of_xyz (cub_solve bx x y z) unit_bb (fun _ => true) 6 g = Ok (Z.of_nat d, (lam, A, B)) /\ (d < 6)%nat /\ 0 <= lam <= 1 /\ in_square A B /\ xyz_of_lamAB_CubSph (bx d) (-1) lam A B = Ok (x, y, z).
Proof.
  intros SB H0 H1 BS TH v NZ CL O0 I1.
  assert (TOT : forall d, (d < 6)%nat -> let '(A, B) := slopes d v in exists A' B' oA oB S0 S1, put_in_range A (-1) 1 = (A', oA) /\ put_in_range B (-1) 1 = (B', oB) /\ box_surfaces (bx d) (-1) A' B' S0 S1 /\
    cub_solve bx x y z d g = Ok (stat_of (bx d) (-1) (oA || oB), (let h0 := match S0 with Flat h => h | Curved sig => sig A' B' / sqrt (q A B) end in let h1 := match S1 with Flat h => h | Curved sig => sig A' B' / sqrt (q A B) end in
      (sgn d * (sgn d * v (axis d)) - sgn d * h0) / (sgn d * h1 - sgn d * h0), A', B')) /\ (in_square A B -> oA = false -> oB = false -> S0 = in_domain d G0 /\ S1 = in_domain d G1)).
  { intros d D. pose proof (slopes_ray d v NZ) as SR. pose proof (CL d D) as CD. destruct (slopes d v) as [A B]. destruct (put_moved A (-1) 1 ltac:(lra)) as (A' & oA & EA & _). destruct (put_moved B (-1) 1 ltac:(lra)) as (B' & oB & EB & _).
    destruct (SB d D) as (ED & EC & B2 & B3 & B4 & B5 & BSD).
    assert (SS : exists S0 S1, box_surfaces (bx d) (-1) A' B' S0 S1 /\ (in_square A B -> oA = false -> oB = false -> S0 = in_domain d G0 /\ S1 = in_domain d G1)).
    { destruct (clear_put A A' oA (proj1 CD) EA) as [(-> & -> & WA)|(-> & _)]; [destruct (clear_put B B' oB (proj2 CD) EB) as [(-> & -> & WB)|(-> & _)]|].
      - exists (in_domain d G0), (in_domain d G1). split; auto. apply BSD. split; auto.
      - destruct (BS d A B' D) as (S0 & S1 & H). exists S0, S1. split; auto. discriminate.
      - destruct (BS d A' B' D) as (S0 & S1 & H). exists S0, S1. split; auto. discriminate. }
    destruct SS as (S0 & S1 & H & HQ). exists A', B', oA, oB, S0, S1. split; auto. split; auto. split; auto. split; auto. unfold cub_solve, XYZ_of_xyz. cbn [Find_model.x_of_X XYZ_Of].
    assert (VX : centre (bx d) D1 + v D1 = x /\ centre (bx d) D2 + v D2 = y /\ centre (bx d) D3 + v D3 = z) by (rewrite !EC; unfold v; cbn; lra). destruct VX as (VX & VY & VZ).
    assert (TN : sgn d * v (axis d) <> 0) by (apply Rmult_integral_contrapositive_currified; auto; destruct (sgn_or d); lra).
    pose proof (inv_eval_nz (bx d) (-1) v A B A' B' oA oB S0 S1 (sgn d * v (axis d))) as IE. rewrite ED, B2, B3, B4, B5, VX, VY, VZ in IE. apply IE; auto. }
  destruct (C78_boxes (cub_solve bx x y z) unit_bb (fun _ => true) 6 g) as (ret & p & E & F).
  { intros bi L _. specialize (TOT bi L). destruct (slopes bi v). destruct TOT as (A' & B' & oA & oB & S0 & S1 & _ & _ & _ & E & _). eauto. }
  { intros bi d _ D. destruct d as [|[|[|d]]]; [cbn; lra|cbn; lra|cbn; lra|lia]. }
  assert (FL : filter (fun _ : nat => true) (seq 0 6) = seq 0 6) by reflexivity. rewrite FL in F.
  destruct F as [(NF & _ & _)|(pre & bi & post & X & Y & Z & EL & -> & TK & _ & NR)].
  - exfalso. assert (NC : exists k, vec (x, y, z) k <> c k) by (exists D1; specialize (NZ D1); unfold v in NZ; lra).
    destruct (C74_fill bx (-1) c G0 G1 x y z SB H0 H1 NC O0 I1) as (d & lam & A & B & D & L & SQ & E1 & _). apply (NF d (lam, A, B)). { apply in_seq. lia. }
    exists 0%Z. split; [lia|]. split; [exact E1|]. unfold inside_up_to, unit_bb, eps. destruct SQ. lra.
  - assert (D : (bi < 6)%nat). { assert (In bi (seq 0 6)) by (rewrite EL; apply in_app_iff; right; now left). apply in_seq in H. lia. }
    specialize (TOT bi D). pose proof (slopes_ray bi v NZ) as SR. pose proof (CL bi D) as CD. destruct (slopes bi v) as [A B]. destruct TOT as (A' & B' & oA & oB & S0 & S1 & EA & EB & BB & ES & SQS).
    destruct TK as (st & SP & E2 & IX & IY & IZ). rewrite ES in E2. injection E2 as E3 E4 E5 E6. subst Y Z.
    destruct (clear_put A A' oA (proj1 CD) EA) as [(-> & -> & WA)|(-> & _)]; [|exfalso; subst st; unfold stat_of in SP; cbn [orb] in SP; destruct (typ (ci (bx bi))); cbn in SP; lia].
    destruct (clear_put B B' oB (proj2 CD) EB) as [(-> & -> & WB)|(-> & _)]; [|exfalso; subst st; unfold stat_of in SP; cbn [orb] in SP; destruct (typ (ci (bx bi))); cbn in SP; lia].
    assert (SQ : in_square A B) by (split; auto). destruct (SQS SQ eq_refl eq_refl) as [-> ->]. clear SQS.
    change (match in_domain bi G0 with Flat h => h | Curved sig => sig A B / sqrt (q A B) end) with (height (in_domain bi G0) A B) in *. change (match in_domain bi G1 with Flat h => h | Curved sig => sig A B / sqrt (q A B) end) with (height (in_domain bi G1) A B) in *.
    destruct (SB bi D) as (ED & EC & B2 & B3 & B4 & B5 & BSD). destruct (BSD A B SQ) as [_ [P0 P1]]. pose proof (TH bi A B D SQ) as TQ. set (h0 := height (in_domain bi G0) A B) in *. set (h1 := height (in_domain bi G1) A B) in *. set (t := sgn bi * v (axis bi)) in *.
    assert (X0 : X = (t - h0) / (h1 - h0)). { rewrite <- E4. destruct (sgn_or bi) as [-> | ->]; field; lra. }
    assert (TP : 0 < t). { apply Rnot_le_lt. intros N. destruct IX as [IX _]. unfold unit_bb in IX. rewrite X0 in IX. assert (QQ : (0 - eps) * (h1 - h0) <= t - h0). { apply Rmult_le_reg_r with (/ (h1 - h0)); [apply Rinv_0_lt_compat; lra|]. rewrite Rmult_assoc, Rinv_r by lra. unfold Rdiv in IX. lra. } unfold eps in *. nra. }
    destruct (side bi G0 v A B t H0 TP SQ SR) as [SD0 _]. destruct (side bi G1 v A B t H1 TP SQ SR) as [_ SD1]. apply SD0 in O0. apply SD1 in I1. fold h0 in O0. fold h1 in I1.
    assert (XI : 0 <= X <= 1). { rewrite X0. split; [apply Rmult_le_pos; [lra|apply Rlt_le, Rinv_0_lt_compat; lra]|]. apply Rmult_le_reg_r with (h1 - h0); [lra|]. unfold Rdiv. rewrite Rmult_assoc, Rinv_l by lra. lra. }
    destruct p as ((X', Y'), Z'). destruct NR as ((_ & NX & _) & (_ & NY & _) & (_ & NZ' & _)). unfold unit_bb in NX, NY, NZ'. rewrite (NX XI), (NY WA), (NZ' WB) in E.
    exists bi, X, A, B. split; [exact E|]. split; auto. split; auto. split; auto.
    destruct (C72_back (bx bi) (-1) x y z A B (in_domain bi G0) (in_domain bi G1)) as (lam & E7 & E8).
    { now rewrite ED. } { rewrite ED. exists t. split; auto. intros k. rewrite EC. apply SR. } { now apply BSD. } { rewrite B2, B3. apply WA. } { rewrite B4, B5. apply WB. } { unfold h0, h1 in *. lra. }
    unfold cub_solve, XYZ_of_xyz in ES. cbn [Find_model.x_of_X XYZ_Of] in ES. rewrite E7 in ES. injection ES as EQ. rewrite E4 in EQ. rewrite <- EQ. exact E8.
Qed.
Print Assumptions C78_cubes.
Example C78_ex : let v := tab 1 (1/2) (-1/3) in (forall k, v k <> 0) /\ clear_of_faces v /\ eps * 2 <= 1.
Proof.
  cbv zeta. split; [intros []; cbn; lra|]. split; [|unfold eps; lra]. intros d D. unfold slopes, clear1, eps.
  destruct (axis d); cbn [tab]; split; unfold Rabs; destruct (Rcase_abs _); lra.
Qed.

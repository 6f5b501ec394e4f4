(** C82: the arrangements of cubes and sphered cubes fill the region they are meant to fill, without overlap. *)
From Verif Require Import Rutil Base Loops Sparse_model Sparse_proofs Coord_model Coord_spec Cub_model Cub_spec Cub_proofs Cub_props Cub2_props Cub3_props Setup_model Setup_spec Setup_proofs.
From Coq Require Import Lia.
Local Open Scope R_scope.

Lemma AB_ok d D : (d < 6)%nat -> exists a b c e, set_AB_min_max_from_Din d D = Ok (a, b, c, e).
Proof. intros H. destruct (six d H) as [E|[E|[E|[E|[E|E]]]]]; subst; cbn; eauto. Qed.
Definition untouched (g g' : list gbox) (i n : nat) : Prop := List.length g' = List.length g /\ forall k, (k < i)%nat \/ (i + n <= k)%nat -> nth_error g' k = nth_error g k.
Lemma untouched_trans g g' g'' i n m : untouched g g' i n -> untouched g' g'' (i + n) m -> untouched g g'' i (n + m).
Proof. intros [L1 H1] [L2 H2]. split; [congruence|]. intros k Hk. rewrite H2 by lia. apply H1. lia. Qed.
Lemma convert6_ok g b0 t st c Din Dout : t <> CoordInfoNotSet -> (b0 + 6 <= List.length g)%nat ->
  exists g', convert_6boxes_to_CubedSphere g b0 t st c Din Dout = Ok (g', (b0 + 6)%nat) /\ untouched g g' b0 6 /\
    forall d, (d < 6)%nat -> exists o b, nth_error g (b0 + d) = Some o /\ convert_box o d t st c Din Dout = Ok b /\ nth_error g' (b0 + d) = Some b.
Proof.
  intros NT L. assert (CB : forall o d, (d < 6)%nat -> exists b, convert_box o d t st c Din Dout = Ok b). { intros o d Hd. unfold convert_box. destruct (AB_ok d Din Hd) as (? & ? & ? & ? & ->). cbn [rbind]. eauto. }
  assert (F : exists g', for_nat 0 6 (fun i g => do b <- rd g (b0 + i); do b' <- convert_box b i t st c Din Dout; wr g (b0 + i) b') g = Ok g' /\ untouched g g' b0 6 /\
    forall d, (d < 6)%nat -> exists o b, nth_error g (b0 + d) = Some o /\ convert_box o d t st c Din Dout = Ok b /\ nth_error g' (b0 + d) = Some b).
  { destruct (for_nat_inv (fun i g' => untouched g g' b0 i /\ forall d, (d < i)%nat -> exists o b, nth_error g (b0 + d) = Some o /\ convert_box o d t st c Din Dout = Ok b /\ nth_error g' (b0 + d) = Some b)
      (fun i g => do b <- rd g (b0 + i); do b' <- convert_box b i t st c Din Dout; wr g (b0 + i) b') 0 6 g) as (g' & E & U & H).
    - lia.
    - split; [split; auto|]. intros; lia.
    - intros i g1 Hi [[U1 U2] H]. destruct (nth_error g (b0 + i)) as [o|] eqn:EO. 2:{ apply nth_error_None in EO. lia. }
      destruct (CB o i ltac:(lia)) as (b & EB). unfold rd. rewrite U2 by lia. rewrite EO. cbn [rbind]. rewrite EB. cbn [rbind]. rewrite wr_ok by lia. eexists. split; [reflexivity|]. split; [split|].
      + rewrite upd_length. auto.
      + intros k Hk. rewrite nth_error_upd_ne by lia. apply U2. lia.
      + intros d Hd. destruct (Nat.eq_dec d i) as [->|NE]; [exists o, b; rewrite nth_error_upd_eq by lia; auto|]. rewrite nth_error_upd_ne by lia. apply H. lia.
    - exists g'. auto. }
  destruct F as (g' & E & U & H). exists g'. split; auto. unfold convert_6boxes_to_CubedSphere. replace (Nat.min 6 (List.length g - b0)) with 6%nat by lia. rewrite E. cbn [rbind]. destruct t; [congruence|reflexivity..].
Qed.
(** the surfaces of a converted box *)
Definition hgt (curved : bool) (s A B : R) : R := if curved then s / sqrt (q A B) else s.
Lemma converted_place o d t st c Din Dout b : t <> CoordInfoNotSet -> (d < 6)%nat -> fresh o -> convert_box o d t st c Din Dout = Ok b ->
  gmin b D1 = 0 /\ gmax b D1 = 1 /\ set_AB_min_max_from_Din d Din = Ok (gmin b D2, gmax b D2, gmin b D3, gmax b D3) /\ fresh b /\
  gname b = (if st then stretchedCubedSphere else CubedSphere) /\ (forall si A B, CubedSphere_sigma (as_cbox b) si (-1) A B = Ok (if si then Dout d else Din d)) /\ typ (ci (as_cbox b)) = t /\
  forall lam A B, exists p, xyz_of_lamAB_CubSph (as_cbox b) (-1) lam A B = Ok p /\ forall k, from c p k = ((1 - lam) * hgt (curved_in t) (Din d) A B + lam * hgt (curved_out t) (Dout d) A B) * ray d A B k.
Proof.
  intros NT Hd FR E. unfold convert_box in E. destruct (AB_ok d Din Hd) as (a & b1 & c1 & e1 & EA). rewrite EA in E. cbn [rbind] in E. injection E as <-. cbn [gmin gmax gname tab as_cbox ci gci typ]. repeat split; auto.
  { intros si A B. unfold CubedSphere_sigma, surf_val. cbn [ci as_cbox gci iSurf srad]. destruct (Z.ltb_spec (iSurf (gci o) si) 1) as [|G]; [reflexivity|]. specialize (FR si). lia. }
  intros lam A B. set (bb := as_cbox _).
  set (S0 := if curved_in t then Curved (fun _ _ => Din d) else Flat (Din d)). set (S1 := if curved_out t then Curved (fun _ _ => Dout d) else Flat (Dout d)).
  assert (SG : forall si, CubedSphere_sigma bb si (-1) A B = Ok (if si then Dout d else Din d)). { intros si. unfold CubedSphere_sigma, surf_val. cbn [bb ci as_cbox gci iSurf srad]. destruct (Z.ltb_spec (iSurf (gci o) si) 1) as [|G]; [reflexivity|]. specialize (FR si). lia. }
  assert (BS : box_surfaces bb (-1) A B S0 S1). { split; [exact NT|]. cbn [bb as_cbox ci gci typ]. unfold S0, S1. split; destruct t; cbn [curved_in curved_out surf_at]; rewrite ?SG; auto. }
  destruct (C71_place bb (-1) lam A B S0 S1 Hd BS) as (p & EP & V). exists p. split; auto. intros k. unfold from. rewrite V. unfold place, centre, along. cbn [bb as_cbox ci gci dom xc yc zc].
  assert (height S0 A B = hgt (curved_in t) (Din d) A B) as -> by (unfold S0, hgt; destruct (curved_in t); reflexivity). assert (height S1 A B = hgt (curved_out t) (Dout d) A B) as -> by (unfold S1, hgt; destruct (curved_out t); reflexivity).
  destruct k; cbn [tab]; ring.
Qed.
Lemma lin_between h0 h1 X : h0 < h1 -> 0 <= X <= 1 -> h0 <= (1 - X) * h0 + X * h1 <= h1 /\ (0 < X < 1 -> h0 < (1 - X) * h0 + X * h1 < h1).
Proof. intros H HX. split; [nra|intros; nra]. Qed.
Lemma lin_back h0 h1 t : h0 < h1 -> h0 <= t <= h1 -> exists X, 0 <= X <= 1 /\ (1 - X) * h0 + X * h1 = t.
Proof. intros H HT. exists ((t - h0) / (h1 - h0)). split; [|field; lra]. split; [apply Rmult_le_pos; [lra|apply Rlt_le, Rinv_0_lt_compat; lra]|]. apply (Rmult_le_reg_r (h1 - h0)); [lra|]. replace ((t - h0) / (h1 - h0) * (h1 - h0)) with (t - h0) by (field; lra). lra. Qed.
(** six boxes that are not stretched *)
Lemma six_plain g b0 t c Din Dout (S0 S1 O : (d3 -> R) -> Prop) : t <> CoordInfoNotSet -> (b0 + 6 <= List.length g)%nat -> (forall k b, (b0 <= k < b0 + 6)%nat -> nth_error g k = Some b -> fresh b) -> posD Din ->
  (forall d A B, (d < 6)%nat -> rng d Din A B -> 0 < hgt (curved_in t) (Din d) A B < hgt (curved_out t) (Dout d) A B) ->
  (forall d A B u v, (d < 6)%nat -> rng d Din A B -> 0 < u -> (forall k, v k = u * ray d A B k) -> (S0 v <-> hgt (curved_in t) (Din d) A B <= u) /\ (S1 v <-> u <= hgt (curved_out t) (Dout d) A B) /\ (hgt (curved_in t) (Din d) A B < u < hgt (curved_out t) (Dout d) A B -> O v)) ->
  (forall v, S0 v -> exists k, v k <> 0) ->
  exists g', convert_6boxes_to_CubedSphere g b0 t false c Din Dout = Ok (g', (b0 + 6)%nat) /\ untouched g g' b0 6 /\ tilesO g' b0 6 (fun p => S0 (from c p) /\ S1 (from c p)) (fun p => O (from c p)).
Proof.
  intros NT L FR P HH HS HC. destruct (convert6_ok g b0 t false c Din Dout NT L) as (g' & E & U & HB). exists g'. split; auto. split; auto.
  apply (six_tiles g' b0 c Din (fun d => hgt (curved_in t) (Din d)) (fun d => hgt (curved_out t) (Dout d)) S0 S1 O); auto.
  - intros d Hd. destruct (HB d Hd) as (o & b & EO & EC & EB). destruct (converted_place o d t false c Din Dout b NT Hd (FR (b0 + d)%nat o ltac:(lia) EO) EC) as (M0 & M1 & SA & _ & NM & _ & _ & PL). exists b. split; auto. split; auto. split; auto. split; auto.
    intros A B RG. pose proof (HH d A B Hd RG) as [_ HL]. split.
    + intros X HX. destruct (PL X A B) as (p & EP & V). exists p. eexists. split; [unfold box_point; rewrite NM; exact EP|]. destruct (lin_between _ _ X HL HX) as [L1 L2]. split; [exact L1|]. split; [exact L2|exact V].
    + intros u Hu. destruct (lin_back _ _ u HL Hu) as (X & HX & EX). destruct (PL X A B) as (p & EP & V). exists X, p. split; auto. split; [unfold box_point; rewrite NM; exact EP|]. intros k. rewrite V, EX. reflexivity.
  - intros d A B Hd RG. apply HH; auto.
Qed.
(** *** the regions *)
Lemma cuboid_dec D v : cuboid D v \/ beyond D v.
Proof.
  destruct (largest (fun d => sgn d * v (axis d) - D d) 5) as (d & Hd & M). destruct (Rle_dec (sgn d * v (axis d)) (D d)) as [L|L].
  - left. intros e He. specialize (M e ltac:(lia)). lra.
  - right. exists d. split; [lia|lra].
Qed.
Lemma cuboid_coord D v : cuboid D v <-> (- D 0%nat <= v D1 <= D 1%nat /\ - D 2%nat <= v D2 <= D 3%nat /\ - D 4%nat <= v D3 <= D 5%nat).
Proof.
  split.
  - intros H. pose proof (H 0%nat ltac:(lia)) as H0. pose proof (H 1%nat ltac:(lia)) as H1. pose proof (H 2%nat ltac:(lia)) as H2. pose proof (H 3%nat ltac:(lia)) as H3. pose proof (H 4%nat ltac:(lia)) as H4. pose proof (H 5%nat ltac:(lia)) as H5.
    unfold sgn in *; cbn [axis Nat.odd Nat.even negb] in *. lra.
  - intros H. unfold cuboid. apply six_all; unfold sgn; cbn [axis Nat.odd Nat.even negb]; lra.
Qed.
Lemma not_beyond D v : ~ beyond D v -> forall d, (d < 6)%nat -> sgn d * v (axis d) < D d.
Proof. intros N d Hd. apply Rnot_le_lt. intros L. apply N. now exists d. Qed.
Lemma inside_beyond D v : (forall d, (d < 6)%nat -> sgn d * v (axis d) < D d) -> ~ beyond D v.
Proof. intros H (d & Hd & L). specialize (H d Hd). lra. Qed.
Lemma norm_le v r : 0 <= r -> (norm3 v <= r <-> v D1 * v D1 + v D2 * v D2 + v D3 * v D3 <= r * r).
Proof.
  intros P. unfold norm3, S3. split; intros H.
  - rewrite <- (sqrt_sqrt (v D1 * v D1 + v D2 * v D2 + v D3 * v D3)) by nra. pose proof (sqrt_pos (v D1 * v D1 + v D2 * v D2 + v D3 * v D3)). nra.
  - rewrite <- (sqrt_square r) by auto. apply sqrt_le_1; nra.
Qed.
Lemma norm_lt v r : 0 < r -> (norm3 v < r <-> v D1 * v D1 + v D2 * v D2 + v D3 * v D3 < r * r).
Proof.
  intros P. unfold norm3, S3. split; intros H.
  - rewrite <- (sqrt_sqrt (v D1 * v D1 + v D2 * v D2 + v D3 * v D3)) by nra. pose proof (sqrt_pos (v D1 * v D1 + v D2 * v D2 + v D3 * v D3)). nra.
  - rewrite <- (sqrt_square r) by lra. apply sqrt_lt_1; nra.
Qed.
Lemma norm_comp v k : Rabs (v k) <= norm3 v.
Proof. unfold norm3, S3. rewrite <- (sqrt_Rsqr_abs (v k)). apply sqrt_le_1; unfold Rsqr; destruct k; nra. Qed.
Lemma ball_cuboid D v r : norm3 v <= r -> (forall d, (d < 6)%nat -> r < D d) -> ~ beyond D v.
Proof.
  intros H L (d & Hd & B). specialize (L d Hd). pose proof (norm_comp v (axis d)) as N. assert (sgn d * v (axis d) <= Rabs (v (axis d))) by (destruct (sgn_or d) as [-> | ->]; unfold Rabs; destruct (Rcase_abs (v (axis d))); lra). lra.
Qed.
Lemma beyond_nz D v : posD D -> beyond D v -> exists k, v k <> 0.
Proof. intros P (d & Hd & L). exists (axis d). intros E. rewrite E in L. specialize (P d Hd). lra. Qed.
Lemma norm_nz v r : 0 < r -> r <= norm3 v -> exists k, v k <> 0.
Proof.
  intros P L. destruct (Req_dec (v D1) 0) as [E1|]; [|eauto]. destruct (Req_dec (v D2) 0) as [E2|]; [|eauto]. destruct (Req_dec (v D3) 0) as [E3|]; [|eauto]. exfalso. unfold norm3, S3 in L. rewrite E1, E2, E3 in L. replace (0 * 0 + 0 * 0 + 0 * 0) with 0 in L by ring. rewrite sqrt_0 in L. lra.
Qed.
Lemma sqrt_q1 A B : 1 <= sqrt (q A B).
Proof. rewrite <- sqrt_1. apply sqrt_le_1; unfold q; nra. Qed.
Definition cst (a : R) (_ : nat) : R := a.
(** a cuboid inside, a sphere outside *)
Lemma outer6 g b0 c D r : (b0 + 6 <= List.length g)%nat -> (forall k b, (b0 <= k < b0 + 6)%nat -> nth_error g k = Some b -> fresh b) -> posD D -> (forall v, cuboid D v -> norm3 v < r) ->
  exists g', convert_6boxes_to_CubedSphere g b0 outerCubedSphere false c D (fun _ => r) = Ok (g', (b0 + 6)%nat) /\ untouched g g' b0 6 /\
    tilesO g' b0 6 (fun p => beyond D (from c p) /\ norm3 (from c p) <= r) (fun p => ~ cuboid D (from c p) /\ norm3 (from c p) < r).
Proof.
  intros L FR P IN. apply (six_plain g b0 outerCubedSphere c D (fun _ => r) (beyond D) (fun v => norm3 v <= r) (fun v => ~ cuboid D v /\ norm3 v < r)); auto; [discriminate| | |intros v; now apply beyond_nz].
  - intros d A B Hd RG. cbn [curved_in curved_out hgt]. pose proof (P d Hd) as Pd. split; auto. pose proof (sq_pos A B) as SP. set (v := fun k => D d * ray d A B k).
    assert (E : forall k, v k = D d * ray d A B k) by reflexivity. assert (C : cuboid D v) by (apply (proj1 (cuboid_ray D d A B (D d) v P Hd RG Pd E)); lra). apply IN in C. rewrite (sphere_ray d A B (D d) v ltac:(lra) E) in C.
    apply (Rmult_lt_reg_r (sqrt (q A B))); auto. replace (r / sqrt (q A B) * sqrt (q A B)) with r by (field; lra). auto.
  - intros d A B u v Hd RG U E. cbn [curved_in curved_out hgt]. destruct (cuboid_ray D d A B u v P Hd RG U E) as [C1 C2]. rewrite (sphere_ray d A B u v ltac:(lra) E). pose proof (sq_pos A B) as SP.
    split; auto. split; [now apply div_le|]. intros [H1 H2]. split; [rewrite C1; lra|]. apply (Rmult_lt_compat_r (sqrt (q A B))) in H2; auto. replace (r / sqrt (q A B) * sqrt (q A B)) with r in H2 by (field; lra). auto.
Qed.
Lemma rng_cst d a b A B : 0 < a -> 0 < b -> (d < 6)%nat -> rng d (cst a) A B -> rng d (cst b) A B.
Proof.
  intros Pa Pb Hd H. assert (PA : posD (cst a)) by (intros ? ?; auto). assert (PB : posD (cst b)) by (intros ? ?; auto). apply (rng_iff _ PB d Hd). intros e He. pose proof (proj1 (rng_iff _ PA d Hd A B) H e He) as Q. unfold cst in *.
  replace (a / a) with 1 in Q by (field; lra). replace (b / b) with 1 by (field; lra). auto.
Qed.
(** a sphere inside, a cube outside *)
Lemma inner6 g b0 c r h : (b0 + 6 <= List.length g)%nat -> (forall k b, (b0 <= k < b0 + 6)%nat -> nth_error g k = Some b -> fresh b) -> 0 < r < h ->
  exists g', convert_6boxes_to_CubedSphere g b0 innerCubedSphere false c (fun _ => r) (fun _ => h) = Ok (g', (b0 + 6)%nat) /\ untouched g g' b0 6 /\
    tilesO g' b0 6 (fun p => r <= norm3 (from c p) /\ cuboid (cst h) (from c p)) (fun p => r < norm3 (from c p) /\ ~ beyond (cst h) (from c p)).
Proof.
  intros L FR P. assert (PH : posD (cst h)) by (intros ? ?; unfold cst; lra). apply (six_plain g b0 innerCubedSphere c (fun _ => r) (fun _ => h) (fun v => r <= norm3 v) (cuboid (cst h)) (fun v => r < norm3 v /\ ~ beyond (cst h) v)); auto; [discriminate|intros ? ?; lra| | |intros v; apply norm_nz; lra].
  - intros d A B Hd RG. cbn [curved_in curved_out hgt]. pose proof (sq_pos A B) as SP. pose proof (sqrt_q1 A B) as S1. split; [apply Rdiv_lt_0_compat; lra|]. apply (Rmult_lt_reg_r (sqrt (q A B))); auto. replace (r / sqrt (q A B) * sqrt (q A B)) with r by (field; lra). nra.
  - intros d A B u v Hd RG U E. cbn [curved_in curved_out hgt]. pose proof (rng_cst d r h A B ltac:(lra) ltac:(lra) Hd RG) as RG'. destruct (cuboid_ray (cst h) d A B u v PH Hd RG' U E) as [C1 C2]. rewrite (sphere_ray d A B u v ltac:(lra) E). pose proof (sq_pos A B) as SP.
    split; [now apply le_div|]. split; auto. intros [H1 H2]. split; [|rewrite C2; unfold cst; lra]. apply (Rmult_lt_compat_r (sqrt (q A B))) in H1; auto. replace (r / sqrt (q A B) * sqrt (q A B)) with r in H1 by (field; lra). auto.
Qed.
(** two spheres, stretched *)
Lemma stretch_between s0 s1 X : 0 < s0 < s1 -> 0 <= X <= 1 -> 0 <= lam_of_rho_sig0sig1 X s0 s1 <= 1 /\ (0 < X < 1 -> 0 < lam_of_rho_sig0sig1 X s0 s1 < 1).
Proof.
  intros H HX. assert (Q : 0 < s1 - (s1 - s0) * X) by nra. assert (E : lam_of_rho_sig0sig1 X s0 s1 = s0 * X / (s1 - (s1 - s0) * X)) by (unfold lam_of_rho_sig0sig1; field; lra). rewrite E. assert (I : 0 < / (s1 - (s1 - s0) * X)) by (now apply Rinv_0_lt_compat).
  assert (G : s0 * X / (s1 - (s1 - s0) * X) = 1 - s1 * (1 - X) / (s1 - (s1 - s0) * X)) by (field; lra). split.
  - split; [apply Rmult_le_pos; nra|]. rewrite G. assert (0 <= s1 * (1 - X) / (s1 - (s1 - s0) * X)) by (apply Rmult_le_pos; nra). lra.
  - intros HX'. split; [apply Rdiv_lt_0_compat; nra|]. rewrite G. assert (0 < s1 * (1 - X) / (s1 - (s1 - s0) * X)) by (apply Rdiv_lt_0_compat; nra). lra.
Qed.
Lemma stretch_back s0 s1 lam : 0 < s0 < s1 -> 0 <= lam <= 1 -> exists X, 0 <= X <= 1 /\ lam_of_rho_sig0sig1 X s0 s1 = lam.
Proof.
  intros H HL. exists (s1 * lam / ((s1 - s0) * lam + s0)). assert (Q : 0 < (s1 - s0) * lam + s0) by nra. split.
  - assert (I : 0 < / ((s1 - s0) * lam + s0)) by (now apply Rinv_0_lt_compat). split; [apply Rmult_le_pos; nra|]. replace (s1 * lam / ((s1 - s0) * lam + s0)) with (1 - s0 * (1 - lam) / ((s1 - s0) * lam + s0)) by (field; lra). assert (0 <= s0 * (1 - lam) / ((s1 - s0) * lam + s0)) by (apply Rmult_le_pos; nra). lra.
  - unfold lam_of_rho_sig0sig1. assert (s1 * s0 <> 0) by nra. field. repeat split; try lra; replace (s1 * ((s1 - s0) * lam + s0) - (s1 - s0) * (s1 * lam)) with (s1 * s0) by ring; auto.
Qed.
Lemma shell6 g b0 c r0 r1 : (b0 + 6 <= List.length g)%nat -> (forall k b, (b0 <= k < b0 + 6)%nat -> nth_error g k = Some b -> fresh b) -> 0 < r0 < r1 ->
  exists g', convert_6boxes_to_CubedSphere g b0 CubedShell true c (fun _ => r0) (fun _ => r1) = Ok (g', (b0 + 6)%nat) /\ untouched g g' b0 6 /\
    tilesO g' b0 6 (fun p => r0 <= norm3 (from c p) /\ norm3 (from c p) <= r1) (fun p => r0 < norm3 (from c p) < r1).
Proof.
  intros L FR P. destruct (convert6_ok g b0 CubedShell true c (fun _ => r0) (fun _ => r1) ltac:(discriminate) L) as (g' & E & U & HB). exists g'. split; auto. split; auto.
  apply (six_tiles g' b0 c (fun _ => r0) (fun d A B => r0 / sqrt (q A B)) (fun d A B => r1 / sqrt (q A B)) (fun v => r0 <= norm3 v) (fun v => norm3 v <= r1) (fun v => r0 < norm3 v < r1)).
  - intros ? ?. lra.
  - intros d Hd. destruct (HB d Hd) as (o & b & EO & EC & EB). destruct (converted_place o d CubedShell true c _ _ b ltac:(discriminate) Hd (FR (b0 + d)%nat o ltac:(lia) EO) EC) as (M0 & M1 & SA & _ & NM & SG & TY & PL). exists b. split; auto. split; auto. split; auto. split; auto.
    intros A B RG. pose proof (sq_pos A B) as SP. assert (HL : r0 / sqrt (q A B) < r1 / sqrt (q A B)) by (apply Rmult_lt_compat_r; [now apply Rinv_0_lt_compat|lra]). cbn [curved_in curved_out hgt] in PL.
    assert (BP : forall X, box_point b X A B = xyz_of_lamAB_CubSph (as_cbox b) (-1) (lam_of_rho_sig0sig1 X r0 r1) A B). { intros X. unfold box_point. rewrite NM. unfold xyz_of_rhoAB_CubSph. rewrite TY, !SG. reflexivity. }
    split.
    + intros X HX. destruct (stretch_between r0 r1 X P HX) as [T1 T2]. destruct (PL (lam_of_rho_sig0sig1 X r0 r1) A B) as (p & EP & V). exists p. eexists. split; [rewrite BP; exact EP|]. destruct (lin_between _ _ _ HL T1) as [L1 L2]. split; [exact L1|]. split; [auto|exact V].
    + intros u Hu. destruct (lin_back _ _ u HL Hu) as (lam & HX & EX). destruct (stretch_back r0 r1 lam P HX) as (X & HX' & EX'). destruct (PL lam A B) as (p & EP & V). exists X, p. split; auto. split; [rewrite BP, EX'; exact EP|]. intros k. rewrite V, EX. reflexivity.
  - intros d A B u v Hd RG HU EV. rewrite (sphere_ray d A B u v ltac:(lra) EV). pose proof (sq_pos A B) as SP. split; [now apply le_div|]. split; [now apply div_le|]. intros [H1 H2]. apply (Rmult_lt_compat_r (sqrt (q A B))) in H1, H2; auto.
    replace (r0 / sqrt (q A B) * sqrt (q A B)) with r0 in H1 by (field; lra). replace (r1 / sqrt (q A B) * sqrt (q A B)) with r1 in H2 by (field; lra). lra.
  - intros d A B Hd RG. apply Rdiv_lt_0_compat; [lra|apply sq_pos].
  - intros v. apply norm_nz. lra.
Qed.
(** one cube *)
Lemma cube1 g b0 c h : (b0 + 1 <= List.length g)%nat ->
  exists g', convert_1box_to_cube g b0 c h = Ok (g', (b0 + 1)%nat) /\ untouched g g' b0 1 /\ tilesO g' b0 1 (fun p => cuboid (cst h) (from c p)) (fun p => ~ beyond (cst h) (from c p)).
Proof.
  intros L. unfold convert_1box_to_cube. destruct (nth_error g b0) as [o|] eqn:EO. 2:{ apply nth_error_None in EO. lia. } unfold rd. rewrite EO. cbn [rbind]. rewrite wr_ok by lia. cbn [rbind]. eexists. split; [reflexivity|].
  split; [split; [apply upd_length|]; intros k Hk; apply nth_error_upd_ne; lia|]. set (b := MkG Cartesian _ _ _). assert (EB : forall k, (k < 1)%nat -> nth_error (upd g b0 b) (b0 + k) = Some b) by (intros k Hk; replace (b0 + k)%nat with b0 by lia; apply nth_error_upd_eq; lia).
  split; [split|].
  - intros [[x y] z]. rewrite cuboid_coord. unfold from, vec, cst. cbn [fst snd]. split.
    + intros H. exists 0%nat. split; [lia|]. exists b, x, y, z. split; [apply EB; lia|]. split; [reflexivity|]. unfold within. cbn [b gmin gmax]. lra.
    + intros (k & Hk & (b' & X & Y & Z & E & PT & W1 & W2 & W3)). rewrite EB in E by auto. injection E as <-. cbn in PT. injection PT as -> -> ->. unfold within in *. cbn [b gmin gmax] in *. lra.
  - intros; lia.
  - intros [[x y] z] k Hk (b' & X & Y & Z & E & PT & W1 & W2 & W3). rewrite EB in E by auto. injection E as <-. cbn in PT. injection PT as -> -> ->. cbn [b gmin gmax] in *. apply inside_beyond.
    apply (six_all (fun d => sgn d * from c (x, y, z) (axis d) < cst h d)); unfold from, vec, sgn, cst; cbn [fst snd axis Nat.odd Nat.even negb]; lra.
Qed.
Definition fresh_in (g : list gbox) (i n : nat) : Prop := forall k b, (i <= k < i + n)%nat -> nth_error g k = Some b -> fresh b.
Lemma fresh_after g g' i n j m : untouched g g' i n -> (i + n <= j)%nat -> fresh_in g j m -> fresh_in g' j m.
Proof. intros [_ U] L F k b Hk E. rewrite U in E by lia. eapply F; eauto. Qed.
Lemma fresh_sub g i n j m : (i <= j)%nat -> (j + m <= i + n)%nat -> fresh_in g i n -> fresh_in g j m.
Proof. intros L1 L2 F k b Hk E. apply (F k b); auto. lia. Qed.
Lemma cube_ball h r v : 0 < h -> sqrt 3 * h < r -> cuboid (cst h) v -> norm3 v < r.
Proof.
  intros P L C. apply cuboid_coord in C. unfold cst in C. assert (0 < sqrt 3) by (apply sqrt_lt_R0; lra). assert (RP : 0 < r) by nra. apply norm_lt; auto. assert (Q : sqrt 3 * sqrt 3 = 3) by (apply sqrt_sqrt; lra).
  assert (SS : (sqrt 3 * h) * (sqrt 3 * h) < r * r) by (apply Rmult_le_0_lt_compat; nra). replace (sqrt 3 * h * (sqrt 3 * h)) with (sqrt 3 * sqrt 3 * (h * h)) in SS by ring. rewrite Q in SS. destruct C as (C1 & C2 & C3).
  assert (v D1 * v D1 <= h * h) by nra. assert (v D2 * v D2 <= h * h) by nra. assert (v D3 * v D3 <= h * h) by nra. lra.
Qed.
(** *** C82 *)
(** arrange_12CubSph_into_empty_cube: 12 boxes fill the region between two cubes *)
Lemma arr12 g b0 c din dmid dout : (b0 + 12 <= List.length g)%nat -> fresh_in g b0 12 -> 0 < din -> sqrt 3 * din < dmid -> dmid < dout ->
  exists g', arrange_12CubSph_into_empty_cube g b0 c din dmid dout = Ok (g', (b0 + 12)%nat) /\ untouched g g' b0 12 /\
    tilesO g' b0 12 (fun p => beyond (cst din) (from c p) /\ cuboid (cst dout) (from c p)) (fun p => ~ cuboid (cst din) (from c p) /\ ~ beyond (cst dout) (from c p)).
Proof.
  intros L F P L1 L2. assert (0 < sqrt 3) by (apply sqrt_lt_R0; lra). assert (PM : 0 < dmid) by nra. assert (PD : posD (cst din)) by (intros ? ?; auto). assert (IN : forall v, cuboid (cst din) v -> norm3 v < dmid) by (intros v; now apply cube_ball).
  destruct (outer6 g b0 c (cst din) dmid) as (g1 & E1 & U1 & T1); auto; [lia|apply (fresh_sub g b0 12); auto; lia|].
  destruct (inner6 g1 (b0 + 6) c dmid dout) as (g2 & E2 & U2 & T2); [destruct U1 as [-> _]; lia|apply (fresh_after g g1 b0 6); auto; apply (fresh_sub g b0 12); auto; lia|lra|].
  exists g2. unfold arrange_12CubSph_into_empty_cube. change (fun _ : nat => din) with (cst din). rewrite E1. cbn [rbind]. rewrite E2. replace (b0 + 6 + 6)%nat with (b0 + 12)%nat by lia. split; auto. split; [apply (untouched_trans g g1 g2 b0 6 6); auto|].
  assert (BC : forall v, norm3 v <= dmid -> ~ beyond (cst dout) v) by (intros v N; apply (ball_cuboid _ v dmid); auto).
  eapply tiles_weak; [apply (tiles_app g2 b0 6 6)| |].
  - apply (tiles_grid g1); [|exact T1]. intros k Hk. apply U2. lia.
  - exact T2.
  - cbv beta. intros p [_ Q] [Q2 _]. lra.
  - cbv beta. intros p [Q _] [_ Q2]. lra.
  - intros p. cbv beta. set (v := from c p). split.
    + intros [[Q1 Q2]|[Q1 Q2]]; (split; [auto|]); auto.
      * destruct (cuboid_dec (cst dout) v) as [|Q]; auto. destruct (BC v Q2 Q).
      * destruct (cuboid_dec (cst din) v) as [Q|]; auto. apply IN in Q. lra.
    + intros [Q1 Q2]. destruct (Rle_dec (norm3 v) dmid); [left; auto|right; split; auto; lra].
  - cbv beta. intros p. set (v := from c p). intros [[Q1 Q2]|[Q1 Q2]]; (split; [auto|]); auto; [apply BC; lra|]. intros Q. apply IN in Q. lra.
Qed.
Lemma arr13 g b0 c din dmid dout : (b0 + 13 <= List.length g)%nat -> fresh_in g b0 13 -> 0 < din -> sqrt 3 * din < dmid -> dmid < dout ->
  exists g', arrange_1box12CubSph_into_full_cube g b0 c din dmid dout = Ok (g', (b0 + 13)%nat) /\ untouched g g' b0 13 /\
    tilesO g' b0 13 (fun p => cuboid (cst dout) (from c p)) (fun p => ~ beyond (cst dout) (from c p)).
Proof.
  intros L F P L1 L2. assert (0 < sqrt 3) by (apply sqrt_lt_R0; lra). assert (S1 : 1 < sqrt 3) by (rewrite <- sqrt_1; apply sqrt_lt_1; lra). assert (LT : din < dout) by nra.
  destruct (cube1 g b0 c din) as (g1 & E1 & U1 & T1); [lia|].
  destruct (arr12 g1 (b0 + 1) c din dmid dout) as (g2 & E2 & U2 & T2); auto; [destruct U1 as [-> _]; lia|apply (fresh_after g g1 b0 1); auto; apply (fresh_sub g b0 13); auto; lia|].
  exists g2. unfold arrange_1box12CubSph_into_full_cube. rewrite E1. cbn [rbind]. rewrite E2. replace (b0 + 1 + 12)%nat with (b0 + 13)%nat by lia. split; auto. split; [apply (untouched_trans g g1 g2 b0 1 12); auto|].
  assert (CC : forall v, cuboid (cst din) v -> ~ beyond (cst dout) v) by (intros v C; apply inside_beyond; intros d Hd; specialize (C d Hd); unfold cst in *; lra).
  eapply tiles_weak; [apply (tiles_app g2 b0 1 12)| |].
  - apply (tiles_grid g1); [|exact T1]. intros k Hk. apply U2. lia.
  - exact T2.
  - cbv beta. tauto.
  - cbv beta. tauto.
  - intros p. cbv beta. set (v := from c p). split.
    + intros [Q|[_ Q]]; auto. destruct (cuboid_dec (cst dout) v) as [|Q']; auto. destruct (CC v Q Q').
    + intros Q. destruct (cuboid_dec (cst din) v); auto.
  - cbv beta. intros p. set (v := from c p). intros [Q|[_ Q]]; auto. intros B. apply Q. destruct B as (d & Hd & B). exists d. split; auto. unfold cst in *. lra.
Qed.
Definition twice (dc : R) (i : nat) : R := if (i <? 2)%nat then 2 * dc else dc.
Lemma arr26 g b0 dc din1 dmid1 din2 dmid2 : (b0 + 26 <= List.length g)%nat -> fresh_in g b0 26 -> 0 < din1 -> sqrt 3 * din1 < dmid1 -> dmid1 < dc -> 0 < din2 -> sqrt 3 * din2 < dmid2 -> dmid2 < dc ->
  exists g', two_full_cubes_touching_at_x0 g b0 dc din1 dmid1 din2 dmid2 = Ok (g', (b0 + 26)%nat) /\ untouched g g' b0 26 /\
    tilesO g' b0 26 (fun p => cuboid (twice dc) (vec p)) (fun p => ~ beyond (twice dc) (vec p)).
Proof.
  intros L F P1 A1 B1 P2 A2 B2. assert (0 < sqrt 3) by (apply sqrt_lt_R0; lra). assert (PC : 0 < dc) by nra.
  destruct (arr13 g b0 (tab dc 0 0) din1 dmid1 dc) as (g1 & E1 & U1 & T1); auto; [lia|apply (fresh_sub g b0 26); auto; lia|].
  destruct (arr13 g1 (b0 + 13) (tab (- dc) 0 0) din2 dmid2 dc) as (g2 & E2 & U2 & T2); auto; [destruct U1 as [-> _]; lia|apply (fresh_after g g1 b0 13); auto; apply (fresh_sub g b0 26); auto; lia|].
  exists g2. unfold two_full_cubes_touching_at_x0. rewrite E1. cbn [rbind]. rewrite E2. replace (b0 + 13 + 13)%nat with (b0 + 26)%nat by lia. split; auto. split; [apply (untouched_trans g g1 g2 b0 13 13); auto|].
  eapply tiles_weak; [apply (tiles_app g2 b0 13 13)| |].
  - apply (tiles_grid g1); [|exact T1]. intros k Hk. apply U2. lia.
  - exact T2.
  - cbv beta. intros p Q C. apply cuboid_coord in C. apply Q. exists 0%nat. split; [lia|]. unfold from, sgn, cst in *. cbn [tab axis Nat.odd Nat.even negb] in *. lra.
  - cbv beta. intros p Q C. apply cuboid_coord in C. apply Q. exists 1%nat. split; [lia|]. unfold from, sgn, cst in *. cbn [tab axis Nat.odd Nat.even negb] in *. lra.
  - intros p. cbv beta. rewrite !cuboid_coord. unfold from, cst, twice. cbn [tab Nat.ltb Nat.leb]. split; [lra|]. intros Q. destruct (Rle_dec 0 (vec p D1)); [left|right]; lra.
  - cbv beta. intros p Q. apply inside_beyond. destruct Q as [Q|Q]; pose proof (not_beyond _ _ Q) as N; pose proof (N 0%nat ltac:(lia)) as N0; pose proof (N 1%nat ltac:(lia)) as N1; pose proof (N 2%nat ltac:(lia)) as N2; pose proof (N 3%nat ltac:(lia)) as N3; pose proof (N 4%nat ltac:(lia)) as N4; pose proof (N 5%nat ltac:(lia)) as N5;
      unfold from, sgn, cst in *; cbn [tab axis Nat.odd Nat.even negb] in *; apply (six_all (fun d => sgn d * vec p (axis d) < twice dc d)); unfold sgn, twice; cbn [axis Nat.odd Nat.even negb Nat.ltb Nat.leb]; lra.
Qed.
Lemma from0 p k : from (tab 0 0 0) p k = vec p k.
Proof. unfold from. destruct k; cbn [tab]; ring. Qed.
Lemma norm0 p : norm3 (from (tab 0 0 0) p) = norm3 (vec p).
Proof. unfold norm3, S3. now rewrite !from0. Qed.
Lemma twice_ball dc r v : 0 < dc -> sqrt 6 * dc < r -> cuboid (twice dc) v -> norm3 v < r.
Proof.
  intros P L C. apply cuboid_coord in C. unfold twice in C. cbn [Nat.ltb Nat.leb] in C. assert (0 < sqrt 6) by (apply sqrt_lt_R0; lra). assert (RP : 0 < r) by nra. apply norm_lt; auto. assert (Q : sqrt 6 * sqrt 6 = 6) by (apply sqrt_sqrt; lra).
  assert (SS : (sqrt 6 * dc) * (sqrt 6 * dc) < r * r) by (apply Rmult_le_0_lt_compat; nra). replace (sqrt 6 * dc * (sqrt 6 * dc)) with (sqrt 6 * sqrt 6 * (dc * dc)) in SS by ring. rewrite Q in SS. destruct C as (C1 & C2 & C3).
  assert (v D1 * v D1 <= 4 * (dc * dc)) by nra. assert (v D2 * v D2 <= dc * dc) by nra. assert (v D3 * v D3 <= dc * dc) by nra. lra.
Qed.
Lemma arr32 g b0 dc din1 dmid1 din2 dmid2 r0 : (b0 + 32 <= List.length g)%nat -> fresh_in g b0 32 -> 0 < din1 -> sqrt 3 * din1 < dmid1 -> dmid1 < dc -> 0 < din2 -> sqrt 3 * din2 < dmid2 -> dmid2 < dc -> sqrt 6 * dc < r0 ->
  exists g', sphere_around_two_full_cubes_touching_at_x0 g b0 dc din1 dmid1 din2 dmid2 r0 = Ok (g', (b0 + 32)%nat) /\ untouched g g' b0 32 /\
    tilesO g' b0 32 (fun p => norm3 (vec p) <= r0) (fun p => norm3 (vec p) < r0).
Proof.
  intros L F P1 A1 B1 P2 A2 B2 C. assert (0 < sqrt 3) by (apply sqrt_lt_R0; lra). assert (PC : 0 < dc) by nra.
  destruct (arr26 g b0 dc din1 dmid1 din2 dmid2) as (g1 & E1 & U1 & T1); auto; [lia|apply (fresh_sub g b0 32); auto; lia|].
  assert (IN : forall v, cuboid (twice dc) v -> norm3 v < r0) by (intros v; now apply twice_ball).
  destruct (outer6 g1 (b0 + 26) (tab 0 0 0) (twice dc) r0) as (g2 & E2 & U2 & T2); auto; [destruct U1 as [-> _]; lia|apply (fresh_after g g1 b0 26); auto; apply (fresh_sub g b0 32); auto; lia|intros d Hd; unfold twice; destruct (d <? 2)%nat; lra|].
  exists g2. unfold sphere_around_two_full_cubes_touching_at_x0. rewrite E1. cbn [rbind]. change (fun i : nat => if (i <? 2)%nat then 2 * dc else dc) with (twice dc). rewrite E2. replace (b0 + 26 + 6)%nat with (b0 + 32)%nat by lia. split; auto. split; [apply (untouched_trans g g1 g2 b0 26 6); auto|].
  assert (EC : forall p, cuboid (twice dc) (from (tab 0 0 0) p) <-> cuboid (twice dc) (vec p)) by (intros p; unfold cuboid; split; intros Q d Hd; specialize (Q d Hd); rewrite ?from0 in *; auto).
  assert (EB : forall p, beyond (twice dc) (from (tab 0 0 0) p) <-> beyond (twice dc) (vec p)) by (intros p; unfold beyond; split; intros (d & Hd & Q); exists d; rewrite ?from0 in *; auto).
  eapply tiles_weak; [apply (tiles_app g2 b0 26 6)| |].
  - apply (tiles_grid g1); [|exact T1]. intros k Hk. apply U2. lia.
  - exact T2.
  - cbv beta. intros p Q [Q1 _]. apply EB in Q1. auto.
  - cbv beta. intros p [Q _] Q1. apply Q. now apply EC.
  - intros p. cbv beta. rewrite EB, norm0. split.
    + intros [Q|[_ Q]]; auto. apply IN in Q. lra.
    + intros Q. destruct (cuboid_dec (twice dc) (vec p)); auto.
  - cbv beta. intros p. rewrite norm0. intros [Q|[_ Q]]; auto. apply IN. destruct (cuboid_dec (twice dc) (vec p)) as [|B]; auto. destruct (Q B).
Qed.
(** C82: arrange_12CubSph_into_empty_cube and arrange_1box12CubSph_into_full_cube *)
Theorem C82_cube g b0 c din dmid dout : 0 < din -> sqrt 3 * din < dmid -> dmid < dout ->
  ((b0 + 12 <= List.length g)%nat -> fresh_in g b0 12 -> exists g', arrange_12CubSph_into_empty_cube g b0 c din dmid dout = Ok (g', (b0 + 12)%nat) /\ untouched g g' b0 12 /\
     tiles g' b0 12 (fun p => beyond (fun _ => din) (from c p) /\ cuboid (fun _ => dout) (from c p))) /\
  ((b0 + 13 <= List.length g)%nat -> fresh_in g b0 13 -> exists g', arrange_1box12CubSph_into_full_cube g b0 c din dmid dout = Ok (g', (b0 + 13)%nat) /\ untouched g g' b0 13 /\
     tiles g' b0 13 (fun p => cuboid (fun _ => dout) (from c p))).
Proof.
  intros P L1 L2. split; intros L F.
  - destruct (arr12 g b0 c din dmid dout) as (g' & E & U & T & _); auto. exists g'. auto.
  - destruct (arr13 g b0 c din dmid dout) as (g' & E & U & T & _); auto. exists g'. auto.
Qed.
Print Assumptions C82_cube.
(** two_full_cubes_touching_at_x0 fills the cuboid |x| <= 2 dc, |y|,|z| <= dc; sphere_around_two_full_cubes_touching_at_x0 the ball of radius r0 *)
Theorem C82_two_cubes g b0 dc din1 dmid1 din2 dmid2 : 0 < din1 -> sqrt 3 * din1 < dmid1 -> dmid1 < dc -> 0 < din2 -> sqrt 3 * din2 < dmid2 -> dmid2 < dc ->
  ((b0 + 26 <= List.length g)%nat -> fresh_in g b0 26 -> exists g', two_full_cubes_touching_at_x0 g b0 dc din1 dmid1 din2 dmid2 = Ok (g', (b0 + 26)%nat) /\ untouched g g' b0 26 /\
     tiles g' b0 26 (fun p => Rabs (vec p D1) <= 2 * dc /\ Rabs (vec p D2) <= dc /\ Rabs (vec p D3) <= dc)) /\
  (forall r0, sqrt 6 * dc < r0 -> (b0 + 32 <= List.length g)%nat -> fresh_in g b0 32 -> exists g', sphere_around_two_full_cubes_touching_at_x0 g b0 dc din1 dmid1 din2 dmid2 r0 = Ok (g', (b0 + 32)%nat) /\ untouched g g' b0 32 /\
     tiles g' b0 32 (fun p => norm3 (vec p) <= r0)).
Proof.
  intros P1 A1 B1 P2 A2 B2. split.
  - intros L F. destruct (arr26 g b0 dc din1 dmid1 din2 dmid2) as (g' & E & U & T); auto. exists g'. split; auto. split; auto. apply (tiles_weak _ _ _ _ _ (fun p => Rabs (vec p D1) <= 2 * dc /\ Rabs (vec p D2) <= dc /\ Rabs (vec p D3) <= dc) (fun _ => True)) in T; [apply T| |auto].
    intros p. rewrite cuboid_coord. unfold twice. cbn [Nat.ltb Nat.leb]. assert (G : forall x r, Rabs x <= r <-> - r <= x <= r) by (intros x r; split; [intros H; pose proof (Rle_abs x); pose proof (Rle_abs (- x)); rewrite Rabs_Ropp in *; lra|intros; now apply Rabs_le]). rewrite !G. tauto.
  - intros r0 C L F. destruct (arr32 g b0 dc din1 dmid1 din2 dmid2 r0) as (g' & E & U & T & _); auto. exists g'. auto.
Qed.
Print Assumptions C82_two_cubes.
(** two_spheres_around_two_full_cubes fills the ball of radius r1 with 38 boxes *)
Theorem C82_two_spheres g b0 dc din1 dmid1 din2 dmid2 r0 r1 : (b0 + 38 <= List.length g)%nat -> fresh_in g b0 38 ->
  0 < din1 -> sqrt 3 * din1 < dmid1 -> dmid1 < dc -> 0 < din2 -> sqrt 3 * din2 < dmid2 -> dmid2 < dc -> sqrt 6 * dc < r0 -> r0 < r1 ->
  exists g', two_spheres_around_two_full_cubes g b0 dc din1 dmid1 din2 dmid2 r0 r1 = Ok (g', (b0 + 38)%nat) /\ untouched g g' b0 38 /\ tiles g' b0 38 (fun p => norm3 (vec p) <= r1).
Proof.
  intros L F P1 A1 B1 P2 A2 B2 C1 C2. assert (0 < sqrt 3) by (apply sqrt_lt_R0; lra). assert (0 < sqrt 6) by (apply sqrt_lt_R0; lra). assert (PC : 0 < dc) by nra. assert (PR : 0 < r0) by nra.
  destruct (arr32 g b0 dc din1 dmid1 din2 dmid2 r0) as (g1 & E1 & U1 & T1); auto; [lia|apply (fresh_sub g b0 38); auto; lia|].
  destruct (shell6 g1 (b0 + 32) (tab 0 0 0) r0 r1) as (g2 & E2 & U2 & T2); [destruct U1 as [-> _]; lia|apply (fresh_after g g1 b0 32); auto; apply (fresh_sub g b0 38); auto; lia|lra|].
  exists g2. unfold two_spheres_around_two_full_cubes. rewrite E1. cbn [rbind]. rewrite E2. replace (b0 + 32 + 6)%nat with (b0 + 38)%nat by lia. split; auto. split; [apply (untouched_trans g g1 g2 b0 32 6); auto|].
  assert (T : tilesO g2 b0 (32 + 6) (fun p => norm3 (vec p) <= r0 \/ (r0 <= norm3 (from (tab 0 0 0) p) /\ norm3 (from (tab 0 0 0) p) <= r1)) (fun p => norm3 (vec p) < r0 \/ r0 < norm3 (from (tab 0 0 0) p) < r1)).
  { apply tiles_app; auto; [apply (tiles_grid g1); auto; intros k Hk; apply U2; lia| |]; intros p; rewrite norm0; lra. }
  apply (tiles_weak _ _ _ _ _ (fun p => norm3 (vec p) <= r1) (fun _ => True)) in T; [apply T| |auto]. intros p. rewrite norm0. destruct (Rle_dec (norm3 (vec p)) r0); lra.
Qed.
Print Assumptions C82_two_spheres.
(** too few boxes: the loop stops and the number returned is that of the boxes of the grid *)
Theorem C82_few g b0 t st c Din Dout g' n : (b0 <= List.length g < b0 + 6)%nat -> convert_6boxes_to_CubedSphere g b0 t st c Din Dout = Ok (g', n) -> n = List.length g.
Proof.
  intros L E. unfold convert_6boxes_to_CubedSphere in E. replace (Nat.min 6 (List.length g - b0)) with (List.length g - b0)%nat in E by lia. destruct t; [discriminate|..]; cbv zeta in E; (destruct (for_nat _ _ _ g) eqn:Q; cbn [rbind] in E; [|discriminate..]); injection E as <- <-; lia.
Qed.
Definition fresh_box : gbox := MkG Cartesian (tab 0 0 0) (tab 1 1 1) (MkCI 0 CoordInfoNotSet 0 0 0 (fun _ => 0) (fun _ => 0)%Z (fun _ => 0)%Z (fun _ => 0)%Z false (fun _ => None) (fun _ => None) (fun _ => None)).
Example C82_ex : exists g', two_spheres_around_two_full_cubes (repeat fresh_box 40) 1 4 1 2 1 3 10 100 = Ok (g', 39%nat) /\ tiles g' 1 38 (fun p => norm3 (vec p) <= 100).
Proof.
  assert (S3 : sqrt 3 < 2) by (rewrite <- (sqrt_square 2) by lra; apply sqrt_lt_1; lra). assert (S6 : sqrt 6 < 5 / 2) by (rewrite <- (sqrt_square (5 / 2)) by lra; apply sqrt_lt_1; lra).
  destruct (C82_two_spheres (repeat fresh_box 40) 1 4 1 2 1 3 10 100) as (g' & E & _ & T); try lra; [rewrite repeat_length; lia| |eauto].
  intros k b _ E si. apply nth_error_In in E. apply repeat_spec in E. subst b. cbn. lia.
Qed.

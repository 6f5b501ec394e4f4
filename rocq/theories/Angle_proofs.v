(** Lemmas on angles. *)
From Verif Require Import Rutil Angle_model Angle_spec.
Local Open Scope R_scope.
Lemma sin_zero_in u : - PI < u < PI -> sin u = 0 -> u = 0.
Proof.
  intros (A & B) H. destruct (Rtotal_order u 0) as [L|[E|L]]; auto.
  - assert (P := sin_gt_0 (- u) ltac:(lra) ltac:(lra)). rewrite sin_neg in P. lra.
  - assert (P := sin_gt_0 u ltac:(lra) ltac:(lra)). lra.
Qed.
Lemma same_angle a b : - (2 * PI) < a - b < 2 * PI -> cos a = cos b -> sin a = sin b -> a = b.
Proof.
  intros H C S. assert (E : cos (a - b) = 1) by (rewrite cos_minus, C, S; assert (Q := sin2_cos2 b); unfold Rsqr in Q; lra).
  replace (a - b) with (2 * ((a - b) / 2)) in E by field. rewrite cos_2a_sin in E. assert (Z : sin ((a - b) / 2) = 0) by nra.
  apply sin_zero_in in Z; lra.
Qed.
Lemma angle_unique x y a b : - (2 * PI) < a - b < 2 * PI -> angle_of x y a -> angle_of x y b -> a = b.
Proof.
  intros H (r & Pr & Xr & Yr) (s & Ps & Xs & Ys). assert (E : r = s).
  { assert (A := sin2_cos2 a). assert (B := sin2_cos2 b). unfold Rsqr in *. assert (E1 : x * x + y * y = r * r) by (rewrite Xr, Yr; replace (r * r) with (r * r * (sin a * sin a + cos a * cos a)) by (rewrite A; ring); ring).
    assert (E2 : x * x + y * y = s * s) by (rewrite Xs, Ys; replace (s * s) with (s * s * (sin b * sin b + cos b * cos b)) by (rewrite B; ring); ring). nra. }
  subst s. apply same_angle; auto; apply (Rmult_eq_reg_l r); lra.
Qed.
Lemma atan_angle x y : 0 < x -> angle_of x y (atan (y / x)).
Proof.
  intros P. assert (Q : 0 < 1 + (y / x)²) by (assert (T := Rle_0_sqr (y / x)); lra). assert (S := sqrt_lt_R0 _ Q). exists (x * sqrt (1 + (y / x)²)). split; [now apply Rmult_lt_0_compat|].
  rewrite cos_atan, sin_atan. split; field; lra.
Qed.
Lemma angle_neg x y t : angle_of x y t -> angle_of (- x) (- y) (t + PI) /\ angle_of (- x) (- y) (t - PI).
Proof.
  intros (r & P & -> & ->). split; exists r; (split; [auto|]). - rewrite neg_cos, neg_sin. split; ring.
  - replace (t - PI) with (- (PI - t)) by ring. rewrite cos_neg, sin_neg, <- (Ropp_involutive (PI - t)), cos_neg, sin_neg. replace (- (PI - t)) with (t - PI) by ring.
    rewrite cos_minus, sin_minus, cos_PI, sin_PI. split; ring.
Qed.
Lemma Arg_angle x y : x <> 0 \/ y <> 0 -> angle_of x y (Arg x y) /\ - PI < Arg x y <= PI.
Proof.
  intros N. assert (Pi := PI_RGT_0). unfold Arg. destruct (Req_EM_T x 0) as [->|Nx].
  - destruct (Req_EM_T y 0) as [->|Ny]; [exfalso; lra|]. cbn zeta. destruct (Rlt_dec 0 y).
    + split; [|lra]. exists y. rewrite cos_PI2, sin_PI2. lra.
    + split; [|lra]. exists (- y). rewrite cos_neg, sin_neg, cos_PI2, sin_PI2. lra.
  - assert (B := atan_bound (y / x)). destruct (Rlt_dec x 0) as [L|L].
    + assert (A := atan_angle (- x) (- y) ltac:(lra)). replace (- y / - x) with (y / x) in A by (field; auto). apply angle_neg in A. rewrite !Ropp_involutive in A. destruct A as (A1 & A2).
      destruct (Rle_dec 0 y) as [Ly|Ly]; (split; [assumption|]).
      * assert (Z : y / x <= 0). { replace (y / x) with (- (y / - x)) by (field; auto). assert (0 <= y / - x) by (apply Rmult_le_pos; [auto|left; apply Rinv_0_lt_compat; lra]). lra. }
        assert (atan (y / x) <= 0). { destruct Z as [Z| ->]; [|rewrite atan_0; lra]. apply atan_increasing in Z. rewrite atan_0 in Z. lra. } lra.
      * assert (Z : 0 < y / x). { replace (y / x) with (- y / - x) by (field; auto). apply Rdiv_lt_0_compat; lra. }
        apply atan_increasing in Z. rewrite atan_0 in Z. lra.
    + split; [apply atan_angle; lra|lra].
Qed.
Lemma Arg_plus_eq x y : Arg_plus x y = if Rlt_dec (Arg x y) 0 then Arg x y + 2 * PI else Arg x y.
Proof. reflexivity. Qed.
Lemma angle_2PI x y t : angle_of x y t -> angle_of x y (t + 2 * PI).
Proof. intros (r & P & -> & ->). exists r. rewrite cos_plus, sin_plus, cos_2PI, sin_2PI. split; auto. split; ring. Qed.
Lemma Arg_plus_angle x y : x <> 0 \/ y <> 0 -> angle_of x y (Arg_plus x y) /\ 0 <= Arg_plus x y < 2 * PI.
Proof.
  intros N. destruct (Arg_angle x y N) as (A & B). assert (Pi := PI_RGT_0). rewrite Arg_plus_eq. destruct (Rlt_dec _ _); (split; [|lra]); auto. now apply angle_2PI.
Qed.
Lemma Arg_is x y t : - PI < t <= PI -> angle_of x y t -> Arg x y = t.
Proof.
  intros H A. assert (N : x <> 0 \/ y <> 0). { destruct A as (r & P & -> & ->). destruct (Req_dec (cos t) 0) as [E|E]; [|left; nra]. right. assert (Q := sin2_cos2 t). unfold Rsqr in Q. rewrite E in Q. assert (sin t <> 0) by nra. nra. }
  destruct (Arg_angle x y N) as (B & C). apply (angle_unique x y); auto. lra.
Qed.
Lemma Arg_plus_is x y t : 0 <= t < 2 * PI -> angle_of x y t -> Arg_plus x y = t.
Proof.
  intros H A. assert (N : x <> 0 \/ y <> 0). { destruct A as (r & P & -> & ->). destruct (Req_dec (cos t) 0) as [E|E]; [|left; nra]. right. assert (Q := sin2_cos2 t). unfold Rsqr in Q. rewrite E in Q. assert (sin t <> 0) by nra. nra. }
  destruct (Arg_plus_angle x y N) as (B & C). apply (angle_unique x y); auto. lra.
Qed.
Lemma angle_scale k x y t : 0 < k -> angle_of x y t -> angle_of (k * x) (k * y) t.
Proof. intros P (r & Pr & -> & ->). exists (k * r). split; [now apply Rmult_lt_0_compat|]. split; ring. Qed.
Lemma Arg_scale k x y : 0 < k -> Arg (k * x) (k * y) = Arg x y.
Proof.
  intros P. destruct (Req_dec x 0) as [Ex|Nx]; [destruct (Req_dec y 0) as [Ey|Ny]|].
  - subst. now rewrite !Rmult_0_r.
  - destruct (Arg_angle x y (or_intror Ny)) as (A & B). apply Arg_is; auto. now apply angle_scale.
  - destruct (Arg_angle x y (or_introl Nx)) as (A & B). apply Arg_is; auto. now apply angle_scale.
Qed.
(** pieces of Arg *)
Lemma Arg_right x y : 0 < x -> Arg x y = atan (y / x).
Proof. intros P. unfold Arg. destruct (Req_EM_T x 0); [lra|]. destruct (Rlt_dec x 0); [lra|reflexivity]. Qed.
Lemma Arg_up x y : 0 < y -> Arg x y = PI / 2 - atan (x / y).
Proof.
  intros P. apply Arg_is. - assert (B := atan_bound (x / y)). lra.
  - destruct (atan_angle y x P) as (r & Pr & E1 & E2). exists r. rewrite cos_shift, sin_shift. auto.
Qed.
Lemma Arg_down x y : y < 0 -> Arg x y = - (PI / 2) - atan (x / y).
Proof.
  intros P. apply Arg_is. - assert (B := atan_bound (x / y)). lra.
  - destruct (atan_angle (- y) (- x) ltac:(lra)) as (r & Pr & E1 & E2). replace (- x / - y) with (x / y) in * by (field; lra). exists r.
    replace (- (PI / 2) - atan (x / y)) with (- (PI / 2 + atan (x / y))) by ring. rewrite cos_neg, sin_neg. replace (PI / 2 + atan (x / y)) with (PI / 2 - - atan (x / y)) by ring. rewrite cos_shift, sin_shift, sin_neg, cos_neg. lra.
Qed.
Lemma Arg_plus_up x y : 0 < y -> Arg_plus x y = PI / 2 - atan (x / y).
Proof. intros P. rewrite Arg_plus_eq, Arg_up by auto. assert (B := atan_bound (x / y)). destruct (Rlt_dec _ _); [lra|reflexivity]. Qed.
Lemma Arg_plus_down x y : y < 0 -> Arg_plus x y = 3 * (PI / 2) - atan (x / y).
Proof. intros P. rewrite Arg_plus_eq, Arg_down by auto. assert (B := atan_bound (x / y)). destruct (Rlt_dec _ _); lra. Qed.
Lemma Arg_plus_left x y : x < 0 -> Arg_plus x y = atan (y / x) + PI.
Proof.
  intros P. apply Arg_plus_is. - assert (B := atan_bound (y / x)). lra.
  - assert (A := atan_angle (- x) (- y) ltac:(lra)). replace (- y / - x) with (y / x) in A by (field; lra). apply angle_neg in A. rewrite !Ropp_involutive in A. apply A.
Qed.
Lemma Arg_negaxis x : x < 0 -> Arg x 0 = PI.
Proof. intros P. unfold Arg. destruct (Req_EM_T x 0); [lra|]. destruct (Rlt_dec x 0); [|lra]. destruct (Rle_dec 0 0); [|lra]. replace (0 / x) with 0 by (field; lra). rewrite atan_0. ring. Qed.
Lemma Arg_posaxis x : 0 < x -> Arg_plus x 0 = 0.
Proof. intros P. rewrite Arg_plus_eq, Arg_right by auto. replace (0 / x) with 0 by (field; lra). rewrite atan_0. destruct (Rlt_dec 0 0); lra. Qed.

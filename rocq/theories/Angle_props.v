(** C68: angles and complex tanh and sech. *)
From Verif Require Import Rutil Atten_props Angle_model Angle_spec Angle_proofs.
From Coquelicot Require Import Coquelicot.
Local Open Scope R_scope.
(** BaseAngle: the representative of p modulo the period in [p0,p0+peri) *)
Theorem C68_base_angle : forall p peri p0, 0 < peri -> p0 <= BaseAngle p peri p0 < p0 + peri /\ (exists n : Z, BaseAngle p peri p0 = p + IZR n * peri) /\
  (forall q (n : Z), p0 <= q < p0 + peri -> q = p + IZR n * peri -> BaseAngle p peri p0 = q) /\ (forall n : Z, BaseAngle (p + IZR n * peri) peri p0 = BaseAngle p peri p0).
Proof.
  assert (A : forall p peri p0, 0 < peri -> p0 <= BaseAngle p peri p0 < p0 + peri).
  { intros p peri p0 P. unfold BaseAngle, Angle_model.floor. destruct (base_Int_part ((p - p0) / peri)) as (A & B).
    assert (E : p - p0 = (p - p0) / peri * peri) by (field; lra). set (w := IZR (Int_part _)) in *. set (q := (p - p0) / peri) in *. rewrite E. assert (0 <= (q - w) * peri) by (apply Rmult_le_pos; lra). assert ((q - w) * peri < 1 * peri) by (apply Rmult_lt_compat_r; lra). lra. }
  assert (B : forall p peri p0, 0 < peri -> exists n : Z, BaseAngle p peri p0 = p + IZR n * peri).
  { intros p peri p0 P. exists (- Int_part ((p - p0) / peri))%Z. unfold BaseAngle, Angle_model.floor. rewrite opp_IZR. ring. }
  assert (U : forall p peri p0 q (n : Z), 0 < peri -> p0 <= q < p0 + peri -> q = p + IZR n * peri -> BaseAngle p peri p0 = q).
  { intros p peri p0 q n P H E. destruct (B p peri p0 P) as (m & Em). assert (Hb := A p peri p0 P).
    assert (D : BaseAngle p peri p0 - q = IZR (m - n) * peri) by (rewrite minus_IZR; lra).
    assert (Z0 : (m - n)%Z = 0%Z). { assert (H1 : IZR (m - n) * peri < 1 * peri) by lra. assert (H2 : - 1 * peri < IZR (m - n) * peri) by lra. apply Rmult_lt_reg_r in H1; auto. apply Rmult_lt_reg_r in H2; auto. apply lt_IZR in H1. apply (lt_IZR (-1)) in H2. lia. }
    rewrite Z0 in D. lra. }
  intros p peri p0 P. split; [auto|split; [auto|split]].
  - intros. eapply U; eauto.
  - intros n. destruct (B p peri p0 P) as (m & E). apply (U _ _ _ _ (m - n)%Z); auto. rewrite minus_IZR. rewrite E at 1. ring.
Qed.
Print Assumptions C68_base_angle.
(** Arg and Arg_plus: the angle of the point, in (-pi,pi] and in [0,2pi); and there is only one *)
Theorem C68_arg : forall x y, x <> 0 \/ y <> 0 ->
  angle_of x y (Arg x y) /\ - PI < Arg x y <= PI /\ (forall t, - PI < t <= PI -> angle_of x y t -> t = Arg x y) /\
  angle_of x y (Arg_plus x y) /\ 0 <= Arg_plus x y < 2 * PI /\ (forall t, 0 <= t < 2 * PI -> angle_of x y t -> t = Arg_plus x y).
Proof.
  intros x y N. destruct (Arg_angle x y N) as (A & B). destruct (Arg_plus_angle x y N) as (A' & B').
  split; [auto|]. split; [auto|]. split; [intros; symmetry; now apply Arg_is|]. split; [auto|]. split; [auto|]. intros; symmetry; now apply Arg_plus_is.
Qed.
Print Assumptions C68_arg.
Example C68_arg_ex : Arg (-1) 0 = PI /\ Arg 0 (-2) = - (PI / 2) /\ Arg_plus 0 (-2) = 3 * (PI / 2).
Proof.
  split; [apply Arg_negaxis; lra|]. assert (Z : forall y, 0 / y = 0) by (intros; unfold Rdiv; ring). split.
  - rewrite Arg_down by lra. rewrite Z, atan_0. ring. - rewrite Arg_plus_down by lra. rewrite Z, atan_0. ring.
Qed.
Lemma r2_pos x y : x <> 0 \/ y <> 0 -> 0 < x * x + y * y.
Proof. intros [N|N]; assert (P := Rsqr_pos_lt _ N); unfold Rsqr in P; [assert (Q := Rle_0_sqr y)|assert (Q := Rle_0_sqr x)]; unfold Rsqr in Q; lra. Qed.
Lemma d_atan_top k x y : y <> 0 -> derivable_pt_lim (fun t => k - atan (t / y)) x (dArgdx x y).
Proof. intros N. apply is_derive_Reals. auto_derive; auto. unfold dArgdx. assert (P := r2_pos x y (or_intror N)). field. repeat split; auto; try lra; nra. Qed.
Lemma d_atan_top' k x y : y <> 0 -> derivable_pt_lim (fun t => k - atan (x / t)) y (dArgdy x y).
Proof. intros N. apply is_derive_Reals. auto_derive; auto. unfold dArgdy. assert (P := r2_pos x y (or_intror N)). field. repeat split; auto; try lra; nra. Qed.
Lemma d_atan_side k x y : x <> 0 -> derivable_pt_lim (fun t => atan (y / t) + k) x (dArgdx x y).
Proof. intros N. apply is_derive_Reals. auto_derive; auto. unfold dArgdx. assert (P := r2_pos x y (or_introl N)). field. repeat split; auto; try lra; nra. Qed.
Lemma d_atan_side' k x y : x <> 0 -> derivable_pt_lim (fun t => atan (t / x) + k) y (dArgdy x y).
Proof. intros N. apply is_derive_Reals. auto_derive; auto. unfold dArgdy. assert (P := r2_pos x y (or_introl N)). field. repeat split; auto; try lra; nra. Qed.
Lemma close_pos t x : 0 < x -> Rabs (t - x) < x -> 0 < t. Proof. intros P H. apply Rabs_def2 in H. lra. Qed.
Lemma close_neg t x : x < 0 -> Rabs (t - x) < - x -> t < 0. Proof. intros P H. apply Rabs_def2 in H. lra. Qed.
Lemma dArgdx_axis x : x <> 0 -> dArgdx x 0 = 0. Proof. intros. unfold dArgdx. field. nra. Qed.
(** first derivatives: d/dx everywhere, d/dy off the cut (the negative x axis for Arg, the positive one for Arg_plus) *)
Theorem C68_arg_first : forall x y, x <> 0 \/ y <> 0 ->
  d_dx Arg x y (dArgdx x y) /\ d_dx Arg_plus x y (dArgdx x y) /\ (y <> 0 \/ 0 < x -> d_dy Arg x y (dArgdy x y)) /\ (y <> 0 \/ x < 0 -> d_dy Arg_plus x y (dArgdy x y)).
Proof.
  intros x y N. unfold d_dx, d_dy. destruct (Rtotal_order y 0) as [L|[->|L]].
  - assert (Ny : y <> 0) by lra. split; [|split; [|split]].
    + eapply (dlim_loc (fun t => - (PI / 2) - atan (t / y)) _ x 1); [lra|intros t _; symmetry; now apply Arg_down|now apply d_atan_top].
    + eapply (dlim_loc (fun t => 3 * (PI / 2) - atan (t / y)) _ x 1); [lra|intros t _; symmetry; now apply Arg_plus_down|now apply d_atan_top].
    + intros _. eapply (dlim_loc (fun t => - (PI / 2) - atan (x / t)) _ y (- y)); [lra|intros t Ht; symmetry; apply Arg_down; now apply (close_neg t y)|now apply d_atan_top'].
    + intros _. eapply (dlim_loc (fun t => 3 * (PI / 2) - atan (x / t)) _ y (- y)); [lra|intros t Ht; symmetry; apply Arg_plus_down; now apply (close_neg t y)|now apply d_atan_top'].
  - assert (Nx : x <> 0) by lra. split; [|split; [|split]].
    + destruct (Rlt_dec 0 x) as [P|P].
      * eapply (dlim_loc (fun t => atan (0 / t) + 0) _ x x); [lra|intros t Ht; symmetry; rewrite Rplus_0_r; apply Arg_right; now apply (close_pos t x)|now apply d_atan_side].
      * rewrite dArgdx_axis by auto. eapply (dlim_loc (fun t => PI) _ x (- x)); [lra|intros t Ht; symmetry; apply Arg_negaxis; apply (close_neg t x); auto; lra|apply derivable_pt_lim_const].
    + destruct (Rlt_dec 0 x) as [P|P].
      * rewrite dArgdx_axis by auto. eapply (dlim_loc (fun t => 0) _ x x); [lra|intros t Ht; symmetry; apply Arg_posaxis; apply (close_pos t x); auto; lra|apply derivable_pt_lim_const].
      * eapply (dlim_loc (fun t => atan (0 / t) + PI) _ x (- x)); [lra|intros t Ht; symmetry; apply Arg_plus_left; apply (close_neg t x); auto; lra|now apply d_atan_side].
    + intros H. assert (P : 0 < x) by lra. eapply (dlim_loc (fun t => atan (t / x) + 0) _ 0 1); [lra|intros t Ht; symmetry; rewrite Rplus_0_r; now apply Arg_right|now apply d_atan_side'].
    + intros H. assert (P : x < 0) by lra. eapply (dlim_loc (fun t => atan (t / x) + PI) _ 0 1); [lra|intros t Ht; symmetry; now apply Arg_plus_left|now apply d_atan_side'].
  - assert (Ny : y <> 0) by lra. split; [|split; [|split]].
    + eapply (dlim_loc (fun t => PI / 2 - atan (t / y)) _ x 1); [lra|intros t _; symmetry; now apply Arg_up|now apply d_atan_top].
    + eapply (dlim_loc (fun t => PI / 2 - atan (t / y)) _ x 1); [lra|intros t _; symmetry; now apply Arg_plus_up|now apply d_atan_top].
    + intros _. eapply (dlim_loc (fun t => PI / 2 - atan (x / t)) _ y y); [lra|intros t Ht; symmetry; apply Arg_up; now apply (close_pos t y)|now apply d_atan_top'].
    + intros _. eapply (dlim_loc (fun t => PI / 2 - atan (x / t)) _ y y); [lra|intros t Ht; symmetry; apply Arg_plus_up; now apply (close_pos t y)|now apply d_atan_top'].
Qed.
Print Assumptions C68_arg_first.
Theorem C68_arg_second : forall x y, x <> 0 \/ y <> 0 -> d_dx dArgdx x y (ddArgdxdx x y) /\ d_dy dArgdx x y (ddArgdxdy x y) /\ d_dx dArgdy x y (ddArgdxdy x y) /\ d_dy dArgdy x y (ddArgdydy x y).
Proof.
  intros x y N. assert (P := r2_pos x y N). unfold d_dx, d_dy, dArgdx, dArgdy, ddArgdxdx, ddArgdxdy, ddArgdydy.
  split; [|split; [|split]]; apply is_derive_Reals; auto_derive; try lra; field; lra.
Qed.
Print Assumptions C68_arg_second.
(** *** tanh and sech *)
Lemma cosh2 x : cosh (2 * x) = 2 * (cosh x * cosh x) - 1 /\ cosh (2 * x) = 1 + 2 * (sinh x * sinh x) /\ sinh (2 * x) = 2 * (sinh x * cosh x).
Proof.
  unfold cosh, sinh. replace (2 * x) with (x + x) by ring. rewrite Ropp_plus_distr, !exp_plus. assert (E : exp x * exp (- x) = 1) by (rewrite <- exp_plus, Rplus_opp_r; apply exp_0).
  set (a := exp x) in *. set (b := exp (- x)) in *. assert (a * b = 1) by auto. repeat split; nra.
Qed.
Lemma cosh_sinh x : cosh x * cosh x = 1 + sinh x * sinh x.
Proof. destruct (cosh2 x) as (A & B & _). lra. Qed.
Lemma cosh_ge1 x : 1 <= cosh x.
Proof. assert (A := cosh_sinh x). assert (B : 0 < cosh x) by (unfold cosh; assert (P := exp_pos x); assert (Q := exp_pos (- x)); lra). nra. Qed.
Lemma cos2y y : cos (2 * y) = 2 * (cos y * cos y) - 1 /\ cos (2 * y) = 1 - 2 * (sin y * sin y) /\ sin (2 * y) = 2 * (sin y * cos y).
Proof. rewrite cos_2a_cos at 1. split; [ring|]. rewrite cos_2a_sin, sin_2a. split; ring. Qed.
Lemma den_abs x y : cos (2 * y) + cosh (2 * x) = 2 * (fst (ccosh x y) * fst (ccosh x y) + snd (ccosh x y) * snd (ccosh x y)).
Proof.
  destruct (cosh2 x) as (A & _ & _). destruct (cos2y y) as (B & _ & _). assert (C := cosh_sinh x). assert (D := sin2_cos2 y). unfold Rsqr in D. unfold ccosh. cbn [fst snd]. rewrite A, B.
  set (s := sinh x) in *. set (c := cosh x) in *. set (u := sin y) in *. set (v := cos y) in *. replace (c * v * (c * v) + s * u * (s * u)) with (c * c * (v * v) + s * s * (u * u)) by ring.
  replace (s * s) with (c * c - 1) by lra. replace (u * u) with (1 - v * v) by lra. ring.
Qed.
Lemma num_abs x y : cosh (2 * x) - cos (2 * y) = 2 * (fst (csinh x y) * fst (csinh x y) + snd (csinh x y) * snd (csinh x y)).
Proof.
  destruct (cosh2 x) as (A & _ & _). destruct (cos2y y) as (B & _ & _). assert (C := cosh_sinh x). assert (D := sin2_cos2 y). unfold Rsqr in D. unfold csinh. cbn [fst snd]. rewrite A, B.
  set (s := sinh x) in *. set (c := cosh x) in *. set (u := sin y) in *. set (v := cos y) in *. replace (s * v * (s * v) + c * u * (c * u)) with (s * s * (v * v) + c * c * (u * u)) by ring.
  replace (s * s) with (c * c - 1) by lra. replace (u * u) with (1 - v * v) by lra. ring.
Qed.
Lemma ccosh_nz x y : ccosh x y <> czero <-> 0 < cos (2 * y) + cosh (2 * x).
Proof.
  rewrite den_abs. destruct (ccosh x y) as (a, b). cbn [fst snd]. unfold czero. split.
  - intros N. assert (a <> 0 \/ b <> 0). { destruct (Req_dec a 0); destruct (Req_dec b 0); auto. subst. contradiction. } assert (P := r2_pos a b H). lra.
  - intros P [= -> ->]. lra.
Qed.
(** (Retanh, Imtanh) cosh z = sinh z; Abstanh and Argtanh are its modulus and argument; Abssech and Argsech those of 1/cosh z *)
Theorem C68_tanh : forall x y, ccosh x y <> czero ->
  cmul (Retanh x y, Imtanh x y) (ccosh x y) = csinh x y /\ Abstanh x y = cabs (Retanh x y, Imtanh x y) /\ Argtanh x y = Arg (Retanh x y) (Imtanh x y) /\
  (exists a b, cmul (a, b) (ccosh x y) = cone /\ Abssech x y = cabs (a, b) /\ Argsech x y = Arg a b).
Proof.
  intros x y N. assert (P := proj1 (ccosh_nz x y) N). assert (Nd := num_abs x y). assert (Dd := den_abs x y). set (d := cos (2 * y) + cosh (2 * x)) in *.
  destruct (cosh2 x) as (A & A' & A2). destruct (cos2y y) as (B & B' & B2). assert (C := cosh_sinh x). assert (D := sin2_cos2 y). unfold Rsqr in D.
  assert (Di : 0 < / d) by now apply Rinv_0_lt_compat. unfold Retanh, Imtanh, Abstanh, Argtanh. fold d. unfold ccosh, csinh, cmul, cabs in *. cbn [fst snd] in *. rewrite !A2, !B2.
  set (s := sinh x) in *. set (c := cosh x) in *. set (u := sin y) in *. set (v := cos y) in *. 
  assert (Cc : c * c = 1 + s * s) by lra. assert (Uu : u * u = 1 - v * v) by lra.
  split; [|split; [|split]].
  - f_equal; apply (Rmult_eq_reg_l d); try lra.
    + replace (d * (2 * (s * c) / d * (c * v) - 2 * (u * v) / d * (s * u))) with (2 * s * v * (c * c - u * u)) by (field; lra). rewrite Dd. replace (c * v * (c * v)) with (c * c * (v * v)) by ring. replace (s * u * (s * u)) with (s * s * (u * u)) by ring. rewrite Cc, Uu. ring.
    + replace (d * (2 * (s * c) / d * (s * u) + 2 * (u * v) / d * (c * v))) with (2 * c * u * (s * s + v * v)) by (field; lra). rewrite Dd. replace (c * v * (c * v)) with (c * c * (v * v)) by ring. replace (s * u * (s * u)) with (s * s * (u * u)) by ring. rewrite Cc, Uu. ring.
  - f_equal. apply (Rmult_eq_reg_l (d * d)); [|nra]. replace (cosh (2 * x) + cos (2 * y)) with d by (unfold d; ring).
    replace (d * d * ((cosh (2 * x) - cos (2 * y)) / d)) with (d * (cosh (2 * x) - cos (2 * y))) by (field; lra). rewrite Nd.
    replace (d * d * (2 * (s * c) / d * (2 * (s * c) / d) + 2 * (u * v) / d * (2 * (u * v) / d))) with (4 * (s * s * (c * c) + u * u * (v * v))) by (field; lra).
    rewrite Dd. replace (c * v * (c * v)) with (c * c * (v * v)) by ring. replace (s * u * (s * u)) with (s * s * (u * u)) by ring. replace (s * v * (s * v)) with (s * s * (v * v)) by ring. replace (c * u * (c * u)) with (c * c * (u * u)) by ring. rewrite Cc, Uu. ring.
  - unfold Rdiv. rewrite (Rmult_comm _ (/ d)), (Rmult_comm (2 * (u * v)) (/ d)). symmetry. now apply Arg_scale.
  - exists (2 / d * (v * c)), (2 / d * (- u * s)). split; [|split].
    + unfold cone. assert (Dv : 2 / d * (c * v * (c * v) + s * u * (s * u)) = 1) by (rewrite Dd at 1; field; rewrite Dd in P; nra). f_equal; [rewrite <- Dv at 1; ring|ring].
    + unfold Abssech. fold d. f_equal. apply (Rmult_eq_reg_l (d * d)); [|nra].
      replace (d * d * (2 / d * (v * c) * (2 / d * (v * c)) + 2 / d * (- u * s) * (2 / d * (- u * s)))) with (2 * (2 * (c * v * (c * v) + s * u * (s * u)))) by (field; lra). rewrite <- Dd. field. lra.
    + unfold Argsech. fold s c u v. symmetry. apply Arg_scale. apply Rdiv_lt_0_compat; lra.
Qed.
Print Assumptions C68_tanh.
Example C68_tanh_ex : ccosh 1 0 <> czero. Proof. apply ccosh_nz. rewrite Rmult_0_r, cos_0. assert (P := cosh_ge1 (2 * 1)). lra. Qed.
(** derivatives of Argtanh: d/dx wherever tanh z is not 0 or infinite, d/dy off the cut *)
Theorem C68_argtanh : forall x y, sinh (2 * x) <> 0 \/ sin (2 * y) <> 0 ->
  d_dx Argtanh x y (dArgtanhdx x y) /\ (sin (2 * y) <> 0 \/ 0 < x -> d_dy Argtanh x y (dArgtanhdy x y)) /\
  d_dx dArgtanhdx x y (ddArgtanhdxdx x y) /\ d_dy dArgtanhdx x y (ddArgtanhdxdy x y) /\ d_dx dArgtanhdy x y (ddArgtanhdxdy x y) /\ d_dy dArgtanhdy x y (ddArgtanhdydy x y).
Proof.
  intros x y N. destruct (C68_arg_first (sinh (2 * x)) (sin (2 * y)) N) as (A & _ & B & _). assert (P := r2_pos _ _ N). split; [|split].
  - unfold d_dx in *. eapply dlim_eq; [apply (derivable_pt_lim_comp (fun t => sinh (2 * t)) (fun t => Arg t (sin (2 * y))) x (2 * cosh (2 * x)) (dArgdx (sinh (2 * x)) (sin (2 * y)))); [|exact A]|].
    + apply is_derive_Reals. auto_derive; auto. ring. + unfold dArgtanhdx. ring.
  - intros H. assert (H' : sin (2 * y) <> 0 \/ 0 < sinh (2 * x)). { destruct H as [H|H]; auto. right. unfold sinh. assert (E : exp (- (2 * x)) < exp (2 * x)) by (apply exp_increasing; lra). lra. }
    specialize (B H'). unfold d_dy in *. eapply dlim_eq; [apply (derivable_pt_lim_comp (fun t => sin (2 * t)) (fun t => Arg (sinh (2 * x)) t) y (2 * cos (2 * y)) (dArgdy (sinh (2 * x)) (sin (2 * y)))); [|exact B]|].
    + apply is_derive_Reals. auto_derive; auto. ring. + unfold dArgtanhdy. ring.
  - unfold d_dx, d_dy, dArgtanhdx, dArgtanhdy, ddArgtanhdxdx, ddArgtanhdxdy, ddArgtanhdydy, dArgdx, dArgdy, ddArgdxdx, ddArgdxdy, ddArgdydy.
    split; [|split; [|split]]; apply is_derive_Reals; auto_derive; try lra; field; lra.
Qed.
Print Assumptions C68_argtanh.
Lemma abst_subst q c C : 0 < c + C -> q * q = (C - c) / (C + c) -> c = (c + C) * (1 - q * q) / 2 /\ C = (c + C) * (1 + q * q) / 2.
Proof. intros P ->. split; field; lra. Qed.
(** derivatives of Abstanh away from the zeros and poles of tanh *)
Theorem C68_abstanh : forall x y, ccosh x y <> czero -> csinh x y <> czero ->
  d_dx Abstanh x y (dAbstanhdx x y) /\ d_dy Abstanh x y (dAbstanhdy x y) /\
  d_dx dAbstanhdx x y (ddAbstanhdxdx x y) /\ d_dy dAbstanhdx x y (ddAbstanhdxdy x y) /\ d_dx dAbstanhdy x y (ddAbstanhdxdy x y) /\ d_dy dAbstanhdy x y (ddAbstanhdydy x y).
Proof.
  intros x y Nc Ns. assert (P := proj1 (ccosh_nz x y) Nc).
  assert (M : 0 < cosh (2 * x) - cos (2 * y)). { rewrite num_abs. destruct (csinh x y) as (a, b). cbn [fst snd]. assert (H : a <> 0 \/ b <> 0). { destruct (Req_dec a 0); destruct (Req_dec b 0); auto. subst. now destruct Ns. } assert (Q := r2_pos a b H). lra. }
  assert (Hs : sinh (2 * x) * sinh (2 * x) = cosh (2 * x) * cosh (2 * x) - 1) by (assert (Q := cosh_sinh (2 * x)); lra).
  assert (Hu : sin (2 * y) * sin (2 * y) = 1 - cos (2 * y) * cos (2 * y)) by (assert (Q := sin2_cos2 (2 * y)); unfold Rsqr in Q; lra).
  assert (C4 : cosh (2 * x * 2) = 2 * (cosh (2 * x) * cosh (2 * x)) - 1) by (rewrite (Rmult_comm (2 * x)); apply cosh2).
  assert (V4 : cos (2 * y * 2) = 2 * (cos (2 * y) * cos (2 * y)) - 1) by (rewrite (Rmult_comm (2 * y)); apply cos2y).
  assert (V6 : cos (2 * y * 3) = 4 * (cos (2 * y) * cos (2 * y) * cos (2 * y)) - 3 * cos (2 * y)).
  { replace (2 * y * 3) with (2 * (2 * y) + 2 * y) by ring. rewrite cos_plus. destruct (cos2y (2 * y)) as (-> & _ & ->). replace (2 * (sin (2 * y) * cos (2 * y)) * sin (2 * y)) with (2 * cos (2 * y) * (sin (2 * y) * sin (2 * y))) by ring. rewrite Hu. ring. }
  assert (C6 : cosh (2 * x * 3) = 4 * (cosh (2 * x) * cosh (2 * x) * cosh (2 * x)) - 3 * cosh (2 * x)).
  { unfold cosh. replace (2 * x * 3) with (2 * x + 2 * x + 2 * x) by ring. rewrite !Ropp_plus_distr, !exp_plus. assert (E : exp (2 * x) * exp (- (2 * x)) = 1) by (rewrite <- exp_plus, Rplus_opp_r; apply exp_0). set (a := exp (2 * x)) in *. set (b := exp (- (2 * x))) in *.
    replace (4 * ((a + b) / 2 * ((a + b) / 2) * ((a + b) / 2))) with ((a * a * a + b * b * b) / 2 + 3 * (a * b) * (a + b) / 2) by field. rewrite E. field. }
  assert (Q2 : 1 - 2 * cos (2 * y) / (cos (2 * y) + cosh (2 * x)) = (cosh (2 * x) - cos (2 * y)) / (cosh (2 * x) + cos (2 * y))) by (field; lra).
  assert (Qp : 0 < (cosh (2 * x) - cos (2 * y)) / (cosh (2 * x) + cos (2 * y))) by (apply Rdiv_lt_0_compat; lra).
  set (q := sqrt ((cosh (2 * x) - cos (2 * y)) / (cosh (2 * x) + cos (2 * y)))).
  assert (Pq : 0 < q) by now apply sqrt_lt_R0. assert (Eq : q * q = (cosh (2 * x) - cos (2 * y)) / (cosh (2 * x) + cos (2 * y))) by (apply sqrt_sqrt; lra).
  assert (Qs : sqrt (1 - 2 * cos (2 * y) / (cos (2 * y) + cosh (2 * x))) = q) by (unfold q; now rewrite Q2).
  unfold d_dx, d_dy, Abstanh, dAbstanhdx, dAbstanhdy, ddAbstanhdxdx, ddAbstanhdxdy, ddAbstanhdydy.
  assert (S1 : sqrt ((cosh (2 * x) + - cos (2 * y)) * / (cosh (2 * x) + cos (2 * y))) = q) by reflexivity.
  assert (S2 : sqrt (1 + - (2 * cos (2 * y) * / (cos (2 * y) + cosh (2 * x)))) = q) by exact Qs.
  assert (Q3 : 0 < 1 + - (2 * cos (2 * y) * / (cos (2 * y) + cosh (2 * x)))) by (change (0 < 1 - 2 * cos (2 * y) / (cos (2 * y) + cosh (2 * x))); now rewrite Q2).
  assert (Q4 : 0 < (cosh (2 * x) + - cos (2 * y)) * / (cosh (2 * x) + cos (2 * y))) by exact Qp.
  assert (Q5 : (cos (2 * y) + cosh (2 * x)) * (cos (2 * y) + cosh (2 * x)) * q <> 0) by (repeat apply Rmult_integral_contrapositive_currified; lra).
  destruct (abst_subst q (cos (2 * y)) (cosh (2 * x)) P Eq) as (Ec & EC). clearbody q.
  split; [|split; [|split; [|split; [|split]]]]; apply is_derive_Reals; auto_derive;
  try (rewrite ?S2; repeat split; auto; lra); rewrite ?S1, ?S2, ?Qs, ?C4, ?V4, ?C6, ?V6.
  all: clear - Hs Hu P Pq Ec EC.
  all: set (s := sinh (2 * x)) in *; set (u := sin (2 * y)) in *; set (C := cosh (2 * x)) in *; set (c := cos (2 * y)) in *; clearbody s u C c; set (p := c + C) in *; assert (Hp : C + c = p) by (unfold p; ring); rewrite ?Hp; clearbody p; subst c C.
  all: assert (Np : p <> 0) by lra; assert (Nq : q <> 0) by lra.
  all: try replace (p * (1 - q * q) / 2 - p * (1 + q * q) / 2) with (- (p * q * q)) by field.
  all: try replace (2 * (p * (1 - q * q) / 2 * (p * (1 - q * q) / 2)) - 1 - (2 * (p * (1 + q * q) / 2 * (p * (1 + q * q) / 2)) - 1)) with (- (2 * p * p * q * q)) by field.
  all: assert (Hs2 : s ^ 2 = p / 2 * (1 + q * q) * (p / 2 * (1 + q * q)) - 1) by (replace (s ^ 2) with (s * s) by ring; rewrite Hs; field); assert (Hu2 : u ^ 2 = 1 - p / 2 * (1 - q * q) * (p / 2 * (1 - q * q))) by (replace (u ^ 2) with (u * u) by ring; rewrite Hu; field); clear Hs Hu Hp.
  all: replace p with (2 * (p / 2)) by field; replace (2 * (p / 2) / 2) with (p / 2) in * by field; assert (Nh : p / 2 <> 0) by lra; set (h := p / 2) in *; clearbody h.
  all: field [Hs2 Hu2]; auto.
Qed.
Print Assumptions C68_abstanh.
Example C68_abstanh_ex : ccosh 1 0 <> czero /\ csinh 1 0 <> czero.
Proof.
  split; [apply C68_tanh_ex|]. unfold csinh, czero. intros [= E _]. rewrite cos_0, Rmult_1_r in E. unfold sinh in E. assert (L : exp (- (1)) < exp 1) by (apply exp_increasing; lra). lra.
Qed.

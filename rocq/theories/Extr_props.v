(** C111: the search for extrema of a field in a box. *)
From Coq Require Import Lra Lia FunctionalExtensionality.
From Verif Require Import Base Rutil Rsum Arrays Loops Sparse_model Mat_model Mat_spec Mat_proofs Cheb_model Cheb_spec Cheb_proofs Cheb_props Dir_model Dir_spec Dir_props Lines_model Lines_spec Lines_proofs Lines_kernel Lines_props
  Integ_spec Integ_props Sphere_props Lu_model Lu_spec Lsrch_model Lsrch_spec Lsrch_proofs2 Lsrch_props Root_model Root_spec Root_props Extr_model Extr_spec Extr_proofs.
Local Open Scope R_scope.

Lemma at3_eta (P : pos) : at3 (P X1) (P X2) (P X3) = P.
Proof. apply functional_extensionality. intros []; reflexivity. Qed.
(** ** The function through the data is unique *)
Theorem C111_unique bs b u f f' : (forall d, built (bs d) (bd b d)) -> interpolant bs b u f -> interpolant bs b u f' -> forall P, f P = f' P.
Proof.
  intros HB [F1 F2] [F1' F2'].
  assert (L : forall d Q, (forall m, (m < nn b d)%nat -> f (move d Q (coord (bs d) (lo b d) (hi b d) (nn b d) m)) = f' (move d Q (coord (bs d) (lo b d) (hi b d) (nn b d) m))) -> forall t, f (move d Q t) = f' (move d Q t)).
  { intros d Q H t. destruct (F1 d Q) as (c & Lc & E). destruct (F1' d Q) as (c' & Lc' & E'). destruct (ndir bs b HB d) as (Hn & Hab & Hs). rewrite E, E'.
    rewrite (expansion_unique (bs d) (lo b d) (hi b d) (nn b d) c c'); auto. intros m Hm. rewrite <- E, <- E'. auto. }
  set (co := fun d m => coord (bs d) (lo b d) (hi b d) (nn b d) m).
  assert (S1 : forall x j k, (j < nn b X2)%nat -> (k < nn b X3)%nat -> f (at3 x (co X2 j) (co X3 k)) = f' (at3 x (co X2 j) (co X3 k))).
  { intros x j k Hj Hk. apply (L X1 (at3 0 (co X2 j) (co X3 k))). intros i Hi. cbn [move at3]. assert (I : inbox b (i, j, k)) by (intros []; auto). specialize (F2 _ I). specialize (F2' _ I). rewrite <- (at3_eta (gridpos bs b (i, j, k))) in F2, F2'. transitivity (val b u (i, j, k)); [exact F2|symmetry; exact F2']. }
  assert (S2 : forall x y k, (k < nn b X3)%nat -> f (at3 x y (co X3 k)) = f' (at3 x y (co X3 k))).
  { intros x y k Hk. apply (L X2 (at3 x 0 (co X3 k))). intros j Hj. now apply S1. }
  intros P. rewrite <- (at3_eta P). apply (L X3 (at3 (P X1) (P X2) 0)). intros k Hk. now apply S2.
Qed.
Print Assumptions C111_unique.

(** ** box_extremum_of_F.  f is the function through the data, g its gradient, G the gradient continued outside the box.  If the difference quotients of G form invertible
    matrices wherever G is not larger than at the start, the search ends: the point returned is the point of the box nearest to the last point of the search, the status says on
    which sides the search left the box, or passes on the number of steps, and Fextr is f at the point returned. *)
Theorem C111_search_partial bs b u : (forall d, built (bs d) (bd b d)) -> searchable bs b -> List.length u = npoints b ->
  exists f g, interpolant bs b u f /\ (forall d P, has_lone_cosine (bs d) (nn b d) = false -> partial d f P (g d P)) /\
  let G := continuation b (fun d P => g d (snap3 bs b P)) in
  forall en jk chk0 X0 Y0 Z0, eenv_ok b en -> junk_ok 3 jk -> (forall y J, List.length y = 3%nat -> energy 3 G y <= energy 3 G [X0; Y0; Z0] -> fd_matrix 3 G y J -> invertible 3 J) ->
  exists N r x y z chk, let Q := nearest b (at3 x y z) in let out := outside b (at3 x y z) in
    (forall fuel, (N <= fuel)%nat -> box_extremum b en jk fuel chk0 u X0 Y0 Z0 = Ok (if (out =? 0)%Z then r else (- out)%Z, (Q X1, Q X2, Q X3), f (snap3 bs b Q))) /\
    energy 3 G [x; y; z] <= energy 3 G [X0; Y0; Z0] /\
    ((r = 0%Z /\ [x; y; z] = [X0; Y0; Z0] /\ chk = false /\ small 3 G (/ 10 ^ 10 / 100) [x; y; z]) \/
     (~ small 3 G (/ 10 ^ 10 / 100) [X0; Y0; Z0] /\ returns 3 G (/ 10 ^ 10) 1000 (energy 3 G [X0; Y0; Z0]) r [x; y; z] chk)).
Proof.
  intros HB HS Lu. destruct (data_ok bs b HB u Lu) as (c & cd & Lc & Lcd & If & Pf & _ & Co & De). assert (L : forall d, lo b d < hi b d) by (intros d; apply HS).
  exists (tensor bs b c), (fun d => tensor bs b (cd d)). split; auto. split; auto. intros G en jk chk0 X0 Y0 Z0 HE Hj Hinv.
  destruct (f3vec_ok bs b en cd HB HS HE Lcd) as (FE & FV). fold G in FE. assert (LG : forall v, List.length v = 3%nat -> List.length (G v) = 3%nat). { intros [|x [|y [|z [|? ?]]]]; try discriminate. reflexivity. }
  destruct (C61_newton 3 G jk [X0; Y0; Z0] chk0 1000 dequaleps) as (N & r & x' & chk & E & Lx & En & Hr); auto; try lia.
  destruct x' as [|x [|y [|z [|? ?]]]]; try discriminate. exists N, r, x, y, z, chk. replace (/ 10 ^ 10) with dequaleps by (unfold dequaleps; lra). cbv zeta. split; [|split; auto].
  2:{ destruct Hr as [(H1 & H2 & H3 & H4)|Hr]; [left|right; auto]. rewrite H2. auto. }
  intros fuel Hf. destruct HE as (HE1 & HE2 & HE3). assert (HE : eenv_ok b en) by (split; auto). unfold box_extremum.
  destruct (De X1 (e_der en X1) (e_new en X1) (e_co en 0%nat)) as (d1 & E1 & F1); try apply HE1; auto. destruct (De X2 (e_der en X2) (e_new en X2) (e_co en 1%nat)) as (d2 & E2 & F2); try apply HE1; auto. destruct (De X3 (e_der en X3) (e_new en X3) (e_co en 2%nat)) as (d3 & E3 & F3); try apply HE1; auto.
  rewrite E1, E2, E3. cbn [rbind]. rewrite F1, F2, F3. cbn [rbind]. rewrite FV. cbn [rbind]. rewrite FE, E by auto. cbn [rbind]. rewrite !(rd_ok _ 0 0), !(rd_ok _ 1 0), !(rd_ok _ 2 0) by (cbn [List.length]; lia). cbn [rbind nth].
  fold (lo b X1) (hi b X1) (lo b X2) (hi b X2) (lo b X3) (hi b X3). rewrite !into_box_nearest by auto. rewrite Co by auto. cbn [rbind]. rewrite (interp_ok bs b HB en) by auto. cbn [rbind]. rewrite <- nearest_at3, (code_tensor bs b HB HS) by now apply nearest_within.
  pose proof (flags_outside b (at3 x y z) L) as Fl. cbn [at3] in Fl. rewrite Fl. set (o := outside b (at3 x y z)). replace (if (- o =? 0)%Z then r else (- o)%Z) with (if (o =? 0)%Z then r else (- o)%Z). { reflexivity. }
  destruct (Z.eqb_spec o 0), (Z.eqb_spec (- o) 0); auto; lia.
Qed.
Print Assumptions C111_search_partial.
(** in the box, 5e-11 widths away from the ends, G is the gradient *)
Theorem C111_gradient bs b g x y z : (forall d, lo b d < hi b d) -> within b (at3 x y z) -> (forall d, 2 * (at3 x y z d - lo b d) > 1 / 10 ^ 10 * (hi b d - lo b d) /\ 2 * (hi b d - at3 x y z d) > 1 / 10 ^ 10 * (hi b d - lo b d)) ->
  continuation b (fun d P => g d (snap3 bs b P)) [x; y; z] = [g X1 (at3 x y z); g X2 (at3 x y z); g X3 (at3 x y z)].
Proof.
  intros L W H. unfold continuation. set (P := at3 x y z) in *. assert (EN : nearest b P = P). { apply functional_extensionality. intros d. specialize (W d). unfold nearest, Rmax, Rmin. repeat destruct (Rle_dec _ _); lra. } rewrite EN.
  assert (ES : snap3 bs b P = P). { apply functional_extensionality. intros d. unfold snap3, snap. specialize (W d). specialize (H d). specialize (L d). rewrite (Rabs_pos_eq (hi b d - lo b d)), (Rabs_pos_eq (P d - lo b d)), (Rabs_minus_sym (P d)), (Rabs_pos_eq (hi b d - P d)) by lra. destruct (bs d); auto; repeat destruct (Rle_dec _ _); auto; lra. } rewrite ES.
  assert (EF : forall d, factor b d (P d) = 1). { intros d. specialize (W d). unfold factor. repeat destruct (Rlt_dec _ _); lra. } cbn [map]. now rewrite !EF, !Rmult_1_r.
Qed.

(** ** box_extremum_of_F_in_dir with NumericUtils, if the derivative has opposite signs at the two ends of the line *)
Lemma through_move d C1 C2 x t : move d (through d C1 C2 x) t = through d C1 C2 t. Proof. destruct d; reflexivity. Qed.
Lemma through_d d C1 C2 x : through d C1 C2 x d = x. Proof. destruct d; reflexivity. Qed.
Lemma snap3_through bs b d C1 C2 x y : snap3 bs b (through d C1 C2 x) = move d (snap3 bs b (through d C1 C2 y)) (snap (bs d) (lo b d) (hi b d) x).
Proof. apply functional_extensionality. intros e. destruct d, e; reflexivity. Qed.
Lemma move_self d (P : pos) : move d P (P d) = P. Proof. apply functional_extensionality. intros e. destruct d, e; reflexivity. Qed.
Lemma move_move d (P : pos) s t : move d (move d P s) t = move d P t. Proof. destruct d; reflexivity. Qed.
Lemma move_d d (P : pos) t : move d P t d = t. Proof. destruct d; reflexivity. Qed.
Lemma brak_first f n j x1 x2 : f x1 * f x2 < 0 -> brak_loop f (S n) j x1 x2 = (x1, x2, j).
Proof. intros H. cbn [brak_loop]. destruct (Rlt_dec _ _); [reflexivity|contradiction]. Qed.
Theorem C111_direction_partial bs b u d : (forall d, built (bs d) (bd b d)) -> searchable bs b -> List.length u = npoints b -> has_lone_cosine (bs d) (nn b d) = false ->
  exists f, interpolant bs b u f /\ forall en jd je C1 C2 C0 Dl Dh, eenv_ok b en -> within b (through d C1 C2 (lo b d)) ->
  let L t := snap3 bs b (through d C1 C2 t) in
  partial d f (L (lo b d)) Dl -> partial d f (L (hi b d)) Dh -> Dl * Dh < 0 ->
  exists st C Fe, box_extremum_in_dir NumericUtils b en jd je u d C1 C2 C0 = Ok (st, C, Some Fe) /\
    ((st = (-1002)%Z /\ C = C0) \/
     ((1 <= st <= 1000)%Z /\ lo b d <= C <= hi b d /\ Fe = f (L C) /\
      exists s, lo b d <= s <= hi b d /\ partial d f (move d (L C) s) 0 /\ Rabs (s - C) <= / 10 ^ 10 + 4 * / 10 ^ 14 * Rabs C + / 10 ^ 10 * (hi b d - lo b d) / 2)).
Proof.
  intros HB HS Lu Hc. destruct (data_ok bs b HB u Lu) as (c & cd & Lc & Lcd & If & Pf & Cg & Co & De). assert (Lt : forall d, lo b d < hi b d) by (intros e; apply HS).
  exists (tensor bs b c). split; auto. intros en jd je C1 C2 C0 Dl Dh HE HW L PL PH HD.
  set (l := lo b d) in *. set (h := hi b d) in *. assert (Llh : l < h) by apply Lt. set (g := fun t => tensor bs b (cd d) (L t)).
  assert (W : forall t, l <= t <= h -> within b (through d C1 C2 t)). { intros t Ht e. specialize (HW e). fold l in HW. destruct d, e; cbn [through at3] in *; fold l h; auto. }
  assert (ID : forall q w t, List.length w = npoints b -> f1_dir b en q w d C1 C2 t = Ok (code_value b w (through d C1 C2 t))). { intros q w t Lw. unfold f1_dir, on_line. destruct d; now rewrite (interp_ok bs b HB en) by auto. }
  set (F := fun t => code_value b (cd d) (through d C1 C2 t)). assert (Fg : forall t, l <= t <= h -> F t = g t). { intros t Ht. unfold F, g, L. now rewrite (code_tensor bs b HB HS) by now apply W. }
  assert (Gl : g l = Dl). { unfold g. eapply uniqueness_limite; [apply Pf; exact Hc|exact PL]. } assert (Gh : g h = Dh). { unfold g. eapply uniqueness_limite; [apply Pf; exact Hc|exact PH]. }
  destruct HE as (HE1 & HE2 & HE3). assert (HE : eenv_ok b en) by (split; auto). destruct (De d (e_der en d) (e_new en d) (e_co en 0%nat)) as (d1 & E1 & F1); try apply HE1; auto.
  unfold box_extremum_in_dir. rewrite E1. cbn [rbind]. rewrite F1. cbn [rbind]. rewrite ID by auto. cbn [rbind].
  replace (fun x => match f1_dir b en 0 (cd d) d C1 C2 x with Ok y => y | _ => 0 end) with F by (apply functional_extensionality; intros t; now rewrite ID by auto).
  fold (lo b d) (hi b d). fold l h. assert (FF : F l * F h < 0) by (rewrite !Fg by lra; now rewrite Gl, Gh).
  assert (EB : rt_brak F l h 50 = (l, h, 1%Z)). { unfold rt_brak. destruct (Req_EM_T l h); [lra|]. change (Z.to_nat 50) with (S 49). now apply brak_first. }
  unfold zbrac_P. rewrite EB. cbn [Z.ltb Z.compare]. unfold zbrent_itsP. destruct (same_sign (F l) (F h)) eqn:Es. { apply same_sign_iff in Es. lra. }
  set (n1 := Z.to_nat 1000). assert (En1 : Z.of_nat n1 = 1000%Z) by (unfold n1; now rewrite Z2Nat.id). clearbody n1.
  assert (NR := nr_loop_ok F l h dequaleps n1 ltac:(unfold dequaleps; lra) 1%Z l h h jd je (inside_l _ _) (inside_r _ _) (inside_r _ _) ltac:(lra)).
  destruct (nr_loop _ _ _ _ _ _ _ _ _ _ _ _) as [[x|] k].
  - destruct NR as (Hk & Ix & y & Iy & Sxy & T). rewrite Co by auto. cbn [rbind]. rewrite ID by auto. cbn [rbind]. exists k, x, (code_value b c (through d C1 C2 x)). split; auto. right.
    apply inside_iff in Ix. apply inside_iff in Iy. assert (Hx : l <= x <= h) by lra. assert (Hy : l <= y <= h) by lra. split; [lia|]. split; auto. split. { unfold L. now rewrite (code_tensor bs b HB HS) by now apply W. }
    set (sn := fun t => snap (bs d) l h t). set (gl := fun t => tensor bs b (cd d) (move d (L x) t)).
    assert (Eg : forall t, g t = gl (sn t)). { intros t. unfold g, gl, sn, L, l, h. now rewrite <- (snap3_through bs b d C1 C2 t x). }
    destruct (snap_near (bs d) l h x Llh Hx) as (Bx & Nx). destruct (snap_near (bs d) l h y Llh Hy) as (By & Ny). fold (sn x) in Bx, Nx. fold (sn y) in By, Ny.
    assert (EE : / 10 ^ 10 = dequaleps) by (unfold dequaleps; lra). assert (AX := Rabs_pos x).
    assert (Root : exists s, gl s = 0 /\ l <= s <= h /\ Rabs (s - x) <= / 10 ^ 10 + 4 * / 10 ^ 14 * Rabs x + / 10 ^ 10 * (h - l) / 2).
    { assert (E4 : 0 <= 4 * / 10 ^ 14 * Rabs x) by (apply Rmult_le_pos; lra).
      destruct T as [T|T].
      - exists (sn x). split; [now rewrite <- Eg, <- Fg|]. split; auto. lra.
      - rewrite !Fg, !Eg in Sxy by auto. destruct (sign_root gl (sn x) (sn y)) as (s & Is & Z0); auto. { intros s _. apply (Cg d (L x)). exact Hc. }
        exists s. split; auto. apply inside_iff in Is. split; [lra|]. unfold DOUBLE_EPS in T. rewrite <- EE in T. revert T Nx Ny. unfold Rabs at 1 3 4 5. repeat destruct (Rcase_abs _); intros; lra. }
    destruct Root as (s & Z0 & Hs & Ns). exists s. split; auto. split; auto. rewrite <- Z0. unfold gl. assert (P := Pf d (move d (L x) s) Hc). exact P.
  - rewrite Co by auto. cbn [rbind]. rewrite ID by auto. cbn [rbind]. exists k, C0. eexists. split; [reflexivity|]. left. split; auto. lia.
Qed.
Print Assumptions C111_direction_partial.
(** with the shim for NumericUtils the value of a function without return statement is used: no behaviour is defined *)
Theorem C111_shim_refuted bs b en jd je u d C1 C2 C0 : (forall d, built (bs d) (bd b d)) -> eenv_ok b en -> List.length u = npoints b -> box_extremum_in_dir numerics b en jd je u d C1 C2 C0 = UB.
Proof.
  intros HB (HE1 & HE2 & HE3) Lu. assert (HE : eenv_ok b en) by (split; auto). destruct (data_ok bs b HB u Lu) as (c & cd & Lc & Lcd & _ & _ & _ & Co & De). destruct (De d (e_der en d) (e_new en d) (e_co en 0%nat)) as (d1 & E1 & F1); try apply HE1; auto.
  unfold box_extremum_in_dir. rewrite E1. cbn [rbind]. rewrite F1. cbn [rbind]. assert (ID : forall t, f1_dir b en 0 (cd d) d C1 C2 t = Ok (code_value b (cd d) (through d C1 C2 t))). { intros t. unfold f1_dir, on_line. destruct d; now rewrite (interp_ok bs b HB en) by auto. }
  rewrite ID. cbn [rbind]. unfold zbrac_P. destruct (rt_brak _ _ _ _) as [[y1 y2] r]. reflexivity.
Qed.
Print Assumptions C111_shim_refuted.
Print Assumptions C111_gradient.

(** ** A case: (X^2 + Y^2 + Z^2)/2 on 3 x 3 x 3 points of [-1,1]^3, started at (0.1, 0.1, 0.1) *)
Definition quad (P : pos) : R := (P X1 ^ 2 + P X2 ^ 2 + P X3 ^ 2) / 2.
Lemma quad_partial d P : partial d quad P (P d).
Proof.
  unfold partial. assert (E : exists c, forall t, quad (move d P t) = c + t * t / 2).
  { destruct d; [exists ((P X2 ^ 2 + P X3 ^ 2) / 2)|exists ((P X1 ^ 2 + P X3 ^ 2) / 2)|exists ((P X1 ^ 2 + P X2 ^ 2) / 2)]; intros t; unfold quad; cbn [move at3]; field. }
  destruct E as [c E]. replace (fun t => quad (move d P t)) with (fun t => c + t * t / 2) by (apply functional_extensionality; intros; now rewrite E).
  assert (H : derivable_pt_lim (fun t => c + t * t / 2) (P d) (0 + ((1 * P d + P d * 1) * / 2 + P d * P d * 0))).
  { apply (derivable_pt_lim_plus (fun _ => c) (fun t => t * t / 2)); [apply derivable_pt_lim_const|]. apply (derivable_pt_lim_mult (fun t => t * t) (fun _ => / 2)); [apply (derivable_pt_lim_mult (fun t => t) (fun t => t)); apply derivable_pt_lim_id|apply derivable_pt_lim_const]. }
  replace (0 + ((1 * P d + P d * 1) * / 2 + P d * P d * 0)) with (P d) in H by field. exact H.
Qed.
Lemma ex_box : exists b, (forall d, built ChebExtrema (bd b d)) /\ (forall d, nn b d = 3%nat /\ lo b d = -1 /\ hi b d = 1).
Proof.
  destruct (mkdir_built ChebExtrema 3 (-1) 1 eq_refl ltac:(lra) ltac:(lia)) as (m & B). exists {| bd1 := mkdir ChebExtrema 3 (-1) 1 m; bd2 := mkdir ChebExtrema 3 (-1) 1 m; bd3 := mkdir ChebExtrema 3 (-1) 1 m |}. split; intros []; auto.
Qed.
Definition quad_data (b : sbox) : list R := table b (fun p => quad (gridpos (fun _ => ChebExtrema) b p)).
Lemma quad_interpolant b : (forall d, nn b d = 3%nat /\ lo b d = -1 /\ hi b d = 1) -> interpolant (fun _ => ChebExtrema) b (quad_data b) quad.
Proof.
  intros H. split.
  - intros d P. destruct (H d) as (-> & -> & ->). assert (E : exists c, forall t, quad (move d P t) = c + t * t / 2).
    { destruct d; [exists ((P X2 ^ 2 + P X3 ^ 2) / 2)|exists ((P X1 ^ 2 + P X3 ^ 2) / 2)|exists ((P X1 ^ 2 + P X2 ^ 2) / 2)]; intros t; unfold quad; cbn [move at3]; field. }
    destruct E as [c E]. exists [2 * c + 1 / 2; 0; 1 / 4]. split; auto. intros t. rewrite E. unfold expansion, series, yof, Sig. cbn. field.
  - intros p Ip. unfold quad_data. now rewrite table_val.
Qed.
Definition ex_env (b : sbox) : eenv := {| e_der := sequential b; e_co := fun _ => sequential b; e_new := fun _ => repeat 0 (npoints b);
  e_int := fun _ _ _ _ => (seq 0 (nn b X3), repeat 0 (nn b X1), repeat 0 (nn b X2), repeat 0 (nn b X3)) |}.
Lemma ex_env_ok b : eenv_ok b (ex_env b).
Proof.
  split; [|split].
  - intros d. split; [apply sequential_schedule|apply repeat_length].
  - intros q d. apply sequential_schedule.
  - intros q X Y Z0. cbn [ex_env e_int]. split; [reflexivity|]. rewrite !repeat_length. auto.
Qed.
(** one component of the gradient of quad, continued *)
Definition gam (t : R) : R := snap ChebExtrema (-1) 1 (Rmax (-1) (Rmin 1 t)) * (if Rlt_dec t (-1) then t - -1 else if Rlt_dec 1 t then 1 - t else 1).
Lemma gam_moves t : Rabs (gam t) <= 0.18 -> gam (t + fd_h t 0) <> gam t.
Proof.
  assert (T0 : forall t, (t < -1 /\ gam t = - (t + 1)) \/ (1 < t /\ gam t = 1 - t) \/ (-1 <= t <= 1 /\ ((gam t = -1 /\ t <= -0.9) \/ (gam t = 1 /\ 0.9 <= t) \/ gam t = t))).
  { clear t. intros t. unfold gam. destruct (Rlt_dec t (-1)).
    - left. split; auto. rewrite (Rmax_left (-1)) by (unfold Rmin; destruct (Rle_dec _ _); lra). unfold snap. rewrite Rminus_diag_eq, Rabs_R0 by auto. destruct (Rle_dec _ _) as [|N]; [lra|]. exfalso. apply N. pose proof (Rabs_pos (1 - -1)). lra.
    - right. destruct (Rlt_dec 1 t).
      + left. split; auto. rewrite (Rmin_left 1) by lra. rewrite Rmax_right by lra. unfold snap. rewrite (Rabs_pos_eq (1 - -1)) by lra. destruct (Rle_dec _ _); [lra|]. rewrite Rminus_diag_eq, Rabs_R0 by auto. destruct (Rle_dec _ _); lra.
      + right. split; [lra|]. rewrite (Rmin_right 1), (Rmax_right (-1)) by lra. rewrite Rmult_1_r. unfold snap. rewrite (Rabs_pos_eq (1 - -1)), (Rabs_pos_eq (t - -1)), (Rabs_minus_sym t), (Rabs_pos_eq (1 - t)) by lra. repeat destruct (Rle_dec _ _); lra. }
  intros H. assert (Hb : -1.18 <= t <= 1.18 /\ ~ (0.5 < t <= 1) /\ ~ (-1 <= t < -0.5)). { destruct (T0 t) as [(A & B)|[(A & B)|(A & [(B & C)|[(B & C)|B]])]]; rewrite B in H; revert H; unfold Rabs; destruct (Rcase_abs _); lra. }
  assert (Hh : 0 < fd_h t 0 < 0.1). { unfold fd_h. rewrite pow_O, Rmult_1_r. assert (Rabs t <= 1.18) by (apply Rabs_le; lra). pose proof (Rabs_pos t). unfold Rmax. destruct (Rle_dec _ _); lra. }
  set (h := fd_h t 0) in *. clearbody h. assert (Ht : -0.18 <= gam t <= 0.18) by (revert H; unfold Rabs; destruct (Rcase_abs _); lra).
  destruct (T0 t) as [(A & B)|[(A & B)|(A & [(B & C)|[(B & C)|B]])]]; rewrite B in *; try lra; destruct (T0 (t + h)) as [(A' & B')|[(A' & B')|(A' & [(B' & C')|[(B' & C')|B']])]]; rewrite B'; lra.
Qed.
Lemma diag_invertible J (a : nat -> R) : (forall i, (i < 3)%nat -> a i <> 0) -> (forall i j, (i < 3)%nat -> (j < 3)%nat -> ent 3 J i j = if (i =? j)%nat then a i else 0) -> invertible 3 J.
Proof.
  intros Na H. exists (fun i j => if (i =? j)%nat then / a i else 0). intros i j Hi Hj.
  rewrite (Sig_ext 3 _ (fun k => (if (i =? k)%nat then a i else 0) * (if (k =? j)%nat then / a k else 0))) by (intros k Hk; now rewrite H). rewrite (Sig_ext 3 (fun k => _ * ent 3 J k j) (fun k => (if (i =? k)%nat then / a i else 0) * (if (k =? j)%nat then a k else 0))) by (intros k Hk; now rewrite H).
  assert (N0 := Na 0%nat ltac:(lia)). assert (N1 := Na 1%nat ltac:(lia)). assert (N2 := Na 2%nat ltac:(lia)).
  destruct i as [|[|[|i]]]; try lia; destruct j as [|[|[|j]]]; try lia; cbn [Sig Nat.eqb]; split; field; auto.
Qed.
Lemma gam_invertible G y J : (forall x y z, G [x; y; z] = [gam x; gam y; gam z]) -> List.length y = 3%nat -> energy 3 G y <= energy 3 G [0.1; 0.1; 0.1] -> fd_matrix 3 G y J -> invertible 3 J.
Proof.
  intros HG Ly He (LJ & HJ). assert (G1 : gam 0.1 = 0.1). { unfold gam. rewrite (Rmin_right 1), (Rmax_right (-1)) by lra. unfold snap. rewrite (Rabs_pos_eq (1 - -1)), (Rabs_pos_eq (0.1 - -1)), (Rabs_minus_sym 0.1), (Rabs_pos_eq (1 - 0.1)) by lra. repeat destruct (Rle_dec _ _); repeat destruct (Rlt_dec _ _); lra. }
  assert (F1 : forall x i, List.length x = 3%nat -> (i < 3)%nat -> Fi G x i = gam x.[i]). { intros [|x1 [|x2 [|x3 [|? ?]]]] i Lx Hi; try discriminate. unfold Fi. rewrite HG. destruct i as [|[|[|i]]]; try lia; reflexivity. }
  assert (Sm : forall i, (i < 3)%nat -> Rabs (gam y.[i]) <= 0.18).
  { unfold energy in He. rewrite (Sig_ext 3 _ (fun i => gam y.[i] ^ 2)) in He by (intros k Hk; now rewrite F1). rewrite (Sig_ext 3 (fun i => Fi G _ i ^ 2) (fun i => gam [0.1; 0.1; 0.1].[i] ^ 2)) in He by (intros k Hk; now rewrite F1). cbn [Sig nth] in He. rewrite G1 in He.
    intros i Hi. apply Rabs_le. set (a0 := gam y.[0]) in *. set (a1 := gam y.[1]) in *. set (a2 := gam y.[2]) in *. destruct i as [|[|[|i]]]; try lia; fold a0 a1 a2; split; nra. }
  assert (Sh : forall j h i, (i < 3)%nat -> Fi G (shifted y j h) i = gam (y.[i] + if (i =? j)%nat then h else 0)). { intros j h i Hi. rewrite F1 by (auto; unfold shifted; now rewrite map_length, seq_length). unfold shifted. now rewrite map_seq_nth by lia. }
  apply (diag_invertible J (fun i => fd_quotient G y i i 0)).
  - intros i Hi. unfold fd_quotient. rewrite Sh, F1, Nat.eqb_refl by auto. assert (Hh := fd_h_pos y.[i] 0). assert (M := gam_moves y.[i] (Sm i Hi)). intros E. apply M. apply Rminus_diag_uniq. unfold Rdiv in E. apply Rmult_integral in E. destruct E as [E|E]; auto. apply Rinv_neq_0_compat in E; [contradiction|lra].
  - intros i j Hi Hj. destruct (HJ j Hj) as (k & Hk & V & Z0 & _). rewrite V by auto. destruct (Nat.eqb_spec i j) as [->|N].
    + destruct k as [|k]; auto. exfalso. assert (E := Z0 0%nat j ltac:(lia) Hj). unfold fd_quotient in E. rewrite Sh, F1, Nat.eqb_refl in E by auto. assert (Hh := fd_h_pos y.[j] 0). apply (gam_moves y.[j] (Sm j Hj)). apply Rminus_diag_uniq. unfold Rdiv in E. apply Rmult_integral in E. destruct E as [E|E]; auto. apply Rinv_neq_0_compat in E; [contradiction|lra].
    + unfold fd_quotient. rewrite Sh, F1 by auto. destruct (Nat.eqb_spec i j); [contradiction|]. rewrite Rplus_0_r. unfold Rdiv. ring.
Qed.
Definition ex_junk : Z -> junk := fun _ => {| j_fjac := repeat 0 9; j_g := repeat 0 3; j_idx := repeat 0%nat 3; j_vscal := repeat 0 3 |}.
Example C111_ex : exists b u, (forall d, built ChebExtrema (bd b d)) /\ List.length u = npoints b /\ interpolant (fun _ => ChebExtrema) b u quad /\
  (exists N st X Y Z0, forall fuel, (N <= fuel)%nat -> box_extremum b (ex_env b) ex_junk fuel false u 0.1 0.1 0.1 = Ok (st, (X, Y, Z0), quad (snap3 (fun _ => ChebExtrema) b (at3 X Y Z0)))) /\
  exists st C Fe, box_extremum_in_dir NumericUtils b (ex_env b) 0 0 u X1 0.5 0.5 0 = Ok (st, C, Some Fe) /\ (st = (-1002)%Z \/ ((1 <= st <= 1000)%Z /\ Rabs C <= / 10 ^ 9)).
Proof.
  destruct ex_box as (b & HB & H). exists b, (quad_data b). split; auto. assert (Lq : List.length (quad_data b) = npoints b) by apply table_length. split; auto. assert (Iq := quad_interpolant b H). split; auto.
  assert (HS : searchable (fun _ => ChebExtrema) b). { intros d. destruct (H d) as (_ & -> & ->). split; [lra|discriminate]. } split.
  - destruct (C111_search_partial (fun _ => ChebExtrema) b (quad_data b) HB HS Lq) as (f & g & If & Pf & K). assert (Ef : f = quad) by (apply functional_extensionality; now apply (C111_unique (fun _ => ChebExtrema) b (quad_data b))). subst f.
    assert (Eg : forall d P, g d P = P d). { intros d P. eapply uniqueness_limite; [exact (Pf d P eq_refl)|apply quad_partial]. }
    assert (Hinv : forall y J, List.length y = 3%nat -> let G := continuation b (fun d P => g d (snap3 (fun _ => ChebExtrema) b P)) in energy 3 G y <= energy 3 G [0.1; 0.1; 0.1] -> fd_matrix 3 G y J -> invertible 3 J).
    { intros y J Ly G He HJ. apply (gam_invertible G y J); auto. intros x1 x2 x3. unfold G, continuation, factor. cbn [map]. rewrite !Eg. unfold snap3, nearest, gam. cbn [at3]. destruct (H X1) as (_ & -> & ->). destruct (H X2) as (_ & -> & ->). destruct (H X3) as (_ & -> & ->). reflexivity. }
    assert (Hj : junk_ok 3 ex_junk) by (intros z; repeat split).
    destruct (K (ex_env b) ex_junk false 0.1 0.1 0.1 (ex_env_ok b) Hj Hinv) as (N & r & x & y & z & chk & E & _). cbv zeta in E. do 5 eexists. intros fuel Hf. rewrite E by exact Hf. rewrite at3_eta. reflexivity.
  - destruct (C111_direction_partial (fun _ => ChebExtrema) b (quad_data b) X1 HB HS Lq eq_refl) as (f & If & K). assert (Ef : f = quad) by (apply functional_extensionality; now apply (C111_unique (fun _ => ChebExtrema) b (quad_data b))). subst f.
    destruct (H X1) as (_ & El & Eh). assert (SL : snap ChebExtrema (-1) 1 (-1) = -1). { unfold snap. destruct (Rle_dec _ _); auto. exfalso. rewrite Rminus_diag_eq, Rabs_R0 in n by auto. rewrite Rabs_pos_eq in n; lra. }
    assert (SH : snap ChebExtrema (-1) 1 1 = 1). { unfold snap. rewrite (Rabs_pos_eq (1 - -1)) by lra. destruct (Rle_dec _ _); [lra|]. destruct (Rle_dec _ _); auto. }
    destruct (K (ex_env b) 0 0 0.5 0.5 0 (-1) 1) as (st & C & Fe & E & Q).
    { apply ex_env_ok. } { intros d. destruct (H d) as (_ & -> & ->). destruct d; cbn [through at3]; lra. }
    { assert (P := quad_partial X1 (snap3 (fun _ => ChebExtrema) b (through X1 0.5 0.5 (lo b X1)))). assert (Ev : snap3 (fun _ => ChebExtrema) b (through X1 0.5 0.5 (lo b X1)) X1 = -1) by (unfold snap3; cbn [through at3]; now rewrite El, Eh). rewrite Ev in P. exact P. }
    { assert (P := quad_partial X1 (snap3 (fun _ => ChebExtrema) b (through X1 0.5 0.5 (hi b X1)))). assert (Ev : snap3 (fun _ => ChebExtrema) b (through X1 0.5 0.5 (hi b X1)) X1 = 1) by (unfold snap3; cbn [through at3]; now rewrite El, Eh). rewrite Ev in P. exact P. }
    { lra. }
    exists st, C, Fe. split; auto. destruct Q as [(Q & _)|(Q & HC & _ & s & Hs & Ps & Ns)]; [now left|right]. split; auto. rewrite El, Eh in *.
    assert (s = 0). { eapply uniqueness_limite; [|exact Ps]. assert (P := quad_partial X1 (move X1 (snap3 (fun _ => ChebExtrema) b (through X1 0.5 0.5 C)) s)). rewrite move_d in P. exact P. } subst s. revert Ns. replace (0 - C) with (- C) by ring. rewrite Rabs_Ropp. assert (Rabs C <= 1) by (apply Rabs_le; lra). lra.
Qed.

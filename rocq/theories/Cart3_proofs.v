(** Analysis behind Cartesian derivatives: chain rule, inverse of a 3x3 matrix, gradient and Hessian from box derivatives. *)
From Verif Require Import Rutil Coord_model Coord_spec Cart_spec.
Local Open Scope R_scope.
(** linear approximation from a derivative *)
Lemma dlim_lin f t l eps : derivable_pt_lim f t l -> 0 < eps -> exists del, 0 < del /\ forall h, Rabs h < del -> Rabs (f (t + h) - f t - l * h) <= eps * Rabs h.
Proof.
  intros H He. destruct (H eps He) as (d & Hd). exists d. split; [apply cond_pos|]. intros h Hh. destruct (Req_dec h 0) as [->|N].
  - replace (f (t + 0) - f t - l * 0) with 0 by (rewrite Rplus_0_r; ring). rewrite Rabs_R0. lra.
  - specialize (Hd h N Hh). assert (P := Rabs_pos_lt h N).
    replace (f (t + h) - f t - l * h) with (((f (t + h) - f t) / h - l) * h) by (field; auto). rewrite Rabs_mult. apply Rmult_le_compat_r; lra.
Qed.
Lemma lin_dlim f t l : (forall eps, 0 < eps -> exists del, 0 < del /\ forall h, Rabs h < del -> Rabs (f (t + h) - f t - l * h) <= eps * Rabs h) -> derivable_pt_lim f t l.
Proof.
  intros H eps He. destruct (H (eps / 2)) as (d & Hd & K); [lra|]. exists (mkposreal d Hd). cbn. intros h N Hh. specialize (K h Hh). assert (P := Rabs_pos_lt h N).
  replace ((f (t + h) - f t) / h - l) with ((f (t + h) - f t - l * h) / h) by (field; auto). unfold Rdiv. rewrite Rabs_mult, Rabs_inv.
  apply (Rmult_lt_reg_r (Rabs h)); auto. rewrite Rmult_assoc, Rinv_l by lra. nra.
Qed.
(** derivative of f(x(t), y(t), z(t)) *)
Lemma chain3 f (x y z : R -> R) t gr (J : d3 -> R) : diff3 f (x t) (y t) (z t) gr -> derivable_pt_lim x t (J D1) -> derivable_pt_lim y t (J D2) -> derivable_pt_lim z t (J D3) ->
  derivable_pt_lim (fun s => f (x s) (y s) (z s)) t (S3 (fun k => gr k * J k)).
Proof.
  intros Hf Hx Hy Hz. apply lin_dlim. intros eps He.
  set (M := Rabs (J D1) + Rabs (J D2) + Rabs (J D3) + 3). set (N := Rabs (gr D1) + Rabs (gr D2) + Rabs (gr D3) + 1).
  assert (J1 := Rabs_pos (J D1)). assert (J2 := Rabs_pos (J D2)). assert (J3 := Rabs_pos (J D3)).
  assert (G1 := Rabs_pos (gr D1)). assert (G2 := Rabs_pos (gr D2)). assert (G3 := Rabs_pos (gr D3)).
  assert (HM : 0 < M) by (unfold M; lra). assert (HN : 0 < N) by (unfold N; lra).
  destruct (Hf (eps / (2 * M))) as (df & Pf & Kf). { apply Rdiv_lt_0_compat; lra. }
  set (e2 := Rmin 1 (eps / (2 * N))). assert (Pe : 0 < e2). { unfold e2. apply Rmin_glb_lt; [lra|]. apply Rdiv_lt_0_compat; lra. }
  assert (E1 : e2 <= 1) by apply Rmin_l. assert (E2 : e2 <= eps / (2 * N)) by apply Rmin_r.
  destruct (dlim_lin x t _ e2 Hx Pe) as (d1 & P1 & K1). destruct (dlim_lin y t _ e2 Hy Pe) as (d2 & P2 & K2). destruct (dlim_lin z t _ e2 Hz Pe) as (d3' & P3 & K3).
  exists (Rmin (df / M) (Rmin d1 (Rmin d2 d3'))). split. { repeat apply Rmin_glb_lt; auto. now apply Rdiv_lt_0_compat. }
  intros h Hh. assert (A0 : Rabs h < df / M) by (eapply Rlt_le_trans; [apply Hh|apply Rmin_l]).
  assert (Hh' : Rabs h < Rmin d1 (Rmin d2 d3')) by (eapply Rlt_le_trans; [apply Hh|apply Rmin_r]).
  assert (A1 : Rabs h < d1) by (eapply Rlt_le_trans; [apply Hh'|apply Rmin_l]). assert (Hh2 : Rabs h < Rmin d2 d3') by (eapply Rlt_le_trans; [apply Hh'|apply Rmin_r]).
  assert (A2 : Rabs h < d2) by (eapply Rlt_le_trans; [apply Hh2|apply Rmin_l]). assert (A3 : Rabs h < d3') by (eapply Rlt_le_trans; [apply Hh2|apply Rmin_r]).
  specialize (K1 h A1). specialize (K2 h A2). specialize (K3 h A3).
  set (a := x (t + h) - x t) in *. set (b := y (t + h) - y t) in *. set (c := z (t + h) - z t) in *. assert (Ph := Rabs_pos h).
  assert (B : forall u j, Rabs (u - j * h) <= e2 * Rabs h -> Rabs u <= (Rabs j + 1) * Rabs h).
  { intros u j H. replace u with ((u - j * h) + j * h) by ring. eapply Rle_trans; [apply Rabs_triang|]. rewrite Rabs_mult. nra. }
  assert (Ba := B a _ K1). assert (Bb := B b _ K2). assert (Bc := B c _ K3). clear B.
  assert (Lh : M * Rabs h < df). { apply (Rmult_lt_compat_l M) in A0; auto. replace (M * (df / M)) with df in A0 by (field; lra). exact A0. }
  assert (T := Kf a b c). assert (La : Rabs a < df) by (unfold M in Lh; nra). assert (Lb : Rabs b < df) by (unfold M in Lh; nra). assert (Lc : Rabs c < df) by (unfold M in Lh; nra).
  specialize (T La Lb Lc). replace (x t + a) with (x (t + h)) in T by (unfold a; ring). replace (y t + b) with (y (t + h)) in T by (unfold b; ring). replace (z t + c) with (z (t + h)) in T by (unfold c; ring).
  set (F := f (x (t + h)) (y (t + h)) (z (t + h)) - f (x t) (y t) (z t)) in *. unfold S3.
  replace (F - (gr D1 * J D1 + gr D2 * J D2 + gr D3 * J D3) * h) with ((F - (gr D1 * a + gr D2 * b + gr D3 * c)) + (gr D1 * (a - J D1 * h) + gr D2 * (b - J D2 * h) + gr D3 * (c - J D3 * h))) by ring.
  eapply Rle_trans; [apply Rabs_triang|].
  assert (U1 : eps / (2 * M) * (Rabs a + Rabs b + Rabs c) <= eps / 2 * Rabs h).
  { apply Rle_trans with (eps / (2 * M) * (M * Rabs h)). - apply Rmult_le_compat_l. { left. apply Rdiv_lt_0_compat; lra. } unfold M. lra. - right. field. lra. }
  assert (U2 : Rabs (gr D1 * (a - J D1 * h) + gr D2 * (b - J D2 * h) + gr D3 * (c - J D3 * h)) <= eps / 2 * Rabs h).
  { eapply Rle_trans; [apply Rabs_triang|]. eapply Rle_trans; [apply Rplus_le_compat_r, Rabs_triang|]. rewrite !Rabs_mult.
    apply Rle_trans with (N * (e2 * Rabs h)). - unfold N. nra. - rewrite <- Rmult_assoc. apply Rmult_le_compat_r; auto. replace (eps / 2) with (N * (eps / (2 * N))) by (field; lra). apply Rmult_le_compat_l; lra. }
  lra.
Qed.
(** along one box direction *)
Definition slice (F : fn3) (j : d3) (X Y Z : R) : R -> R := match j with D1 => fun t => F t Y Z | D2 => fun t => F X t Z | D3 => fun t => F X Y t end.
Definition co (j : d3) (X Y Z : R) : R := match j with D1 => X | D2 => Y | D3 => Z end.
Lemma pd_slice F j X Y Z l : pd F j X Y Z l <-> derivable_pt_lim (slice F j X Y Z) (co j X Y Z) l. Proof. now destruct j. Qed.
Lemma slice_co F j X Y Z : slice F j X Y Z (co j X Y Z) = F X Y Z. Proof. now destruct j. Qed.
Lemma pd_unique F j X Y Z l l' : pd F j X Y Z l -> pd F j X Y Z l' -> l = l'.
Proof. rewrite !pd_slice. apply uniqueness_limite. Qed.
Lemma pd_pull C f j X Y Z gr J : diff3 f (x_of_X C D1 X Y Z) (x_of_X C D2 X Y Z) (x_of_X C D3 X Y Z) gr -> (forall k, pd (x_of_X C k) j X Y Z (J k)) -> pd (pull C f) j X Y Z (S3 (fun k => gr k * J k)).
Proof.
  intros Hf HJ. assert (H1 := HJ D1). assert (H2 := HJ D2). assert (H3 := HJ D3). destruct j; cbn [pd] in *.
  - apply (chain3 f (fun t => x_of_X C D1 t Y Z) (fun t => x_of_X C D2 t Y Z) (fun t => x_of_X C D3 t Y Z)); auto.
  - apply (chain3 f (fun t => x_of_X C D1 X t Z) (fun t => x_of_X C D2 X t Z) (fun t => x_of_X C D3 X t Z)); auto.
  - apply (chain3 f (fun t => x_of_X C D1 X Y t) (fun t => x_of_X C D2 X Y t) (fun t => x_of_X C D3 X Y t)); auto.
Qed.
(** a left inverse of a 3x3 matrix is a right inverse *)
Lemma left_right (A B : d3 -> d3 -> R) : (forall i j, S3 (fun k => A i k * B k j) = delta i j) -> forall i j, S3 (fun k => B i k * A k j) = delta i j.
Proof.
  intros H.
  set (det := fun M : d3 -> d3 -> R => M D1 D1 * (M D2 D2 * M D3 D3 - M D2 D3 * M D3 D2) - M D1 D2 * (M D2 D1 * M D3 D3 - M D2 D3 * M D3 D1) + M D1 D3 * (M D2 D1 * M D3 D2 - M D2 D2 * M D3 D1)).
  assert (HD : det A * det B = 1).
  { replace (det A * det B) with (det (fun i j => S3 (fun k => A i k * B k j))) by (unfold det, S3; ring). unfold det. rewrite !H. cbn [delta]. ring. }
  assert (NA : det A <> 0) by (intros E; rewrite E in HD; lra).
  intros i j.
  (* c_k = (BA - I)_{kj}; A c = 0 *)
  set (c := fun k => S3 (fun l => B k l * A l j) - delta k j).
  assert (Ac : forall l, A l D1 * c D1 + A l D2 * c D2 + A l D3 * c D3 = 0).
  { intros l. replace (A l D1 * c D1 + A l D2 * c D2 + A l D3 * c D3) with (S3 (fun m => S3 (fun k => A l k * B k m) * A m j) - S3 (fun k => A l k * delta k j)) by (unfold c, S3; ring).
    unfold S3 at 1. rewrite !H. unfold S3. destruct l, j; cbn [delta]; ring. }
  assert (A1 := Ac D1). assert (A2 := Ac D2). assert (A3 := Ac D3).
  assert (Z : det A * c i = 0).
  { destruct i; unfold det.
    - transitivity ((A D2 D2 * A D3 D3 - A D2 D3 * A D3 D2) * (A D1 D1 * c D1 + A D1 D2 * c D2 + A D1 D3 * c D3) + (A D1 D3 * A D3 D2 - A D1 D2 * A D3 D3) * (A D2 D1 * c D1 + A D2 D2 * c D2 + A D2 D3 * c D3) + (A D1 D2 * A D2 D3 - A D1 D3 * A D2 D2) * (A D3 D1 * c D1 + A D3 D2 * c D2 + A D3 D3 * c D3)); [ring|rewrite A1, A2, A3; ring].
    - transitivity ((A D2 D3 * A D3 D1 - A D2 D1 * A D3 D3) * (A D1 D1 * c D1 + A D1 D2 * c D2 + A D1 D3 * c D3) + (A D1 D1 * A D3 D3 - A D1 D3 * A D3 D1) * (A D2 D1 * c D1 + A D2 D2 * c D2 + A D2 D3 * c D3) + (A D1 D3 * A D2 D1 - A D1 D1 * A D2 D3) * (A D3 D1 * c D1 + A D3 D2 * c D2 + A D3 D3 * c D3)); [ring|rewrite A1, A2, A3; ring].
    - transitivity ((A D2 D1 * A D3 D2 - A D2 D2 * A D3 D1) * (A D1 D1 * c D1 + A D1 D2 * c D2 + A D1 D3 * c D3) + (A D1 D2 * A D3 D1 - A D1 D1 * A D3 D2) * (A D2 D1 * c D1 + A D2 D2 * c D2 + A D2 D3 * c D3) + (A D1 D1 * A D2 D2 - A D1 D2 * A D2 D1) * (A D3 D1 * c D1 + A D3 D2 * c D2 + A D3 D3 * c D3)); [ring|rewrite A1, A2, A3; ring]. }
  apply Rmult_integral in Z as [Z|Z]; [contradiction|]. unfold c in Z. lra.
Qed.
Lemma S3_delta_r f m : S3 (fun k => f k * delta k m) = f m. Proof. unfold S3. destruct m; cbn [delta]; ring. Qed.
Lemma jac_choice C X Y Z : inverse_jacobian C X Y Z -> exists J : d3 -> d3 -> R, forall j, (forall k, pd (x_of_X C k) j X Y Z (J j k)) /\ (forall i, S3 (fun k => dX_dx C i k X Y Z * J j k) = delta i j).
Proof.
  intros H. destruct (H D1) as (J1 & A1), (H D2) as (J2 & A2), (H D3) as (J3 & A3). exists (fun j => match j with D1 => J1 | D2 => J2 | D3 => J3 end). now intros [].
Qed.
(** gradient from the box derivatives *)
Lemma gradient_at C f X Y Z gr W : inverse_jacobian C X Y Z -> diff3 f (x_of_X C D1 X Y Z) (x_of_X C D2 X Y Z) (x_of_X C D3 X Y Z) gr -> (forall i, pd (pull C f) i X Y Z (W i)) ->
  forall m, S3 (fun i => dX_dx C i m X Y Z * W i) = gr m.
Proof.
  intros HJ Hf HW m. destruct (jac_choice C X Y Z HJ) as (J & A).
  assert (EW : forall i, W i = S3 (fun k => gr k * J i k)). { intros i. eapply pd_unique; [apply HW|]. apply pd_pull; auto. apply A. }
  assert (I := left_right (fun i k => dX_dx C i k X Y Z) (fun k j => J j k)). cbv beta in I. specialize (I (fun i j => proj2 (A j) i)).
  transitivity (S3 (fun k => gr k * S3 (fun i => J i k * dX_dx C i m X Y Z))).
  - unfold S3 at 1. rewrite !EW. unfold S3. ring.
  - unfold S3 at 1. rewrite !I. destruct m; cbn [delta]; ring.
Qed.
(** derivative along a box direction of functions that agree nearby *)
Lemma near_slice (P : R -> R -> R -> Prop) X Y Z j : near P X Y Z -> exists del, 0 < del /\ forall h, Rabs h < del -> match j with D1 => P (X + h) Y Z | D2 => P X (Y + h) Z | D3 => P X Y (Z + h) end.
Proof.
  intros (d & Hd & K). exists d. split; auto. intros h Hh.
  assert (Z0 : forall t, Rabs (t - t) < d) by (intros; rewrite Rminus_diag_eq, Rabs_R0; auto). assert (Hp : forall t, Rabs (t + h - t) < d) by (intros; now replace (t + h - t) with h by ring).
  destruct j; apply K; auto.
Qed.
Lemma pd_near F G j X Y Z l : near (fun X Y Z => F X Y Z = G X Y Z) X Y Z -> pd F j X Y Z l -> pd G j X Y Z l.
Proof.
  intros N H. destruct (near_slice _ X Y Z j N) as (d & Hd & K).
  rewrite pd_slice in *. intros eps He. destruct (H eps He) as (d' & Kd). exists (mkposreal (Rmin d d') (Rmin_glb_lt _ _ _ Hd (cond_pos d'))). cbn. intros h Nh Hh.
  assert (H1 : Rabs h < d) by (eapply Rlt_le_trans; [apply Hh|apply Rmin_l]). assert (H2 : Rabs h < d') by (eapply Rlt_le_trans; [apply Hh|apply Rmin_r]).
  assert (E1 := K h H1). assert (E0 := K 0 ltac:(rewrite Rabs_R0; auto)). specialize (Kd h Nh H2).
  destruct j; cbn [slice co] in *; rewrite ?Rplus_0_r in E0; rewrite E1, E0 in Kd; exact Kd.
Qed.
Lemma near_at P X Y Z : near P X Y Z -> P X Y Z.
Proof. intros (d & Hd & K). apply K; rewrite Rminus_diag_eq, Rabs_R0 by reflexivity; auto. Qed.
Lemma pd_S3prod (A W : d3 -> fn3) j X Y Z (a w : d3 -> R) : (forall i, pd (A i) j X Y Z (a i)) -> (forall i, pd (W i) j X Y Z (w i)) ->
  pd (fun X Y Z => S3 (fun i => A i X Y Z * W i X Y Z)) j X Y Z (S3 (fun i => a i * W i X Y Z + A i X Y Z * w i)).
Proof.
  intros HA HW.
  assert (P : forall i, pd (fun X Y Z => A i X Y Z * W i X Y Z) j X Y Z (a i * W i X Y Z + A i X Y Z * w i)).
  { intros i. specialize (HA i). specialize (HW i). destruct j; cbn [pd] in *.
    - apply (derivable_pt_lim_mult (fun t => A i t Y Z) (fun t => W i t Y Z)); auto.
    - apply (derivable_pt_lim_mult (fun t => A i X t Z) (fun t => W i X t Z)); auto.
    - apply (derivable_pt_lim_mult (fun t => A i X Y t) (fun t => W i X Y t)); auto. }
  assert (P1 := P D1). assert (P2 := P D2). assert (P3 := P D3). unfold S3. destruct j; cbn [pd] in *.
  - apply (derivable_pt_lim_plus (fun t => A D1 t Y Z * W D1 t Y Z + A D2 t Y Z * W D2 t Y Z) (fun t => A D3 t Y Z * W D3 t Y Z)); auto. now apply (derivable_pt_lim_plus (fun t => A D1 t Y Z * W D1 t Y Z) (fun t => A D2 t Y Z * W D2 t Y Z)).
  - apply (derivable_pt_lim_plus (fun t => A D1 X t Z * W D1 X t Z + A D2 X t Z * W D2 X t Z) (fun t => A D3 X t Z * W D3 X t Z)); auto. now apply (derivable_pt_lim_plus (fun t => A D1 X t Z * W D1 X t Z) (fun t => A D2 X t Z * W D2 X t Z)).
  - apply (derivable_pt_lim_plus (fun t => A D1 X Y t * W D1 X Y t + A D2 X Y t * W D2 X Y t) (fun t => A D3 X Y t * W D3 X Y t)); auto. now apply (derivable_pt_lim_plus (fun t => A D1 X Y t * W D1 X Y t) (fun t => A D2 X Y t * W D2 X Y t)).
Qed.
Lemma near_and P Q X Y Z : near P X Y Z -> near Q X Y Z -> near (fun X Y Z => P X Y Z /\ Q X Y Z) X Y Z.
Proof.
  intros (d & Hd & K) (d' & Hd' & K'). exists (Rmin d d'). split; [now apply Rmin_glb_lt|]. intros X' Y' Z' H1 H2 H3.
  assert (M1 := Rmin_l d d'). assert (M2 := Rmin_r d d'). split; [apply K|apply K']; lra.
Qed.
Lemma near_imp (P Q : R -> R -> R -> Prop) X Y Z : (forall X Y Z, P X Y Z -> Q X Y Z) -> near P X Y Z -> near Q X Y Z.
Proof. intros H (d & Hd & K). exists d. auto. Qed.
(** Hessian from the box derivatives *)
Lemma hessian_at C f X Y Z (gr : d3 -> fn3) (H : d3 -> d3 -> R) (W : d3 -> fn3) (WW : d3 -> d3 -> R) :
  near (inverse_jacobian C) X Y Z -> second_derivs C X Y Z ->
  near (fun X Y Z => diff3 f (x_of_X C D1 X Y Z) (x_of_X C D2 X Y Z) (x_of_X C D3 X Y Z) (fun m => pull C (gr m) X Y Z)) X Y Z ->
  (forall m, diff3 (gr m) (x_of_X C D1 X Y Z) (x_of_X C D2 X Y Z) (x_of_X C D3 X Y Z) (H m)) ->
  near (fun X Y Z => forall i, pd (pull C f) i X Y Z (W i X Y Z)) X Y Z -> (forall i j, pd (W i) j X Y Z (WW i j)) ->
  forall m n, d3_le m n -> S3 (fun i => (match ddX_dxdx C i m n with Some F => F X Y Z | None => 0 end) * W i X Y Z) + S3 (fun i => S3 (fun j => dX_dx C i m X Y Z * dX_dx C j n X Y Z * WW i j)) = H m n.
Proof.
  intros HJ HS Hf Hg HW HWW m n Hmn.
  assert (HN : near (fun X Y Z => S3 (fun i => dX_dx C i m X Y Z * W i X Y Z) = pull C (gr m) X Y Z) X Y Z).
  { eapply near_imp; [|apply near_and; [exact HJ|apply near_and; [exact Hf|exact HW]]]. cbv beta. intros X' Y' Z' (A & B & D). apply (gradient_at C f X' Y' Z' (fun m => pull C (gr m) X' Y' Z') (fun i => W i X' Y' Z')); auto. }
  destruct (HS D1 m n Hmn) as (F1 & G1 & EF1 & P1 & V1), (HS D2 m n Hmn) as (F2 & G2 & EF2 & P2 & V2), (HS D3 m n Hmn) as (F3 & G3 & EF3 & P3 & V3).
  set (G := fun i => match i with D1 => G1 | D2 => G2 | D3 => G3 end).
  assert (PG : forall i j, pd (dX_dx C i m) j X Y Z (G i j)) by (intros []; auto).
  destruct (jac_choice C X Y Z (near_at _ _ _ _ HJ)) as (J & A).
  assert (E : forall j, S3 (fun k => H m k * J j k) = S3 (fun i => G i j * W i X Y Z + dX_dx C i m X Y Z * WW i j)).
  { intros j. eapply (pd_unique (pull C (gr m)) j X Y Z). - apply pd_pull; auto. apply A.
    - apply (pd_near (fun X Y Z => S3 (fun i => dX_dx C i m X Y Z * W i X Y Z))); auto. apply (pd_S3prod (fun i => dX_dx C i m) W); auto. }
  assert (I := left_right (fun i k => dX_dx C i k X Y Z) (fun k j => J j k)). cbv beta in I. specialize (I (fun i j => proj2 (A j) i)).
  transitivity (S3 (fun j => S3 (fun i => G i j * W i X Y Z + dX_dx C i m X Y Z * WW i j) * dX_dx C j n X Y Z)).
  - unfold S3 at 1. rewrite EF1, EF2, EF3, V1, V2, V3. unfold S3. cbn [G]. ring.
  - transitivity (S3 (fun k => H m k * S3 (fun j => J j k * dX_dx C j n X Y Z))).
    + unfold S3 at 1. rewrite <- !E. unfold S3. ring.
    + unfold S3 at 1. rewrite !I. destruct n; cbn [delta]; ring.
Qed.

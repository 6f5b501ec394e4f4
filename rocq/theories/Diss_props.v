(** C112: numerical dissipation (addDissipation). *)
From Coquelicot Require Import Coquelicot.
From Verif Require Import Rutil Base Loops Coord_model Coord_spec Coord_props Cart_model Cart_spec Cart_proofs Cart3_proofs Cart_ex Cart_props Cart2_props Diss_model Diss_spec Diss_proofs.
Local Open Scope R_scope.
(** ** What is added: on every box, for every variable, at every point, the strength times the Laplacian of the current data; nothing else changes except the work variables *)
Definition dissipated (g : gvars) (t : work) (dt DissFac dtO : R) (ucs uns : list nat) (x y : gbox) : Prop :=
  gb y = gb x /\ gD y = gD x /\ (forall j, ~ In j uns -> ~ In j (works t) -> gv y j = gv x j) /\
  forall j ic in_ u k, nth_error ucs j = Some ic -> nth_error uns j = Some in_ -> gv x ic = Some u -> (k < nnodes (gb x))%nat ->
    cell (gv y) in_ k = cell (gv x) in_ k + strength dt DissFac dtO * laplacian (gb x) g (gv x) (gD x) u k.
Theorem C112_dissipation g t dt DissFac dtO ucs uns l : 0 < DissFac -> Forall (fun x => set_up (gb x) g (gD x) t ucs uns (gv x)) l ->
  exists l', addDissipation g t dt DissFac dtO ucs uns l = Ok l' /\ Forall2 (dissipated g t dt DissFac dtO ucs uns) l l'.
Proof.
  intros Hp H. unfold addDissipation. destruct (Rle_dec DissFac 0); [lra|].
  induction H as [|x l Hx Hl (l' & E & F)]; [exists []; split; auto|].
  destruct (diss_box_ok (gb x) g (gD x) t dt DissFac dtO ucs uns (gv x) Hx) as (v & Ev & Fv & Kv).
  exists (GBox (gb x) (gD x) v :: l'). split; [cbn [diss_boxes]; rewrite Ev; cbn [rbind]; rewrite E; reflexivity|].
  constructor; auto. repeat split; auto.
Qed.
Print Assumptions C112_dissipation.
(** A factor that is not positive switches it off. *)
Theorem C112_off g t dt DissFac dtO ucs uns l : DissFac <= 0 -> addDissipation g t dt DissFac dtO ucs uns l = Ok l.
Proof. intros H. unfold addDissipation. now destruct (Rle_dec DissFac 0). Qed.
Print Assumptions C112_off.

(** ** The two conventions for right-hand sides: after the call the target holds p + dt F, or F itself if dt is 0.  Either way dissipation replaces F by F + DissFac dt^order Laplacian *)
Definition rhs_result (dt p F x : R) : Prop := x = if Req_EM_T dt 0 then F else p + dt * F.
Theorem C112_rhs g t dt DissFac dtO ucs uns l l' : 0 < DissFac -> Forall (fun x => set_up (gb x) g (gD x) t ucs uns (gv x)) l -> addDissipation g t dt DissFac dtO ucs uns l = Ok l' ->
  forall n x y, nth_error l n = Some x -> nth_error l' n = Some y ->
  forall j ic in_ u k p F, nth_error ucs j = Some ic -> nth_error uns j = Some in_ -> gv x ic = Some u -> (k < nnodes (gb x))%nat ->
   rhs_result dt p F (cell (gv x) in_ k) -> rhs_result dt p (F + DissFac * dtO * laplacian (gb x) g (gv x) (gD x) u k) (cell (gv y) in_ k).
Proof.
  intros Hp H E n x y Nx Ny j ic in_ u k p F J1 J2 Eu Hk HR. destruct (C112_dissipation g t dt DissFac dtO ucs uns l Hp H) as (l2 & E2 & F2). rewrite E in E2. injection E2 as <-.
  assert (Q : dissipated g t dt DissFac dtO ucs uns x y). { clear - F2 Nx Ny. revert n Nx Ny. induction F2; intros [|n] Nx Ny; try discriminate; cbn [nth_error] in *; [congruence|eauto]. }
  destruct Q as (_ & _ & _ & Q). rewrite (Q j ic in_ u k J1 J2 Eu Hk). unfold rhs_result, strength in *. destruct (Req_EM_T dt 0); rewrite HR; ring.
Qed.
Print Assumptions C112_rhs.

(** ** The Laplacian: if the data are the values of a function f of x,y,z with gradient gr and second derivatives h, and the spectral derivatives of f and of its gradient are exact, the sum is f_xx + f_yy + f_zz *)
Definition posn (g : gvars) (v : vars) (C : coords) (k : nat) (F : fn3) : R := atX g v (pull C F) k.
Theorem C112_laplacian b g C D v u k f (gr : d3 -> fn3) (h : d3 -> d3 -> R) : coord b = Some C -> List.length u = nnodes b -> (forall j a, List.length a = nnodes b -> List.length (D j a) = nnodes b) -> (k < nnodes b)%nat ->
  (forall i, (i < nnodes b)%nat -> let X := cell v (vX g) i in let Y := cell v (vY g) i in let Z := cell v (vZ g) i in
    inverse_jacobian C X Y Z /\ diff3 f (x_of_X C D1 X Y Z) (x_of_X C D2 X Y Z) (x_of_X C D3 X Y Z) (fun m => pull C (gr m) X Y Z) /\ forall j, pd (pull C f) j X Y Z (nth i (D j u) 0)) ->
  (let X := cell v (vX g) k in let Y := cell v (vY g) k in let Z := cell v (vZ g) k in
    forall m, diff3 (gr m) (x_of_X C D1 X Y Z) (x_of_X C D2 X Y Z) (x_of_X C D3 X Y Z) (h m) /\
      forall j w, List.length w = nnodes b -> (forall i, (i < nnodes b)%nat -> nth i w 0 = posn g v C i (gr m)) -> pd (pull C (gr m)) j X Y Z (nth k (D j w) 0)) ->
  laplacian b g v D u k = h D1 D1 + h D2 D2 + h D3 D3.
Proof.
  intros EC Lu HD Hk H1 H2.
  assert (G : forall m i, (i < nnodes b)%nat -> nth i (cart_grad b g v D u m) 0 = posn g v C i (gr m)).
  { intros m i Hi. destruct (H1 i Hi) as (J & Df & Hp). unfold cart_grad. rewrite EC, nth_map_seq by auto. unfold posn, atX.
    apply (gradient_at C f _ _ _ (fun m => pull C (gr m) _ _ _) (fun j => nth i (D j u) 0)); auto. }
  assert (T : forall m, nth k (cart_grad b g v D (cart_grad b g v D u m) m) 0 = h m m).
  { intros m. destruct (H1 k Hk) as (J & _ & _). destruct (H2 m) as (Df & Hp). unfold cart_grad at 1. rewrite EC, nth_map_seq by auto. unfold atX.
    apply (gradient_at C (gr m) _ _ _ (h m) (fun j => nth k (D j (cart_grad b g v D u m)) 0)); auto. intros j. apply Hp; [now apply grad_len|]. intros i Hi. now apply G. }
  unfold laplacian, S3. now rewrite !T.
Qed.
Print Assumptions C112_laplacian.

(** ** Examples: two points, a derivative along X with D D = -1: the variable (3,5) is added with factor -strength to (10,20) *)
Definition dx_g : gvars := GVars 0 1 2 3 4 5 6 9 12 15 21 27.
Definition dx_t : work := Work 40 41 42 43 44 45 46 47 48.
Definition dx_D (j : d3) (a : list R) : list R := match j with D1 => [nth 1 a 0; - nth 0 a 0] | _ => [0; 0] end.
Definition dx_v : vars := fun i => if (i <? 3)%nat then Some [0; 1] else if (i <? 40)%nat then None else if (i <? 49)%nat then Some [7; 7] else if (i =? 50)%nat then Some [3; 5] else if (i =? 51)%nat then Some [10; 20] else None.
Definition dx_box : gbox := GBox (TBox 2 None) dx_D dx_v.
Lemma dx_set_up : set_up (gb dx_box) dx_g (gD dx_box) dx_t [50%nat] [51%nat] (gv dx_box).
Proof.
  constructor; cbn [gb gD gv dx_box nnodes Cart_model.coord List.length].
  - reflexivity.
  - intros i [<-|[]]. eexists. split; reflexivity.
  - intros i [<-|[]]. eexists. split; reflexivity.
  - repeat constructor; auto.
  - intros i [<-|[]] [E|[]]. discriminate.
  - intros i Hi. cbn in Hi. decompose [or] Hi; subst; try discriminate; tauto.
  - repeat constructor; cbn; lia.
  - intros i Hi. cbn in Hi |- *. lia.
  - intros i [<-|[]]. cbn. lia.
  - intros [] a Ha; reflexivity.
  - split; [|split]; [|intros H; now exfalso..]. intros i Hi. cbn in Hi. decompose [or] Hi; subst; try tauto; eexists; split; reflexivity.
  - discriminate.
Qed.
Example C112_ex dt dtO : dt <> 0 -> exists l v, addDissipation dx_g dx_t dt (1/50) dtO [50%nat] [51%nat] [dx_box] = Ok l /\ l = [GBox (TBox 2 None) dx_D v] /\
  cell v 51 0 = 10 - dt * (1/50) * dtO * 3 /\ cell v 51 1 = 20 - dt * (1/50) * dtO * 5 /\ v 50%nat = Some [3; 5].
Proof.
  intros Hdt. destruct (C112_dissipation dx_g dx_t dt (1/50) dtO [50%nat] [51%nat] [dx_box]) as (l & E & F); [lra|constructor; [apply dx_set_up|constructor]|].
  inversion F as [|x y l1 l2 (E1 & E2 & Fr & K) F2]; subst. inversion F2; subst. destruct y as [yb yD yv]. cbn [gb gD gv dx_box] in *. subst yb yD. exists [GBox (TBox 2 None) dx_D yv], yv. split; [exact E|]. split; [reflexivity|].
  assert (ST : strength dt (1/50) dtO = dt * (1/50) * dtO) by (unfold strength; destruct (Req_EM_T dt 0); [contradiction|reflexivity]).
  split; [|split].
  - rewrite (K 0%nat 50%nat 51%nat [3; 5] 0%nat) by (try reflexivity; cbn; lia). rewrite ST. unfold laplacian, S3, cart_grad. cbn. ring.
  - rewrite (K 0%nat 50%nat 51%nat [3; 5] 1%nat) by (try reflexivity; cbn; lia). rewrite ST. unfold laplacian, S3, cart_grad. cbn. ring.
  - apply Fr; cbn; lia.
Qed.
(** the Laplacian of z^2 in spherical coordinates at r = 2, theta = pi/3 (z = 1) is 2 *)
Definition lx_v : vars := fun i => if (i <? 43)%nat then Some [if (i =? 0)%nat then 2 else if (i =? 1)%nat then PI / 3 else 0] else None.
Definition lx_W (j : d3) : fn3 := fun r t p => match j with D1 => 2 * cos t | D2 => - (2 * r * sin t) | D3 => 0 end.
Definition lx_D (j : d3) (a : list R) : list R := [if Req_EM_T (nth 0 a 0) 1 then ex2_W j 2 (PI / 3) 0 else if Req_EM_T (nth 0 a 0) 2 then lx_W j 2 (PI / 3) 0 else 0].
Definition lx_gr (m : d3) : fn3 := fun x y z => match m with D3 => 2 * z | _ => 0 end.
Definition lx_h (m n : d3) : R := match m, n with D3, D3 => 2 | _, _ => 0 end.
Example C112_laplacian_ex : laplacian ex2_b ex_g lx_v lx_D [1] 0 = 2.
Proof.
  assert (S3_ : sin (PI / 3) <> 0). { assert (P := PI_RGT_0). apply Rgt_not_eq, sin_gt_0; lra. }
  rewrite (C112_laplacian ex2_b ex_g ex2_C lx_D lx_v [1] 0 ex2_f lx_gr lx_h).
  - unfold lx_h. ring.
  - reflexivity.
  - reflexivity.
  - intros j a _. reflexivity.
  - cbn. lia.
  - intros i Hi. cbn [ex2_b nnodes] in Hi. assert (i = 0%nat) by lia. subst i. cbn [ex_g vX vY vZ]. unfold cell. cbn [lx_v Nat.ltb Nat.leb Nat.eqb nth]. split; [apply C63_spherical; [lra|auto]|]. split.
    + intros eps He. destruct (diff3_zz (x_of_X ex2_C D1 2 (PI / 3) 0) (x_of_X ex2_C D2 2 (PI / 3) 0) (x_of_X ex2_C D3 2 (PI / 3) 0) eps He) as (d & Hd & K). exists d. split; [exact Hd|]. intros a b c A1 A2 A3. specialize (K a b c A1 A2 A3).
      eapply Rle_trans; [|exact K]. right. apply (f_equal Rabs). unfold ex2_f, pull, lx_gr. cbn [tab]. ring.
    + intros j. unfold lx_D. cbn [nth]. destruct (Req_EM_T 1 1); [|lra]. apply ex2_pd.
  - cbn [ex_g vX vY vZ]. unfold cell. cbn [lx_v Nat.ltb Nat.leb Nat.eqb nth]. intros m. split.
    + apply (diff3_ext (fun x y z => lx_h m D1 * x + lx_h m D2 * y + lx_h m D3 * z)); [intros; destruct m; cbn [lx_h lx_gr]; ring|]. apply diff3_lin.
    + intros j w Lw Hw. specialize (Hw 0%nat ltac:(cbn; lia)). unfold lx_D. cbn [nth]. set (q := nth 0 w 0) in *. clearbody q. unfold posn, atX, cell in Hw. cbn [ex_g vX vY vZ lx_v Nat.ltb Nat.leb Nat.eqb nth] in Hw.
      assert (Z1 : x_of_X ex2_C D3 2 (PI / 3) 0 = 1) by (unfold ex2_C; cbn [init_Coord x_of_X tab]; unfold z_ofSpherical; rewrite cos_PI3; field).
      unfold pull in Hw. rewrite Z1 in Hw. destruct m; cbn [lx_gr] in Hw.
      * destruct (Req_EM_T q 1); [lra|]. destruct (Req_EM_T q 2); [lra|]. unfold pull. destruct j; cbn [pd]; apply derivable_pt_lim_const.
      * destruct (Req_EM_T q 1); [lra|]. destruct (Req_EM_T q 2); [lra|]. unfold pull. destruct j; cbn [pd]; apply derivable_pt_lim_const.
      * destruct (Req_EM_T q 1); [lra|]. destruct (Req_EM_T q 2); [|lra]. unfold pull, ex2_C. cbn [init_Coord x_of_X tab lx_gr]. unfold z_ofSpherical, lx_W. destruct j; cbn [pd]; apply is_derive_Reals; auto_derive; trivial; ring.
Qed.

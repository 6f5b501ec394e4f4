(** C65: second Cartesian derivatives; C66: derivatives of tensors. *)
From Verif Require Import Rutil Base Loops Sparse_model Arrays Coord_model Coord_spec Coord_props Cart_model Cart_spec Cart_proofs Cart2_proofs Cart3_proofs Cart_props Cart_ex.
Local Open Scope R_scope.
(** the nine target variables of cart_partial_all *)
Definition targets (i1 i2 i3 : nat) (a : nat -> nat) : list nat := [i1; i2; i3; a 0; a 1; a 2; a 3; a 4; a 5]%nat.
Lemma targets_nine i1 i2 i3 a : nine (tab i1 i2 i3) a = targets i1 i2 i3 a. Proof. reflexivity. Qed.
(** cart_partial_all: the targets get the combinations of box derivatives for first and second derivatives at every point, whether the coordinate derivatives are stored or computed; nothing else changes *)
Theorem C65_cart_partial_all : forall b g D DD iu i1 i2 i3 a v u, let t := targets i1 i2 i3 a in
  v iu = Some u -> List.length u = nnodes b -> (forall i, In i t -> v i <> None) ->
  (forall j x, List.length x = nnodes b -> List.length (D j x) = nnodes b) -> (forall j k x, List.length x = nnodes b -> List.length (DD j k x) = nnodes b) ->
  NoDup t -> (forall i, In i t -> ~ In i (gvar_list g)) -> ready (nnodes b) g v -> (forall C, coord b = Some C -> tables_hold (nnodes b) g C v /\ has_second C) ->
  exists v', cart_partial_all b g D DD iu i1 i2 i3 a v = Ok v' /\ (forall m, v' (tab i1 i2 i3 m) = Some (cart_grad b g v D u m)) /\
  (forall m n, d3_le m n -> v' (a (pair6 m n)) = Some (cart_hess b g v D DD u m n)) /\ (forall j, ~ In j t -> v' j = v j).
Proof.
  intros b g D DD iu i1 i2 i3 a v u t Eu Lu Ha HD HDD ND Hg R T. apply cart_partial_all_ok; auto. unfold hold2. destruct (coord b); auto.
Qed.
Print Assumptions C65_cart_partial_all.
(** a coordinate system without second derivatives (Polar, PolarCE) is refused *)
Theorem C65_no_second : forall b g D DD iu i1 i2 i3 a v u C, let t := targets i1 i2 i3 a in
  v iu = Some u -> (forall i, In i t -> v i <> None) -> NoDup t -> coord b = Some C -> ddX_dxdx C D1 D1 D1 = None -> cart_partial_all b g D DD iu i1 i2 i3 a v = Err.
Proof.
  intros b g D DD iu i1 i2 i3 a v u C t Eu Ha ND EC E. unfold cart_partial_all. destruct (all_derivs_ok D DD iu (tab i1 i2 i3) a v u Eu Ha ND) as (w & Ew & _). rewrite Ew. cbn [rbind]. now rewrite EC, E.
Qed.
Print Assumptions C65_no_second.
(** If the variable holds the values of a function f of x,y,z with gradient gr near the point and second derivatives H at the point, and the spectral first and second derivatives are exact there (W are the first derivatives of f in the box coordinates near the point), the results are gradient and second derivatives of f. *)
Theorem C65_hessian : forall b g C D DD iu i1 i2 i3 a v u v', let t := targets i1 i2 i3 a in
  v iu = Some u -> List.length u = nnodes b -> (forall i, In i t -> v i <> None) ->
  (forall j x, List.length x = nnodes b -> List.length (D j x) = nnodes b) -> (forall j k x, List.length x = nnodes b -> List.length (DD j k x) = nnodes b) ->
  NoDup t -> (forall i, In i t -> ~ In i (gvar_list g)) -> ready (nnodes b) g v -> coord b = Some C -> tables_hold (nnodes b) g C v -> has_second C ->
  cart_partial_all b g D DD iu i1 i2 i3 a v = Ok v' ->
  forall ind f (gr : d3 -> fn3) (H : d3 -> d3 -> R) (W : d3 -> fn3), (ind < nnodes b)%nat -> let X := cell v (vX g) ind in let Y := cell v (vY g) ind in let Z := cell v (vZ g) ind in
  near (inverse_jacobian C) X Y Z -> second_derivs C X Y Z ->
  near (fun X Y Z => diff3 f (x_of_X C D1 X Y Z) (x_of_X C D2 X Y Z) (x_of_X C D3 X Y Z) (fun m => pull C (gr m) X Y Z)) X Y Z ->
  (forall m, diff3 (gr m) (x_of_X C D1 X Y Z) (x_of_X C D2 X Y Z) (x_of_X C D3 X Y Z) (H m)) ->
  near (fun X Y Z => forall i, pd (pull C f) i X Y Z (W i X Y Z)) X Y Z ->
  (forall i, nth ind (D i u) 0 = W i X Y Z) -> (forall i j, d3_le i j -> pd (W i) j X Y Z (nth ind (DD i j u) 0) /\ pd (W j) i X Y Z (nth ind (DD i j u) 0)) ->
  (forall m, cell v' (tab i1 i2 i3 m) ind = pull C (gr m) X Y Z) /\ (forall m n, d3_le m n -> cell v' (a (pair6 m n)) ind = H m n).
Proof.
  intros b g C D DD iu i1 i2 i3 a v u v' t Eu Lu Ha HD HDD ND Hg R EC T HS Ev ind f gr H W Hi X Y Z HJ H2 Hf Hgr HW EW HWW.
  destruct (cart_partial_all_ok b g D DD iu i1 i2 i3 a v u) as (v'' & E & K1 & K2 & _); auto. { unfold hold2. now rewrite EC. }
  rewrite E in Ev. injection Ev as <-. split.
  - intros m. unfold cell. rewrite K1. unfold cart_grad. rewrite EC, nth_map_seq by auto. unfold atX. fold X Y Z.
    apply (gradient_at C f X Y Z (fun m => pull C (gr m) X Y Z) (fun i => nth ind (D i u) 0)). + now apply near_at in HJ. + now apply near_at in Hf. + intros i. rewrite EW. now apply near_at with (P := fun X Y Z => forall i, pd (pull C f) i X Y Z (W i X Y Z)) in HW.
  - intros m n Hmn. unfold cell. rewrite K2 by auto. rewrite (cart_hess_some _ _ _ _ _ _ _ _ C EC), nth_map_seq by auto. unfold ddval, atX. fold X Y Z.
    rewrite <- (hessian_at C f X Y Z gr H W (fun i j => nth ind (if (d3_nat i <=? d3_nat j)%nat then DD i j u else DD j i u) 0) HJ H2 Hf Hgr HW) with (m := m) (n := n); auto.
    + unfold S3. rewrite !EW. reflexivity.
    + intros i j. destruct (d3_nat i <=? d3_nat j)%nat eqn:El. * apply d3_total in El. now apply HWW. * apply d3_total' in El. now apply HWW.
Qed.
Print Assumptions C65_hessian.

(** *** a box in spherical coordinates with the point r=2, theta=pi/2, phi=0, stored first and second derivatives, and the function z^2 = r^2 cos(theta)^2 *)
Definition ex2_v : vars := fun i => if (i <? 43)%nat then Some [if (i =? 0)%nat then 2 else if (i =? 1)%nat then PI / 2 else 0] else None.
Definition ex2_b := TBox 1 (Some ex2_C).
Definition ex2_D (i : d3) (_ : list R) : list R := [0].
Definition ex2_DD (i j : d3) (_ : list R) : list R := [ex2_w i j].
Lemma ex2_len i : (i < 43)%nat -> len ex2_v i 1.
Proof. intros H. unfold len, ex2_v. destruct (Nat.ltb_spec i 43); [|lia]. eexists. split; reflexivity. Qed.
Lemma ex2_second : has_second ex2_C.
Proof. intros i m n H. unfold d3_le in H. destruct i, m, n; cbn in *; try lia; discriminate. Qed.
Lemma ex2_near (P : R -> R -> R -> Prop) : (forall X Y Z, 0 < X -> sin Y <> 0 -> P X Y Z) -> near P 2 (PI / 2) 0.
Proof.
  intros H. exists 1. split; [lra|]. intros X Y Z H1 H2 _. apply H. - apply Rabs_def2 in H1. lra.
  - apply Rabs_def2 in H2. assert (P1 := PI2_1). apply Rgt_not_eq, sin_gt_0; lra.
Qed.
Lemma diff3_zz x y z : diff3 (fun _ _ z => z * z) x y z (tab 0 0 (2 * z)).
Proof.
  intros eps He. exists eps. split; [lra|]. intros a b c _ _ Hc. cbn [tab]. replace (_ - _ - _) with (c * c) by ring. rewrite Rabs_mult. assert (A := Rabs_pos a). assert (B := Rabs_pos b). assert (C := Rabs_pos c). nra.
Qed.
Lemma diff3_lin (k : d3 -> R) x y z : diff3 (fun x y z => k D1 * x + k D2 * y + k D3 * z) x y z k.
Proof.
  intros eps He. exists 1. split; [lra|]. intros a b c _ _ _. replace (_ - _ - _) with 0 by ring. rewrite Rabs_R0. assert (A := Rabs_pos a). assert (B := Rabs_pos b). assert (C := Rabs_pos c). nra.
Qed.
Lemma diff3_ext f f' x y z g : (forall x y z, f x y z = f' x y z) -> diff3 f x y z g -> diff3 f' x y z g.
Proof. intros E H eps He. destruct (H eps He) as (d & Hd & K). exists d. split; auto. intros. rewrite <- !E. now apply K. Qed.
Definition ex2_f : fn3 := fun _ _ z => z * z.
Definition ex2_H (m n : d3) : R := match m, n with D3, D3 => 2 | _, _ => 0 end.
Definition ex2_gr (m : d3) : fn3 := fun x y z => ex2_H m D1 * x + ex2_H m D2 * y + ex2_H m D3 * z.
Example C65_hessian_ex : exists v v', compute_xyz ex2_b ex_g ex2_v = Ok v /\ cart_partial_all ex2_b ex_g ex2_D ex2_DD 33 34 35 36 (fun k => 37 + k)%nat v = Ok v' /\
  (forall m n, d3_le m n -> cell v' (37 + pair6 m n) 0 = ex2_H m n).
Proof.
  destruct (C64_coordinates_stored ex2_b ex_g ex2_C ex2_v eq_refl ex_layout) as (v & E & T & _ & F & R & _ & _).
  { split; [|split]. - intros i Hi. cbn in Hi. apply ex2_len. lia. - intros _ k Hk. apply ex2_len. cbn. lia. - intros _ k Hk. apply ex2_len. cbn. lia. }
  { intros i Hi. apply ex2_len. cbn in Hi. lia. } { intros _. apply ex2_second. }
  assert (Fv : forall j, (33 <= j)%nat -> v j = ex2_v j). { intros j Hj. apply F. left. change (gvar_list ex_g) with (seq 0 33). rewrite in_seq. lia. }
  assert (FX : forall i, In i [0; 1; 2]%nat -> v i = ex2_v i). { intros i Hi. apply F. right. exact Hi. }
  set (t := targets 34 35 36 (fun k => 37 + k)%nat). assert (Ht : forall i, In i t -> (34 <= i < 43)%nat) by (cbn; lia).
  assert (Hu : v 33%nat = Some [0]) by (rewrite Fv by lia; reflexivity).
  assert (Ha : forall i, In i t -> v i <> None). { intros i Hi. apply Ht in Hi. rewrite Fv by lia. destruct (ex2_len i ltac:(lia)) as (x & Ex & _). congruence. }
  assert (ND : NoDup t) by (change t with (seq 34 9); apply seq_NoDup).
  assert (Hg : forall i, In i t -> ~ In i (gvar_list ex_g)). { intros i Hi A. apply Ht in Hi. change (gvar_list ex_g) with (seq 0 33) in A. apply in_seq in A. lia. }
  destruct (C65_cart_partial_all ex2_b ex_g ex2_D ex2_DD 33 34 35 36 (fun k => 37 + k)%nat v [0]) as (v' & E' & _); auto.
  { intros C EC. injection EC as <-. split; [exact T|apply ex2_second]. }
  exists v, v'. split; auto. split; auto.
  destruct (C65_hessian ex2_b ex_g ex2_C ex2_D ex2_DD 33 34 35 36 (fun k => 37 + k)%nat v [0] v') with (ind := 0%nat) (f := ex2_f) (gr := ex2_gr) (H := ex2_H) (W := ex2_W) as (_ & K); auto; try exact ex2_second.
  all: cbn [ex_g vX vY vZ]; unfold cell; rewrite ?FX by (cbn; auto); cbn [ex2_v Nat.ltb Nat.leb Nat.eqb nth].
  - apply ex2_near. intros X Y Z HX HY. now apply C63_spherical.
  - apply C63_spherical; [lra|]. rewrite sin_PI2. lra.
  - apply ex2_near. intros X Y Z _ _. assert (Q := diff3_zz (x_of_X ex2_C D1 X Y Z) (x_of_X ex2_C D2 X Y Z) (x_of_X ex2_C D3 X Y Z)).
    intros eps He. destruct (Q eps He) as (d & Hd & K). exists d. split; auto. intros a b c A1 A2 A3. specialize (K a b c A1 A2 A3). unfold pull, ex2_gr. cbn [ex2_H tab] in *.
    eapply Rle_trans; [|exact K]. right. f_equal. unfold ex2_f. ring.
  - intros m. apply diff3_lin.
  - apply ex2_near. intros. apply ex2_pd.
  - intros i. unfold ex2_D, ex2_W. cbn [nth]. rewrite cos_PI2. destruct i; ring.
  - intros i j _. split; [apply ex2_dd|]. unfold ex2_DD. cbn [nth]. replace (ex2_w i j) with (ex2_w j i) by (now destruct i, j). apply ex2_dd.
Qed.

(** *** C66: tensors with nc consecutive components (1: scalar, 3: vector, 6: symmetric tensor) *)
Lemma cart_grad_sameg b g v w D u m : sameg g v w -> cart_grad b g w D u m = cart_grad b g v D u m.
Proof. intros H. unfold cart_grad. destruct (coord b); auto. apply map_ext. intros ind. unfold S3. now rewrite !(sameg_atX g v w) by auto. Qed.
Lemma cart_hess_sameg b g v w D DD u m n : sameg g v w -> cart_hess b g w D DD u m n = cart_hess b g v D DD u m n.
Proof.
  intros H. unfold cart_hess. destruct (coord b) as [C|]; auto. apply map_ext. intros ind. unfold S3. rewrite !(sameg_atX g v w) by auto.
  assert (Q : forall o : option fn3, match o with Some F => atX g w F ind | None => 0 end = match o with Some F => atX g v F ind | None => 0 end). { intros [F|]; auto. now apply sameg_atX. }
  now rewrite !Q.
Qed.
Lemma sameg_hold b g v w : sameg g v w -> hold b g v -> hold b g w.
Proof. intros H. unfold hold. destruct (coord b); auto. now apply sameg_tables. Qed.
Lemma sameg_hold2 b g v w : sameg g v w -> hold2 b g v -> hold2 b g w.
Proof. intros H. unfold hold2. destruct (coord b); auto. intros (A & B). split; auto. now apply sameg_tables with v. Qed.
Lemma cart_grad_len b g v D u m : (forall j a, List.length a = nnodes b -> List.length (D j a) = nnodes b) -> List.length u = nnodes b -> List.length (cart_grad b g v D u m) = nnodes b.
Proof. intros HD Lu. unfold cart_grad. destruct (coord b); auto. now rewrite map_length, seq_length. Qed.
(** i is outside the n variables from lo on *)
Definition outside (i lo n : nat) : Prop := (i < lo \/ lo + n <= i)%nat.
(** storage of the tensor components and of the derivatives, coordinate variables apart from the derivatives *)
Definition tensor_ready (nc : nat) (b : tbox) (g : gvars) (iS idS nd : nat) (u : nat -> list R) (v : vars) : Prop :=
  (forall k, (k < nc)%nat -> v (iS + k)%nat = Some (u k) /\ List.length (u k) = nnodes b /\ outside (iS + k) idS nd) /\
  (forall i, (idS <= i < idS + nd)%nat -> v i <> None) /\ (forall c, In c (gvar_list g) -> outside c idS nd).

Lemma tab_ix' (j : nat) m : tab j (j + 1)%nat (j + 2)%nat m = (j + ix m)%nat. Proof. destruct m; cbn; lia. Qed.
Lemma ix_inj m m' : ix m = ix m' -> m = m'. Proof. destruct m, m'; cbn; congruence. Qed.
Theorem C66_first : forall nc b g D iS idS u v, (forall j a, List.length a = nnodes b -> List.length (D j a) = nnodes b) ->
  tensor_ready nc b g iS idS (3 * nc) u v -> ready (nnodes b) g v -> (forall C, coord b = Some C -> tables_hold (nnodes b) g C v) ->
  exists v', FirstDerivsOf nc b g D iS idS v = Ok v' /\ (forall k m, (k < nc)%nat -> v' (idS + 3 * k + ix m)%nat = Some (cart_grad b g v D (u k) m)) /\ (forall i, outside i idS (3 * nc) -> v' i = v i).
Proof.
  intros nc b g D iS idS u v HD (HS & Ha & Hg) R T. assert (T' : hold b g v) by (unfold hold; destruct (coord b); auto).
  destruct (for_nat_inv (fun j w => (forall k m, (k < j)%nat -> w (idS + 3 * k + ix m)%nat = Some (cart_grad b g v D (u k) m)) /\ (forall i, outside i idS (3 * j) -> w i = v i))
    (fun k => cart_partials b g D (iS + k) (idS + 3 * k) (idS + 3 * k + 1) (idS + 3 * k + 2)) 0 nc v ltac:(lia)) as (v' & E & A & B).
  - split; [intros; lia|auto].
  - intros j w Hj (A & B). unfold outside in *. destruct (HS j ltac:(lia)) as (Ej & Lj & Oj).
    assert (Sg : sameg g v w). { intros c Hc. apply B. specialize (Hg c Hc). lia. }
    destruct (cart_partials_ok b g D (iS + j) (idS + 3 * j) (idS + 3 * j + 1) (idS + 3 * j + 2) w (u j)) as (w' & E & K & F); auto.
    + rewrite B by lia. exact Ej.
    + intros m. rewrite tab_ix'. assert (X := ix_lt m). rewrite B by lia. apply Ha. lia.
    + intros m m'. rewrite !tab_ix'. intros X. apply ix_inj. lia.
    + intros m. rewrite tab_ix'. assert (X := ix_lt m). lia.
    + intros m I. rewrite tab_ix' in I. assert (X := ix_lt m). specialize (Hg _ I). lia.
    + now apply sameg_ready with v.
    + now apply sameg_hold with v.
    + exists w'. split; auto. split.
      * intros k m Hk. destruct (Nat.eq_dec k j) as [->|N].
        -- specialize (K m). rewrite tab_ix' in K. rewrite K. f_equal. now apply cart_grad_sameg.
        -- rewrite F. ++ apply A. lia. ++ intros m'. rewrite tab_ix'. assert (X := ix_lt m). assert (X' := ix_lt m'). lia.
      * intros i Hi. rewrite F. -- apply B. lia. -- intros m. rewrite tab_ix'. assert (X := ix_lt m). lia.
  - exists v'. auto.
Qed.
Print Assumptions C66_first.
(** one component: the three calls leave the second derivative dd_{mn} (m<=n) = d/dx_m of the first derivative d/dx_n *)
Lemma second_one b g D idS iddS k w (d : d3 -> list R) : (forall j a, List.length a = nnodes b -> List.length (D j a) = nnodes b) ->
  (forall m, w (idS + 3 * k + ix m)%nat = Some (d m) /\ List.length (d m) = nnodes b /\ outside (idS + 3 * k + ix m) (iddS + 6 * k) 6) -> (forall i, (iddS + 6 * k <= i < iddS + 6 * k + 6)%nat -> w i <> None) ->
  (forall c, In c (gvar_list g) -> outside c (iddS + 6 * k) 6) -> ready (nnodes b) g w -> hold b g w ->
  exists w', second_of_first b g D idS iddS k w = Ok w' /\ (forall m n, d3_le m n -> w' (iddS + 6 * k + pair6 m n)%nat = Some (cart_grad b g w D (d n) m)) /\ (forall i, outside i (iddS + 6 * k) 6 -> w' i = w i).
Proof.
  intros HD Hd Ha Hg R T. unfold second_of_first, outside in *.
  set (dd := fun c => (iddS + 6 * k + c)%nat). set (ds := fun c => (idS + 3 * k + c)%nat).
  assert (G : forall (x : vars) c j1 j2 j3, (forall i, (i < iddS + 6 * k \/ iddS + 6 * k + 6 <= i)%nat -> x i = w i) -> (forall i, (iddS + 6 * k <= i < iddS + 6 * k + 6)%nat -> x i <> None) -> (j1 < j2)%nat -> (j2 < j3)%nat -> (j3 < 6)%nat ->
    exists x', cart_partials b g D (ds (ix c)) (dd j1) (dd j2) (dd j3) x = Ok x' /\ (forall m, x' (dd (tab j1 j2 j3 m)) = Some (cart_grad b g w D (d c) m)) /\ (forall i, i <> dd j1 -> i <> dd j2 -> i <> dd j3 -> x' i = x i) /\ (forall i, (iddS + 6 * k <= i < iddS + 6 * k + 6)%nat -> x' i <> None)).
  { intros x c j1 j2 j3 Hx Hxa L1 L2 L3. destruct (Hd c) as (Ec & Lc & Oc).
    assert (Sg : sameg g w x). { intros c' Hc. apply Hx. specialize (Hg _ Hc). lia. }
    assert (Et : forall m, tab (dd j1) (dd j2) (dd j3) m = dd (tab j1 j2 j3 m)) by (now intros []).
    assert (Lt : forall m, (tab j1 j2 j3 m < 6)%nat) by (intros []; cbn; lia).
    destruct (cart_partials_ok b g D (ds (ix c)) (dd j1) (dd j2) (dd j3) x (d c)) as (x' & E & K & F); auto.
    - rewrite Hx by (unfold ds; lia). exact Ec.
    - intros m. rewrite Et. specialize (Lt m). apply Hxa. unfold dd. lia.
    - intros m m'. rewrite !Et. unfold dd. intros X. destruct m, m'; cbn in X; try reflexivity; lia.
    - intros m. rewrite Et. specialize (Lt m). unfold ds, dd. lia.
    - intros m I. rewrite Et in I. specialize (Lt m). specialize (Hg _ I). unfold dd in Hg. lia.
    - now apply sameg_ready with w. - now apply sameg_hold with w.
    - exists x'. split; auto. split; [|split].
      + intros m. rewrite <- Et, K. f_equal. now apply cart_grad_sameg.
      + intros i H1 H2 H3. apply F. intros []; cbn; auto.
      + intros i Hi. destruct (Nat.eq_dec i (dd j1)) as [->|N1]; [assert (Z := K D1); cbn [tab] in Z; rewrite Z; discriminate|]. destruct (Nat.eq_dec i (dd j2)) as [->|N2]; [assert (Z := K D2); cbn [tab] in Z; rewrite Z; discriminate|]. destruct (Nat.eq_dec i (dd j3)) as [->|N3]; [assert (Z := K D3); cbn [tab] in Z; rewrite Z; discriminate|].
        rewrite F; auto. intros []; cbn; auto. }
  destruct (G w D1 0%nat 1%nat 2%nat) as (x1 & E1 & K1 & F1 & A1); auto. 
  destruct (G x1 D2 1%nat 3%nat 4%nat) as (x2 & E2 & K2 & F2 & A2); auto. { intros i Hi. apply F1; unfold dd; lia. }
  destruct (G x2 D3 2%nat 4%nat 5%nat) as (x3 & E3 & K3 & F3 & A3); auto. { intros i Hi. rewrite F2 by (unfold dd; lia). apply F1; unfold dd; lia. }
  exists x3. cbn [ix] in *. rewrite E1. cbn [rbind]. rewrite E2. cbn [rbind]. split; auto. split.
  - intros m n L. unfold d3_le in L. fold (dd (pair6 m n)). destruct m, n; cbn [d3_nat] in L; try lia; cbn [pair6].
    + rewrite F3, F2 by (unfold dd; lia). apply (K1 D1). + rewrite F3 by (unfold dd; lia). apply (K2 D1). + apply (K3 D1). + rewrite F3 by (unfold dd; lia). apply (K2 D2). + apply (K3 D2). + apply (K3 D3).
  - intros i Hi. unfold outside, dd in *. rewrite F3 by lia. rewrite F2 by lia. apply F1; lia.
Qed.
Theorem C66_first_and_second : forall nc b g D iS idS iddS u v, (forall j a, List.length a = nnodes b -> List.length (D j a) = nnodes b) ->
  tensor_ready nc b g iS idS (3 * nc) u v -> (forall i, (iddS <= i < iddS + 6 * nc)%nat -> v i <> None /\ outside i idS (3 * nc)) -> (forall c, In c (gvar_list g) -> outside c iddS (6 * nc)) ->
  ready (nnodes b) g v -> (forall C, coord b = Some C -> tables_hold (nnodes b) g C v) ->
  exists v', FirstAndSecondDerivsOf nc b g D iS idS iddS v = Ok v' /\ (forall k m, (k < nc)%nat -> v' (idS + 3 * k + ix m)%nat = Some (cart_grad b g v D (u k) m)) /\
  (forall k m n, (k < nc)%nat -> d3_le m n -> v' (iddS + 6 * k + pair6 m n)%nat = Some (cart_grad b g v D (cart_grad b g v D (u k) n) m)) /\
  (forall i, outside i idS (3 * nc) -> outside i iddS (6 * nc) -> v' i = v i).
Proof.
  intros nc b g D iS idS iddS u v HD TR Hdd Hgd R T. destruct (C66_first nc b g D iS idS u v HD TR R T) as (w & E & K & F). destruct TR as (HS & Ha & Hg).
  unfold FirstAndSecondDerivsOf. rewrite E. cbn [rbind]. assert (T' : hold b g v) by (unfold hold; destruct (coord b); auto).
  assert (Sg : sameg g v w). { intros c Hc. apply F. auto. }
  assert (O : forall k m, (k < nc)%nat -> outside (idS + 3 * k + ix m) iddS (6 * nc)).
  { intros k m Hk. assert (X := ix_lt m). unfold outside. destruct (Nat.lt_ge_cases (idS + 3 * k + ix m) iddS) as [|H1]; auto. destruct (Nat.le_gt_cases (iddS + 6 * nc) (idS + 3 * k + ix m)) as [|H2]; auto. destruct (Hdd (idS + 3 * k + ix m)%nat ltac:(lia)) as (_ & Q). unfold outside in Q. lia. }
  destruct (for_nat_inv (fun j x => (forall k m n, (k < j)%nat -> d3_le m n -> x (iddS + 6 * k + pair6 m n)%nat = Some (cart_grad b g v D (cart_grad b g v D (u k) n) m)) /\ (forall i, outside i iddS (6 * j) -> x i = w i))
    (second_of_first b g D idS iddS) 0 nc w ltac:(lia)) as (v' & E' & A & B).
  - split; [intros; lia|auto].
  - intros j x Hj (A & B). assert (Sx : sameg g v x). { intros c Hc. rewrite B. - now apply Sg. - specialize (Hgd c Hc). unfold outside in *. lia. }
    destruct (second_one b g D idS iddS j x (fun m => cart_grad b g v D (u j) m)) as (x' & Ex & Kx & Fx); auto.
    + intros m. specialize (O j m ltac:(lia)). unfold outside in *. rewrite B by lia. split; [apply K; lia|]. split; [|lia]. apply cart_grad_len; auto. now apply HS.
    + intros i Hi. rewrite B by (unfold outside; lia). destruct (Hdd i ltac:(lia)) as (H1 & H2). now rewrite F.
    + intros c Hc. specialize (Hgd c Hc). unfold outside in *. lia.
    + now apply sameg_ready with v. + now apply sameg_hold with v.
    + exists x'. split; auto. split.
      * intros k m n Hk L. destruct (Nat.eq_dec k j) as [->|N]. -- rewrite Kx by auto. f_equal. now apply cart_grad_sameg. -- rewrite Fx. ++ apply A; auto. lia. ++ assert (X := pair6_lt m n). unfold outside. lia.
      * intros i Hi. rewrite Fx. -- apply B. unfold outside in *. lia. -- unfold outside in *. lia.
  - exists v'. split; auto. split; [|split]; auto.
    + intros k m Hk. rewrite B by auto. auto. + intros i H1 H2. rewrite B by auto. auto.
Qed.
Print Assumptions C66_first_and_second.
Theorem C66_all : forall nc b g D DD iS idS iddS u v, (forall j a, List.length a = nnodes b -> List.length (D j a) = nnodes b) -> (forall j k x, List.length x = nnodes b -> List.length (DD j k x) = nnodes b) ->
  tensor_ready nc b g iS idS (3 * nc) u v -> (forall k, (k < nc)%nat -> outside (iS + k) iddS (6 * nc)) -> (forall i, (iddS <= i < iddS + 6 * nc)%nat -> v i <> None /\ outside i idS (3 * nc)) -> (forall c, In c (gvar_list g) -> outside c iddS (6 * nc)) ->
  ready (nnodes b) g v -> (forall C, coord b = Some C -> tables_hold (nnodes b) g C v /\ has_second C) ->
  exists v', allDerivsOf nc b g D DD iS idS iddS v = Ok v' /\ (forall k m, (k < nc)%nat -> v' (idS + 3 * k + ix m)%nat = Some (cart_grad b g v D (u k) m)) /\
  (forall k m n, (k < nc)%nat -> d3_le m n -> v' (iddS + 6 * k + pair6 m n)%nat = Some (cart_hess b g v D DD (u k) m n)) /\
  (forall i, outside i idS (3 * nc) -> outside i iddS (6 * nc) -> v' i = v i).
Proof.
  intros nc b g D DD iS idS iddS u v HD HDD (HS & Ha & Hg) HSd Hdd Hgd R T. assert (T' : hold2 b g v) by (unfold hold2; destruct (coord b); auto).
  assert (O : forall k m, (k < nc)%nat -> outside (idS + 3 * k + ix m) iddS (6 * nc)).
  { intros k m Hk. assert (X := ix_lt m). unfold outside. destruct (Nat.lt_ge_cases (idS + 3 * k + ix m) iddS) as [|H1]; auto. destruct (Nat.le_gt_cases (iddS + 6 * nc) (idS + 3 * k + ix m)) as [|H2]; auto. destruct (Hdd (idS + 3 * k + ix m)%nat ltac:(lia)) as (_ & Q). unfold outside in Q. lia. }
  unfold allDerivsOf.
  destruct (for_nat_inv (fun j x => (forall k m, (k < j)%nat -> x (idS + 3 * k + ix m)%nat = Some (cart_grad b g v D (u k) m)) /\
      (forall k m n, (k < j)%nat -> d3_le m n -> x (iddS + 6 * k + pair6 m n)%nat = Some (cart_hess b g v D DD (u k) m n)) /\ (forall i, outside i idS (3 * j) -> outside i iddS (6 * j) -> x i = v i))
    (fun k => cart_partial_all b g D DD (iS + k) (idS + 3 * k) (idS + 3 * k + 1) (idS + 3 * k + 2) (fun c => iddS + 6 * k + c)%nat) 0 nc v ltac:(lia)) as (v' & E' & A & B & F).
  - split; [intros; lia|]. split; [intros; lia|auto].
  - intros j x Hj (A & B & F). destruct (HS j ltac:(lia)) as (Ej & Lj & Oj). specialize (HSd j ltac:(lia)).
    assert (Sx : sameg g v x). { intros c Hc. specialize (Hg c Hc). specialize (Hgd c Hc). apply F; unfold outside in *; lia. }
    set (a := fun c => (iddS + 6 * j + c)%nat). set (du := tab (idS + 3 * j)%nat (idS + 3 * j + 1)%nat (idS + 3 * j + 2)%nat).
    assert (N9 : forall i, In i (nine du a) <-> (exists m, i = (idS + 3 * j + ix m)%nat) \/ (iddS + 6 * j <= i < iddS + 6 * j + 6)%nat).
    { intros i. unfold nine, du, a. cbn [tab In]. split.
      - intros H. repeat (destruct H as [<-|H]; [try (right; lia); left; first [exists D1; cbn; lia|exists D2; cbn; lia|exists D3; cbn; lia]|]). destruct H.
      - intros [([] & ->)|H]; cbn [ix]; lia. }
    assert (O1 := O j D1 ltac:(lia)). assert (O2 := O j D2 ltac:(lia)). assert (O3 := O j D3 ltac:(lia)). cbn [ix] in O1, O2, O3. unfold outside in *.
    destruct (cart_partial_all_ok b g D DD (iS + j) (idS + 3 * j) (idS + 3 * j + 1) (idS + 3 * j + 2) a x (u j)) as (x' & Ex & K1 & K2 & Fx); auto; fold du.
    + rewrite F by lia. exact Ej.
    + intros i Hi. apply N9 in Hi as [(m & ->)|Hi]; [assert (X := ix_lt m); assert (O' := O j m ltac:(lia)); rewrite F by lia; apply Ha; lia|]. destruct (Hdd i ltac:(lia)) as (H1 & H2). rewrite F by lia. auto.
    + unfold nine, du, a. cbn [tab]. repeat (constructor; [cbn [In]; lia|]). constructor.
    + intros i Hi I. specialize (Hg _ I). specialize (Hgd _ I). apply N9 in Hi as [(m & ->)|Hi]; [assert (X := ix_lt m); lia|lia].
    + now apply sameg_ready with v. + now apply sameg_hold2 with v.
    + exists x'. split; auto. split; [|split].
      * intros k m Hk. destruct (Nat.eq_dec k j) as [->|N].
        -- specialize (K1 m). rewrite tab_ix' in K1. rewrite K1. f_equal. now apply cart_grad_sameg.
        -- rewrite Fx. ++ apply A. lia. ++ intros I. apply N9 in I. assert (X := ix_lt m). assert (O' := O k m ltac:(lia)). destruct I as [(m' & I)|I]; [assert (X' := ix_lt m'); lia|lia].
      * intros k m n Hk L. destruct (Nat.eq_dec k j) as [->|N].
        -- specialize (K2 m n L). unfold a in K2. rewrite K2. f_equal. now apply cart_hess_sameg.
        -- rewrite Fx. ++ apply B; auto. lia. ++ intros I. apply N9 in I. assert (X := pair6_lt m n). destruct I as [(m' & I)|I]; [|lia]. assert (X' := ix_lt m'). destruct (Hdd (iddS + 6 * k + pair6 m n)%nat ltac:(lia)) as (_ & Q). lia.
      * intros i H1 H2. rewrite Fx. -- apply F; lia. -- intros I. apply N9 in I as [(m' & ->)|I]; [assert (X' := ix_lt m'); lia|lia].
  - exists v'. auto.
Qed.
Print Assumptions C66_all.
(** the parameter Coordinates_useDD selects between the two *)
Theorem C66_selected : forall nc no b g D DD iS idS iddS u v, (forall j a, List.length a = nnodes b -> List.length (D j a) = nnodes b) -> (forall j k x, List.length x = nnodes b -> List.length (DD j k x) = nnodes b) ->
  tensor_ready nc b g iS idS (3 * nc) u v -> (forall k, (k < nc)%nat -> outside (iS + k) iddS (6 * nc)) -> (forall i, (iddS <= i < iddS + 6 * nc)%nat -> v i <> None /\ outside i idS (3 * nc)) -> (forall c, In c (gvar_list g) -> outside c iddS (6 * nc)) ->
  ready (nnodes b) g v -> (forall C, coord b = Some C -> tables_hold (nnodes b) g C v /\ (no = false -> has_second C)) ->
  exists v', D_and_DD_of nc no b g D DD iS idS iddS v = Ok v' /\ (forall k m, (k < nc)%nat -> v' (idS + 3 * k + ix m)%nat = Some (cart_grad b g v D (u k) m)) /\
  (forall k m n, (k < nc)%nat -> d3_le m n -> v' (iddS + 6 * k + pair6 m n)%nat = Some (if no then cart_grad b g v D (cart_grad b g v D (u k) n) m else cart_hess b g v D DD (u k) m n)) /\
  (forall i, outside i idS (3 * nc) -> outside i iddS (6 * nc) -> v' i = v i).
Proof.
  intros nc [|] b g D DD iS idS iddS u v HD HDD TR HSd Hdd Hgd R T; cbn [D_and_DD_of].
  - apply C66_first_and_second; auto. intros C HC. now apply T.
  - apply C66_all; auto. intros C HC. destruct (T C HC). auto.
Qed.
Print Assumptions C66_selected.
(** a vector on a spherical one-point box *)
Definition ex3_v : vars := fun i => if (i <? 63)%nat then Some [if (i =? 0)%nat then 2 else if (i =? 1)%nat then PI / 2 else 0] else None.
Lemma ex3_len i : (i < 63)%nat -> len ex3_v i 1.
Proof. intros H. unfold len, ex3_v. destruct (Nat.ltb_spec i 63); [|lia]. eexists. split; reflexivity. Qed.
Example C66_selected_ex : forall no, exists v v', compute_xyz ex2_b ex_g ex3_v = Ok v /\ D_and_DD_of 3 no ex2_b ex_g ex2_D ex2_DD 33 36 45 v = Ok v' /\ forall k m, (k < 3)%nat -> len v' (36 + 3 * k + ix m) 1.
Proof.
  intros no. destruct (C64_coordinates_stored ex2_b ex_g ex2_C ex3_v eq_refl ex_layout) as (v & E & T & _ & F & R & _ & _).
  { split; [|split]. - intros i Hi. cbn in Hi. apply ex3_len. lia. - intros _ k Hk. apply ex3_len. cbn. lia. - intros _ k Hk. apply ex3_len. cbn. lia. }
  { intros i Hi. apply ex3_len. cbn in Hi. lia. } { intros _. apply ex2_second. }
  assert (Fv : forall j, (33 <= j)%nat -> v j = ex3_v j). { intros j Hj. apply F. left. change (gvar_list ex_g) with (seq 0 33). rewrite in_seq. lia. }
  assert (Fl : forall j, (33 <= j < 63)%nat -> v j = Some [0]).
  { intros j Hj. rewrite Fv by lia. unfold ex3_v. destruct (Nat.ltb_spec j 63); [|lia]. destruct (Nat.eqb_spec j 0); [lia|]. destruct (Nat.eqb_spec j 1); [lia|]. reflexivity. }
  destruct (C66_selected 3 no ex2_b ex_g ex2_D ex2_DD 33 36 45 (fun _ => [0]) v) as (v' & E' & K & _).
  - reflexivity. - reflexivity.
  - split; [|split].
    + intros k Hk. split; [apply Fl; lia|]. split; [reflexivity|]. unfold outside. lia.
    + intros i Hi. rewrite Fl by lia. discriminate.
    + intros c Hc. change (gvar_list ex_g) with (seq 0 33) in Hc. apply in_seq in Hc. unfold outside. lia.
  - intros k Hk. unfold outside. lia.
  - intros i Hi. split; [rewrite Fl by lia; discriminate|]. unfold outside. lia.
  - intros c Hc. change (gvar_list ex_g) with (seq 0 33) in Hc. apply in_seq in Hc. unfold outside. lia.
  - exact R.
  - intros C [= <-]. split; [exact T|]. intros _. apply ex2_second.
  - exists v, v'. split; auto. split; auto. intros k m Hk. eexists. split; [apply K; auto|]. reflexivity.
Qed.

(** C112, continued: the Laplacian of addDissipation in a Cartesian box whose derivatives are those of the library, and the modes that are not damped. *)
From Verif Require Import Rutil Base Rsum Arrays Loops Coord_model Coord_spec Cart_model Cart_spec Diss_model Diss_spec Mat_model Mat_spec Mat_proofs Four_spec Dir_model Dir_spec Dir_props Lines_model Lines_spec Lines_proofs Lines_kernel Lines_props Integ_props Sphere_props.
Local Open Scope R_scope.
Definition axis (j : d3) : dir := match j with D1 => X1 | D2 => X2 | D3 => X3 end.
(** the derivatives of the library along the three directions of the box (any schedule of the lines gives the same, C42_deriv1) *)
Definition lib_D (b : sbox) (j : d3) (u : list R) : list R :=
  match spec_Deriv1 b (sequential b (axis j)) (axis j) false u (repeat 0 (npoints b)) with Ok du => du | _ => repeat 0 (npoints b) end.
Definition cart_box (b : sbox) : tbox := {| nnodes := npoints b; Cart_model.coord := None |}.
Definition place (b : sbox) (p : point) : nat := let '(i, j, k) := p in (i + nn b X1 * (j + nn b X2 * k))%nat.
Lemma val_place b u p : val b u p = nth (place b p) u 0. Proof. destruct p as ((i, j), k). reflexivity. Qed.
Lemma lib_D_ok b bs j u : built bs (bd b (axis j)) -> List.length u = npoints b -> let d := axis j in let X := Dir_model.coord bs (b_lo (bd b d)) (b_hi (bd b d)) (nn b d) in
  List.length (lib_D b j u) = npoints b /\
  forall p, inbox b p -> exists c c', let e := expansion bs (b_lo (bd b d)) (b_hi (bd b d)) (nn b d) in List.length c = nn b d /\ List.length c' = nn b d /\
    (forall m, (m < nn b d)%nat -> e c (X m) = val b u (setc d p m)) /\ (forall m, (m < nn b d)%nat -> e c' (X m) = val b (lib_D b j u) (setc d p m)) /\
    (forall m, (m < nn b d)%nat -> derivable_pt_lim (e c) (X m) (e c' (X m))) /\
    ((has_lone_cosine bs (nn b d) = true -> c.[nn b d - 1] = 0) -> forall x, derivable_pt_lim (e c) x (e c' x)) /\ (has_lone_cosine bs (nn b d) = true -> c'.[nn b d - 1] = 0).
Proof.
  intros Hb Lu d X. fold d in Hb. destruct (built_ops bs (bd b d) Hb) as (A & B & E & HA & HB & HE & Inv & _ & _ & HD & _). fold (nn b d) in *.
  destruct (C42_deriv1 b d _ u HD Lu) as (du & Ld & V & Sq & _).
  assert (EL : lib_D b j u = du). { unfold lib_D. fold d. rewrite Sq; [reflexivity|apply sequential_schedule|apply repeat_length]. }
  rewrite EL. split; [exact Ld|]. intros p Ip. destruct Hb as (Hs & Hab & Hn & _). fold (nn b d) in Hn.
  set (a := b_lo (bd b d)) in *. set (e := b_hi (bd b d)) in *. set (n := nn b d) in *. set (l := line b d u p) in *. assert (Ll : List.length l = n) by apply line_length.
  assert (Lc := apply_length n A l). assert (Ed := HB (apply n A l) l Lc Ll). destruct (deriv_exact bs a e n (apply n A l) l _ Hs Hab Hn Lc Ll Ed) as (DD & DX & D0). fold X in DD.
  exists (apply n A l), (apply n B (apply n A l)). cbv zeta. split; [apply apply_length|]. split; [apply apply_length|]. split; [|split; [|split; [|split]]]; auto.
  - intros m Hm. destruct (eval_is_expansion bs a e n (apply n A l) l) as (v & Ev & _ & Vv); auto. rewrite HE in Ev by auto. rewrite Inv in Ev by auto. injection Ev as <-.
    unfold X. rewrite <- Vv by auto. unfold l. now rewrite line_nth.
  - intros m Hm. assert (Iq : inbox b (setc d p m)). { intros d'. specialize (Ip d'). destruct p as ((i1, i2), i3). destruct d, d'; cbn [setc comp] in *; auto. }
    rewrite V by auto.
    assert (Lq : line b d u (setc d p m) = l) by (unfold l, line; apply map_ext; intros m'; destruct p as ((i1, i2), i3); destruct d; reflexivity). rewrite Lq.
    assert (Cq : comp d (setc d p m) = m) by (destruct p as ((i1, i2), i3); destruct d; reflexivity). rewrite Cq.
    destruct (eval_is_expansion bs a e n (apply n B (apply n A l)) l) as (v & Ev & _ & Vv); auto. { apply apply_length. } rewrite HE in Ev by (auto; apply apply_length). injection Ev as <-. unfold X. rewrite <- Vv by auto.
    now rewrite (apply_apply n B A), (apply_apply n E).
Qed.
(** ** Each of the three terms is the second derivative of the function through the data on the line through the point, if that function has no lone highest cosine (Fourier, even number of points); if it has one, it is the derivative of the function through the first derivatives *)
Definition second_deriv (b : sbox) (bs : basis) (d : dir) (u : list R) (p : point) (s : R) : Prop :=
  let a := b_lo (bd b d) in let e := b_hi (bd b d) in let n := nn b d in let X := Dir_model.coord bs a e n in
  exists c c', List.length c = n /\ List.length c' = n /\ let f := expansion bs a e n c in let f' := expansion bs a e n c' in
    (forall m, (m < n)%nat -> f (X m) = val b u (setc d p m) /\ derivable_pt_lim f (X m) (f' (X m))) /\ derivable_pt_lim f' (X (comp d p)) s /\
    ((has_lone_cosine bs n = true -> c.[n - 1] = 0) -> forall x, derivable_pt_lim f x (f' x)).
Theorem C112_cartesian b bs g v u : (forall d, built (bs d) (bd b d)) -> List.length u = npoints b -> forall p, inbox b p ->
  exists s, laplacian (cart_box b) g v (lib_D b) u (place b p) = s X1 + s X2 + s X3 /\ forall d, second_deriv b (bs d) d u p (s d).
Proof.
  intros Hb Lu p Ip.
  assert (T : forall j, second_deriv b (bs (axis j)) (axis j) u p (val b (lib_D b j (lib_D b j u)) p)).
  { intros j. destruct (lib_D_ok b (bs (axis j)) j u (Hb (axis j)) Lu) as (L1 & Q1). destruct (Q1 p Ip) as (c & c' & Lc & Lc' & Vc & Vc' & Dc & Dx & Z0). 
    destruct (lib_D_ok b (bs (axis j)) j (lib_D b j u) (Hb (axis j)) L1) as (L2 & Q2). destruct (Q2 p Ip) as (e & e' & Le & Le' & Ve & Ve' & De & Dex & _). cbv zeta in *. set (d := axis j) in *.
    destruct (Hb d) as (Hs & Hab & Hn & _). fold (nn b d) in Hn.
    assert (e = c') as ->. { apply (expansion_unique (bs d) (b_lo (bd b d)) (b_hi (bd b d)) (nn b d)); auto. intros m Hm. rewrite Ve, Vc' by auto. reflexivity. }
    exists c, c'. split; auto. split; auto. cbv zeta. split; [intros m Hm; split; auto|]. split; auto.
    specialize (De (comp d p) (Ip d)). rewrite (Ve' (comp d p) (Ip d)) in De. assert (EP : setc d p (comp d p) = p) by (destruct p as ((i1, i2), i3); destruct d; reflexivity). rewrite EP in De. exact De. }
  exists (fun d => match d with X1 => val b (lib_D b D1 (lib_D b D1 u)) p | X2 => val b (lib_D b D2 (lib_D b D2 u)) p | X3 => val b (lib_D b D3 (lib_D b D3 u)) p end).
  split. { unfold laplacian, S3, cart_grad. cbn [cart_box Cart_model.coord]. now rewrite !val_place. }
  intros [| |]; [apply (T D1)|apply (T D2)|apply (T D3)].
Qed.
Print Assumptions C112_cartesian.

(** ** The checkerboard is not damped: on a periodic Cartesian box with an even number of points in each direction, data that alternate in sign from point to point (the shortest waves of the grid) have Laplacian zero, so addDissipation leaves them as they are *)
Definition alternating (b : sbox) (h : R) (u : list R) : Prop := List.length u = npoints b /\ forall i j k, inbox b (i, j, k) -> val b u (i, j, k) = h * (-1) ^ (i + j + k).
Lemma cos_INR_PI m : cos (INR m * PI) = (-1) ^ m.
Proof. induction m; [cbn [INR pow]; rewrite Rmult_0_l; apply cos_0|]. rewrite S_INR. replace ((INR m + 1) * PI) with (INR m * PI + PI) by ring. rewrite neg_cos, IHm. cbn [pow]. ring. Qed.
Lemma sin_INR_PI m : sin (INR m * PI) = 0.
Proof. induction m; [cbn [INR]; rewrite Rmult_0_l; apply sin_0|]. rewrite S_INR. replace ((INR m + 1) * PI) with (INR m * PI + PI) by ring. rewrite neg_sin, IHm. ring. Qed.
Lemma dext f g x l : (forall t, f t = g t) -> derivable_pt_lim f x l -> derivable_pt_lim g x l.
Proof. intros E H eps He. destruct (H eps He) as (del & Hd). exists del. intros t. rewrite <- !E. apply Hd. Qed.
Lemma lone_deriv a e q h : a <> e -> (1 <= q)%nat -> let n := (2 * q)%nat in let X := Dir_model.coord Fourier a e n in let c := map (fun i => if (i =? n - 1)%nat then h * INR n else 0) (seq 0 n) in
  (forall m, (m < n)%nat -> expansion Fourier a e n c (X m) = h * (-1) ^ m) /\ (forall m, (m < n)%nat -> derivable_pt_lim (expansion Fourier a e n c) (X m) 0).
Proof.
  intros Hae Hq n X c. assert (Hn : INR n <> 0) by (apply not_0_INR; unfold n; lia).
  assert (EF : forall x, expansion Fourier a e n c x = h * cos (INR q * phase_at a e x)).
  { intros x. cbn [expansion]. unfold tpoly. rewrite (Sig_single n (n - 1)); [|unfold n; lia|intros i Hi Hne; unfold c; rewrite map_seq_nth by auto; destruct (Nat.eqb_spec i (n - 1)); [congruence|ring]].
    unfold c. rewrite map_seq_nth by (unfold n; lia). rewrite Nat.eqb_refl. unfold weight.
    assert (EV : Nat.even n = true) by (unfold n; now rewrite Nat.even_mul). rewrite EV. replace (n - 1 + 1 =? n)%nat with true by (symmetry; apply Nat.eqb_eq; unfold n; lia). rewrite Bool.orb_true_r.
    unfold mode. assert (OD : Nat.even (n - 1) = false). { rewrite <- Nat.negb_odd. replace (n - 1)%nat with (1 + 2 * (q - 1))%nat by (unfold n; lia). now rewrite Nat.odd_add_mul_2. } rewrite OD.
    replace ((n - 1 + 1) / 2)%nat with q by (unfold n; rewrite Nat.sub_add by lia; rewrite Nat.mul_comm, Nat.div_mul; lia). field. exact Hn. }
  assert (PX : forall m, INR q * phase_at a e (X m) = INR m * PI).
  { intros m. unfold X, Dir_model.coord, phase_at. unfold n. rewrite mult_INR. cbn [INR]. field. split; [apply not_0_INR; lia|lra]. }
  split; intros m Hm.
  - rewrite EF, PX, cos_INR_PI. reflexivity.
  - apply (dext (fun x => h * cos (INR q * phase_at a e x))); [intros; symmetry; apply EF|].
    replace 0 with (h * (- sin (INR q * phase_at a e (X m)) * (INR q * (2 * PI / (e - a))))) by (rewrite PX, sin_INR_PI; ring).
    apply derivable_pt_lim_scal. apply (derivable_pt_lim_comp (fun x => INR q * phase_at a e x) cos); [|apply derivable_pt_lim_cos].
    apply derivable_pt_lim_scal. apply (dext (fun x => 2 * PI / (e - a) * (x - a))); [intros; unfold phase_at; field; lra|].
    assert (Q : derivable_pt_lim (fun x => x - a) (X m) (1 - 0)) by (apply derivable_pt_lim_minus; [apply derivable_pt_lim_id|apply derivable_pt_lim_const]).
    apply (derivable_pt_lim_scal _ (2 * PI / (e - a))) in Q. rewrite Rminus_0_r, Rmult_1_r in Q. exact Q.
Qed.
Theorem C112_checkerboard_refuted b g v h u : (forall d, built Fourier (bd b d) /\ Nat.even (nn b d) = true) -> alternating b h u -> forall p, inbox b p -> laplacian (cart_box b) g v (lib_D b) u (place b p) = 0.
Proof.
  intros Hb (Lu & Hu) p Ip.
  assert (Z : forall j q, inbox b q -> val b (lib_D b j u) q = 0).
  { intros j q Iq. destruct (Hb (axis j)) as (Hd & Ev). destruct (lib_D_ok b Fourier j u Hd Lu) as (L1 & Q1). destruct (Q1 q Iq) as (c & c' & Lc & Lc' & Vc & Vc' & Dc & _). cbv zeta in *. set (d := axis j) in *.
    destruct Hd as (Hs & Hab & Hn & _). fold (nn b d) in Hn. apply Nat.even_spec in Ev. destruct Ev as (k & Ek).
    set (a := b_lo (bd b d)) in *. set (e := b_hi (bd b d)) in *.
    assert (EX : exists h', forall m, (m < nn b d)%nat -> val b u (setc d q m) = h' * (-1) ^ m).
    { destruct q as ((i1, i2), i3). pose proof (Iq X1) as I1. pose proof (Iq X2) as I2. pose proof (Iq X3) as I3. cbn [comp] in I1, I2, I3. destruct d; cbn [setc].
      - exists (h * (-1) ^ (i2 + i3)). intros m Hm. rewrite Hu by (intros [| |]; cbn [comp]; auto). rewrite <- Nat.add_assoc, (pow_add (-1) m). ring.
      - exists (h * (-1) ^ (i1 + i3)). intros m Hm. rewrite Hu by (intros [| |]; cbn [comp]; auto). replace (i1 + m + i3)%nat with (m + (i1 + i3))%nat by lia. rewrite (pow_add (-1) m). ring.
      - exists (h * (-1) ^ (i1 + i2)). intros m Hm. rewrite Hu by (intros [| |]; cbn [comp]; auto). replace (i1 + i2 + m)%nat with (m + (i1 + i2))%nat by lia. rewrite (pow_add (-1) m). ring. }
    destruct EX as (h' & EX). destruct (lone_deriv a e k h') as (G1 & G2); [auto|lia|]. rewrite <- Ek in G1, G2.
    set (c0 := map (fun i => if (i =? nn b d - 1)%nat then h' * INR (nn b d) else 0) (seq 0 (nn b d))) in *.
    assert (c = c0). { apply (expansion_unique Fourier a e (nn b d)); auto. { unfold c0. now rewrite map_length, seq_length. } intros m Hm. rewrite Vc, G1, EX by auto. reflexivity. }
    subst c. pose proof (Iq d) as Im. pose proof (uniqueness_limite _ _ _ _ (Dc _ Im) (G2 _ Im)) as E0. rewrite Vc' in E0 by auto.
    assert (EP : setc d q (comp d q) = q) by (destruct q as ((i1, i2), i3); destruct d; reflexivity). now rewrite EP in E0. }
  assert (Z2 : forall j, val b (lib_D b j (lib_D b j u)) p = 0).
  { intros j. destruct (Hb (axis j)) as (Hd & Ev). destruct (lib_D_ok b Fourier j u Hd Lu) as (L1 & _). destruct (lib_D_ok b Fourier j _ Hd L1) as (L2 & Q2). destruct (Q2 p Ip) as (c & c' & Lc & Lc' & Vc & Vc' & Dc & _). cbv zeta in *. set (d := axis j) in *.
    destruct Hd as (Hs & Hab & Hn & _). fold (nn b d) in Hn. apply Nat.even_spec in Ev. destruct Ev as (k & Ek).
    set (a := b_lo (bd b d)) in *. set (e := b_hi (bd b d)) in *.
    destruct (lone_deriv a e k 0) as (G1 & G2); [auto|lia|]. rewrite <- Ek in G1, G2.
    set (c0 := map (fun i => if (i =? nn b d - 1)%nat then 0 * INR (nn b d) else 0) (seq 0 (nn b d))) in *.
    assert (c = c0). { apply (expansion_unique Fourier a e (nn b d)); auto. { unfold c0. now rewrite map_length, seq_length. } intros m Hm. rewrite Vc, G1 by auto. rewrite Rmult_0_l. apply Z. intros d'. specialize (Ip d'). destruct p as ((i1, i2), i3). destruct d, d'; cbn [setc comp] in *; auto. }
    subst c. pose proof (Ip d) as Im. pose proof (uniqueness_limite _ _ _ _ (Dc _ Im) (G2 _ Im)) as E0. rewrite Vc' in E0 by auto.
    assert (EP : setc d p (comp d p) = p) by (destruct p as ((i1, i2), i3); destruct d; reflexivity). now rewrite EP in E0. }
  unfold laplacian, S3, cart_grad. cbn [cart_box Cart_model.coord]. rewrite <- !val_place, !Z2. ring.
Qed.
Print Assumptions C112_checkerboard_refuted.

(** Such boxes exist: 2q points in each direction, any q. *)
Example C112_checkerboard_ex q : (1 <= q)%nat -> exists b u, (forall d, built Fourier (bd b d) /\ Nat.even (nn b d) = true) /\ (forall d, nn b d = (2 * q)%nat) /\ alternating b 1 u /\
  forall p, inbox b p -> val b u p <> 0 /\ laplacian (cart_box b) (GVars 0 1 2 3 4 5 6 9 12 15 21 27) (fun _ => None) (lib_D b) u (place b p) = 0.
Proof.
  intros Hq. destruct (mkdir_built Fourier (2 * q) 0 1 eq_refl ltac:(lra) ltac:(lia)) as (m & B).
  set (b := {| bd1 := mkdir Fourier (2 * q) 0 1 m; bd2 := mkdir Fourier (2 * q) 0 1 m; bd3 := mkdir Fourier (2 * q) 0 1 m |}).
  assert (Hb : forall d, built Fourier (bd b d) /\ Nat.even (nn b d) = true) by (intros [| |]; (split; [exact B|]; cbn [nn bd b bd1 bd2 bd3 mkdir b_n]; now rewrite Nat.even_mul)).
  assert (Hn : forall d, nn b d = (2 * q)%nat) by (intros [| |]; reflexivity).
  set (N := (2 * q)%nat) in *. set (u := map (fun x => (-1) ^ (x mod N + (x / N) mod N + x / N / N)) (seq 0 (npoints b))).
  assert (Hu : alternating b 1 u).
  { split; [unfold u; now rewrite map_length, seq_length|]. intros i j k Ip. pose proof (Ip X1) as I1. pose proof (Ip X2) as I2. pose proof (Ip X3) as I3. rewrite Hn in I1, I2, I3. cbn [comp] in *. unfold val. rewrite !Hn.
    unfold u. rewrite map_seq_nth by (unfold npoints; rewrite !Hn; nia). rewrite Rmult_1_l.
    assert (E1 : ((i + N * (j + N * k)) / N = j + N * k)%nat) by (rewrite (Nat.mul_comm N), Nat.div_add by lia; rewrite Nat.div_small; lia).
    assert (E2 : ((i + N * (j + N * k)) mod N = i)%nat) by (rewrite (Nat.mul_comm N), Nat.mod_add by lia; now apply Nat.mod_small).
    rewrite E1, E2. rewrite (Nat.mul_comm N k), Nat.mod_add, Nat.div_add by lia. rewrite (Nat.mod_small j), (Nat.div_small j) by lia. f_equal. }
  exists b, u. split; [exact Hb|]. split; [exact Hn|]. split; [exact Hu|]. intros p Ip. split.
  - destruct p as ((i, j), k). rewrite (proj2 Hu) by auto. rewrite Rmult_1_l. apply pow_nonzero. lra.
  - now apply (C112_checkerboard_refuted b _ _ 1).
Qed.

(** C69: points covered twice in SphericalDF boxes; C70: finding the index of a coordinate plane. *)
From Verif Require Import Rutil Base Loops Arrays Cart_model Coord_model Cheb_model Dcov_model Dcov_spec Dcov_proofs.
From Coq Require Import Permutation.
Local Open Scope R_scope.

Definition box_vars (b : dims) (unew : list nat) (v : vars) : Prop := forall vi, In vi unew -> exists u, v vi = Some u /\ List.length u = (d1 b * d2 b * d3n b)%nat.
(** what happens to the variables of one box *)
Definition box_averaged (b : dims) (unew : list nat) (v v' : vars) : Prop :=
  (forall vi, In vi unew -> exists u u', v vi = Some u /\ v' vi = Some u' /\ averaged b u u') /\ (forall vi, ~ In vi unew -> v' vi = v vi).

Lemma averaged_fun b u u1 u2 : even_dims b -> averaged b u u1 -> averaged b u1 u2 -> averaged b u u2.
Proof.
  intros EV [L1 A1] [L2 A2]. split; [congruence|]. intros i j k I. rewrite A2 by auto. rewrite A1 by auto. change (at_partner b u1 i j k) with (at_ijk b u1 i (d2 b - 1 - j) ((k + d3n b / 2) mod d3n b)).
  assert (I' := sg_ok b (i, j, k) I). cbn [sg ok] in I'. rewrite A1 by auto. unfold mean.
  assert (P : at_partner b u i (d2 b - 1 - j) ((k + d3n b / 2) mod d3n b) = at_ijk b u i j k).
  { rewrite at_ind_partner, at_ind. f_equal. apply (f_equal (ind b)). exact (sg_sg b EV (i, j, k) I). }
  rewrite P. unfold at_partner, partner. cbn [fst snd]. lra.
Qed.
(** C69: for even n2 and n3, reset_doubleCoveredPoints_SphericalDF replaces each listed variable at each point by the mean of its values at the two grid points that lie at the same place; repetitions in the list do not matter and all other variables keep their values. *)
Theorem C69_average b unew v : even_dims b -> box_vars b unew v -> exists v', reset_DF b unew v = Ok v' /\ box_averaged b unew v v'.
Proof.
  intros EV. assert (OD : odd_dims b = false).
  { destruct EV as [[h2 E2] [h3 E3]]. unfold odd_dims. rewrite E2, E3, !(Nat.mul_comm 2), !Nat.mod_mul by lia. reflexivity. }
  unfold reset_DF. rewrite OD. revert v. induction unew as [|vi r IH]; intros v BV; cbn [forl].
  { exists v. split; auto. split; [intros ? []|auto]. }
  destruct (BV vi (or_introl eq_refl)) as (u & Ev & Lu). replace (deref v vi) with (Ok u) by (unfold deref; now rewrite Ev). cbn [rbind].
  destruct (reset_array_ok b EV u) as (u' & E & A & _). { unfold npts. lia. } rewrite E. cbn [rbind].
  destruct (IH (vset v vi u')) as (v' & E' & A1 & A2).
  { intros wi Hw. unfold vset. destruct (Nat.eqb_spec wi vi) as [->|N]; [exists u'; split; auto; rewrite (proj1 A); auto|]. apply BV. now right. }
  exists v'. split; auto. split.
  - intros wi [<-|Hw].
    + destruct (in_dec Nat.eq_dec vi r) as [I|NI].
      * destruct (A1 vi I) as (u1 & u2 & V1 & V2 & A3). unfold vset in V1. rewrite Nat.eqb_refl in V1. injection V1 as <-. exists u, u2. repeat split; auto; eapply averaged_fun; eauto.
      * exists u, u'. repeat split; auto; try apply A. rewrite (A2 vi NI). unfold vset. now rewrite Nat.eqb_refl.
    + destruct (A1 wi Hw) as (u1 & u2 & V1 & V2 & A3). unfold vset in V1. destruct (Nat.eqb_spec wi vi) as [->|N].
      * injection V1 as <-. exists u, u2. repeat split; auto; eapply averaged_fun; eauto.
      * exists u1, u2. auto.
  - intros wi N. rewrite A2 by (intros C; apply N; now right). unfold vset. destruct (Nat.eqb_spec wi vi) as [->|]; auto. destruct N. now left.
Qed.
Print Assumptions C69_average.
(** C69: otherwise it stops with an error before it changes anything, unless the list is empty. *)
Theorem C69_odd b unew v vi u : ~ even_dims b -> v vi = Some u -> reset_DF b (vi :: unew) v = Err /\ reset_DF b [] v = Ok v.
Proof.
  intros EV Ev. split; [|reflexivity]. assert (OD : odd_dims b = true).
  { unfold odd_dims. destruct (Nat.eqb_spec (d2 b mod 2) 0) as [A|A]; auto. destruct (Nat.eqb_spec (d3n b mod 2) 0) as [B|B]; auto. destruct EV.
    split; [exists (d2 b / 2)%nat|exists (d3n b / 2)%nat]; apply Nat.div_exact; lia. }
  unfold reset_DF. cbn [forl]. unfold deref. rewrite Ev. cbn [rbind]. rewrite OD. reflexivity.
Qed.
Print Assumptions C69_odd.
(** C69: doing it twice is the same as doing it once. *)
Theorem C69_twice b unew v v1 v2 : even_dims b -> box_vars b unew v -> reset_DF b unew v = Ok v1 -> reset_DF b unew v1 = Ok v2 -> forall vi, v2 vi = v1 vi.
Proof.
  intros EV BV E1 E2. destruct (C69_average b unew v EV BV) as (w & E & A1 & A2). rewrite E1 in E. injection E as <-.
  assert (BV1 : box_vars b unew v1). { intros vi I. destruct (A1 vi I) as (u & u' & V & V' & L & _). exists u'. split; auto. destruct (BV vi I) as (x & X & LX). rewrite V in X. injection X as <-. congruence. }
  destruct (C69_average b unew v1 EV BV1) as (w & E & B1 & B2). rewrite E2 in E. injection E as <-.
  intros vi. destruct (in_dec Nat.eq_dec vi unew) as [I|NI]; [|now apply B2].
  destruct (A1 vi I) as (u & u' & V & V' & A). destruct (B1 vi I) as (u1 & u2 & W & W' & B). rewrite V' in W. injection W as <-.
  pose proof (averaged_fun b u u' u2 EV A B) as C. rewrite V', W'. f_equal. destruct (BV vi I) as (x & X & LX). rewrite V in X. injection X as <-.
  apply list_eq_R; [rewrite (proj1 C), (proj1 A); auto|]. intros n Hn. rewrite (proj1 C), LX in Hn.
  assert (D : exists i j k, inbox b i j k /\ n = (i + d1 b * j + d1 b * d2 b * k)%nat).
  { exists (n mod d1 b)%nat, ((n / d1 b) mod d2 b)%nat, (n / d1 b / d2 b)%nat.
    assert (0 < d1 b /\ 0 < d2 b)%nat by nia. split.
    - repeat split; try (apply Nat.mod_upper_bound; lia). apply Nat.div_lt_upper_bound; [lia|]. apply Nat.div_lt_upper_bound; lia.
    - rewrite (Nat.div_mod n (d1 b)) at 1 by lia. rewrite (Nat.div_mod (n / d1 b) (d2 b)) at 1 by lia. ring. }
  destruct D as (i & j & k & I3 & ->). change (at_ijk b u2 i j k = at_ijk b u' i j k). rewrite (proj2 C), (proj2 A); auto.
Qed.
Print Assumptions C69_twice.
(** C69: the two points of a pair really are at the same place: with the grid of a SphericalDF box, Y_j = 2 PI j/n2 and Z_k = 2 PI k/n3, the coordinate functions agree at (i,j,k) and its partner. *)
Definition gridY (b : dims) (j : nat) : R := 2 * PI * INR j / INR (d2 b).
Definition gridZ (b : dims) (k : nat) : R := 2 * PI * INR k / INR (d3n b).
Lemma theta_partner b p j : n2 p = d2 b -> Nat.Even (d2 b) -> (j < d2 b)%nat -> theta_DF p (gridY b (d2 b - 1 - j)) = 2 * PI - theta_DF p (gridY b j).
Proof.
  intros E [h EV] L. unfold theta_DF, gridY. rewrite E. replace (d2 b mod 2)%nat with 0%nat. 2:{ rewrite EV, Nat.mul_comm, Nat.mod_mul; lia. }
  rewrite !mult_INR. change (1 + 0)%nat with 1%nat. change (INR 1) with 1. rewrite minus_INR, minus_INR by lia. change (INR 1) with 1. field. apply not_0_INR. lia.
Qed.
Lemma phi_partner b k : Nat.Even (d3n b) -> (k < d3n b)%nat -> exists s : R, (s = 1 \/ s = -1) /\ gridZ b ((k + d3n b / 2) mod d3n b) = gridZ b k + s * PI.
Proof.
  intros EV L. assert (HK : (d3n b = 2 * (d3n b / 2))%nat). { destruct EV as [h E]. rewrite E at 2. rewrite (Nat.mul_comm 2 h), Nat.div_mul; lia. }
  set (h := (d3n b / 2)%nat) in *. assert (P : 0 < INR h) by (apply lt_0_INR; lia). unfold gridZ. destruct (le_lt_dec h k).
  - exists (-1). split; auto. replace (k + h)%nat with (k - h + 1 * d3n b)%nat by lia. rewrite Nat.mod_add, Nat.mod_small by lia. rewrite minus_INR by lia.
    replace (INR (d3n b)) with (2 * INR h). 2:{ rewrite HK, mult_INR. simpl. ring. } field. lra.
  - exists 1. split; auto. rewrite Nat.mod_small by lia. rewrite plus_INR. replace (INR (d3n b)) with (2 * INR h). 2:{ rewrite HK, mult_INR. simpl. ring. } field. lra.
Qed.
Theorem C69_same_place b p r j k : even_dims b -> n2 p = d2 b -> (j < d2 b)%nat -> (k < d3n b)%nat ->
  let '(j', k') := partner b j k in
  x_ofSphericalDF p r (gridY b j') (gridZ b k') = x_ofSphericalDF p r (gridY b j) (gridZ b k) /\
  y_ofSphericalDF p r (gridY b j') (gridZ b k') = y_ofSphericalDF p r (gridY b j) (gridZ b k) /\
  z_ofSphericalDF p r (gridY b j') (gridZ b k') = z_ofSphericalDF p r (gridY b j) (gridZ b k).
Proof.
  intros [E2 E3] En Lj Lk. unfold partner. unfold x_ofSphericalDF, y_ofSphericalDF, z_ofSphericalDF. rewrite (theta_partner b p j En E2 Lj).
  destruct (phi_partner b k E3 Lk) as (s & S & ->). set (t := theta_DF p (gridY b j)). set (f := gridZ b k).
  assert (T : sin (2 * PI - t) = - sin t /\ cos (2 * PI - t) = cos t).
  { rewrite sin_minus, cos_minus. rewrite sin_2PI, cos_2PI. split; ring. }
  assert (F : sin (f + s * PI) = - sin f /\ cos (f + s * PI) = - cos f).
  { destruct S as [-> | ->]; rewrite ?Rmult_1_l; [now rewrite neg_sin, neg_cos|]. replace (f + -1 * PI) with (f - PI) by ring. rewrite sin_minus, cos_minus, sin_PI, cos_PI. split; ring. }
  cbv zeta. destruct T as [-> ->]. destruct F as [-> ->]. repeat split; ring.
Qed.
Print Assumptions C69_same_place.
(** C69: so the values of a function of position are not changed. *)
Theorem C69_function b p rad (f : R -> R -> R -> R) vi u v v' : even_dims b -> n2 p = d2 b -> v vi = Some u -> List.length u = (d1 b * d2 b * d3n b)%nat ->
  (forall i j k, inbox b i j k -> at_ijk b u i j k = f (x_ofSphericalDF p (rad i) (gridY b j) (gridZ b k)) (y_ofSphericalDF p (rad i) (gridY b j) (gridZ b k)) (z_ofSphericalDF p (rad i) (gridY b j) (gridZ b k))) ->
  reset_DF b [vi] v = Ok v' -> exists u', v' vi = Some u' /\ forall i j k, inbox b i j k -> at_ijk b u' i j k = at_ijk b u i j k.
Proof.
  intros EV En Ev Lu F E. destruct (C69_average b [vi] v EV) as (w & E' & A & _). { intros wi [<-|[]]. eauto. } rewrite E in E'. injection E' as <-.
  destruct (A vi (or_introl eq_refl)) as (x & u' & X & X' & L & M). rewrite Ev in X. injection X as <-. exists u'. split; auto. intros i j k I. rewrite M by auto.
  assert (P : at_partner b u i j k = at_ijk b u i j k).
  { unfold at_partner. assert (I' := sg_ok b (i, j, k) I). cbn [sg ok] in I'. change (fst (partner b j k)) with (d2 b - 1 - j)%nat. change (snd (partner b j k)) with ((k + d3n b / 2) mod d3n b)%nat. rewrite !F by auto. destruct I as (I1 & I2 & I3).
    pose proof (C69_same_place b p (rad i) j k EV En I2 I3) as S. unfold partner in S. destruct S as (-> & -> & ->). reflexivity. }
  rewrite P. unfold mean. lra.
Qed.
Print Assumptions C69_function.
(** C69: reset_doubleCoveredPoints does this in exactly the boxes with SphericalDF coordinates. *)
Theorem C69_grid nb isDF grid unew G : (forall bi, (bi < nb)%nat -> isDF bi = true -> even_dims (grid bi) /\ box_vars (grid bi) unew (G bi)) ->
  exists G', reset_doubleCovered nb isDF grid unew G = Ok G' /\
  (forall bi, (bi < nb)%nat -> isDF bi = true -> box_averaged (grid bi) unew (G bi) (G' bi)) /\ (forall bi, (nb <= bi)%nat \/ isDF bi = false -> G' bi = G bi).
Proof.
  intros H. unfold reset_doubleCovered.
  destruct (for_nat_inv (fun n G' => (forall bi, (bi < n)%nat -> isDF bi = true -> box_averaged (grid bi) unew (G bi) (G' bi)) /\ (forall bi, (n <= bi)%nat \/ isDF bi = false -> G' bi = G bi))
    (fun bi G => if isDF bi then do v <- reset_DF (grid bi) unew (G bi); Ok (gset G bi v) else Ok G) 0 nb G) as (G' & E & P).
  - lia.
  - split; [lia|auto].
  - intros n G1 Hn [P Q]. destruct (isDF n) eqn:D.
    + destruct (H n (proj2 Hn) D) as [EV BV]. rewrite (Q n (or_introl (le_n n))). destruct (C69_average (grid n) unew (G n) EV BV) as (v' & E & A). rewrite E. cbn [rbind].
      exists (gset G1 n v'). split; auto. split.
      * intros bi L D'. unfold gset. destruct (Nat.eqb_spec bi n) as [->|N]; auto. apply P; auto. lia.
      * intros bi L. unfold gset. destruct (Nat.eqb_spec bi n) as [->|N]; [destruct L as [L|L]; [lia|congruence]|]. apply Q. destruct L; auto. left. lia.
    + exists G1. split; auto. split.
      * intros bi L D'. apply P; auto. assert (bi <> n) by congruence. lia.
      * intros bi [L|L]; apply Q; auto. left. lia.
  - exists G'. auto.
Qed.
Print Assumptions C69_grid.
(** C69: copy_to_doubleCoveredPoints_SphericalDF, in whatever order its parallel loops run, keeps the half 0 < theta < PI of the one variable and gives each point of the other half the value of its partner. *)
Theorem C69_copy ks1 ks2 b vind v u : even_dims b -> Permutation ks1 (seq 0 (d3n b / 2)) -> Permutation ks2 (seq (d3n b / 2) (d3n b / 2)) ->
  v vind = Some u -> List.length u = (d1 b * d2 b * d3n b)%nat ->
  exists v' u', copy_DF ks1 ks2 b vind v = Ok v' /\ v' vind = Some u' /\ copied b u u' /\ (forall wi, wi <> vind -> v' wi = v wi).
Proof.
  intros EV P1 P2 Ev Lu. assert (OD : odd_dims b = false).
  { destruct EV as [[h2 E2] [h3 E3]]. unfold odd_dims. rewrite E2, E3, !(Nat.mul_comm 2), !Nat.mod_mul by lia. reflexivity. }
  assert (LO : los b ks1). { intros k. split; intros I. { apply (Permutation_in _ P1) in I. apply in_seq in I. lia. } apply (Permutation_in _ (Permutation_sym P1)). apply in_seq. lia. }
  pose proof (half_k b EV) as HK.
  assert (HI : his b ks2). { intros k. split; intros I. { apply (Permutation_in _ P2) in I. apply in_seq in I. lia. } apply (Permutation_in _ (Permutation_sym P2)). apply in_seq. lia. }
  assert (TL := two_loops b EV copy1 ks1 ks2 u LO HI).
  assert (OKL : forall t, In t (visited b ks1 ks2) -> ok b t /\ ~ low b t). { intros ((i, j), k) H. apply (visited_in b EV) in H; auto. cbn [ok low]. destruct H. split; auto. lia. }
  destruct (copy_loop b EV u) with (l := visited b ks1 ks2) (done := @nil pt3) (u := u) as (u' & E & LU & HU); auto.
  { unfold npts. lia. } { intros t Ht. split; auto. intros []. } rewrite E in TL.
  exists (vset v vind u'), u'. unfold copy_DF. rewrite OD. unfold deref. rewrite Ev. cbn [rbind].
  split.
  { match type of TL with rbind ?X ?F = _ => destruct X as [u1| |]; cbn [rbind] in *; try discriminate end. rewrite TL. reflexivity. }
  split; [unfold vset; now rewrite Nat.eqb_refl|]. split.
  - split; auto. rewrite app_nil_r in HU. split; intros i j k I L.
    + rewrite !at_ind. apply (HU (i, j, k) I). rewrite (visited_in b EV) by auto. lia.
    + rewrite at_ind, at_ind_partner. apply (HU (i, j, k) I). rewrite (visited_in b EV) by auto. auto.
  - intros wi N. unfold vset. destruct (Nat.eqb_spec wi vind); congruence.
Qed.
Print Assumptions C69_copy.
(** C69: for odd n2 or n3 it stops with an error. *)
Theorem C69_copy_odd ks1 ks2 b vind v : ~ even_dims b -> copy_DF ks1 ks2 b vind v = Err.
Proof.
  intros EV. unfold copy_DF. replace (odd_dims b) with true; auto. symmetry.
  unfold odd_dims. destruct (Nat.eqb_spec (d2 b mod 2) 0) as [A|A]; auto. destruct (Nat.eqb_spec (d3n b mod 2) 0) as [B|B]; auto. destruct EV.
  split; [exists (d2 b / 2)%nat|exists (d3n b / 2)%nat]; apply Nat.div_exact; lia.
Qed.
Print Assumptions C69_copy_odd.
Example C69_ex : let b := Dims 1 2 2 in let v := fun n => if Nat.eqb n 7 then Some [1; 2; 3; 4] else None in
  even_dims b /\ box_vars b [7%nat] v /\ partner b 1 0 = (0, 1)%nat /\ exists v', reset_DF b [7%nat] v = Ok v' /\ v' 7%nat = Some [5 / 2; 5 / 2; 5 / 2; 5 / 2].
Proof.
  cbv zeta. split. { split; exists 1%nat; reflexivity. } split. { intros vi [<-|[]]. eexists. split; reflexivity. } split; [reflexivity|].
  eexists. split; [reflexivity|]. cbn. do 2 f_equal; [lra|]. f_equal; [lra|]. f_equal; [lra|]. f_equal; lra.
Qed.

(** *** C70 *)
Lemma dequal_abs a b : dequal a b = true <-> Rabs (a - b) <= 1 / 10000000000.
Proof.
  unfold dequal, dless, dequaleps. destruct (Rlt_dec a (b - 1 / 10000000000)), (Rlt_dec b (a - 1 / 10000000000)); cbn [negb orb]; split; intros H; try discriminate; auto.
  1,2,3: exfalso; revert H; unfold Rabs; destruct (Rcase_abs (a - b)); intros; lra.
  apply Rabs_le. lra.
Qed.
(** the value of the coordinate on plane i *)
Definition on_plane (A : list R) (stride i : nat) : R := nth (i * stride) A 0.
(** n is the right answer for a search of X0 among planes 0, ..., np-1 *)
Definition first_plane (A : list R) (stride np : nat) (X0 : R) (r : Z) : Prop :=
  (exists i, r = Z.of_nat i /\ (i < np)%nat /\ Rabs (on_plane A stride i - X0) <= 1 / 10 ^ 10 /\ forall j, (j < i)%nat -> 1 / 10 ^ 10 < Rabs (on_plane A stride j - X0)) \/
  (r = (-1)%Z /\ forall j, (j < np)%nat -> 1 / 10 ^ 10 < Rabs (on_plane A stride j - X0)).
Lemma find_loop_ok A s X0 np : (forall i, (i < np)%nat -> (i * s < List.length A)%nat) -> forall l i, (i + l = np)%nat ->
  (forall j, (j < i)%nat -> 1 / 10 ^ 10 < Rabs (on_plane A s j - X0)) -> exists r, find_loop A s X0 l i = Ok r /\ first_plane A s np X0 r.
Proof.
  intros B. induction l as [|l IH]; intros i E NO; cbn [find_loop].
  { eexists. split; [reflexivity|]. right. split; auto. intros j Hj. apply NO. lia. }
  rewrite (rd_ok A (i * s) 0) by (apply B; lia). cbn [rbind]. destruct (dequal (nth (i * s) A 0) X0) eqn:D.
  - eexists. split; [reflexivity|]. left. exists i. repeat split; auto; [lia|]. apply dequal_abs in D. unfold on_plane. replace (1 / 10 ^ 10) with (1 / 10000000000) by lra. auto.
  - apply IH; [lia|]. intros j Hj. destruct (Nat.eq_dec j i) as [->|N]; [|apply NO; lia].
    replace (1 / 10 ^ 10) with (1 / 10000000000) by lra. unfold on_plane. apply Rnot_le_lt. intros C. apply dequal_abs in C. congruence.
Qed.
(** C70: find_i_Of_X, find_j_Of_Y and find_k_Of_Z return the first plane whose coordinate is within 1e-10 of the value, and -1 if there is none. *)
Theorem C70_find g b v X Y Z x0 y0 z0 : v (vX g) = Some X -> v (vY g) = Some Y -> v (vZ g) = Some Z ->
  List.length X = (d1 b * d2 b * d3n b)%nat -> List.length Y = (d1 b * d2 b * d3n b)%nat -> List.length Z = (d1 b * d2 b * d3n b)%nat -> (0 < d1 b)%nat -> (0 < d2 b)%nat -> (0 < d3n b)%nat ->
  (exists r, find_i_Of_X g b v x0 = Ok r /\ first_plane X 1 (d1 b) x0 r) /\
  (exists r, find_j_Of_Y g b v y0 = Ok r /\ first_plane Y (d1 b) (d2 b) y0 r) /\
  (exists r, find_k_Of_Z g b v z0 = Ok r /\ first_plane Z (d1 b * d2 b) (d3n b) z0 r).
Proof.
  intros EX EY EZ LX LY LZ P1 P2 P3. unfold find_i_Of_X, find_j_Of_Y, find_k_Of_Z, deref. rewrite EX, EY, EZ. cbn [rbind].
  repeat split; apply find_loop_ok; try lia; intros i Hi; rewrite ?LX, ?LY, ?LZ.
  - assert (d1 b * 1 <= d1 b * (d2 b * d3n b))%nat by (apply Nat.mul_le_mono_l; nia). nia.
  - assert (i * d1 b < d1 b * d2 b)%nat by nia. assert (d1 b * d2 b * 1 <= d1 b * d2 b * d3n b)%nat by (apply Nat.mul_le_mono_l; lia). lia.
  - rewrite (Nat.mul_comm (d1 b * d2 b)). apply Nat.mul_lt_mono_pos_r; auto. nia.
Qed.
Print Assumptions C70_find.
(** C70: on a tensor grid whose planes are more than 2e-10 apart, the index of a point comes back for its coordinates and for any values within 1e-10 of them; so x0 need not be known exactly. *)
Definition tensor (b : dims) (X Y Z : list R) (fx fy fz : nat -> R) : Prop := forall i j k, inbox b i j k -> at_ijk b X i j k = fx i /\ at_ijk b Y i j k = fy j /\ at_ijk b Z i j k = fz k.
Definition apart (n : nat) (f : nat -> R) : Prop := forall i j, (i < n)%nat -> (j < n)%nat -> i <> j -> 2 / 10 ^ 10 < Rabs (f i - f j).
Lemma first_unique A s n f x0 i r : (forall j, (j < n)%nat -> on_plane A s j = f j) -> apart n f -> (i < n)%nat -> Rabs (x0 - f i) <= 1 / 10 ^ 10 -> first_plane A s n x0 r -> r = Z.of_nat i.
Proof.
  intros EF AP Li C [(m & -> & Lm & C1 & _)|(-> & N)].
  - destruct (Nat.eq_dec m i) as [->|NE]; auto. exfalso. rewrite EF in C1 by auto. pose proof (AP m i Lm Li NE) as Q.
    pose proof (Rabs_triang (f m - x0) (x0 - f i)) as T. replace (f m - x0 + (x0 - f i)) with (f m - f i) in T by ring. lra.
  - exfalso. pose proof (N i Li) as Q. rewrite EF in Q by auto. rewrite Rabs_minus_sym in Q. lra.
Qed.
Theorem C70_recover g b v X Y Z fx fy fz i j k x0 y0 z0 : v (vX g) = Some X -> v (vY g) = Some Y -> v (vZ g) = Some Z ->
  List.length X = (d1 b * d2 b * d3n b)%nat -> List.length Y = (d1 b * d2 b * d3n b)%nat -> List.length Z = (d1 b * d2 b * d3n b)%nat ->
  tensor b X Y Z fx fy fz -> apart (d1 b) fx -> apart (d2 b) fy -> apart (d3n b) fz -> inbox b i j k ->
  Rabs (x0 - fx i) <= 1 / 10 ^ 10 -> Rabs (y0 - fy j) <= 1 / 10 ^ 10 -> Rabs (z0 - fz k) <= 1 / 10 ^ 10 ->
  find_i_Of_X g b v x0 = Ok (Z.of_nat i) /\ find_j_Of_Y g b v y0 = Ok (Z.of_nat j) /\ find_k_Of_Z g b v z0 = Ok (Z.of_nat k).
Proof.
  intros EX EY EZ LX LY LZ T A1 A2 A3 (I1 & I2 & I3) C1 C2 C3.
  destruct (C70_find g b v X Y Z x0 y0 z0 EX EY EZ LX LY LZ) as ((r1 & E1 & F1) & (r2 & E2 & F2) & (r3 & E3 & F3)); try lia.
  rewrite E1, E2, E3.
  apply (first_unique X 1 (d1 b) fx x0 i r1) in F1; auto. 2:{ intros m Hm. destruct (T m 0%nat 0%nat) as (Q & _); [repeat split; lia|]. rewrite <- Q. unfold on_plane, at_ijk. f_equal. lia. }
  apply (first_unique Y (d1 b) (d2 b) fy y0 j r2) in F2; auto. 2:{ intros m Hm. destruct (T 0%nat m 0%nat) as (_ & Q & _); [repeat split; lia|]. rewrite <- Q. unfold on_plane, at_ijk. f_equal. lia. }
  apply (first_unique Z (d1 b * d2 b) (d3n b) fz z0 k r3) in F3; auto. 2:{ intros m Hm. destruct (T 0%nat 0%nat m) as (_ & _ & Q); [repeat split; lia|]. rewrite <- Q. unfold on_plane, at_ijk. f_equal. lia. }
  subst. auto.
Qed.
Print Assumptions C70_recover.
Example C70_ex : apart 3 INR /\ tensor (Dims 2 1 2) [0; 1; 0; 1] [5; 5; 5; 5] [2; 2; 3; 3] INR (fun _ => 5) (fun k => INR k + 2).
Proof.
  split.
  - intros i j Li Lj N. assert (H : 1 <= Rabs (INR i - INR j)).
    { destruct (Nat.lt_total i j) as [L|[L|L]]; [|lia|]; apply lt_INR in L as L'.
      - assert (INR i + 1 <= INR j) by (rewrite <- S_INR; apply le_INR; lia). rewrite Rabs_left1; lra.
      - assert (INR j + 1 <= INR i) by (rewrite <- S_INR; apply le_INR; lia). rewrite Rabs_pos_eq; lra. }
    lra.
  - intros i j k (A & B & C). cbn [d1 d2 d3n] in *. assert (j = 0)%nat as -> by lia. destruct i as [|[|]]; try lia; destruct k as [|[|]]; try lia; cbn; repeat split; lra.
Qed.

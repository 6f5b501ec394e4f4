(** C43: definite integrals over lines, planes and boxes; C57: filters. *)
From Verif Require Import Arrays Mat_model Mat_spec Mat_proofs Cheb_model Cheb_spec Cheb_proofs Cheb_props Four_model Four_spec Four_proofs Four_props
  Dir_model Dir_spec Dir_props Lines_model Lines_spec Lines_proofs Lines_kernel Lines_props Integ_spec Integ_proofs.
Local Open Scope R_scope.

(** ** The represented function is unique, so the integral in the specification is too *)
Lemma expansion_unique bs a b n c c' : spectral bs = true -> a <> b -> (2 <= n)%nat -> List.length c = n -> List.length c' = n ->
  (forall m, (m < n)%nat -> expansion bs a b n c (coord bs a b n m) = expansion bs a b n c' (coord bs a b n m)) -> c = c'.
Proof.
  intros Hs Hab Hn Lc Lc' H.
  destruct (eval_is_expansion bs a b n c c Hs Hab Hn Lc Lc) as (v & E & L & V). destruct (eval_is_expansion bs a b n c' c Hs Hab Hn Lc' Lc) as (v' & E' & L' & V').
  assert (v = v') by (apply list_eq_R; [lia|]; intros i Hi; rewrite V, V' by lia; apply H; lia). subst v'.
  destruct bs; try discriminate Hs; cbn [funs_from_pars f_eval] in E, E'.
  - destruct (C34_extrema_coeffs c c c (n - 1)) as (u & x & E1 & E2 & L1 & V1 & _); try lia. destruct (C34_extrema_coeffs c' c c (n - 1)) as (u' & x' & E1' & E2' & L1' & V1' & _); try lia.
    apply list_eq_R; [lia|]. intros i Hi. rewrite <- V1, <- V1' by lia. congruence.
  - destruct (C34_zeros_coeffs c c c (n - 1)) as (u & x & E1 & E2 & L1 & V1 & _); try lia. destruct (C34_zeros_coeffs c' c c (n - 1)) as (u' & x' & E1' & E2' & L1' & V1' & _); try lia.
    apply list_eq_R; [lia|]. intros i Hi. rewrite <- V1, <- V1' by lia. congruence.
  - destruct (C37_coeffs c c c (n - 1)) as (u & x & E1 & E2 & L1 & V1 & _); try lia. destruct (C37_coeffs c' c c (n - 1)) as (u' & x' & E1' & E2' & L1' & V1' & _); try lia.
    apply list_eq_R; [lia|]. intros i Hi. rewrite <- V1, <- V1' by lia. congruence.
Qed.
Lemma integral_unique f a b x y : a <> b -> integral f a b x -> integral f a b y -> x = y.
Proof.
  intros Hab (G & DG & ->) (H & DH & ->).
  assert (C : forall p q, p < q -> G p - H p = G q - H q).
  { intros p q Hpq. destruct (MVT_cor2 (fun X => G X - H X) (fun X => f X - f X) p q) as (z & E & _); auto. { intros. now apply derivable_pt_lim_minus. } replace (f z - f z) with 0 in E by ring. lra. }
  destruct (Rtotal_order a b) as [Q|[Q|Q]]; [specialize (C a b Q)|congruence|specialize (C b a Q)]; lra.
Qed.
Theorem C43_spec_unique bs D l x y : spectral bs = true -> b_lo D <> b_hi D -> (2 <= b_n D)%nat -> line_integral bs D l x -> line_integral bs D l y -> x = y.
Proof.
  intros Hs Hab Hn (c & Lc & V & I) (c' & Lc' & V' & I'). assert (c = c'). { apply (expansion_unique bs (b_lo D) (b_hi D) (b_n D)); auto. intros m Hm. now rewrite V, V'. } subst c'.
  exact (integral_unique _ _ _ x y Hab I I').
Qed.
Lemma built_line_integral bs D : built bs D -> exists A, analysis_of D (apply (b_n D) A) /\
  forall l, List.length l = b_n D -> line_integral bs D l (int1d (imethod bs) (b_hi D - b_lo D) (b_n D) (apply (b_n D) A l)).
Proof.
  intros Hb. destruct (built_ops bs D Hb) as (A & B & E & HA & HB & HE & Inv & HAn & _). destruct Hb as (Hs & Hab & Hn & _). exists A. split; auto. intros l Hl. exists (apply (b_n D) A l). split; [apply apply_length|]. split.
  - intros m Hm. destruct (eval_is_expansion bs (b_lo D) (b_hi D) (b_n D) (apply (b_n D) A l) l Hs Hab Hn (apply_length _ _ _) Hl) as (v & Ev & _ & V). rewrite <- V by auto. rewrite HE in Ev by (auto; apply apply_length). rewrite Inv in Ev by auto. congruence.
  - now apply int1d_exact.
Qed.

(** ** spec_Integral1 on a box direction with a spectral basis: every value on a line becomes the exact integral, over the box, of the function
    with this basis through the values on that line; whatever the schedule, the old contents of U, and whether U is u *)
Theorem C43_Integral1 bs b d sc alias u old : built bs (bd b d) -> schedule b d sc -> List.length u = npoints b -> List.length old = npoints b -> (alias = true -> old = u) ->
  exists V, spec_Integral1 b sc (imethod bs) d alias u old = Ok V /\ List.length V = npoints b /\
    forall p, inbox b p -> line_integral bs (bd b d) (line b d u p) (val b V p).
Proof.
  intros Hb Sc Lu Lo Ha. destruct (built_line_integral bs (bd b d) Hb) as (A & HA & HI). fold (nn b d) in HA, HI. assert (Hn : (2 <= nn b d)%nat) by apply Hb. assert (Hs : spectral bs = true) by apply Hb.
  destruct (integral1_ok b sc (imethod bs) d alias u old (apply (nn b d) A)) as (V & E & L & Al); auto; try lia. { intros. apply apply_length. } { destruct bs; discriminate. }
  exists V. split; auto. split; auto. intros p Ip. rewrite Al by auto. rewrite (nth_indep _ 0 (int1d (imethod bs) (b_hi (bd b d) - b_lo (bd b d)) (nn b d) (apply (nn b d) A (line b d u p)))) by (rewrite repeat_length; apply Ip). rewrite nth_repeat.
  apply HI, line_length.
Qed.
(** other bases are refused *)
Theorem C43_refused bs b d sc alias u old F : spectral bs = false -> analysis_of (bd b d) F -> schedule b d sc -> List.length u = npoints b -> List.length old = npoints b -> (alias = true -> old = u) ->
  spec_Integral1 b sc (imethod bs) d alias u old = Err.
Proof.
  intros Hs HF Sc Lu Lo Ha. unfold spec_Integral1. destruct (analysis_ok b sc d alias u old F) as (c & E & _); auto. rewrite E. cbn [rbind]. cbv zeta. destruct bs; try discriminate Hs; reflexivity.
Qed.

(** ** Quadrature weights: the integral of a line is a fixed linear combination of its values *)
Definition weights (bs : basis) (D : bdir) (w : nat -> R) : Prop := forall l, List.length l = b_n D -> line_integral bs D l (Sig (b_n D) (fun m => w m * nth m l 0)).
Lemma int1d_lin kind L n : (2 <= n)%nat -> lin n (int1d kind L n).
Proof.
  intros Hn. destruct kind; unfold int1d.
  - apply lin_plus. { apply lin_scal_r. apply lin_scal. apply lin_nth. lia. } apply (lin_Sig n ((n - 1) / 2) (fun h c => c.[2 + 2 * h] * L / (1.0 - INR ((2 + 2 * h) * (2 + 2 * h))))). intros h Hh. apply lin_div. apply lin_scal_r. apply lin_nth. assert (Q := Nat.mul_div_le (n - 1) 2 ltac:(lia)). lia.
  - apply lin_div. apply lin_scal_r. apply lin_nth. lia.
  - apply lin_div. apply lin_scal_r. apply lin_nth. lia.
Qed.
Lemma lin_apply n g A : lin n g -> exists w, forall l, g (apply n A l) = Sig n (fun m => w m * l.[m]).
Proof.
  intros [k Hk]. exists (fun m => Sig n (fun i => k i * A i m)). intros l. rewrite Hk. rewrite (Sig_ext n _ (fun i => Sig n (fun m => k i * A i m * l.[m]))).
  2:{ intros i Hi. rewrite apply_nth by auto. rewrite <- Sig_scal. apply Sig_ext. intros. ring. }
  rewrite Sig_swap. apply Sig_ext. intros m _. now rewrite Sig_scal_r.
Qed.
(** sum over one direction *)
Lemma integral1_kap bs b d : built bs (bd b d) -> exists w, weights bs (bd b d) w /\
  forall sc alias u old, schedule b d sc -> List.length u = npoints b -> List.length old = npoints b -> (alias = true -> old = u) -> spec_Integral1 b sc (imethod bs) d alias u old = Ok (kap b d (fun _ m => w m) u).
Proof.
  intros Hb. destruct (built_line_integral bs (bd b d) Hb) as (A & HA & HI). fold (nn b d) in HA, HI. assert (Hn : (2 <= nn b d)%nat) by apply Hb. assert (Hs : spectral bs = true) by apply Hb.
  destruct (lin_apply (nn b d) _ A (int1d_lin (imethod bs) (b_hi (bd b d) - b_lo (bd b d)) (nn b d) Hn)) as (w & Hw). exists w. split.
  - intros l Hl. fold (nn b d). rewrite <- Hw. now apply HI.
  - intros sc alias u old Sc Lu Lo Ha. destruct (integral1_ok b sc (imethod bs) d alias u old (apply (nn b d) A)) as (V & E & Al); auto; try lia. { intros. apply apply_length. } { destruct bs; discriminate. }
    rewrite E. f_equal. revert Al. apply along_kap. intros l Hl. apply list_eq_R. { now rewrite repeat_length, apply_length. } intros i Hi. rewrite repeat_length in Hi. rewrite apply_nth by auto.
    rewrite (nth_indep _ 0 (int1d (imethod bs) (b_hi (bd b d) - b_lo (bd b d)) (nn b d) (apply (nn b d) A l))) by (now rewrite repeat_length). rewrite nth_repeat. apply Hw.
Qed.
(** The integral over a plane: at every point, the iterated one-dimensional integrals over the two other directions *)
Theorem C43_2dIntegral bs b sc norm alias u old : (forall d, built (bs d) (bd b d) /\ schedule b d (sc d)) -> List.length u = npoints b -> List.length old = npoints b -> (alias = true -> old = u) ->
  exists w V, (forall d, weights (bs d) (bd b d) (w d)) /\ spec_2dIntegral b sc (fun d => imethod (bs d)) norm alias u old = Ok V /\ List.length V = npoints b /\
    forall p d e, inbox b p -> d <> e -> d <> norm -> e <> norm -> val b V p = Sig (nn b d) (fun m => w d m * Sig (nn b e) (fun l => w e l * val b u (setc e (setc d p m) l))).
Proof.
  intros H Lu Lo Ha.
  assert (W : exists w, forall d, weights (bs d) (bd b d) (w d) /\ forall sc alias u old, schedule b d sc -> List.length u = npoints b -> List.length old = npoints b -> (alias = true -> old = u) -> spec_Integral1 b sc (imethod (bs d)) d alias u old = Ok (kap b d (fun _ m => w d m) u)).
  { destruct (integral1_kap (bs X1) b X1) as (w1 & H1); [apply H|]. destruct (integral1_kap (bs X2) b X2) as (w2 & H2); [apply H|]. destruct (integral1_kap (bs X3) b X3) as (w3 & H3); [apply H|].
    exists (fun d => match d with X1 => w1 | X2 => w2 | X3 => w3 end). intros []; auto. }
  destruct W as (w & Hw). exists w.
  assert (G : forall d e p, inbox b p -> d <> e -> val b (kap b d (fun _ m => w d m) (kap b e (fun _ m => w e m) u)) p = Sig (nn b d) (fun m => w d m * Sig (nn b e) (fun l => w e l * val b u (setc e (setc d p m) l)))).
  { intros d e p Ip N. rewrite kap_val by auto. apply Sig_ext. intros m Hm. rewrite kap_val by (now apply inbox_setc). reflexivity. }
  assert (F : exists d e, d <> e /\ d <> norm /\ e <> norm /\ spec_2dIntegral b sc (fun d => imethod (bs d)) norm alias u old = Ok (kap b e (fun _ m => w e m) (kap b d (fun _ m => w d m) u))).
  { unfold spec_2dIntegral. cbv zeta. destruct norm; [exists X2, X3|exists X1, X3|exists X1, X2]; repeat (split; [discriminate|]);
      (rewrite (proj2 (Hw _)) by (auto; apply H)); cbn [rbind]; rewrite (proj2 (Hw _)) by (auto using kap_length; apply H); reflexivity. }
  destruct F as (d & e & N & Nd & Ne & E). eexists. split; [intros d'; apply Hw|]. split; [exact E|]. split; [apply kap_length|]. intros p d' e' Ip N' Nd' Ne'.
  assert (Q : (d' = d /\ e' = e) \/ (d' = e /\ e' = d)) by (destruct d, e, norm, d', e'; auto; congruence). destruct Q as [[-> ->]|[-> ->]].
  - rewrite kap_comm by auto. now apply G.
  - now apply G.
Qed.
(** The integral over a box: the three iterated one-dimensional integrals, at every point of U and as the returned number *)
Theorem C43_3dIntegral bs b sc u old : (forall d, built (bs d) (bd b d) /\ schedule b d (sc d)) -> List.length u = npoints b -> List.length old = npoints b ->
  exists w x V, (forall d, weights (bs d) (bd b d) (w d)) /\ spec_3dIntegral b sc (fun d => imethod (bs d)) u old = Ok (x, V) /\
    x = Sig (nn b X1) (fun i => w X1 i * Sig (nn b X2) (fun j => w X2 j * Sig (nn b X3) (fun k => w X3 k * val b u (i, j, k)))) /\ List.length V = npoints b /\ forall p, inbox b p -> val b V p = x.
Proof.
  intros H Lu Lo.
  destruct (integral1_kap (bs X1) b X1) as (w1 & W1 & E1); [apply H|]. destruct (integral1_kap (bs X2) b X2) as (w2 & W2 & E2); [apply H|]. destruct (integral1_kap (bs X3) b X3) as (w3 & W3 & E3); [apply H|].
  set (V := kap b X3 (fun _ m => w3 m) (kap b X2 (fun _ m => w2 m) (kap b X1 (fun _ m => w1 m) u))).
  assert (HV : forall p, inbox b p -> val b V p = Sig (nn b X1) (fun i => w1 i * Sig (nn b X2) (fun j => w2 j * Sig (nn b X3) (fun k => w3 k * val b u (i, j, k))))).
  { intros p Ip. unfold V. rewrite (kap_comm b X2 X1), (kap_comm b X3 X1), (kap_comm b X3 X2) by discriminate. rewrite kap_val by auto. apply Sig_ext. intros i Hi. f_equal. rewrite kap_val by (now apply inbox_setc). apply Sig_ext. intros j Hj. f_equal.
    rewrite kap_val by (apply inbox_setc; auto; now apply inbox_setc). apply Sig_ext. intros k Hk. f_equal. destruct p as [[x y] z]. reflexivity. }
  assert (I0 : inbox b (0, 0, 0)%nat). { intros d. destruct (H d) as [Hb _]. assert (Q : (2 <= nn b d)%nat) by apply Hb. destruct d; cbn [comp]; lia. }
  exists (fun d => match d with X1 => w1 | X2 => w2 | X3 => w3 end), (val b V (0, 0, 0)%nat), V.
  split. { intros []; auto. } split.
  - unfold spec_3dIntegral. cbv zeta. rewrite E1 by (auto; try apply H; discriminate). cbn [rbind]. rewrite E2 by (auto using kap_length; apply H). cbn [rbind]. rewrite E3 by (auto using kap_length; apply H). cbn [rbind]. fold V.
    assert (LV : List.length V = npoints b) by apply kap_length. assert (P0 := Ixp_lt b _ I0). cbn [Ixp] in P0. unfold Ix in P0. rewrite (rd_ok V 0 0) by (rewrite LV; lia). cbn [rbind]. rewrite val_Ix. cbn [Ixp]. unfold Ix. rewrite Nat.mul_0_r. cbn [Nat.add]. rewrite Nat.mul_0_r. reflexivity.
  - split; [now apply HV|]. split; [apply kap_length|]. intros p Ip. now rewrite !HV.
Qed.
(** weights are unique, so the two theorems above determine the result: e.g. the weights add up to the length of the box *)
Theorem C43_weights_unique bs D w w' m : spectral bs = true -> b_lo D <> b_hi D -> (2 <= b_n D)%nat -> weights bs D w -> weights bs D w' -> (m < b_n D)%nat -> w m = w' m.
Proof.
  intros Hs Hab Hn H H' Hm. assert (Lu := unit_length (b_n D) m). assert (Q := C43_spec_unique bs D _ _ _ Hs Hab Hn (H _ Lu) (H' _ Lu)).
  assert (S1 : forall v, Sig (b_n D) (fun i => v i * nth i (unit (b_n D) m) 0) = v m).
  { intros v. rewrite (Sig_ext _ _ (fun i => if (i =? m)%nat then v i else 0)). { rewrite (Sig_single (b_n D) m); auto. { now rewrite Nat.eqb_refl. } intros i _ N. destruct (Nat.eqb_spec i m); congruence. }
    intros i Hi. rewrite unit_nth by auto. destruct (i =? m)%nat; ring. }
  now rewrite !S1 in Q.
Qed.
Print Assumptions C43_Integral1.
Print Assumptions C43_2dIntegral.
Print Assumptions C43_3dIntegral.
Print Assumptions C43_spec_unique.
Print Assumptions C43_weights_unique.
Print Assumptions C43_refused.

(** ** Constants integrate to the volume *)
Lemma const_expansion bs a b n k : spectral bs = true -> (2 <= n)%nat -> exists c, List.length c = n /\ forall X, expansion bs a b n c X = k.
Proof.
  intros Hs Hn. destruct bs; try discriminate Hs; cbn [expansion].
  - exists (upd (repeat 0 n) 0 (2 * k)). split; [now rewrite upd_length, repeat_length|]. intros X. unfold series. rewrite nth_upd_eq by (rewrite repeat_length; lia). rewrite Sig_zero; [lra|]. intros i Hi. rewrite nth_upd_ne by lia. rewrite nth_repeat. ring.
  - exists (upd (repeat 0 n) 0 (2 * k)). split; [now rewrite upd_length, repeat_length|]. intros X. unfold series. rewrite nth_upd_eq by (rewrite repeat_length; lia). rewrite Sig_zero; [lra|]. intros i Hi. rewrite nth_upd_ne by lia. rewrite nth_repeat. ring.
  - exists (upd (repeat 0 n) 0 (INR n * k)). split; [now rewrite upd_length, repeat_length|]. intros X. unfold tpoly. rewrite (Sig_single n 0). + rewrite nth_upd_eq by (rewrite repeat_length; lia). rewrite mode_0. unfold weight. cbn [Nat.eqb orb]. field. apply not_0_INR. lia. + lia. + intros i Hi N. rewrite nth_upd_ne by auto. rewrite nth_repeat. ring.
Qed.
Lemma const_line_integral bs D k : spectral bs = true -> (2 <= b_n D)%nat -> line_integral bs D (repeat k (b_n D)) (k * (b_hi D - b_lo D)).
Proof.
  intros Hs Hn. destruct (const_expansion bs (b_lo D) (b_hi D) (b_n D) k Hs Hn) as (c & Lc & Vc). exists c. split; auto. split. { intros m Hm. rewrite Vc. rewrite (nth_indep _ 0 k) by (now rewrite repeat_length). now rewrite nth_repeat. }
  exists (fun X => k * X). split; [|ring]. intros X. rewrite Vc. apply lin_deriv.
Qed.
Lemma weights_total bs D w k : spectral bs = true -> b_lo D <> b_hi D -> (2 <= b_n D)%nat -> weights bs D w -> Sig (b_n D) (fun m => w m * k) = k * (b_hi D - b_lo D).
Proof.
  intros Hs Hab Hn H. apply (C43_spec_unique bs D (repeat k (b_n D))); auto; [|now apply const_line_integral].
  replace (Sig (b_n D) (fun m => w m * k)) with (Sig (b_n D) (fun m => w m * nth m (repeat k (b_n D)) 0)). { apply H. apply repeat_length. } apply Sig_ext. intros m Hm. rewrite (nth_indep _ 0 k) by (now rewrite repeat_length). now rewrite nth_repeat.
Qed.
Theorem C43_volume bs b sc u old k : (forall d, built (bs d) (bd b d) /\ schedule b d (sc d)) -> List.length u = npoints b -> List.length old = npoints b -> (forall p, inbox b p -> val b u p = k) ->
  let L d := b_hi (bd b d) - b_lo (bd b d) in exists V, spec_3dIntegral b sc (fun d => imethod (bs d)) u old = Ok (k * L X1 * L X2 * L X3, V).
Proof.
  intros H Lu Lo Hk L. destruct (C43_3dIntegral bs b sc u old H Lu Lo) as (w & x & V & W & E & Ex & _). exists V. rewrite E. do 2 f_equal. rewrite Ex.
  assert (T : forall d k, Sig (nn b d) (fun m => w d m * k) = k * L d). { intros d k'. destruct (H d) as [(Hs & Hab & Hn & _) _]. now apply (weights_total (bs d) (bd b d)). }
  rewrite (Sig_ext (nn b X1) _ (fun i => w X1 i * (k * L X3 * L X2))). { rewrite T. ring. } intros i Hi. f_equal.
  rewrite (Sig_ext (nn b X2) _ (fun j => w X2 j * (k * L X3))). { rewrite T. ring. } intros j Hj. f_equal.
  rewrite (Sig_ext (nn b X3) _ (fun m => w X3 m * k)). { apply T. } intros m Hm. f_equal. apply Hk. intros []; cbn [comp]; auto.
Qed.
Print Assumptions C43_volume.
(** the hypotheses are met *)
Example C43_example : exists b bs, (forall d, built (bs d) (bd b d) /\ schedule b d (sequential b d)) /\ npoints b = 27%nat /\ exists V, spec_3dIntegral b (sequential b) (fun d => imethod (bs d)) (repeat 5 27) (repeat 0 27) = Ok (5 * (1 - 0) * (1 - 0) * (1 - 0), V).
Proof.
  destruct C42_built_example as (D & HD & T & N).
  destruct (setup_kernels ChebExtrema 0 1 3 0) as (m & _ & _ & _ & _ & _ & E & _); [reflexivity|lia|lia|].
  set (D' := {| b_n := 3; b_lo := 0; b_hi := 1; b_T := false; b_f := through_box (funs_from_pars ChebExtrema 0 1); b_m := m |}).
  assert (HD' : built ChebExtrema D'). { repeat split; auto; unfold D'; cbn [b_lo b_hi b_n b_m]; try lra; try lia. exists 0%Z. split; [lia|exact E]. }
  set (b := {| bd1 := D'; bd2 := D'; bd3 := D' |}). exists b, (fun _ => ChebExtrema).
  assert (Hb : forall d, built ChebExtrema (bd b d) /\ schedule b d (sequential b d)). { intros d. split; [destruct d; exact HD'|apply sequential_schedule]. }
  split; auto. split; [reflexivity|]. apply (C43_volume (fun _ => ChebExtrema) b (sequential b) (repeat 5 27) (repeat 0 27) 5 Hb); try apply repeat_length.
  intros p Ip. rewrite val_Ix. assert (Q := Ixp_lt b p Ip). change (npoints b) with 27%nat in Q. rewrite (nth_indep _ 0 5) by (now rewrite repeat_length). apply nth_repeat.
Qed.

Lemma expansion_ext bs a b n c c' X : (2 <= n)%nat -> (forall j, (j < n)%nat -> c.[j] = c'.[j]) -> expansion bs a b n c X = expansion bs a b n c' X.
Proof.
  intros Hn H. assert (Q : forall y, series c (n - 1) y = series c' (n - 1) y). { intros y. unfold series. rewrite H by lia. f_equal. apply Sig_ext. intros i Hi. now rewrite H by lia. }
  destruct bs; cbn [expansion]; auto. unfold tpoly. apply Sig_ext. intros i Hi. now rewrite H.
Qed.
(** ** C57: filters.  spec_filter1 removes the filt highest coefficients of every line *)
Theorem C57_filter1 bs b d filt u : spectral bs = true -> let D := bd b d in b_lo D <> b_hi D -> (2 <= b_n D)%nat -> (0 <= filt <= Z.of_nat (b_n D))%Z ->
  setup_dir bs (b_lo D) (b_hi D) (b_n D) filt = Ok (b_m D) -> List.length u = npoints b -> let X := coord bs (b_lo D) (b_hi D) (b_n D) in
  exists V, spec_filter1 b d u = Ok V /\ List.length V = npoints b /\
    forall p, inbox b p -> exists c cf, List.length c = b_n D /\ List.length cf = b_n D /\ (forall m, (m < b_n D)%nat -> expansion bs (b_lo D) (b_hi D) (b_n D) c (X m) = val b u (setc d p m)) /\
      (forall j, (j < b_n D)%nat -> cf.[j] = if (Z.of_nat j <? Z.of_nat (b_n D) - filt)%Z then c.[j] else 0) /\ val b V p = expansion bs (b_lo D) (b_hi D) (b_n D) cf (X (comp d p)).
Proof.
  intros Hs D Hab Hn Hf Hset Lu X.
  destruct (C56_matrices bs (b_lo D) (b_hi D) (b_n D) filt Hs Hab Hn Hf) as (m & E & HM). assert (m = b_m D) by congruence. subst m.
  destruct (setup_kernels bs (b_lo D) (b_hi D) (b_n D) filt Hs Hn Hf) as (m & A & B & Ev & J & KF & E' & _ & _ & _ & _ & _ & _ & _ & _ & _ & MF & _). assert (m = b_m D) by congruence. subst m.
  set (n := b_n D) in *. assert (Bd : nn b d = n) by reflexivity.
  set (body := fun j k (r : list R * (list R * list R)) => let '(u, (uline, ufline)) := r in
      do uline <- get_memline b u uline d j k; do ufline <- matrix_times_vector (m_F (b_m (bd b d))) uline ufline (nn b d); do u <- put_memline b u ufline d j k; Ok (u, (uline, ufline))).
  destruct (lines_seq one (bok2 b d) b d body (fun _ _ L _ => apply n KF (L tt)) u (repeat 0 (nn b d), repeat 0 (nn b d))) as (V & bu & EV & WV & VV).
  - intros j k L L' a Q. now rewrite Q.
  - intros j k s [l1 l2] Hj Hk W [B1 B2]. cbn [fst snd] in B1, B2. assert (Ls : List.length s = npoints b) by exact (W tt). unfold body. rewrite (get_memline_ok b s l1 d j k Ls B1 Hj Hk). cbn [rbind].
    rewrite (mtv_ok _ (ln b d s j k) l2 (nn b d) KF) by (auto; apply ln_length). cbn [rbind].
    destruct (put_memline_ok b s (apply n KF (ln b d s j k)) d j k Ls (apply_length _ _ _) Hj Hk) as (s' & Es & Ls' & Vs). change (nn b d) with n. rewrite Es. cbn [rbind]. eexists _, _. split; [reflexivity|]. split. { intros a. exact Ls'. } split. { split; cbn [fst snd]; [apply ln_length|apply apply_length]. }
    intros j' k' a Hj' Hk'. unfold lns, one. rewrite Vs by auto. destruct (same j k j' k') eqn:Q; auto. 
  - intros a. exact Lu.
  - split; cbn [fst snd]; apply repeat_length.
  - exists V. split. { unfold spec_filter1. unfold body in EV. rewrite EV. reflexivity. }
    split; [exact (WV tt)|]. intros p Ip. destruct (inbox_ranges b d p Ip) as [Q1 Q2].
    assert (Lp : line b d V p = apply n KF (line b d u p)). { rewrite !line_ln. exact (VV _ _ tt Q1 Q2). }
    assert (Ll := line_length b d u p). destruct (HM (line b d u p) (line b d u p) Ll Ll) as (c & Du & DDu & v & w & Lc & _ & _ & Vc & _ & _ & _ & _ & EF & (cf & Vcf & Vv) & _).
    rewrite (mtv_ok _ (line b d u p) (line b d u p) (b_n D) KF) in EF by auto. injection EF as EF. change (b_n D) with n in EF. exists c, (map (fun j => cf.[j]) (seq 0 n)). split; auto.
    assert (Nf : forall j, (j < n)%nat -> (map (fun j => cf.[j]) (seq 0 n)).[j] = cf.[j]) by (intros j Hj; now apply (map_seq_nth (fun j => cf.[j]))).
    split; [now rewrite map_length, seq_length|]. split. { intros i Hi. unfold X. rewrite Vc by auto. now apply line_nth. } split. { intros j Hj. rewrite Nf by auto. now apply Vcf. }
    rewrite <- (line_self b d V p Ip), Lp, EF. rewrite Vv by apply Ip. unfold X. apply expansion_ext; auto. intros j Hj. now rewrite Nf.
Qed.
Print Assumptions C57_filter1.

(** spec_filter3d_inbox: the coefficients beyond the cutoffs are set to zero, the others kept *)
Lemma zfor_nat lo hi body s : (0 <= lo)%Z -> zfor lo hi body s = for_nat (Z.to_nat lo) hi (fun m => body (Z.of_nat m)) s.
Proof.
  intros H. unfold zfor, for_nat. replace (Z.to_nat (Z.of_nat hi - lo)) with (hi - Z.to_nat lo)%nat by lia. rewrite forl_map.
  replace (seq (Z.to_nat lo) (hi - Z.to_nat lo)) with (map (fun m => (Z.to_nat lo + m)%nat) (seq 0 (hi - Z.to_nat lo))).
  - rewrite forl_map. apply forl_ext. intros m s' _. f_equal. lia.
  - generalize (hi - Z.to_nat lo)%nat as k. intros k. apply (nth_ext _ _ 0%nat 0%nat). { now rewrite map_length, !seq_length. } intros i Hi. rewrite map_length, seq_length in Hi. rewrite map_seq_nth, seq_nth by auto. reflexivity.
Qed.
Definition between (lo i hi : nat) : bool := ((lo <=? i) && (i <? hi))%nat.
Lemma between_spec lo i hi : reflect (lo <= i < hi)%nat (between lo i hi).
Proof. unfold between. apply iff_reflect. rewrite andb_true_iff, Nat.leb_le, Nat.ltb_lt. tauto. Qed.
Lemma wrz_cell b s i j k : List.length s = npoints b -> inbox b (i, j, k) -> wrz s (Ixz b (Z.of_nat i) (Z.of_nat j) (Z.of_nat k)) 0 = Ok (upd s (Ix b i j k) 0).
Proof.
  intros L Ip. unfold wrz, Ixz. replace (Z.of_nat i + Z.of_nat (nn b X1) * (Z.of_nat j + Z.of_nat (nn b X2) * Z.of_nat k))%Z with (Z.of_nat (Ix b i j k)) by (unfold Ix; lia).
  destruct (Z.ltb_spec (Z.of_nat (Ix b i j k)) 0); [lia|]. rewrite Nat2Z.id. apply wr_ok. rewrite L. apply (Ixp_lt b (i, j, k)). exact Ip.
Qed.
Lemma upd_val b s q p : List.length s = npoints b -> inbox b q -> inbox b p -> val b (upd s (Ixp b q) 0) p = if ((comp X1 q =? comp X1 p) && (comp X2 q =? comp X2 p) && (comp X3 q =? comp X3 p))%nat then 0 else val b s p.
Proof.
  intros L Iq Ip. rewrite !val_Ix. destruct q as [[i j] k], p as [[i' j'] k']. cbn [comp].
  destruct (Nat.eqb_spec i i') as [->|N]; [destruct (Nat.eqb_spec j j') as [->|N]; [destruct (Nat.eqb_spec k k') as [->|N]|]|]; cbn [andb].
  - apply nth_upd_eq. rewrite L. now apply Ixp_lt.
  - apply nth_upd_ne. intros E. apply Ixp_inj in E; auto. congruence.
  - apply nth_upd_ne. intros E. apply Ixp_inj in E; auto. congruence.
  - apply nth_upd_ne. intros E. apply Ixp_inj in E; auto. congruence.
Qed.
Lemma clear_nest b s i0 i1 j0 j1 k0 k1 : List.length s = npoints b -> (i1 <= nn b X1)%nat -> (j1 <= nn b X2)%nat -> (k1 <= nn b X3)%nat ->
  exists s', for_nat k0 k1 (fun k s => for_nat j0 j1 (fun j s => for_nat i0 i1 (fun i s => wrz s (Ixz b (Z.of_nat i) (Z.of_nat j) (Z.of_nat k)) 0) s) s) s = Ok s' /\ List.length s' = npoints b /\
    forall p, inbox b p -> val b s' p = if between i0 (comp X1 p) i1 && between j0 (comp X2 p) j1 && between k0 (comp X3 p) k1 then 0 else val b s p.
Proof.
  intros L H1 H2 H3.
  assert (Li : forall j k s, (j < nn b X2)%nat -> (k < nn b X3)%nat -> List.length s = npoints b -> exists s', for_nat i0 i1 (fun i s => wrz s (Ixz b (Z.of_nat i) (Z.of_nat j) (Z.of_nat k)) 0) s = Ok s' /\ List.length s' = npoints b /\
    forall p, inbox b p -> val b s' p = if between i0 (comp X1 p) i1 && (j =? comp X2 p)%nat && (k =? comp X3 p)%nat then 0 else val b s p).
  { intros j k s0 Hj Hk L0. destruct (Nat.le_gt_cases i0 i1) as [Le|G].
    - destruct (for_nat_inv (fun m t => List.length t = npoints b /\ forall p, inbox b p -> val b t p = if between i0 (comp X1 p) m && (j =? comp X2 p)%nat && (k =? comp X3 p)%nat then 0 else val b s0 p) (fun i s => wrz s (Ixz b (Z.of_nat i) (Z.of_nat j) (Z.of_nat k)) 0) i0 i1 s0) as (s' & E & Q); auto.
      + split; auto. intros p Ip. destruct (between_spec i0 (comp X1 p) i0); [lia|reflexivity].
      + intros m t Hm [Lt Vt]. assert (Iq : inbox b (m, j, k)) by (intros []; cbn [comp]; lia). rewrite wrz_cell by auto. eexists. split; [reflexivity|]. split; [now rewrite upd_length|]. intros p Ip. change (Ix b m j k) with (Ixp b (m, j, k)). rewrite upd_val by auto. rewrite Vt by auto. cbn [comp].
        destruct (Nat.eqb_spec m (comp X1 p)) as [Em|N], (between_spec i0 (comp X1 p) m), (between_spec i0 (comp X1 p) (m + 1)); try lia; cbn [andb]; try reflexivity.
      + eauto.
    - exists s0. rewrite for_nat_empty by lia. split; auto. split; auto. intros p Ip. destruct (between_spec i0 (comp X1 p) i1); [lia|reflexivity]. }
  assert (Lj : forall k s, (k < nn b X3)%nat -> List.length s = npoints b -> exists s', for_nat j0 j1 (fun j s => for_nat i0 i1 (fun i s => wrz s (Ixz b (Z.of_nat i) (Z.of_nat j) (Z.of_nat k)) 0) s) s = Ok s' /\ List.length s' = npoints b /\
    forall p, inbox b p -> val b s' p = if between i0 (comp X1 p) i1 && between j0 (comp X2 p) j1 && (k =? comp X3 p)%nat then 0 else val b s p).
  { intros k s0 Hk L0. destruct (Nat.le_gt_cases j0 j1) as [Le|G].
    - destruct (for_nat_inv (fun m t => List.length t = npoints b /\ forall p, inbox b p -> val b t p = if between i0 (comp X1 p) i1 && between j0 (comp X2 p) m && (k =? comp X3 p)%nat then 0 else val b s0 p) (fun j s => for_nat i0 i1 (fun i s => wrz s (Ixz b (Z.of_nat i) (Z.of_nat j) (Z.of_nat k)) 0) s) j0 j1 s0) as (s' & E & Q); auto.
      + split; auto. intros p Ip. destruct (between_spec j0 (comp X2 p) j0); [lia|]. now rewrite andb_false_r.
      + intros m t Hm [Lt Vt]. destruct (Li m k t) as (t' & Et & Lt' & Vt'); auto; [lia|]. exists t'. split; auto. split; auto. intros p Ip. rewrite Vt', Vt by auto.
        destruct (between i0 (comp X1 p) i1), (Nat.eqb_spec m (comp X2 p)), (between_spec j0 (comp X2 p) m), (between_spec j0 (comp X2 p) (m + 1)); try lia; cbn [andb]; destruct (k =? comp X3 p)%nat; reflexivity.
      + eauto.
    - exists s0. rewrite for_nat_empty by lia. split; auto. split; auto. intros p Ip. destruct (between_spec j0 (comp X2 p) j1); [lia|]. now rewrite andb_false_r. }
  destruct (Nat.le_gt_cases k0 k1) as [Le|G].
  - destruct (for_nat_inv (fun m t => List.length t = npoints b /\ forall p, inbox b p -> val b t p = if between i0 (comp X1 p) i1 && between j0 (comp X2 p) j1 && between k0 (comp X3 p) m then 0 else val b s p) (fun k s => for_nat j0 j1 (fun j s => for_nat i0 i1 (fun i s => wrz s (Ixz b (Z.of_nat i) (Z.of_nat j) (Z.of_nat k)) 0) s) s) k0 k1 s) as (s' & E & Q); auto.
    + split; auto. intros p Ip. destruct (between_spec k0 (comp X3 p) k0); [lia|]. now rewrite andb_false_r.
    + intros m t Hm [Lt Vt]. destruct (Lj m t) as (t' & Et & Lt' & Vt'); auto; [lia|]. exists t'. split; auto. split; auto. intros p Ip. rewrite Vt', Vt by auto.
      destruct (between i0 (comp X1 p) i1 && between j0 (comp X2 p) j1), (Nat.eqb_spec m (comp X3 p)), (between_spec k0 (comp X3 p) m), (between_spec k0 (comp X3 p) (m + 1)); try lia; cbn [andb]; try reflexivity.
    + eauto.
  - exists s. rewrite for_nat_empty by lia. split; auto. split; auto. intros p Ip. destruct (between_spec k0 (comp X3 p) k1); [lia|]. now rewrite andb_false_r.
Qed.
(** The new coefficients are the old ones inside the cutoffs and zero outside; the new values are the synthesis of the new coefficients. *)
Theorem C57_filter3d b sc scs A E nf var vc0 : (forall d, schedule b d (sc d) /\ schedule b d (scs d) /\ analysis_of (bd b d) (apply (nn b d) (A d)) /\ synthesis_of (bd b d) (apply (nn b d) (E d)) /\ (0 <= nf d)%Z) ->
  List.length var = npoints b -> List.length vc0 = npoints b ->
  exists c var' vc, spec_Coeffs b sc var vc0 = Ok c /\ spec_filter3d_inbox b sc scs (nf X1) (nf X2) (nf X3) var vc0 = Ok (var', vc) /\ List.length vc = npoints b /\
    (forall p, inbox b p -> ((forall d, Z.of_nat (comp d p) < nf d)%Z -> val b vc p = val b c p) /\ ((exists d, nf d <= Z.of_nat (comp d p))%Z -> val b vc p = 0)) /\
    forall old, List.length old = npoints b -> spec_Eval b scs old vc = Ok var'.
Proof.
  intros H Lu Lc.
  assert (EC := coeffs_kap b sc A var vc0). rewrite EC; auto. 2:{ intros d. destruct (H d) as (?&?&?&?&?). auto. } clear EC. set (c := kap b X3 _ _). assert (Lk : List.length c = npoints b) by apply kap_length.
  assert (N1 := proj2 (proj2 (proj2 (proj2 (H X1))))). assert (N2 := proj2 (proj2 (proj2 (proj2 (H X2))))). assert (N3 := proj2 (proj2 (proj2 (proj2 (H X3))))).
  assert (EC := coeffs_kap b sc A var vc0). unfold spec_filter3d_inbox. rewrite EC; auto. 2:{ intros d. destruct (H d) as (?&?&?&?&?). auto. } clear EC. fold c. cbn [rbind]. cbv zeta.
  assert (Nest : forall zi i1 zj j1 zk k1 s, (0 <= zi)%Z -> (0 <= zj)%Z -> (0 <= zk)%Z -> zfor zk k1 (fun k vc => zfor zj j1 (fun j vc => zfor zi i1 (fun i vc => wrz vc (Ixz b i j k) 0) vc) vc) s =
    for_nat (Z.to_nat zk) k1 (fun k s => for_nat (Z.to_nat zj) j1 (fun j s => for_nat (Z.to_nat zi) i1 (fun i s => wrz s (Ixz b (Z.of_nat i) (Z.of_nat j) (Z.of_nat k)) 0) s) s) s).
  { intros. rewrite zfor_nat by auto. unfold for_nat at 1 2. apply forl_ext. intros k s1 _. rewrite zfor_nat by auto. unfold for_nat at 1 2. apply forl_ext. intros j s2 _. now rewrite zfor_nat. }
  rewrite Nest by lia. destruct (clear_nest b c (Z.to_nat 0) (nn b X1) (Z.to_nat 0) (nn b X2) (Z.to_nat (nf X3)) (nn b X3)) as (v1 & E1 & L1 & V1); auto. rewrite E1. cbn [rbind].
  assert (M : forall z n, (zmin z n <= n)%nat) by (intros; unfold zmin; lia).
  rewrite Nest by lia. destruct (clear_nest b v1 (Z.to_nat 0) (nn b X1) (Z.to_nat (nf X2)) (nn b X2) (Z.to_nat 0) (zmin (nf X3) (nn b X3))) as (v2 & E2 & L2 & V2); auto. rewrite E2. cbn [rbind].
  rewrite Nest by lia. destruct (clear_nest b v2 (Z.to_nat (nf X1)) (nn b X1) (Z.to_nat 0) (zmin (nf X2) (nn b X2)) (Z.to_nat 0) (zmin (nf X3) (nn b X3))) as (v3 & E3 & L3 & V3); auto. rewrite E3. cbn [rbind].
  destruct (synthesis_ok b (scs X3) X3 false var v3 (apply (nn b X3) (E X3))) as (w1 & F1 & G1); auto; try apply H; try discriminate. rewrite F1. cbn [rbind]. assert (K1 := along_kap b X3 (E X3) _ v3 w1 (fun l _ => eq_refl) G1).
  destruct (synthesis_ok b (scs X2) X2 true w1 w1 (apply (nn b X2) (E X2))) as (w2 & F2 & G2); auto; try apply H; try apply G1. rewrite F2. cbn [rbind]. assert (K2 := along_kap b X2 (E X2) _ w1 w2 (fun l _ => eq_refl) G2).
  destruct (synthesis_ok b (scs X1) X1 true w2 w2 (apply (nn b X1) (E X1))) as (w3 & F3 & G3); auto; try apply H; try apply G2. rewrite F3. cbn [rbind]. assert (K3 := along_kap b X1 (E X1) _ w2 w3 (fun l _ => eq_refl) G3).
  exists c, w3, v3. split; auto. split; auto. split; auto. split.
  - intros p Ip. assert (I1 := Ip X1). assert (I2 := Ip X2). assert (I3 := Ip X3). rewrite V3, V2, V1 by auto. split.
    + intros Hp. assert (P1 := Hp X1). assert (P2 := Hp X2). assert (P3 := Hp X3).
      destruct (between_spec (Z.to_nat (nf X1)) (comp X1 p) (nn b X1)); [lia|]. destruct (between_spec (Z.to_nat (nf X2)) (comp X2 p) (nn b X2)); [lia|]. destruct (between_spec (Z.to_nat (nf X3)) (comp X3 p) (nn b X3)); [lia|]. cbn [andb]. now rewrite !andb_false_r.
    + intros Hp.
      destruct (between_spec (Z.to_nat (nf X3)) (comp X3 p) (nn b X3)) as [B3|B3].
      { destruct (between_spec (Z.to_nat 0) (comp X1 p) (nn b X1)); [|lia]. destruct (between_spec (Z.to_nat 0) (comp X2 p) (nn b X2)); [|lia]. cbn [andb]. now repeat match goal with |- context [if ?x then _ else _] => destruct x end. }
      destruct (between_spec (Z.to_nat 0) (comp X3 p) (zmin (nf X3) (nn b X3))) as [Z3|Z3]. 2:{ exfalso. unfold zmin in Z3. lia. } rewrite !andb_true_r.
      destruct (between_spec (Z.to_nat (nf X2)) (comp X2 p) (nn b X2)) as [B2|B2].
      { destruct (between_spec (Z.to_nat 0) (comp X1 p) (nn b X1)); [|lia]. cbn [andb]. now repeat match goal with |- context [if ?x then _ else _] => destruct x end. }
      destruct (between_spec (Z.to_nat 0) (comp X2 p) (zmin (nf X2) (nn b X2))) as [Z2|Z2]. 2:{ exfalso. unfold zmin in Z2. lia. } rewrite !andb_true_r.
      destruct (between_spec (Z.to_nat (nf X1)) (comp X1 p) (nn b X1)) as [B1|B1]; auto. exfalso. destruct Hp as [[] Hp]; lia.
  - intros old Lold. rewrite (eval_kap b scs E); auto. 2:{ intros d. destruct (H d) as (?&?&?&?&?). auto. } f_equal. rewrite K3, K2, K1. rewrite (kap_comm b X1 X2), (kap_comm b X1 X3), (kap_comm b X2 X3) by discriminate. reflexivity.
Qed.
(** cutoffs at least the number of points change nothing *)
Theorem C57_filter3d_identity b sc scs A E nf var vc0 : (forall d, schedule b d (sc d) /\ schedule b d (scs d) /\ analysis_of (bd b d) (apply (nn b d) (A d)) /\ synthesis_of (bd b d) (apply (nn b d) (E d)) /\ (Z.of_nat (nn b d) <= nf d)%Z) ->
  (forall d l, List.length l = nn b d -> apply (nn b d) (E d) (apply (nn b d) (A d) l) = l) -> List.length var = npoints b -> List.length vc0 = npoints b ->
  exists vc, spec_filter3d_inbox b sc scs (nf X1) (nf X2) (nf X3) var vc0 = Ok (var, vc).
Proof.
  intros H Inv Lu Lc. destruct (C57_filter3d b sc scs A E nf var vc0) as (c & var' & vc & E1 & E2 & Lv & V & Ev); auto. { intros d. destruct (H d) as (?&?&?&?&?). repeat split; try apply H; auto. lia. }
  destruct (C50_inverse b sc scs A E var vc0 var) as (c' & E1' & E3); auto. { intros d. destruct (H d) as (?&?&?&?&?). auto. } assert (c' = c) by congruence. subst c'.
  assert (Lcc : List.length c = npoints b). { rewrite (coeffs_kap b sc A) in E1; auto. 2:{ intros d. destruct (H d) as (?&?&?&?&?). auto. } injection E1 as <-. apply kap_length. }
  assert (vc = c). { apply (arr_ext b); auto. intros p Ip. apply V; auto. intros d. destruct (H d) as (_&_&_&_&Q). specialize (Ip d). lia. } subst vc. exists c. rewrite E2. rewrite Ev in E3 by auto. congruence.
Qed.
Print Assumptions C57_filter3d.
Print Assumptions C57_filter3d_identity.

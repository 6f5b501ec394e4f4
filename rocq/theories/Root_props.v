(** C46: bracketing root finders.  C59: Brent's root finder.  C60: bracketing and finding a minimum. *)
From Coq Require Import Ranalysis5.
From Verif Require Import Rutil Root_model Root_spec.
Local Open Scope R_scope.

Lemma inside_iff x1 x2 x : inside x1 x2 x <-> (x1 <= x <= x2 \/ x2 <= x <= x1).
Proof. unfold inside, Rmin, Rmax. destruct (Rle_dec x1 x2); lra. Qed.
Lemma inside_l x1 x2 : inside x1 x2 x1.
Proof. apply inside_iff. lra. Qed.
Lemma inside_r x1 x2 : inside x1 x2 x2.
Proof. apply inside_iff. lra. Qed.
Lemma inside_trans x1 x2 a b x : inside x1 x2 a -> inside x1 x2 b -> inside a b x -> inside x1 x2 x.
Proof. rewrite !inside_iff. lra. Qed.
Lemma inside_mid x1 x2 a b : inside x1 x2 a -> inside x1 x2 b -> inside x1 x2 (a + 0.5 * (b - a)).
Proof. rewrite !inside_iff. lra. Qed.
Lemma start_inside x0 x1 x2 : inside x1 x2 (start_guess x0 x1 x2).
Proof.
  unfold start_guess, between. rewrite inside_iff. destruct (Rle_dec x1 x0), (Rle_dec x0 x2), (Rle_dec x2 x0), (Rle_dec x0 x1); cbn [orb]; lra.
Qed.
Lemma bracketed_iff fl fh : bracketed fl fh = true <-> fl * fh <= 0.
Proof.
  unfold bracketed. destruct (Rle_dec fl 0), (Rle_dec 0 fh), (Rle_dec 0 fl), (Rle_dec fh 0); cbn [orb]; split; intros; auto; try discriminate; try nra.
Qed.
Lemma sign_root_le f a b : (forall x, a <= x <= b -> continuity_pt f x) -> a <= b -> f a * f b <= 0 -> exists r, a <= r <= b /\ f r = 0.
Proof.
  intros C L S. destruct (Req_dec (f a) 0) as [Z|Na]; [exists a; lra|]. destruct (Req_dec (f b) 0) as [Z|Nb]; [exists b; lra|].
  assert (a < b). { destruct L as [L|L]; auto. subst. nra. }
  destruct (Rlt_dec (f a) 0) as [Lt|Ge].
  - destruct (IVT_interv f a b C H Lt) as (z & Hz & E); [nra|]. eauto.
  - destruct (IVT_interv (fun x => - f x) a b) as (z & Hz & E); auto; try nra.
    + intros x Hx. apply (continuity_pt_opp f). auto.
    + exists z. split; auto. lra.
Qed.
Lemma sign_root f a b : continuous_on f a b -> f a * f b <= 0 -> exists r, inside a b r /\ f r = 0.
Proof.
  intros C S. destruct (Rle_dec a b) as [L|L].
  - destruct (sign_root_le f a b) as (r & H & E); auto. + intros x Hx. apply C, inside_iff. lra. + exists r. split; auto. apply inside_iff. lra.
  - destruct (sign_root_le f b a) as (r & H & E); [|lra|lra|]. + intros x Hx. apply C, inside_iff. lra. + exists r. split; auto. apply inside_iff. lra.
Qed.
Lemma continuous_sub f x1 x2 a b : continuous_on f x1 x2 -> inside x1 x2 a -> inside x1 x2 b -> continuous_on f a b.
Proof. intros C Ha Hb x Hx. apply C. now apply (inside_trans x1 x2 a b). Qed.

Lemma outside_prod a b y : ~ 0 < (y - b) * (y - a) -> inside a b y.
Proof. intros O. apply inside_iff. destruct (Rle_lt_dec a y), (Rle_lt_dec y b), (Rle_lt_dec b y), (Rle_lt_dec y a); try lra; exfalso; apply O; nra. Qed.

(** ** bisection *)
Lemma bis_loop_ok f xacc x1 x2 n : forall j xl xh xrt, inside x1 x2 xl -> inside x1 x2 xh -> inside x1 x2 xrt -> f xl < 0 -> 0 < f xh ->
  let r := bis_loop f xacc n j xl xh xrt in
  inside x1 x2 (fst r) /\ (j <= snd r <= j + Z.of_nat n)%Z /\
  ((snd r < j + Z.of_nat n)%Z -> continuous_on f x1 x2 -> 0 < xacc -> f (fst r) = 0 \/ exists z, inside x1 x2 z /\ f z = 0 /\ Rabs (z - fst r) < xacc).
Proof.
  induction n as [|n IH]; intros j xl xh xrt Hl Hh Hx Fl Fh; cbn [bis_loop]; cbv zeta.
  - cbn [fst snd]. split; auto. split; [lia|]. intros; lia.
  - destruct (Req_EM_T (f xrt) 0) as [Z|NZ].
    + cbn [fst snd]. split; auto. split; [lia|]. auto.
    + set (l := if Rlt_dec (f xrt) 0 then xrt else xl). set (h := if Rlt_dec (f xrt) 0 then xh else xrt).
      assert (Q : inside x1 x2 l /\ inside x1 x2 h /\ f l < 0 /\ 0 < f h). { unfold l, h. destruct (Rlt_dec (f xrt) 0); (split; [|split; [|split]]); auto; lra. }
      destruct Q as (Il & Ih & Ql & Qh). assert (Im := inside_mid x1 x2 l h Il Ih).
      assert (N : l <> h) by (intros E; rewrite E in Ql; lra).
      destruct (Req_EM_T l (l + 0.5 * (h - l))) as [E|_]; [exfalso; apply N; lra|].
      destruct (Rlt_dec (Rabs (0.5 * (h - l))) xacc) as [A|A].
      * cbn [fst snd]. split; auto. split; [lia|]. intros _ C P. right. destruct (sign_root f l h) as (z & Hz & E). { now apply (continuous_sub f x1 x2). } { nra. }
        exists z. split; [now apply (inside_trans x1 x2 l h)|]. split; auto. apply inside_iff in Hz. revert A. unfold Rabs. destruct (Rcase_abs _), (Rcase_abs _); lra.
      * specialize (IH (j + 1)%Z l h (l + 0.5 * (h - l)) Il Ih Im Ql Qh). cbv zeta in IH. destruct IH as (I1 & I2 & I3). split; auto. split; [lia|]. intros H C P. apply I3; auto. lia.
Qed.
(** bisection halves the interval each time *)
Lemma bis_loop_halves f xacc w n : forall j xl xh xrt, f xl < 0 -> 0 < f xh -> Rabs (xh - xl) <= w -> (inside xl xh xrt) -> (0 < n)%nat -> w / 2 ^ n < xacc -> (snd (bis_loop f xacc n j xl xh xrt) < j + Z.of_nat n)%Z.
Proof.
  revert w. induction n as [|n IH]; intros w j xl xh xrt Fl Fh W Hx Hn A; [lia|]. cbn [bis_loop]. cbv zeta.
  destruct (Req_EM_T (f xrt) 0) as [Z|NZ]; [cbn [snd]; lia|].
  set (l := if Rlt_dec (f xrt) 0 then xrt else xl). set (h := if Rlt_dec (f xrt) 0 then xh else xrt).
  assert (Q : f l < 0 /\ 0 < f h /\ Rabs (h - l) <= w). { apply inside_iff in Hx. unfold l, h. destruct (Rlt_dec (f xrt) 0); (split; [lra|split; [lra|]]); revert W; unfold Rabs; destruct (Rcase_abs _), (Rcase_abs _); lra. }
  destruct Q as (Ql & Qh & W2). destruct (Req_EM_T l _); [cbn [snd]; lia|]. destruct (Rlt_dec _ xacc) as [|A2]; [cbn [snd]; lia|].
  assert (H2 : Rabs (0.5 * (h - l)) <= w / 2). { rewrite Rabs_mult. rewrite (Rabs_right 0.5) by lra. lra. }
  destruct n as [|n].
  - exfalso. apply A2. change (2 ^ 1) with (2 * 1) in A. lra.
  - (* the midpoint splits [l,h]; after evaluating it one half remains *)
    cbn [bis_loop]. cbv zeta. set (m := l + 0.5 * (h - l)). destruct (Req_EM_T (f m) 0) as [Zm|NZm]; [cbn [snd]; lia|].
    assert (G : (snd (bis_loop f xacc (S n) (j + 1) (if Rlt_dec (f m) 0 then m else l) (if Rlt_dec (f m) 0 then h else m) m) < j + 1 + Z.of_nat (S n))%Z).
    { apply (IH (w / 2)); try lia.
      - destruct (Rlt_dec (f m) 0); auto.
      - destruct (Rlt_dec (f m) 0); auto. lra.
      - assert (Rabs (h - l) <= w) by auto. revert H. unfold m. destruct (Rlt_dec (f (l + 0.5 * (h - l))) 0); unfold Rabs; destruct (Rcase_abs _), (Rcase_abs _); lra.
      - destruct (Rlt_dec (f m) 0); [apply inside_l|apply inside_r].
      - change (2 ^ S (S n)) with (2 * 2 ^ S n) in A. unfold Rdiv in *. rewrite Rinv_mult in A. lra. }
    assert (E : bis_loop f xacc (S n) (j + 1) (if Rlt_dec (f m) 0 then m else l) (if Rlt_dec (f m) 0 then h else m) m = bis_loop f xacc (S n) (j + 1) l h m).
    { cbn [bis_loop]. cbv zeta. destruct (Req_EM_T (f m) 0); [contradiction|]. destruct (Rlt_dec (f m) 0); reflexivity. }
    rewrite E in G. cbn [bis_loop] in G. cbv zeta in G. destruct (Req_EM_T (f m) 0); [contradiction|]. lia.
Qed.

(** Bisection.  If the values at the ends do not have opposite signs, the result is -2*maxits-3 and *x0 is untouched.  Otherwise the result is
    between 0 and maxits+1, *x0 is in the bracket, and unless the result is maxits+1 there is a root of a continuous function within xacc of *x0. *)
Theorem C46_rtbisect f x0 x1 x2 maxits xacc : (0 <= maxits)%Z ->
  let r := rtbisect f x0 x1 x2 maxits xacc in
  (~ sign_change f x1 x2 -> r = (x0, (- 2 * maxits - 3)%Z)) /\
  (sign_change f x1 x2 -> (0 <= snd r <= maxits + 1)%Z /\ inside x1 x2 (fst r) /\
    ((snd r <= maxits)%Z -> continuous_on f x1 x2 -> 0 < xacc -> root_within f x1 x2 xacc (fst r))).
Proof.
  intros Hm r. unfold sign_change. split.
  - intros N. unfold r, rtbisect. destruct (bracketed (f x1) (f x2)) eqn:B; [|reflexivity]. apply bracketed_iff in B. contradiction.
  - intros S. assert (B := proj2 (bracketed_iff _ _) S). unfold r, rtbisect. rewrite B. cbn [negb].
    destruct (Req_EM_T (f x1) 0) as [Z1|N1].
    + cbn [fst snd]. split; [lia|]. split; [apply inside_l|]. intros _ _ P. exists x1. split; [apply inside_l|]. split; auto. rewrite Rminus_diag_eq, Rabs_R0; lra.
    + destruct (Req_EM_T (f x2) 0) as [Z2|N2].
      * cbn [fst snd]. split; [lia|]. split; [apply inside_r|]. intros _ _ P. exists x2. split; [apply inside_r|]. split; auto. rewrite Rminus_diag_eq, Rabs_R0; lra.
      * set (xl := if Rlt_dec (f x1) 0 then x1 else x2). set (xh := if Rlt_dec (f x1) 0 then x2 else x1).
        assert (Q : inside x1 x2 xl /\ inside x1 x2 xh /\ f xl < 0 /\ 0 < f xh). { unfold xl, xh. destruct (Rlt_dec (f x1) 0); (split; [|split; [|split]]); try apply inside_l; try apply inside_r; nra. }
        destruct Q as (Il & Ih & Ql & Qh). destruct (bis_loop_ok f xacc x1 x2 (Z.to_nat maxits) 1 xl xh (start_guess x0 x1 x2) Il Ih (start_inside x0 x1 x2) Ql Qh) as (P1 & P2 & P3).
        cbv zeta in P3. split; [lia|]. split; auto. intros H C P. destruct P3 as [Z|(z & Hz & E & A)]; auto; [lia| |].
        -- eexists. split; [exact P1|]. split; auto. rewrite Rminus_diag_eq, Rabs_R0; lra.
        -- exists z. split; auto. split; auto. lra.
Qed.
(** Enough iterations: with |x2-x1| < 2^maxits xacc bisection always converges. *)
Theorem C46_rtbisect_converges f x0 x1 x2 maxits xacc : (0 < maxits)%Z -> sign_change f x1 x2 -> Rabs (x2 - x1) < xacc * 2 ^ Z.to_nat maxits -> (0 <= snd (rtbisect f x0 x1 x2 maxits xacc) <= maxits)%Z.
Proof.
  intros Hm S A. destruct (C46_rtbisect f x0 x1 x2 maxits xacc) as [_ [[R _] _]]; [lia|auto|]. split; auto. clear R. unfold rtbisect. rewrite (proj2 (bracketed_iff _ _) S). cbn [negb].
  destruct (Req_EM_T (f x1) 0) as [Z1|N1]; [cbn [snd]; lia|]. destruct (Req_EM_T (f x2) 0) as [Z2|N2]; [cbn [snd]; lia|]. unfold sign_change in S.
  assert (P2 := pow_lt 2 (Z.to_nat maxits) ltac:(lra)).
  assert (G : (snd (bis_loop f xacc (Z.to_nat maxits) 1 (if Rlt_dec (f x1) 0 then x1 else x2) (if Rlt_dec (f x1) 0 then x2 else x1) (start_guess x0 x1 x2)) < 1 + Z.of_nat (Z.to_nat maxits))%Z); [|lia].
  apply (bis_loop_halves f xacc (Rabs (x2 - x1))); try lia.
  - destruct (Rlt_dec (f x1) 0); nra.
  - destruct (Rlt_dec (f x1) 0); nra.
  - destruct (Rlt_dec (f x1) 0); [lra|]. rewrite Rabs_minus_sym. lra.
  - assert (I := start_inside x0 x1 x2). apply inside_iff in I. destruct (Rlt_dec (f x1) 0); apply inside_iff; lra.
  - apply (Rmult_lt_reg_r (2 ^ Z.to_nat maxits)); auto. unfold Rdiv. rewrite Rmult_assoc, Rinv_l by lra. lra.
Qed.

(** ** Newton with bracketing *)
Lemma newton_step_ok fx dfx xl xh xrt dx dxold x1 x2 : fx <> 0 -> inside x1 x2 xl -> inside x1 x2 xh ->
  let '(nx, ndx, _, bis) := newton_step fx dfx xl xh xrt dx dxold in inside x1 x2 nx /\ inside xl xh nx /\
  (bis = true -> nx = xl + 0.5 * (xh - xl) /\ ndx = 0.5 * (xh - xl)) /\ (bis = false -> dfx <> 0 /\ ndx = fx / dfx /\ nx = xrt - fx / dfx).
Proof.
  intros NZ Hl Hh. unfold newton_step. cbv zeta. set (nx := xrt - fx / dfx).
  destruct (Rlt_dec (Rabs (dxold * dfx)) (Rabs (2.0 * fx))) as [B|B]; cbn [negb andb].
  - split; [now apply inside_mid|]. split; [apply inside_mid; [apply inside_l|apply inside_r]|]. split; [auto|discriminate].
  - destruct (Rlt_dec 0 ((nx - xh) * (nx - xl))) as [O|O]; cbn [orb negb]; [|destruct (Req_EM_T xrt nx); cbn [negb]].
    + split; [now apply inside_mid|]. split; [apply inside_mid; [apply inside_l|apply inside_r]|]. split; [auto|discriminate].
    + split; [now apply inside_mid|]. split; [apply inside_mid; [apply inside_l|apply inside_r]|]. split; [auto|discriminate].
    + assert (I : inside xl xh nx). { now apply outside_prod. }
      split; [now apply (inside_trans x1 x2 xl xh)|]. split; auto. split; [discriminate|]. intros _. split; auto. intros Z. apply B. rewrite Z, Rmult_0_r, Rabs_R0. apply Rabs_pos_lt. lra.
Qed.
Lemma newt_loop_ok fdf xacc x1 x2 n : forall j xl xh xrt dx dxold, inside x1 x2 xl -> inside x1 x2 xh -> inside x1 x2 xrt -> fst (fdf xl) < 0 -> 0 < fst (fdf xh) ->
  let r := newt_loop fdf xacc n j xl xh xrt dx dxold in
  inside x1 x2 (fst r) /\ (j <= snd r <= j + Z.of_nat n)%Z /\
  ((snd r < j + Z.of_nat n)%Z -> continuous_on (fun x => fst (fdf x)) x1 x2 -> 0 < xacc ->
    root_within (fun x => fst (fdf x)) x1 x2 xacc (fst r) \/
    exists x, inside x1 x2 x /\ snd (fdf x) <> 0 /\ fst r = x - fst (fdf x) / snd (fdf x) /\ Rabs (fst (fdf x) / snd (fdf x)) < xacc).
Proof.
  induction n as [|n IH]; intros j xl xh xrt dx dxold Hl Hh Hx Fl Fh; cbn [newt_loop]; cbv zeta.
  - cbn [fst snd]. split; auto. split; [lia|]. intros; lia.
  - destruct (Req_EM_T (fst (fdf xrt)) 0) as [Z|NZ].
    + cbn [fst snd]. split; auto. split; [lia|]. intros _ _ P. left. exists xrt. split; auto. split; auto. rewrite Rminus_diag_eq, Rabs_R0; lra.
    + set (l := if Rlt_dec (fst (fdf xrt)) 0 then xrt else xl). set (h := if Rlt_dec (fst (fdf xrt)) 0 then xh else xrt).
      assert (Q : inside x1 x2 l /\ inside x1 x2 h /\ fst (fdf l) < 0 /\ 0 < fst (fdf h)). { unfold l, h. destruct (Rlt_dec (fst (fdf xrt)) 0); (split; [|split; [|split]]); auto; lra. }
      destruct Q as (Il & Ih & Ql & Qh). assert (N : l <> h) by (intros E; rewrite E in Ql; lra).
      assert (St := newton_step_ok (fst (fdf xrt)) (snd (fdf xrt)) l h xrt dx dxold x1 x2 NZ Il Ih). destruct (newton_step _ _ _ _ _ _ _) as [[[nx ndx] nold] bis]. destruct St as (S1 & S2 & S3 & S4).
      destruct bis; cbn [andb].
      * destruct S3 as [E1 E2]; auto. destruct (Req_EM_T l nx) as [E|_]; [exfalso; apply N; lra|].
        destruct (Rlt_dec (Rabs ndx) xacc) as [A|A].
        -- cbn [fst snd]. split; auto. split; [lia|]. intros _ C P. left. destruct (sign_root (fun x => fst (fdf x)) l h) as (z & Hz & E). { now apply (continuous_sub _ x1 x2). } { cbv beta. nra. }
           exists z. split; [now apply (inside_trans x1 x2 l h)|]. split; auto. apply inside_iff in Hz. subst nx ndx. revert A. unfold Rabs. destruct (Rcase_abs _), (Rcase_abs _); lra.
        -- destruct (IH (j + 1)%Z l h nx ndx nold Il Ih S1 Ql Qh) as (I1 & I2 & I3). split; auto. split; [lia|]. intros H C P. apply I3; auto. lia.
      * destruct S4 as (D & E1 & E2); auto. destruct (Rlt_dec (Rabs ndx) xacc) as [A|A].
        -- cbn [fst snd]. split; auto. split; [lia|]. intros _ C P. right. exists xrt. subst. auto.
        -- destruct (IH (j + 1)%Z l h nx ndx nold Il Ih S1 Ql Qh) as (I1 & I2 & I3). split; auto. split; [lia|]. intros H C P. apply I3; auto. lia.
Qed.
(** Newton's method with bracketing: as for bisection, the result is in the bracket.  The accuracy claim is weaker than the comment suggests:
    if the last step was a Newton step, only the length of that step is known to be below xacc. *)
Theorem C46_newton_partial fdf x0 x1 x2 maxits xacc : (0 <= maxits)%Z ->
  let f := fun x => fst (fdf x) in
  let r := newton1d_brak fdf x0 x1 x2 maxits xacc in
  (~ sign_change f x1 x2 -> r = (x0, (- 2 * maxits - 3)%Z)) /\
  (sign_change f x1 x2 -> (0 <= snd r <= maxits + 1)%Z /\ inside x1 x2 (fst r) /\
    ((snd r <= maxits)%Z -> continuous_on f x1 x2 -> 0 < xacc -> root_within f x1 x2 xacc (fst r) \/
      exists x, inside x1 x2 x /\ snd (fdf x) <> 0 /\ fst r = x - f x / snd (fdf x) /\ Rabs (f x / snd (fdf x)) < xacc)).
Proof.
  intros Hm f r. unfold sign_change. split.
  - intros N. unfold r, newton1d_brak. destruct (bracketed (fst (fdf x1)) (fst (fdf x2))) eqn:B; [|reflexivity]. apply bracketed_iff in B. contradiction.
  - intros S. assert (B := proj2 (bracketed_iff _ _) S). unfold r, newton1d_brak. unfold f in *. rewrite B. cbn [negb].
    destruct (Req_EM_T (fst (fdf x1)) 0) as [Z1|N1].
    + cbn [fst snd]. split; [lia|]. split; [apply inside_l|]. intros _ _ P. left. exists x1. split; [apply inside_l|]. split; auto. rewrite Rminus_diag_eq, Rabs_R0; lra.
    + destruct (Req_EM_T (fst (fdf x2)) 0) as [Z2|N2].
      * cbn [fst snd]. split; [lia|]. split; [apply inside_r|]. intros _ _ P. left. exists x2. split; [apply inside_r|]. split; auto. rewrite Rminus_diag_eq, Rabs_R0; lra.
      * set (xl := if Rlt_dec (fst (fdf x1)) 0 then x1 else x2). set (xh := if Rlt_dec (fst (fdf x1)) 0 then x2 else x1).
        assert (Q : inside x1 x2 xl /\ inside x1 x2 xh /\ fst (fdf xl) < 0 /\ 0 < fst (fdf xh)). { unfold xl, xh. destruct (Rlt_dec (fst (fdf x1)) 0); (split; [|split; [|split]]); try apply inside_l; try apply inside_r; nra. }
        destruct Q as (Il & Ih & Ql & Qh). destruct (newt_loop_ok fdf xacc x1 x2 (Z.to_nat maxits) 1 xl xh (start_guess x0 x1 x2) (Rabs (x2 - x1)) (Rabs (x2 - x1)) Il Ih (start_inside x0 x1 x2) Ql Qh) as (P1 & P2 & P3).
        cbv zeta in P3. split; [lia|]. split; auto. intros H C P. apply P3; auto. lia.
Qed.
(** x^3 on [-1, 3/2], guess 1, accuracy 1/2: the first Newton step is 1/3, so 2/3 is returned, which is not within 1/2 of the only root 0 *)
Theorem C46_newton_refuted : exists fdf x0 x1 x2 maxits xacc, let f := fun x => fst (fdf x) in let r := newton1d_brak fdf x0 x1 x2 maxits xacc in
  (0 <= maxits)%Z /\ sign_change f x1 x2 /\ (forall x, derivable_pt_lim f x (snd (fdf x))) /\ 0 < xacc /\ (0 <= snd r <= maxits)%Z /\ ~ root_within f x1 x2 xacc (fst r).
Proof.
  exists (fun x => (x ^ 3, 3 * x ^ 2)), 1, (-1), 1.5, 10%Z, 0.5. cbv zeta. cbn [fst snd].
  assert (E : newton1d_brak (fun x => (x ^ 3, 3 * x ^ 2)) 1 (-1) 1.5 10 0.5 = (1 - 1 ^ 3 / (3 * 1 ^ 2), 1%Z)).
  { unfold newton1d_brak. cbn [fst snd]. rewrite (proj2 (bracketed_iff ((-1) ^ 3) (1.5 ^ 3))) by lra. cbn [negb].
    destruct (Req_EM_T ((-1) ^ 3) 0); [lra|]. destruct (Req_EM_T (1.5 ^ 3) 0); [lra|]. destruct (Rlt_dec ((-1) ^ 3) 0); [|lra].
    assert (G : start_guess 1 (-1) 1.5 = 1). { unfold start_guess, between. destruct (Rle_dec (-1) 1); [|lra]. destruct (Rle_dec 1 1.5); [|lra]. reflexivity. }
    rewrite G. change (Z.to_nat 10) with 10%nat. cbn [newt_loop]. cbv zeta. cbn [fst snd]. destruct (Req_EM_T (1 ^ 3) 0); [lra|]. destruct (Rlt_dec (1 ^ 3) 0); [lra|].
    assert (S : newton_step (1 ^ 3) (3 * 1 ^ 2) (-1) 1 1 (Rabs (1.5 - -1)) (Rabs (1.5 - -1)) = (1 - 1 ^ 3 / (3 * 1 ^ 2), 1 ^ 3 / (3 * 1 ^ 2), Rabs (1.5 - -1), false)).
    { unfold newton_step. rewrite (Rabs_right (1.5 - -1)) by lra. destruct (Rlt_dec _ _) as [L|L]. { rewrite !Rabs_right in L by lra. lra. } cbn [negb andb]. destruct (Rlt_dec 0 _) as [L2|L2]; [exfalso; lra|]. destruct (Req_EM_T _ _); [exfalso; lra|]. reflexivity. }
    rewrite S. cbn [andb]. destruct (Rlt_dec _ 0.5) as [A|A]; [reflexivity|]. exfalso. apply A. rewrite Rabs_right; lra. }
  rewrite E. cbn [fst snd]. split; [lia|]. split; [unfold sign_change; lra|]. split.
  - intros x. replace (3 * x ^ 2) with (INR 3 * x ^ pred 3) by (cbn; ring). apply derivable_pt_lim_pow.
  - split; [lra|]. split; [lia|]. intros (z & _ & Z & A). assert (z = 0). { destruct (Req_dec z 0) as [|N]; auto. apply (pow_nonzero z 3) in N. contradiction. } subst z. revert A. unfold Rabs. destruct (Rcase_abs _); lra.
Qed.

(** ** looking for a bracket *)
(** [outward k]: after k expansions of [x1,x2] *)
Lemma brak_loop_ok f n : forall j x1 x2, x1 <> x2 -> let '(y1, y2, r) := brak_loop f n j x1 x2 in
  (r = (- (j + Z.of_nat n) - 1)%Z \/ (j <= r < j + Z.of_nat n)%Z) /\
  ((x1 < x2 /\ y1 <= x1 /\ x2 <= y2) \/ (x2 < x1 /\ x1 <= y1 /\ y2 <= x2)) /\
  ((0 < j)%Z -> (0 <= r)%Z -> f y1 * f y2 < 0 /\ Rabs (y2 - y1) = Rabs (x2 - x1) * 2.6 ^ Z.to_nat (r - j)) /\
  ((0 < j)%Z -> (r < 0)%Z -> Rabs (y2 - y1) = Rabs (x2 - x1) * 2.6 ^ n).
Proof.
  induction n as [|n IH]; intros j x1 x2 N; cbn [brak_loop].
  - split; [left; lia|]. split; [lra|]. split; [lia|]. intros. cbn. ring.
  - destruct (Rlt_dec (f x1 * f x2) 0) as [B|B].
    + split; [right; lia|]. split; [lra|]. split. * intros _ _. split; auto. rewrite Z.sub_diag. cbn. ring. * intros; lia.
    + assert (W1 : Rabs (x2 - (x1 + 1.6 * (x1 - x2))) = Rabs (x2 - x1) * 2.6). { replace (x2 - (x1 + 1.6 * (x1 - x2))) with ((x2 - x1) * 2.6) by lra. rewrite Rabs_mult, (Rabs_right 2.6) by lra. reflexivity. }
      assert (W2 : Rabs (x2 + 1.6 * (x2 - x1) - x1) = Rabs (x2 - x1) * 2.6). { replace (x2 + 1.6 * (x2 - x1) - x1) with ((x2 - x1) * 2.6) by lra. rewrite Rabs_mult, (Rabs_right 2.6) by lra. reflexivity. }
      assert (G : forall z1 z2, Rabs (z2 - z1) = Rabs (x2 - x1) * 2.6 -> ((x1 < x2 /\ z1 <= x1 /\ x2 <= z2) \/ (x2 < x1 /\ x1 <= z1 /\ z2 <= x2)) ->
        let '(y1, y2, r) := brak_loop f n (j + 1) z1 z2 in
        (r = (- (j + Z.of_nat (S n)) - 1)%Z \/ (j <= r < j + Z.of_nat (S n))%Z) /\ ((x1 < x2 /\ y1 <= x1 /\ x2 <= y2) \/ (x2 < x1 /\ x1 <= y1 /\ y2 <= x2)) /\
        ((0 < j)%Z -> (0 <= r)%Z -> f y1 * f y2 < 0 /\ Rabs (y2 - y1) = Rabs (x2 - x1) * 2.6 ^ Z.to_nat (r - j)) /\ ((0 < j)%Z -> (r < 0)%Z -> Rabs (y2 - y1) = Rabs (x2 - x1) * 2.6 ^ S n)).
      { intros z1 z2 W O. assert (z1 <> z2) by lra. specialize (IH (j + 1)%Z z1 z2 H). destruct (brak_loop f n (j + 1) z1 z2) as [[y1 y2] r]. destruct IH as (I1 & I2 & I3 & I4). split; [lia|]. split; [lra|]. split.
        - intros Hj Hr. destruct I3 as [I3 I5]; [lia|auto|]. split; auto. rewrite I5, W. replace (Z.to_nat (r - j)) with (S (Z.to_nat (r - (j + 1)))) by lia. cbn [pow]. ring.
        - intros Hj Hr. rewrite I4, W by lia. cbn [pow]. ring. }
      destruct (Rlt_dec (Rabs (f x1)) (Rabs (f x2))); apply G; auto; lra.
Qed.
(** rt_brak.  Equal ends: -1.  Otherwise the result is the number of tries, at most maxits, and then the function has opposite signs at the new ends,
    or -maxits-2.  In all cases the new interval contains the old one, and its width has grown by 2.6 per expansion. *)
Theorem C46_rt_brak f x1 x2 maxits : (0 <= maxits)%Z -> let '(y1, y2, r) := rt_brak f x1 x2 maxits in
  (x1 = x2 -> y1 = x1 /\ y2 = x2 /\ r = (-1)%Z) /\
  (x1 <> x2 -> (r = (- maxits - 2)%Z \/ (1 <= r <= maxits)%Z) /\ ((x1 < x2 /\ y1 <= x1 /\ x2 <= y2) \/ (x2 < x1 /\ x1 <= y1 /\ y2 <= x2)) /\
    ((0 <= r)%Z -> f y1 * f y2 < 0 /\ Rabs (y2 - y1) = Rabs (x2 - x1) * 2.6 ^ Z.to_nat (r - 1)) /\
    ((0 <= r)%Z -> continuous_on f y1 y2 -> exists z, inside y1 y2 z /\ f z = 0) /\
    ((r < 0)%Z -> Rabs (y2 - y1) = Rabs (x2 - x1) * 2.6 ^ Z.to_nat maxits)).
Proof.
  intros Hm. unfold rt_brak. destruct (Req_EM_T x1 x2) as [E|N]; [split; auto; intros; contradiction|]. assert (H := brak_loop_ok f (Z.to_nat maxits) 1 x1 x2 N). destruct (brak_loop _ _ _ _ _) as [[y1 y2] r]. destruct H as (H1 & H2 & H3 & H4).
  split; [intros; contradiction|]. intros _. split; [lia|]. split; auto. split; [|split; [|intros; apply H4; lia]].
  - intros Hr. apply H3; lia.
  - intros Hr C. destruct H3 as [H3 _]; [lia|auto|]. apply sign_root; auto. lra.
Qed.
(** A failure return does not mean that the last interval is no bracket: it is not checked again. *)
Theorem C46_rt_brak_missed : exists f x1 x2 maxits, let '(y1, y2, r) := rt_brak f x1 x2 maxits in (0 < maxits)%Z /\ (r < 0)%Z /\ f y1 * f y2 < 0.
Proof.
  exists (fun x => x - 2), 0, 1, 1%Z. unfold rt_brak. destruct (Req_EM_T 0 1); [lra|]. change (Z.to_nat 1) with 1%nat. cbn [brak_loop]. destruct (Rlt_dec ((0 - 2) * (1 - 2)) 0); [lra|]. destruct (Rlt_dec (Rabs (0 - 2)) (Rabs (1 - 2))) as [L|L].
  - exfalso. rewrite !Rabs_left in L by lra. lra.
  - split; [lia|]. split; [lia|]. lra.
Qed.
Example C46_example : sign_change (fun x => x * x - 2) 0 2 /\ continuous_on (fun x => x * x - 2) 0 2 /\ Rabs (2 - 0) < 0.01 * 2 ^ Z.to_nat 8 /\ ~ sign_change (fun x => x * x - 2) 0 1.
Proof.
  split; [unfold sign_change; lra|]. split.
  - intros x _. apply derivable_continuous_pt. reg.
  - split. + rewrite Rabs_right by lra. change (Z.to_nat 8) with 8%nat. lra. + unfold sign_change. lra.
Qed.

(** ** Brent's root finder *)
Lemma same_sign_iff x y : same_sign x y = true <-> 0 < x * y.
Proof. unfold same_sign. destruct (Rlt_dec x 0), (Rlt_dec y 0), (Rlt_dec 0 x), (Rlt_dec 0 y); cbn [orb]; split; intros; auto; try discriminate; nra. Qed.
Lemma brent_step_inside x1 x2 a b c fa fb fc d e xm tol : inside x1 x2 b -> inside x1 x2 c -> xm = 0.5 * (c - b) -> tol < Rabs xm -> inside x1 x2 (snd (brent_step x1 x2 a b c fa fb fc d e xm tol)).
Proof.
  intros Hb Hc -> T. assert (M : inside x1 x2 (brent_move b (0.5 * (c - b)) (0.5 * (c - b)) tol)). { unfold brent_move. destruct (Rlt_dec tol _); [|contradiction]. now apply inside_mid. }
  unfold brent_step. destruct (_ || _); [exact M|]. cbv zeta. match goal with |- context [if Rlt_dec 0 (fst ?pq) then - snd ?pq else snd ?pq] => generalize (if Rlt_dec 0 (fst pq) then - snd pq else snd pq) (Rabs (fst pq)) end. intros q p. destruct (Rlt_dec (2 * p) _); [|exact M]. destruct (Rlt_dec 0 _) as [O|O]; [exact M|]. cbn [snd]. now apply outside_prod.
Qed.
Lemma DOUBLE_EPS_pos : 0 < DOUBLE_EPS.
Proof. unfold DOUBLE_EPS. apply Rinv_0_lt_compat, pow_lt. lra. Qed.
Lemma brent_loop_ok f x1 x2 xacc n : forall j a b c d e, inside x1 x2 a -> inside x1 x2 b -> inside x1 x2 c -> (0 < f b * f c -> f a * f b <= 0) ->
  let r := brent_loop f x1 x2 xacc n j a b c (f a) (f b) (f c) d e in
  inside x1 x2 (fst r) /\ (j <= snd r <= j + Z.of_nat n)%Z /\
  ((snd r < j + Z.of_nat n)%Z -> continuous_on f x1 x2 -> 0 <= xacc -> root_within f x1 x2 (xacc + 4 * DOUBLE_EPS * Rabs (fst r)) (fst r)).
Proof.
  induction n as [|n IH]; intros j a b c d e Ha Hb Hc Hs; cbn [brent_loop].
  - cbn [fst snd]. split; auto. split; [lia|]. intros; lia.
  - assert (P1 : exists c' d' e', (if same_sign (f b) (f c) then (a, f a, b - a, b - a) else (c, f c, d, e)) = (c', f c', d', e') /\ inside x1 x2 c' /\ f b * f c' <= 0).
    { destruct (same_sign (f b) (f c)) eqn:E. - apply same_sign_iff in E. do 3 eexists. split; [reflexivity|]. split; auto. specialize (Hs E). lra. - do 3 eexists. split; [reflexivity|]. split; auto. destruct (Rle_dec (f b * f c) 0); auto. exfalso. rewrite (proj2 (same_sign_iff _ _)) in E by lra. discriminate. }
    destruct P1 as (c' & d' & e' & E1 & Hc' & S1). rewrite E1. cbv beta iota.
    assert (P2 : exists a2 b2 c2, (if Rlt_dec (Rabs (f c')) (Rabs (f b)) then (b, c', b, f b, f c', f b) else (a, b, c', f a, f b, f c')) = (a2, b2, c2, f a2, f b2, f c2) /\ inside x1 x2 a2 /\ inside x1 x2 b2 /\ inside x1 x2 c2 /\ f b2 * f c2 <= 0 /\ Rabs (f b2) <= Rabs (f c2)).
    { destruct (Rlt_dec (Rabs (f c')) (Rabs (f b))). - exists b, c', b. repeat (split; auto). lra. lra. - exists a, b, c'. repeat (split; auto). lra. }
    destruct P2 as (a2 & b2 & c2 & E2 & Ia & Ib & Ic & S2 & L2). rewrite E2. cbv beta iota zeta. set (tol := 2 * DOUBLE_EPS * Rabs b2 + 0.5 * xacc). set (xm := 0.5 * (c2 - b2)).
    assert (EP := DOUBLE_EPS_pos). assert (AP := Rabs_pos b2).
    destruct (Rle_dec (Rabs xm) tol) as [T|T]; cbn [orb].
    + cbn [fst snd]. split; auto. split; [lia|]. intros _ C P. destruct (sign_root f b2 c2) as (z & Hz & E); auto. { now apply (continuous_sub f x1 x2). }
      exists z. split; [now apply (inside_trans x1 x2 b2 c2)|]. split; auto. apply inside_iff in Hz. assert (Rabs (z - b2) <= 2 * tol). { clearbody tol. revert T. unfold xm, Rabs. destruct (Rcase_abs _), (Rcase_abs _); lra. } unfold tol in *. lra.
    + destruct (Req_EM_T (f b2) 0) as [Z|NZ].
      * cbn [fst snd]. split; auto. split; [lia|]. intros _ C P. exists b2. split; auto. split; auto. rewrite Rminus_diag_eq, Rabs_R0 by auto. assert (0 <= 4 * DOUBLE_EPS * Rabs b2) by (apply Rmult_le_pos; lra). lra.
      * assert (Hn := brent_step_inside x1 x2 a2 b2 c2 (f a2) (f b2) (f c2) d' e' xm tol Ib Ic eq_refl ltac:(lra)). destruct (brent_step _ _ _ _ _ _ _ _ _ _ _ _) as [[d3 e3] bn]. cbn [snd] in Hn.
        destruct (IH (j + 1)%Z b2 bn c2 d3 e3) as (I1 & I2 & I3); auto.
        { intros Q. assert (N2 : f c2 <> 0). { intros Z. rewrite Z, Rabs_R0 in L2. apply Rabs_pos_lt in NZ. lra. } assert (0 < f c2 \/ f c2 < 0) as [W|W] by lra; nra. }
        split; auto. split; [lia|]. intros H C P. apply I3; auto. lia.
Qed.
(** Brent's method.  Ends with values of the same strict sign: -2*maxits-3, *x0 untouched.  Otherwise *x0 is in the bracket, and unless the result is
    maxits+1 a continuous function has a root within xacc + 4e-14 |*x0|. *)
Theorem C59_rtbrent f x0 x1 x2 maxits xacc : (0 <= maxits)%Z ->
  let r := rtbrent_brak f x0 x1 x2 maxits xacc in
  (~ sign_change f x1 x2 -> r = (x0, (- 2 * maxits - 3)%Z)) /\
  (sign_change f x1 x2 -> (1 <= snd r <= maxits + 1)%Z /\ inside x1 x2 (fst r) /\
    ((snd r <= maxits)%Z -> continuous_on f x1 x2 -> 0 <= xacc -> root_within f x1 x2 (xacc + 4 * / 10 ^ 14 * Rabs (fst r)) (fst r))).
Proof.
  intros Hm r. unfold sign_change. split.
  - intros N. unfold r, rtbrent_brak. rewrite (proj2 (same_sign_iff _ _)) by lra. reflexivity.
  - intros P. unfold r, rtbrent_brak. destruct (same_sign (f x1) (f x2)) eqn:E; [apply same_sign_iff in E; lra|].
    destruct (brent_loop_ok f x1 x2 xacc (Z.to_nat maxits) 1 x1 x2 x2 (x2 - x1) (x2 - x1)) as (P1 & P2 & P3); try apply inside_l; try apply inside_r; auto. cbv zeta in P3. split; [lia|]. split; auto. intros H C Q. apply P3; auto. lia.
Qed.
Example C59_example : sign_change (fun x => x * x - 2) 0 2 /\ snd (rtbrent_brak (fun x => x * x - 2) 7 0 1 5 0.1) = (-13)%Z.
Proof.
  split; [unfold sign_change; lra|]. destruct (C59_rtbrent (fun x => x * x - 2) 7 0 1 5 0.1) as [H _]; [lia|]. rewrite H; [reflexivity|]. unfold sign_change. lra.
Qed.

(** ** minima *)
Lemma minb_u f_ a b v w x fv fw fx e dj tol1 : 0 < tol1 -> a < x < b -> ~ Rabs (x - 0.5 * (a + b)) <= 2 * tol1 - 0.5 * (b - a) -> f_ = fst (minb_step a b v w x fv fw fx e dj (0.5 * (a + b)) tol1 (2 * tol1)) ->
  let u := if Rle_dec tol1 (Rabs f_) then x + f_ else x + with_sign tol1 f_ in a < u < b /\ u <> x.
Proof.
  intros T Hx N E.
  assert (Far : (0.5 * (a + b) <= x -> 2 * tol1 < x - a) /\ (x <= 0.5 * (a + b) -> 2 * tol1 < b - x)). { unfold Rabs in N. destruct (Rcase_abs _); lra. }
  destruct Far as [FL FR].
  assert (WS : forall y, with_sign tol1 y = if Rle_dec 0 y then tol1 else - tol1). { intros y. unfold with_sign. rewrite Rabs_right by lra. reflexivity. }
  assert (Gold : let e1 := if Rle_dec (0.5 * (a + b)) x then a - x else b - x in let d := golden * e1 in let u := if Rle_dec tol1 (Rabs d) then x + d else x + with_sign tol1 d in a < u < b /\ u <> x).
  { cbv zeta. rewrite WS. unfold golden. destruct (Rle_dec (0.5 * (a + b)) x) as [Q|Q].
    - specialize (FL Q). destruct (Rle_dec tol1 _). + nra. + destruct (Rle_dec 0 (0.3819660 * (a - x))); nra.
    - specialize (FR ltac:(lra)). destruct (Rle_dec tol1 _). + nra. + destruct (Rle_dec 0 (0.3819660 * (b - x))); nra. }
  cbv zeta in Gold. unfold minb_step in E. destruct (Rlt_dec tol1 (Rabs e)) as [_|_]; [|subst f_; exact Gold]. cbv zeta in E.
  set (q0 := 2 * ((x - v) * (fx - fw) - (x - w) * (fx - fv))) in E. set (p0 := (x - v) * ((x - v) * (fx - fw)) - (x - w) * ((x - w) * (fx - fv))) in E. clearbody q0 p0. set (p := if Rlt_dec 0 q0 then - p0 else p0) in E. set (q := Rabs q0) in E. assert (Q0 : 0 <= q) by apply Rabs_pos. clearbody p q.
  destruct (Rle_dec (Rabs (0.5 * q * e)) (Rabs p)) as [C1|C1]; cbn [orb] in E; [subst f_; exact Gold|].
  destruct (Rle_dec p (q * (a - x))) as [C2|C2]; cbn [orb] in E; [subst f_; exact Gold|].
  destruct (Rle_dec (q * (b - x)) p) as [C3|C3]; cbn [orb] in E; [subst f_; exact Gold|]. cbn [fst] in E.
  assert (Qp : 0 < q). { destruct (Req_dec q 0) as [Z|]; [|lra]. rewrite Z in *. lra. }
  set (d := p / q) in E. assert (Ep : p = q * d) by (unfold d; field; lra). assert (D1 : a - x < d) by nra. assert (D2 : d < b - x) by nra. clearbody d.
  cbv zeta. rewrite WS. destruct (Rlt_dec (x + d - a) (2 * tol1)) as [N1|N1]; [|destruct (Rlt_dec (b - (x + d)) (2 * tol1)) as [N2|N2]]; cbn [orb] in E.
  - rewrite WS in E. subst f_. destruct (Rle_dec 0 (0.5 * (a + b) - x)) as [Q|Q].
    + specialize (FR ltac:(lra)). rewrite Rabs_right by lra. destruct (Rle_dec tol1 tol1); [|lra]. lra.
    + specialize (FL ltac:(lra)). rewrite Rabs_left by lra. destruct (Rle_dec tol1 (- - tol1)); [|lra]. lra.
  - rewrite WS in E. subst f_. destruct (Rle_dec 0 (0.5 * (a + b) - x)) as [Q|Q].
    + specialize (FR ltac:(lra)). rewrite Rabs_right by lra. destruct (Rle_dec tol1 tol1); [|lra]. lra.
    + specialize (FL ltac:(lra)). rewrite Rabs_left by lra. destruct (Rle_dec tol1 (- - tol1)); [|lra]. lra.
  - subst f_. destruct (Rle_dec tol1 (Rabs d)) as [A|A].
    + split; [lra|]. intros Q. replace d with 0 in A by lra. rewrite Rabs_R0 in A. lra.
    + assert (- tol1 < d < tol1). { unfold Rabs in A. destruct (Rcase_abs d); lra. } destruct (Rle_dec 0 d); lra.
Qed.
(** what the search keeps: [x] strictly inside, value no larger than at the start *)
Lemma ZERO_EPS_pos : 0 < ZERO_EPS.
Proof. unfold ZERO_EPS. apply Rinv_0_lt_compat, pow_lt. lra. Qed.
Lemma minb_loop_ok f tol junk A B n : 0 <= tol -> forall j a b v w x fv fw e, A <= a -> b <= B -> a < x < b ->
  let '(xm, fm, r) := minb_loop f tol junk n j a b v w x fv fw (f x) e in
  A < xm < B /\ fm = f xm /\ f xm <= f x /\ (j <= r <= j + Z.of_nat n)%Z /\
  ((r < j + Z.of_nat n)%Z -> f x <= f a -> f x <= f b -> exists a' b', A <= a' /\ b' <= B /\ a' < xm < b' /\ f xm <= f a' /\ f xm <= f b' /\ xm - a' <= 2 * (tol * Rabs xm + ZERO_EPS) /\ b' - xm <= 2 * (tol * Rabs xm + ZERO_EPS)).
Proof.
  intros Tp. induction n as [|n IH]; intros j a b v w x fv fw e HA HB Hx; cbn [minb_loop].
  - split; [lra|]. split; auto. split; [lra|]. split; [lia|]. intros; lia.
  - cbv zeta. set (tol1 := tol * Rabs x + ZERO_EPS). assert (T1 : 0 < tol1). { unfold tol1. assert (H := ZERO_EPS_pos). assert (0 <= tol * Rabs x) by (apply Rmult_le_pos; auto; apply Rabs_pos). lra. }
    destruct (Rle_dec (Rabs (x - 0.5 * (a + b))) (2 * tol1 - 0.5 * (b - a))) as [C|C].
    + split; [lra|]. split; auto. split; [lra|]. split; [lia|]. intros _ Fa Fb. exists a, b. repeat (split; [lra|]). fold tol1. unfold Rabs in C. destruct (Rcase_abs _); lra.
    + assert (U := fun d => minb_u d a b v w x fv fw (f x) e (junk n) tol1 T1 Hx C). destruct (minb_step _ _ _ _ _ _ _ _ _ _ _ _ _) as [d e']. specialize (U d eq_refl). cbv zeta in U. set (u := if Rle_dec tol1 (Rabs d) then x + d else x + with_sign tol1 d) in *. clearbody u. destruct U as [Hu Nu].
      assert (K : forall a' b' v' w' x' fv' fw', A <= a' -> b' <= B -> a' < x' < b' -> f x' <= f x -> (f x <= f a -> f x <= f b -> f x' <= f a' /\ f x' <= f b') ->
        let '(xm, fm, r) := minb_loop f tol junk n (j + 1) a' b' v' w' x' fv' fw' (f x') e' in A < xm < B /\ fm = f xm /\ f xm <= f x /\ (j <= r <= j + Z.of_nat (S n))%Z /\
        ((r < j + Z.of_nat (S n))%Z -> f x <= f a -> f x <= f b -> exists a' b', A <= a' /\ b' <= B /\ a' < xm < b' /\ f xm <= f a' /\ f xm <= f b' /\ xm - a' <= 2 * (tol * Rabs xm + ZERO_EPS) /\ b' - xm <= 2 * (tol * Rabs xm + ZERO_EPS))).
      { intros a' b' v' w' x' fv' fw' G1 G2 G3 G4 G5. specialize (IH (j + 1)%Z a' b' v' w' x' fv' fw' e' G1 G2 G3). destruct (minb_loop _ _ _ _ _ _ _ _ _ _ _ _ _ _) as [[xm fm] r]. destruct IH as (I1 & I2 & I3 & I4 & I5). split; auto. split; auto. split; [lra|]. split; [lia|]. intros H Fa Fb. destruct (G5 Fa Fb). apply I5; auto. lia. }
      destruct (Rle_dec (f u) (f x)) as [L|L].
      * apply K; auto; destruct (Rle_dec x u); try lra; auto.
      * assert (K2 : forall v' w' fv' fw', let '(xm, fm, r) := minb_loop f tol junk n (j + 1) (if Rlt_dec u x then u else a) (if Rlt_dec u x then b else u) v' w' x fv' fw' (f x) e' in A < xm < B /\ fm = f xm /\ f xm <= f x /\ (j <= r <= j + Z.of_nat (S n))%Z /\
        ((r < j + Z.of_nat (S n))%Z -> f x <= f a -> f x <= f b -> exists a' b', A <= a' /\ b' <= B /\ a' < xm < b' /\ f xm <= f a' /\ f xm <= f b' /\ xm - a' <= 2 * (tol * Rabs xm + ZERO_EPS) /\ b' - xm <= 2 * (tol * Rabs xm + ZERO_EPS))).
        { intros. apply K; try lra; destruct (Rlt_dec u x); try lra; auto. }
        destruct (_ || _); [apply K2|]. destruct (_ || _); apply K2.
Qed.
Lemma valley f a x b : (forall y, a <= y <= b -> continuity_pt f y) -> a < x < b -> f x <= f a -> f x <= f b -> exists m, a < m < b /\ local_min f m.
Proof.
  intros C Hx Fa Fb. destruct (continuity_ab_min f a b) as (m & Hm & Hi); [lra|auto|].
  assert (K : forall z, a < z < b -> (forall y, a <= y <= b -> f z <= f y) -> local_min f z). { intros z Hz Q. exists (Rmin (z - a) (b - z)). split. - unfold Rmin. destruct (Rle_dec _ _); lra. - intros y Hy. apply Q. revert Hy. unfold Rmin, Rabs. destruct (Rle_dec _ _), (Rcase_abs _); lra. }
  destruct (Req_dec m a) as [->|Na]; [|destruct (Req_dec m b) as [->|Nb]].
  - exists x. split; auto. apply K; auto. intros y Hy. specialize (Hm y Hy). lra.
  - exists x. split; auto. apply K; auto. intros y Hy. specialize (Hm y Hy). lra.
  - exists m. split; [lra|]. apply K; auto; lra.
Qed.
(** Brent's minimiser, started from bx strictly between ax and cx: the result lies strictly inside, *fmin is the function there, and it is no larger than
    at bx.  Unless the return value is maxits+1: if f is continuous and f(bx) does not exceed f(ax), f(cx), there is a local minimum of f inside the bracket
    not further than 2(tol |xmin| + 1e-10) from *xmin.  This holds whatever values the uninitialised variable takes. *)
Theorem C60_minbrent f ax bx cx maxits tol junk : (0 <= maxits)%Z -> 0 <= tol -> (ax < bx < cx \/ cx < bx < ax) ->
  let '(xm, fm, r) := minbrent_brak f ax bx cx maxits tol junk in
  Rmin ax cx < xm < Rmax ax cx /\ fm = f xm /\ fm <= f bx /\ (1 <= r <= maxits + 1)%Z /\
  ((r <= maxits)%Z -> continuous_on f ax cx -> f bx <= f ax -> f bx <= f cx ->
     exists m, Rmin ax cx < m < Rmax ax cx /\ local_min f m /\ Rabs (m - xm) <= 2 * (tol * Rabs xm + / 10 ^ 10)).
Proof.
  intros Hm Tp Hb. unfold minbrent_brak. set (a := if Rlt_dec ax cx then ax else cx). set (b := if Rlt_dec cx ax then ax else cx).
  assert (Q : a = Rmin ax cx /\ b = Rmax ax cx /\ a < bx < b). { unfold a, b, Rmin, Rmax. destruct (Rlt_dec ax cx), (Rlt_dec cx ax), (Rle_dec ax cx); lra. } destruct Q as (Ea & Eb & Hx).
  assert (H := minb_loop_ok f tol junk a b (Z.to_nat maxits) Tp 1 a b bx bx bx (f bx) (f bx) 0 ltac:(lra) ltac:(lra) Hx). destruct (minb_loop _ _ _ _ _ _ _ _ _ _ _ _ _ _) as [[xm fm] r]. destruct H as (H1 & H2 & H3 & H4 & H5). rewrite <- Ea, <- Eb. split; auto. split; auto. split; [lra|]. split; [lia|].
  intros Hr C Fa Fc. destruct H5 as (a' & b' & G1 & G2 & G3 & G4 & G5 & G6 & G7).
  - lia.
  - rewrite Ea. unfold Rmin. destruct (Rle_dec ax cx); auto.
  - rewrite Eb. unfold Rmax. destruct (Rle_dec ax cx); auto.
  - destruct (valley f a' xm b') as (m & M1 & M2); auto. { intros y Hy. apply C. unfold inside. lra. }
    exists m. split; [lra|]. split; auto. fold ZERO_EPS. unfold Rabs at 1. destruct (Rcase_abs _); lra.
Qed.

(** bracketing a minimum *)
Definition ordered (a b c : R) : Prop := a < b < c \/ c < b < a.
Lemma mbrak_loop_ok f n : forall j a b c, ordered a b c -> f b <= f a ->
  let '((a', b', c', fa, fb, fc), r) := mbrak_loop f n j (a, b, c, f a, f b, f c) in
  ordered a' b' c' /\ fa = f a' /\ fb = f b' /\ fc = f c' /\ f b' <= f a' /\ f b' <= f b /\ (j <= r <= j + Z.of_nat n)%Z /\ ((r < j + Z.of_nat n)%Z -> f b' <= f c').
Proof.
  induction n as [|n IH]; intros j a b c O F; cbn [mbrak_loop].
  - repeat (split; auto; try lra; try lia); intros; lra.
  - destruct (Rle_dec (f b) (f c)) as [L|L]. { repeat (split; auto; try lra; try lia); intros; lra. }
    cbv zeta. set (u := b - _ / _). clearbody u. set (ulim := b + 100 * (c - b)). set (far := c + tmgolden * (c - b)).
    assert (K : forall a2 b2 c2, ordered a2 b2 c2 -> f b2 <= f a2 -> f b2 <= f b ->
      let '((a', b', c', fa, fb, fc), r) := mbrak_loop f n (j + 1) (a2, b2, c2, f a2, f b2, f c2) in
      ordered a' b' c' /\ fa = f a' /\ fb = f b' /\ fc = f c' /\ f b' <= f a' /\ f b' <= f b /\ (j <= r <= j + Z.of_nat (S n))%Z /\ ((r < j + Z.of_nat (S n))%Z -> f b' <= f c')).
    { intros a2 b2 c2 O2 F2 G2. specialize (IH (j + 1)%Z a2 b2 c2 O2 F2). destruct (mbrak_loop _ _ _ _) as [[[[[[a' b'] c'] fa] fb] fc] r]. destruct IH as (I1 & I2 & I3 & I4 & I5 & I6 & I7 & I8). repeat (split; auto; try lra; try lia). intros. apply I8. lia. }
    assert (Ofar : ordered b c far) by (unfold ordered, far, tmgolden in *; lra).
    destruct (Rlt_dec 0 ((b - u) * (u - c))) as [B1|B1].
    + assert (Bu : b < u < c \/ c < u < b) by (destruct (Rlt_dec b u), (Rlt_dec u c), (Rlt_dec c u), (Rlt_dec u b); try lra; exfalso; nra).
      destruct (Rlt_dec (f u) (f c)). { unfold ordered in *. repeat (split; auto; try lra; try lia); intros; lra. }
      destruct (Rlt_dec (f b) (f u)). { unfold ordered in *. repeat (split; auto; try lra; try lia); intros; lra. }
      apply K; auto; lra.
    + destruct (Rlt_dec 0 ((c - u) * (u - ulim))) as [B2|B2].
      * assert (Bu : (b < c /\ c < u) \/ (c < b /\ u < c)). { unfold ulim, ordered in *. destruct O as [O|O]; [left|right]; (split; [lra|]); destruct (Rlt_dec c u), (Rlt_dec u c); try lra; exfalso; nra. }
        destruct (Rlt_dec (f u) (f c)); apply K; unfold ordered, tmgolden in *; lra.
      * destruct (Rle_dec 0 ((u - ulim) * (ulim - c))) as [B3|B3].
        -- apply K; unfold ordered, ulim in *; lra.
        -- apply K; auto; lra.
Qed.
(** min_brak, from two different points: the three points come out in order, with their function values, the middle one no higher than the first and than
    both starting points; unless the result is maxits+1 it is no higher than the third either, and then a continuous function has a local minimum inside. *)
Theorem C60_min_brak f ax bx maxits : (0 <= maxits)%Z -> ax <> bx ->
  let '((a, b, c, fa, fb, fc), r) := min_brak f ax bx maxits in
  ordered a b c /\ fa = f a /\ fb = f b /\ fc = f c /\ fb <= fa /\ fb <= f ax /\ fb <= f bx /\ (1 <= r <= maxits + 1)%Z /\
  ((r <= maxits)%Z -> fb <= fc /\ (continuous_on f a c -> exists m, (Rmin a c < m < Rmax a c) /\ local_min f m)).
Proof.
  intros Hm N. unfold min_brak.
  assert (P : exists a b, (if Rlt_dec (f ax) (f bx) then (bx, ax) else (ax, bx)) = (a, b) /\ a <> b /\ f b <= f a /\ f b <= f ax /\ f b <= f bx). { destruct (Rlt_dec (f ax) (f bx)); do 2 eexists; (split; [reflexivity|]); repeat split; auto; lra. }
  destruct P as (a & b & E & Nab & F & G1 & G2). rewrite E. cbv beta iota. assert (O : ordered a b (b + tmgolden * (b - a))) by (unfold ordered, tmgolden; lra).
  assert (H := mbrak_loop_ok f (Z.to_nat maxits) 1 a b _ O F). destruct (mbrak_loop _ _ _ _) as [[[[[[a' b'] c'] fa] fb] fc] r]. destruct H as (I1 & -> & -> & -> & I5 & I6 & I7 & I8). repeat (split; auto; try lra; try lia).
  - apply I8. lia.
  - intros C. assert (Fc : f b' <= f c') by (apply I8; lia). unfold continuous_on, inside, Rmin, Rmax in *. destruct (Rle_dec a' c').
    + destruct I1 as [I1|I1]; [|lra]. destruct (valley f a' b' c') as (m & M1 & M2); eauto.
    + destruct I1 as [I1|I1]; [lra|]. destruct (valley f c' b' a') as (m & M1 & M2); eauto.
Qed.
Example C60_example : ordered 0 1 3 /\ (fun x => (x - 1) * (x - 1)) 1 <= (fun x => (x - 1) * (x - 1)) 0 /\ (fun x => (x - 1) * (x - 1)) 1 <= (fun x => (x - 1) * (x - 1)) 3 /\ continuous_on (fun x => (x - 1) * (x - 1)) 0 3.
Proof. unfold ordered. split; [lra|]. split; [lra|]. split; [lra|]. intros x _. apply derivable_continuous_pt. reg. Qed.
Print Assumptions C46_rtbisect.
Print Assumptions C46_rtbisect_converges.
Print Assumptions C46_newton_partial.
Print Assumptions C46_newton_refuted.
Print Assumptions C46_rt_brak.
Print Assumptions C46_rt_brak_missed.
Print Assumptions C59_rtbrent.
Print Assumptions C60_minbrent.
Print Assumptions C60_min_brak.

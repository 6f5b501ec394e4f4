(** C104: the adaptive integrator for ordinary differential equations. *)
From Coq Require Import Psatz QArith Qreals FunctionalExtensionality.
From Verif Require Import Rutil Base Rk_spec Rk_props Ode_model Ode_spec.
Local Open Scope R_scope.

(** ** the Cash-Karp step *)
Definition CKa (i j : nat) : Q := nth j (nth i [[]; [1#5]; [3#40; 9#40]; [3#10; -9#10; 6#5]; [-11#54; 5#2; -70#27; 35#27]; [1631#55296; 175#512; 575#13824; 44275#110592; 253#4096]]%Q []) 0%Q.
Definition CKb (j : nat) : Q := nth j [37#378; 0; 250#621; 125#594; 0; 512#1771]%Q 0%Q.
Definition CKb4 (j : nat) : Q := nth j [2825#27648; 0; 18575#48384; 13525#55296; 277#14336; 1#4]%Q 0%Q.
(** rkck is an explicit Runge-Kutta step of order 5 (and not 6), and its error estimate is the difference to a step of order 4 (and not 5)
    with the same stages *)
Theorem C104_rkck : exists a b b4, has_order 6 a b 5 /\ ~ has_order 6 a b 6 /\ has_order 6 a b4 4 /\ ~ has_order 6 a b4 5 /\
  forall f x h y, let '(yout, yerr) := rkck f y (f x y) x h in
    explicit_rk f 6 (fun i j => Q2R (a i j)) (fun j => Q2R (b j)) h x y yout /\ explicit_rk f 6 (fun i j => Q2R (a i j)) (fun j => Q2R (b4 j)) h x y (fun i => yout i - yerr i).
Proof.
  exists CKa, CKb, CKb4. split; [apply check_ok; vm_compute; reflexivity|]. split.
  { intros H. specialize (H (Node [Node [Node [Node [Node [Node []]]]]]) ltac:(vm_compute; lia)). vm_compute in H. discriminate. }
  split; [apply check_ok; vm_compute; reflexivity|]. split.
  { intros H. specialize (H (Node [Node []; Node []; Node []; Node []]) ltac:(vm_compute; lia)). vm_compute in H. discriminate. }
  intros f x h y. unfold rkck. cbv zeta.
  set (k0 := f x y). set (k1 := f (x + 2 / 10 * h) _). set (k2 := f (x + 3 / 10 * h) _). set (k3 := f (x + 6 / 10 * h) _). set (k4 := f (x + 1 * h) _). set (k5 := f (x + 875 / 1000 * h) _).
  pose (K := fun i => nth i [k0; k1; k2; k3; k4; k5] k0).
  assert (HK : forall i, (i < 6)%nat -> forall z, K i z = f (x + h * rsum (fun j => Q2R (CKa i j)) i) (fun u => y u + h * rsum (fun j => Q2R (CKa i j) * K j u) i) z).
  { intros i Hi z. do 6 (destruct i as [|i]; [unfold K, CKa, rsum, Q2R; cbn [nth map seq fold_right Qnum Qden];
      match goal with |- ?k z = _ => unfold k end; f_equal; f_equal; [field|apply functional_extensionality; intros u; field]|]). lia. }
  split; exists K; (split; [exact HK|]); intros u; unfold K, CKb, CKb4, rsum, Q2R; cbn [nth map seq fold_right Qnum Qden]; field.
Qed.

(** ** one step with error control *)
Lemma Rabs_le_inv a b : Rabs a <= b -> - b <= a <= b. Proof. unfold Rabs. destruct (Rcase_abs a); lra. Qed.
Lemma FMAX_spec a b : FMAX a b = Rmax a b.
Proof. unfold FMAX, Rmax. destruct (Rgt_dec a b), (Rle_dec a b); lra. Qed.
Lemma FMIN_spec a b : FMIN a b = Rmin a b.
Proof. unfold FMIN, Rmin. destruct (Rlt_dec a b), (Rle_dec a b); lra. Qed.
Lemma errloop_ge yerr ys : forall k i e, e <= errloop k i yerr ys e /\ forall j, (i <= j < i + k)%nat -> Rabs (yerr j / ys j) <= errloop k i yerr ys e.
Proof.
  induction k as [|k IH]; intros i e; cbn [errloop]. { split; [lra|lia]. } rewrite FMAX_spec. destruct (IH (S i) (Rmax e (Rabs (yerr i / ys i)))) as [A B].
  pose proof (Rmax_l e (Rabs (yerr i / ys i))). pose proof (Rmax_r e (Rabs (yerr i / ys i))). split; [lra|]. intros j Hj. destruct (Nat.eq_dec j i) as [-> |N]; [lra|]. apply B. lia.
Qed.
Lemma errloop_le yerr ys M : forall k i e, e <= M -> (forall j, (i <= j < i + k)%nat -> Rabs (yerr j / ys j) <= M) -> errloop k i yerr ys e <= M.
Proof. induction k as [|k IH]; intros i e He H; cbn [errloop]; [exact He|]. apply IH. - rewrite FMAX_spec. apply Rmax_lub; [exact He|]. apply H. lia. - intros j Hj. apply H. lia. Qed.
(** h' is h made shorter *)
Definition shorter (h h' : R) : Prop := (0 <= h -> 0 <= h' <= h) /\ (h <= 0 -> h <= h' <= 0).
Lemma shorter_refl h : shorter h h. Proof. split; lra. Qed.
Lemma shorter_trans a b c : shorter a b -> shorter b c -> shorter a c.
Proof. intros [A1 A2] [B1 B2]. split; intros H; [specialize (A1 H); specialize (B1 ltac:(lra)); lra|specialize (A2 H); specialize (B2 ltac:(lra)); lra]. Qed.
Lemma pow_small e : 1 < e -> 0 < Rpower e (-25 / 100) < 1.
Proof. intros H. unfold Rpower. split; [apply exp_pos|]. rewrite <- exp_0. apply exp_increasing. assert (0 < ln e) by (rewrite <- ln_1; apply ln_increasing; lra). lra. Qed.
(** a rejected step is made at least 10% shorter and at most ten times shorter *)
Lemma shrink e h : 1 < e -> let h' := if Rge_dec h 0 then FMAX (9 / 10 * h * Rpower e (-25 / 100)) (1 / 10 * h) else FMIN (9 / 10 * h * Rpower e (-25 / 100)) (1 / 10 * h) in
  shorter h h' /\ 1 / 10 * Rabs h <= Rabs h' <= 9 / 10 * Rabs h.
Proof.
  intros H. pose proof (pow_small e H) as P. set (p := Rpower e (-25 / 100)) in *. clearbody p. cbv zeta. rewrite FMAX_spec, FMIN_spec.
  destruct (Rge_dec h 0) as [G|G].
  - assert (A : Rmax (9 / 10 * h * p) (1 / 10 * h) <= 9 / 10 * h) by (apply Rmax_lub; nra). pose proof (Rmax_r (9 / 10 * h * p) (1 / 10 * h)) as B. unfold shorter. rewrite (Rabs_pos_eq h), Rabs_pos_eq by lra. repeat split; intros; lra.
  - assert (A : 9 / 10 * h <= Rmin (9 / 10 * h * p) (1 / 10 * h)) by (apply Rmin_glb; nra). pose proof (Rmin_r (9 / 10 * h * p) (1 / 10 * h)) as B. unfold shorter. rewrite (Rabs_left h), Rabs_left1 by lra. repeat split; intros; lra.
Qed.
Lemma abs_le_quot a b e : 0 < b -> Rabs (a / b) <= e -> Rabs a <= e * b.
Proof. intros Hb H. unfold Rdiv in H. rewrite Rabs_mult, (Rabs_pos_eq (/ b)) in H by (left; now apply Rinv_0_lt_compat). apply (Rmult_le_compat_r b) in H; [|lra]. rewrite Rmult_assoc, Rinv_l, Rmult_1_r in H by lra. exact H. Qed.
Section Step.
Variable f : R -> vec -> vec.
Variable n : nat.
Variable x eps : R.
Variable y yscal : vec.
Hypothesis He : 0 < eps.
Hypothesis Hs : forall i, (1 <= i <= n)%nat -> 0 < yscal i.
Lemma rkck_0 i : snd (rkck f y (f x y) x 0) i = 0. Proof. unfold rkck. cbn [snd]. ring. Qed.
Lemma err_0 : errloop n 1 (snd (rkck f y (f x y) x 0)) yscal 0 / eps <= 1.
Proof.
  assert (E : errloop n 1 (snd (rkck f y (f x y) x 0)) yscal 0 <= 0). { apply errloop_le; [lra|]. intros j Hj. rewrite rkck_0. unfold Rdiv. rewrite Rmult_0_l, Rabs_R0. lra. }
  apply (Rmult_le_reg_r eps); [lra|]. unfold Rdiv. rewrite Rmult_assoc, Rinv_l by lra. lra.
Qed.
Definition accepted (h : R) : Prop := forall i, (1 <= i <= n)%nat -> Rabs (snd (rkck f y (f x y) x h) i) <= eps * yscal i.
Lemma accepted_err h e : errloop n 1 (snd (rkck f y (f x y) x h)) yscal 0 / eps = e -> e <= 1 -> accepted h.
Proof.
  intros <- H i Hi. assert (E : errloop n 1 (snd (rkck f y (f x y) x h)) yscal 0 <= eps). { apply (Rmult_le_compat_r eps) in H; [|lra]. unfold Rdiv in H. rewrite Rmult_assoc, Rinv_l in H by lra. lra. }
  apply abs_le_quot; [now apply Hs|]. destruct (errloop_ge (snd (rkck f y (f x y) x h)) yscal n 1 0) as [_ B]. specialize (B i ltac:(lia)). lra.
Qed.
Lemma qs_spec : forall fuel h, match qs_loop fuel f n x eps y (f x y) yscal h with
  | Done (yt, e, h') => yt = fst (rkck f y (f x y) x h') /\ 0 <= e <= 1 /\ accepted h' /\ shorter h h' /\ (h <> 0 -> h' <> 0)
  | Exit => False | Bad => False | More => (9 / 10) ^ fuel * Rabs h > 0 end.
Proof.
  induction fuel as [|fuel IH]; intros h; cbn [qs_loop].
  all: destruct (rkck f y (f x y) x h) as [yt ye] eqn:E; assert (Ye : ye = snd (rkck f y (f x y) x h)) by now rewrite E.
  all: destruct (Rle_dec _ 1) as [L|L].
  1, 3: (rewrite E; split; [reflexivity|]; split; [|split; [eapply accepted_err; [rewrite E; reflexivity|exact L]|split; [apply shorter_refl|auto]]]; split; [|exact L]; apply Rmult_le_pos; [apply errloop_ge|left; now apply Rinv_0_lt_compat]).
  all: assert (Nz : h <> 0) by (intros ->; apply L; rewrite Ye; apply err_0).
  - cbn [pow]. pose proof (Rabs_pos_lt h Nz). lra.
  - set (e := errloop n 1 ye yscal 0 / eps) in *. destruct (shrink e h ltac:(lra)) as [S1 S2]. cbv zeta in S1, S2. set (h' := if Rge_dec h 0 then _ else _) in *. pose proof (Rabs_pos_lt h Nz) as Ph.
    assert (Nz' : h' <> 0) by (intros Z; rewrite Z, Rabs_R0 in S2; lra). destruct (Req_EM_T (x + h') x) as [Q|_]; [lra|]. specialize (IH h'). destruct (qs_loop _ _ _ _ _ _ _ _ h') as [[[yt' e'] h'']| | |]; auto.
    + destruct IH as (A & B & C & D & G). repeat (split; [assumption|]). split; [eapply shorter_trans; eassumption|auto].
    + cbn [pow]. apply Rmult_lt_0_compat; [|exact Ph]. apply Rmult_lt_0_compat; [lra|]. apply pow_lt. lra.
Qed.
Lemma grow e : 189 / 1000000 < e <= 1 -> 1 <= Rpower e (-2 / 10) <= 5 / (9 / 10).
Proof.
  intros H. unfold Rpower. assert (L0 : ln e <= 0). { rewrite <- ln_1. destruct (Req_dec e 1) as [-> |]; [lra|]. left. apply ln_increasing; lra. }
  split. { rewrite <- exp_0. destruct (Req_dec (-2 / 10 * ln e) 0) as [-> |]; [lra|]. left. apply exp_increasing. lra. }
  assert (W : 5 * ln (9 / 10 / 5) <= ln e). { replace (5 * ln (9 / 10 / 5)) with (ln ((9 / 10 / 5) ^ 5)). { left. apply ln_increasing; [apply pow_lt; lra|]. apply Rle_lt_trans with (189 / 1000000); [lra|lra]. }
    rewrite <- Rpower_pow by lra. unfold Rpower. rewrite ln_exp. cbn [INR]. ring. }
  replace (5 / (9 / 10)) with (/ (9 / 10 / 5)) by field. rewrite <- (exp_ln (/ (9 / 10 / 5))) by (apply Rinv_0_lt_compat; lra). rewrite ln_Rinv by lra.
  destruct (Req_dec (-2 / 10 * ln e) (- ln (9 / 10 / 5))) as [-> |]; [lra|]. left. apply exp_increasing. lra.
Qed.
(** rkqs: the step done is the step tried or a shorter one in the same direction; its error estimate is within the tolerance in every
    component; the next step suggested has the same direction, is at least 0.9 and at most 5 times as long; there is never an error exit. *)
Theorem C104_rkqs fuel htry : match rkqs fuel f n x htry eps y (f x y) yscal with
  | Done (x', y', hdid, hnext) => x' = x + hdid /\ y' = fst (rkck f y (f x y) x hdid) /\ (forall i, (1 <= i <= n)%nat -> Rabs (snd (rkck f y (f x y) x hdid) i) <= eps * yscal i) /\
      ((0 <= htry -> 0 <= hdid <= htry) /\ (htry <= 0 -> htry <= hdid <= 0)) /\ (htry <> 0 -> hdid <> 0) /\ exists q, 9 / 10 <= q <= 5 /\ hnext = q * hdid
  | More => True | _ => False end.
Proof.
  unfold rkqs. pose proof (qs_spec fuel htry) as Q. destruct (qs_loop _ _ _ _ _ _ _ _ htry) as [[[yt e] h]| | |]; auto. destruct Q as (A & B & C & D & G). split; [reflexivity|]. split; [exact A|]. split; [exact C|]. split; [exact D|]. split; [exact G|].
  destruct (Rgt_dec e (189 / 1000000)) as [L|L].
  - exists (9 / 10 * Rpower e (-2 / 10)). pose proof (grow e ltac:(lra)). split; [lra|ring].
  - exists 5. split; [lra|reflexivity].
Qed.
(** rkqs comes to an end if the right hand side is bounded near the starting point, as it is for every continuous one *)
Theorem C104_rkqs_ends htry r B : 0 < r -> (forall x' y', Rabs (x' - x) <= r -> (forall i, Rabs (y' i - y i) <= r) -> forall i, Rabs (f x' y' i) <= B) -> (exists s, 0 < s /\ forall i, (1 <= i <= n)%nat -> s <= yscal i) ->
  exists fuel, rkqs fuel f n x htry eps y (f x y) yscal <> More.
Proof.
  intros Hr HB (s & Hs0 & Hsc).
  assert (B0 : 0 <= B). { eapply Rle_trans; [apply (Rabs_pos (f x y 0%nat))|]. apply HB; intros; rewrite Rminus_diag_eq, Rabs_R0 by reflexivity; lra. }
  pose (d := Rmin r (Rmin (r / (10 * (B + 1))) (eps * s / (10 * (B + 1))))).
  assert (Hd : 0 < d). { unfold d. repeat apply Rmin_glb_lt; [exact Hr| |]; apply Rdiv_lt_0_compat; nra. }
  assert (Small : forall h, Rabs h <= d -> accepted h /\ errloop n 1 (snd (rkck f y (f x y) x h)) yscal 0 / eps <= 1).
  { intros h Hh. assert (D1 : Rabs h <= r) by (eapply Rle_trans; [exact Hh|apply Rmin_l]).
    assert (D2 : Rabs h * (10 * B) <= r). { assert (Q : Rabs h <= r / (10 * (B + 1))) by (eapply Rle_trans; [exact Hh|]; unfold d; eapply Rle_trans; [apply Rmin_r|apply Rmin_l]). apply (Rmult_le_compat_r (10 * (B + 1))) in Q; [|lra]. unfold Rdiv in Q. rewrite Rmult_assoc, Rinv_l in Q by lra. pose proof (Rabs_pos h). nra. }
    assert (D3 : Rabs h * (10 * B) <= eps * s). { assert (Q : Rabs h <= eps * s / (10 * (B + 1))) by (eapply Rle_trans; [exact Hh|]; unfold d; eapply Rle_trans; [apply Rmin_r|apply Rmin_r]). apply (Rmult_le_compat_r (10 * (B + 1))) in Q; [|lra]. unfold Rdiv in Q. rewrite Rmult_assoc, Rinv_l in Q by lra. pose proof (Rabs_pos h). nra. }
    assert (St : forall c (u : vec), Rabs c <= 1 -> (forall i, Rabs (u i) <= 10 * B) -> forall i, Rabs (f (x + c * h) (fun i => y i + h * u i) i) <= B).
    { intros c u Hc Hu. apply HB. - replace (x + c * h - x) with (c * h) by ring. rewrite Rabs_mult. pose proof (Rabs_pos h). pose proof (Rabs_pos c). nra.
      - intros i. replace (y i + h * u i - y i) with (h * u i) by ring. rewrite Rabs_mult. pose proof (Rabs_pos h). specialize (Hu i). nra. }
    assert (K : forall i, Rabs (snd (rkck f y (f x y) x h) i) <= Rabs h * (10 * B)).
    { unfold rkck. cbn [snd]. set (k1 := f x y).
      assert (K1 : forall i, Rabs (k1 i) <= B). { intros i. apply HB; intros; rewrite Rminus_diag_eq, Rabs_R0 by reflexivity; lra. }
      set (k2 := f (x + 2 / 10 * h) _).
      assert (K2 : forall i, Rabs (k2 i) <= B). { intros i. unfold k2. replace (fun i0 => y i0 + 2 / 10 * h * k1 i0) with (fun i0 => y i0 + h * ((fun i0 => 2 / 10 * k1 i0) i0)) by (apply functional_extensionality; intros; ring). apply St; [rewrite Rabs_pos_eq; lra|]. intros j. specialize (K1 j). apply Rabs_le. apply Rabs_le_inv in K1. lra. }
      set (k3 := f (x + 3 / 10 * h) _).
      assert (K3 : forall i, Rabs (k3 i) <= B). { intros i. unfold k3. apply (St (3 / 10) (fun i => 3 / 40 * k1 i + 9 / 40 * k2 i)); [rewrite Rabs_pos_eq; lra|]. intros j. specialize (K1 j). specialize (K2 j). apply Rabs_le. apply Rabs_le_inv in K1, K2. lra. }
      set (k4 := f (x + 6 / 10 * h) _).
      assert (K4 : forall i, Rabs (k4 i) <= B). { intros i. unfold k4. apply (St (6 / 10) (fun i => 3 / 10 * k1 i + -9 / 10 * k2 i + 12 / 10 * k3 i)); [rewrite Rabs_pos_eq; lra|]. intros j. specialize (K1 j). specialize (K2 j). specialize (K3 j). apply Rabs_le. apply Rabs_le_inv in K1, K2, K3. lra. }
      set (k5 := f (x + 1 * h) _).
      assert (K5 : forall i, Rabs (k5 i) <= B). { intros i. unfold k5. apply (St 1 (fun i => -11 / 54 * k1 i + 25 / 10 * k2 i + -70 / 27 * k3 i + 35 / 27 * k4 i)); [rewrite Rabs_pos_eq; lra|]. intros j. specialize (K1 j). specialize (K2 j). specialize (K3 j). specialize (K4 j). apply Rabs_le. apply Rabs_le_inv in K1, K2, K3, K4. lra. }
      set (k6 := f (x + 875 / 1000 * h) _).
      assert (K6 : forall i, Rabs (k6 i) <= B). { intros i. unfold k6. apply (St (875 / 1000) (fun i => 1631 / 55296 * k1 i + 175 / 512 * k2 i + 575 / 13824 * k3 i + 44275 / 110592 * k4 i + 253 / 4096 * k5 i)); [rewrite Rabs_pos_eq; lra|]. intros j. specialize (K1 j). specialize (K2 j). specialize (K3 j). specialize (K4 j). specialize (K5 j). apply Rabs_le. apply Rabs_le_inv in K1, K2, K3, K4, K5. lra. }
      intros i. rewrite Rabs_mult. apply Rmult_le_compat_l; [apply Rabs_pos|]. specialize (K1 i). specialize (K3 i). specialize (K4 i). specialize (K5 i). specialize (K6 i). apply Rabs_le. apply Rabs_le_inv in K1, K3, K4, K5, K6. lra. }
    assert (Er : errloop n 1 (snd (rkck f y (f x y) x h)) yscal 0 / eps <= 1).
    { assert (E : errloop n 1 (snd (rkck f y (f x y) x h)) yscal 0 <= eps).
      { apply errloop_le; [lra|]. intros j Hj. specialize (K j). specialize (Hsc j ltac:(lia)). assert (P : 0 < yscal j) by lra. unfold Rdiv. rewrite Rabs_mult, (Rabs_pos_eq (/ yscal j)) by (left; now apply Rinv_0_lt_compat).
        apply (Rmult_le_reg_r (yscal j)); [exact P|]. rewrite Rmult_assoc, Rinv_l by lra. nra. }
      apply (Rmult_le_reg_r eps); [lra|]. unfold Rdiv. rewrite Rmult_assoc, Rinv_l by lra. lra. }
    split; [|exact Er]. eapply accepted_err; [reflexivity|exact Er]. }
  assert (Loop : forall fuel h, (9 / 10) ^ fuel * Rabs h <= d -> qs_loop fuel f n x eps y (f x y) yscal h <> More).
  { induction fuel as [|fuel IH]; intros h Hh; cbn [qs_loop pow] in *.
    - destruct (Small h ltac:(lra)) as [_ E]. destruct (rkck f y (f x y) x h) as [yt ye]. cbn [snd] in E. destruct (Rle_dec _ 1); [discriminate|contradiction].
    - destruct (rkck f y (f x y) x h) as [yt ye]. destruct (Rle_dec _ 1) as [L|L]; [discriminate|]. destruct (Req_EM_T _ x); [discriminate|]. apply IH. destruct (shrink (errloop n 1 ye yscal 0 / eps) h ltac:(lra)) as [_ S2]. cbv zeta in S2. set (h' := if Rge_dec h 0 then _ else _) in *. assert (0 < (9 / 10) ^ fuel) by (apply pow_lt; lra). nra. }
  destruct (pow_lt_1_zero (9 / 10) ltac:(rewrite Rabs_pos_eq; lra) (d / (Rabs htry + 1)) ltac:(apply Rdiv_lt_0_compat; [exact Hd|pose proof (Rabs_pos htry); lra])) as (N & HN).
  exists N. specialize (HN N ltac:(lia)). rewrite Rabs_pos_eq in HN by (apply pow_le; lra). unfold rkqs. pose proof (Loop N htry) as L. assert (W : (9 / 10) ^ N * Rabs htry <= d).
  { pose proof (Rabs_pos htry) as P. apply (Rmult_lt_compat_r (Rabs htry + 1)) in HN; [|lra]. unfold Rdiv in HN at 2. rewrite Rmult_assoc, Rinv_l in HN by lra. assert (0 < (9 / 10) ^ N) by (apply pow_lt; lra). nra. }
  specialize (L W). destruct (qs_loop _ _ _ _ _ _ _ _ htry) as [[[yt e] h]| | |]; congruence.
Qed.
End Step.

(** ** the integration *)
Lemma put_ok {A} (a : A) : forall l k, (k < List.length l)%nat -> exists l', put l k a = Some l' /\ List.length l' = List.length l /\ nth_error l' k = Some a /\ forall j, j <> k -> nth_error l' j = nth_error l j.
Proof.
  induction l as [|b l IH]; intros k H; cbn in H; [lia|]. destruct k as [|k]; cbn [put].
  - eexists. split; [reflexivity|]. split; [reflexivity|]. split; [reflexivity|]. intros j N. destruct j; [lia|reflexivity].
  - destruct (IH k ltac:(lia)) as (l' & -> & L & E & O). exists (b :: l'). split; [reflexivity|]. split; [cbn; lia|]. split; [exact E|]. intros [|j] N; [reflexivity|]. apply O. lia.
Qed.
Definition dirn (x1 x2 h : R) : Prop := (x1 <= x2 -> 0 <= h) /\ (x2 < x1 -> h <= 0).
Lemma clip x1 x2 x h : betw x1 x2 x -> dirn x1 x2 h -> let h' := if Rgt_dec ((x + h - x2) * (x + h - x1)) 0 then x2 - x else h in
  Rabs h' <= Rabs h /\ forall hd, shorter h' hd -> dirn x1 x2 hd /\ Rabs hd <= Rabs h /\ betw x x2 (x + hd) /\ betw x1 x2 (x + hd).
Proof.
  intros B [U V] h'. unfold betw, dirn, shorter in *. destruct (Rle_dec x1 x2) as [L|L].
  - rewrite Rmin_left, Rmax_right in B by lra. specialize (U L).
    assert (H' : 0 <= h' <= h /\ h' <= x2 - x). { unfold h'. destruct (Rgt_dec _ 0) as [G|G]; [split; [|lra]|]. - destruct (Rle_dec x2 (x + h)); [lra|]. nra. - split; [lra|]. destruct (Rle_dec (x + h) x2); [lra|]. exfalso. apply G. nra. }
    clearbody h'. rewrite (Rabs_pos_eq h), (Rabs_pos_eq h') by lra. split; [lra|]. intros hd [S1 S2]. specialize (S1 ltac:(lra)). rewrite Rabs_pos_eq by lra. repeat rewrite Rmin_left by lra. repeat rewrite Rmax_right by lra. repeat split; lra.
  - rewrite Rmin_right, Rmax_left in B by lra. specialize (V ltac:(lra)).
    assert (H' : h <= h' <= 0 /\ x2 - x <= h'). { unfold h'. destruct (Rgt_dec _ 0) as [G|G]; [split; [|lra]|]. - destruct (Rle_dec (x + h) x2); [lra|]. nra. - split; [lra|]. destruct (Rle_dec x2 (x + h)); [lra|]. exfalso. apply G. nra. }
    clearbody h'. rewrite (Rabs_left1 h), (Rabs_left1 h') by lra. split; [lra|]. intros hd [S1 S2]. specialize (S2 ltac:(lra)). rewrite Rabs_left1 by lra. repeat rewrite Rmin_right by lra. repeat rewrite Rmax_left by lra. repeat split; lra.
Qed.
Section Ode.
Variable hr : bool.
Variable fuel : nat.
Variable f : R -> vec -> vec.
Variable nvar : nat.
Variable ystart : vec.
Variable x1 x2 eps hmin : R.
Variable kmax kcount0 : Z.
Variable dxsav : R.
Hypothesis He : 0 < eps.
Hypothesis Hk : (0 <= kmax)%Z.
Notation pth := (path hr f nvar eps x1 x2 ystart).
(** the recorded points are visited points, in steps of more than |dxsav| *)
Definition recs (l : list (R * vec)) (kount : nat) (xp : list R) (yp : list vec) : Prop :=
  (forall j, (j < kount)%nat -> exists a b, nth_error xp j = Some a /\ nth_error yp j = Some b /\ In (a, b) l).
Definition spaced (kount : nat) (xp : list R) : Prop := forall j a b, (S j < kount)%nat -> nth_error xp j = Some a -> nth_error xp (S j) = Some b -> Rabs (b - a) > Rabs dxsav.
Definition starts (kount : nat) (xp : list R) : Prop := (1 <= kount)%nat -> dxsav <> 0 -> nth_error xp 0 = Some x1.
Definition sav_ok (l : list (R * vec)) (kount : nat) (xsav : R) (xp : list R) : Prop := (kount = 0%nat -> xsav = x1 - dxsav * 2 /\ ((2 <= kmax)%Z -> dxsav <> 0 -> l = [])) /\ ((0 < kount)%nat -> nth_error xp (kount - 1) = Some xsav).
Definition lens (xp : list R) (yp : list vec) : Prop := List.length xp = Z.to_nat kmax /\ List.length yp = Z.to_nat kmax.
(** what holds at the end *)
Definition final (steps : nat) (r : oderes) : Prop :=
  exists l xe ye, pth ((xe, ye) :: l) /\ (r_nok r + r_nbad r = List.length l)%nat /\ (List.length l <= steps)%nat /\
    ((r_status r = 0%Z /\ r_x r = x2 /\ xe = x2 /\ r_y r = ye) \/ ((r_status r = (-1)%Z \/ r_status r = (-2)%Z /\ List.length l = steps) /\ r_x r = xe /\ betw x1 x2 xe /\ r_y r = ystart)) /\
    exists kount m, (Z.of_nat kount <= kmax)%Z /\ r_kcount r = (if hr || (r_status r =? 0)%Z then Z.of_nat kount else kcount0) /\
      recs ((xe, ye) :: l) kount (r_xp r) (r_yp r) /\ kount = (m + if (r_status r =? 0)%Z && negb (kmax =? 0)%Z then 1 else 0)%nat /\ spaced m (r_xp r) /\ starts m (r_xp r) /\ ((2 <= kmax)%Z -> dxsav <> 0 -> (1 <= List.length l)%nat -> (1 <= m)%nat) /\
      (r_status r = 0%Z -> kmax <> 0%Z -> nth_error (r_xp r) m = Some x2 /\ nth_error (r_yp r) m = Some ye).
Lemma recs_cons l p k xp yp : recs l k xp yp -> recs (p :: l) k xp yp.
Proof. intros H j Hj. destruct (H j Hj) as (a & b & A & B & I). exists a, b. split; [exact A|]. split; [exact B|now right]. Qed.
Lemma put_store l k xp yp x y : lens xp yp -> (Z.of_nat k < kmax)%Z -> recs l k xp yp -> In (x, y) l -> exists xp' yp', store xp yp k x y = Some (xp', yp') /\ lens xp' yp' /\ recs l (S k) xp' yp' /\ nth_error xp' k = Some x /\ nth_error yp' k = Some y /\ forall j, j <> k -> nth_error xp' j = nth_error xp j.
Proof.
  intros [L1 L2] Hb Hr Hin. unfold store. destruct (put_ok x xp k ltac:(lia)) as (xp' & -> & A1 & A2 & A3). destruct (put_ok y yp k ltac:(lia)) as (yp' & -> & B1 & B2 & B3).
  exists xp', yp'. split; [reflexivity|]. split; [split; lia|]. split; [|auto]. intros j Hj. destruct (Nat.eq_dec j k) as [-> |N]; [exists x, y; auto|]. destruct (Hr j ltac:(lia)) as (a & b & Ea & Eb & I). exists a, b. rewrite A3, B3 by exact N. auto.
Qed.
Lemma loop_ok : forall k l x h y mx nok nbad kount xsav xp yp,
  pth ((x, y) :: l) -> betw x1 x2 x -> dirn x1 x2 h -> (forall i, Rmax (Rabs (y i)) (mx i) = maxabs i ((x, y) :: l)) -> (nok + nbad = List.length l)%nat -> lens xp yp ->
  (kount = 0%nat \/ (Z.of_nat kount < kmax)%Z) -> recs ((x, y) :: l) kount xp yp -> spaced kount xp -> starts kount xp -> sav_ok l kount xsav xp -> (l = [] -> x = x1) ->
  match ode_loop hr fuel f nvar ystart x1 x2 eps hmin kmax kcount0 dxsav k x h y mx nok nbad kount xsav xp yp with Done r => final (k + List.length l) r | More => True | _ => False end.
Proof.
  induction k as [|k IH]; intros l x h y mx nok nbad kount xsav xp yp Hp Hb Hd Hm Hn Hl Hc Hr Hsp Hst Hsv Hx; cbn [ode_loop].
  - unfold leave, final. exists l, x, y. cbn [r_x r_status r_y r_nok r_nbad r_kcount r_xp r_yp]. split; [exact Hp|]. split; [exact Hn|]. split; [lia|]. split. { right. split; [right; split; [reflexivity|lia]|auto]. }
    exists kount, kount. rewrite Bool.orb_false_r, Bool.andb_false_l, Nat.add_0_r. split; [lia|]. split; [reflexivity|]. split; [exact Hr|]. split; [reflexivity|]. split; [exact Hsp|]. split; [exact Hst|]. split; [|discriminate].
    intros K2 Hdx L1. destruct kount; [|lia]. destruct Hsv as [Hsv _]. destruct (Hsv eq_refl) as [_ E]. rewrite (E K2 Hdx) in L1. cbn in L1. lia.
  - set (mx' := fun i => if Rgt_dec (Rabs (y i)) (mx i) then Rabs (y i) else mx i).
    assert (Mx : forall i, mx' i = maxabs i ((x, y) :: l)). { intros i. rewrite <- Hm. unfold mx', Rmax. destruct (Rgt_dec _ _), (Rle_dec _ _); lra. }
    set (ys := fun i => if hr then _ else _).
    assert (Eys : forall i, ys i = (if hr then 1 / 100000 * maxabs i ((x, y) :: l) else 0) + Rabs (y i) + Rabs (f x y i * h) + / 10 ^ 250). { intros i. unfold ys, TINYo. rewrite <- Mx. unfold mx'. destruct hr; ring. }
    assert (Pm : forall i l', 0 <= maxabs i l'). { intros i l'. induction l' as [|p l' IHl]; cbn [maxabs]; [lra|]. eapply Rle_trans; [exact IHl|apply Rmax_r]. }
    assert (Pys : forall i, 0 < ys i). { intros i. rewrite Eys. pose proof (Rabs_pos (y i)). pose proof (Rabs_pos (f x y i * h)). assert (0 < / 10 ^ 250) by (apply Rinv_0_lt_compat, pow_lt; lra). specialize (Pm i ((x, y) :: l)). destruct hr; lra. }
    assert (ST : exists xp' yp' kount' xsav', (if ((0 <? kmax) && (Z.of_nat kount <? kmax - 1))%Z && (if Rgt_dec (Rabs (x - xsav)) (Rabs dxsav) then true else false)
           then match store xp yp kount x y with Some (xp, yp) => Some (xp, yp, S kount, x) | None => None end else Some (xp, yp, kount, xsav)) = Some (xp', yp', kount', xsav') /\
           lens xp' yp' /\ (kount' = 0%nat \/ (Z.of_nat kount' < kmax)%Z) /\ recs ((x, y) :: l) kount' xp' yp' /\ spaced kount' xp' /\ starts kount' xp' /\ (forall p, sav_ok (p :: l) kount' xsav' xp')).
    { destruct (((0 <? kmax) && (Z.of_nat kount <? kmax - 1))%Z && (if Rgt_dec (Rabs (x - xsav)) (Rabs dxsav) then true else false)) eqn:Ec.
      - apply andb_true_iff in Ec. destruct Ec as [Ec Ed]. apply andb_true_iff in Ec. destruct Ec as [_ Ec]. apply Z.ltb_lt in Ec. destruct (Rgt_dec _ _) as [G|]; [|discriminate].
        destruct (put_store ((x, y) :: l) kount xp yp x y Hl ltac:(lia) Hr ltac:(now left)) as (xp' & yp' & -> & L' & R' & Nx & Ny & O). exists xp', yp', (S kount), x. split; [reflexivity|]. split; [exact L'|]. split; [lia|]. split; [exact R'|]. split; [|split].
        + intros j a b Hj Ea Eb. destruct (Nat.eq_dec (S j) kount) as [E|N].
          * rewrite E, Nx in Eb. injection Eb as <-. rewrite O in Ea by lia. destruct Hsv as [_ Hsv]. specialize (Hsv ltac:(lia)). replace (kount - 1)%nat with j in Hsv by lia. rewrite Hsv in Ea. injection Ea as <-. exact G.
          * rewrite O in Ea, Eb by lia. apply (Hsp j a b); auto. lia.
        + intros _ Hdx. destruct kount as [|kount]; [|rewrite O by lia; apply Hst; [lia|exact Hdx]]. rewrite Nx. f_equal. apply Hx. apply Hsv; [reflexivity|lia|exact Hdx].
        + intros p. split; [discriminate|]. intros _. replace (S kount - 1)%nat with kount by lia. exact Nx.
      - exists xp, yp, kount, xsav. split; [reflexivity|]. split; [exact Hl|]. split; [exact Hc|]. split; [exact Hr|]. split; [exact Hsp|]. split; [exact Hst|]. intros p. destruct Hsv as [V1 V2]. split; [|exact V2].
        intros E. destruct (V1 E) as [V3 V4]. split; [exact V3|]. intros K2 Hdx. exfalso. rewrite E in Ec. pose proof (V4 K2 Hdx) as L0. specialize (Hx L0). rewrite Hx, V3 in Ec.
        replace (0 <? kmax)%Z with true in Ec by (symmetry; apply Z.ltb_lt; lia). replace (Z.of_nat 0 <? kmax - 1)%Z with true in Ec by (symmetry; apply Z.ltb_lt; lia). cbn [andb] in Ec. destruct (Rgt_dec _ _) as [|G]; [discriminate|]. apply G. replace (x1 - (x1 - dxsav * 2)) with (2 * dxsav) by ring. rewrite Rabs_mult, (Rabs_pos_eq 2) by lra. pose proof (Rabs_pos_lt dxsav Hdx). lra. }
    destruct ST as (xp' & yp' & kount' & xsav' & -> & Hl' & Hc' & Hr' & Hsp' & Hst' & Hsv').
    destruct (clip x1 x2 x h Hb Hd) as [_ Cl]. set (h' := if Rgt_dec _ 0 then x2 - x else h) in *.
    pose proof (C104_rkqs f nvar x eps y ys He (fun i _ => Pys i) fuel h') as Q. destruct (rkqs fuel f nvar x h' eps y (f x y) ys) as [[[[x' y'] hdid] hnext]| | |]; auto.
    destruct Q as (-> & -> & Hacc & Hsh & _ & q & Hq & ->). destruct (Cl hdid Hsh) as (D1 & D2 & D3 & D4).
    assert (Hp' : pth ((x + hdid, fst (rkck f y (f x y) x hdid)) :: (x, y) :: l)). { apply (path_step _ _ _ _ _ _ _ x y l hdid h); auto. intros i Hi. rewrite <- Eys. now apply Hacc. }
    assert (Cnt : exists nok' nbad', (if Req_EM_T hdid h' then (S nok, nbad) else (nok, S nbad)) = (nok', nbad') /\ (nok' + nbad' = S (List.length l))%nat). { destruct (Req_EM_T hdid h'); eexists; eexists; (split; [reflexivity|lia]). }
    destruct Cnt as (nok' & nbad' & -> & Cnt). set (y' := fst (rkck f y (f x y) x hdid)) in *.
    destruct (Rge_dec _ 0) as [G|G].
    + assert (X2 : x + hdid = x2). { unfold betw in D4. destruct (Rle_dec x1 x2). - rewrite Rmin_left, Rmax_right in D4 by lra. destruct (Req_dec x1 x2); [lra|nra]. - rewrite Rmin_right, Rmax_left in D4 by lra. nra. }
      rewrite X2 in *. destruct (kmax =? 0)%Z eqn:K0.
      * apply Z.eqb_eq in K0. unfold leave, final. exists ((x, y) :: l), x2, y'. cbn [r_x r_status r_y r_nok r_nbad r_kcount r_xp r_yp List.length]. split; [exact Hp'|]. split; [exact Cnt|]. split; [lia|]. split; [left; auto|].
        exists kount', kount'. rewrite Bool.orb_true_r. replace (kmax =? 0)%Z with true by (symmetry; now apply Z.eqb_eq). cbn [Z.eqb andb negb]. split; [lia|]. split; [reflexivity|]. split; [now apply recs_cons|]. split; [lia|]. split; [exact Hsp'|]. split; [exact Hst'|]. split; [lia|]. intros; contradiction.
      * apply Z.eqb_neq in K0. destruct (put_store ((x2, y') :: (x, y) :: l) kount' xp' yp' x2 y' Hl' ltac:(lia) (recs_cons _ _ _ _ _ Hr') ltac:(now left)) as (xp2 & yp2 & -> & L2 & R2 & Nx & Ny & O).
        unfold leave, final. exists ((x, y) :: l), x2, y'. cbn [r_x r_status r_y r_nok r_nbad r_kcount r_xp r_yp List.length]. split; [exact Hp'|]. split; [exact Cnt|]. split; [lia|]. split; [left; auto|].
        exists (S kount'), kount'. rewrite Bool.orb_true_r. replace (kmax =? 0)%Z with false by (symmetry; now apply Z.eqb_neq). cbn [Z.eqb andb negb]. split; [lia|]. split; [reflexivity|]. split; [exact R2|]. split; [lia|]. split; [|split; [|split]].
        -- intros j a b Hj Ea Eb. rewrite O in Ea, Eb by lia. apply (Hsp' j a b); auto.
        -- intros H1 Hdx. rewrite O by lia. now apply Hst'.
        -- intros K2 Hdx _. destruct kount'; [|lia]. destruct (Hsv' (x, y)) as [V _]. destruct (V eq_refl) as [_ V2]. specialize (V2 K2 Hdx). discriminate.
        -- auto.
    + destruct (Rle_dec _ hmin) as [M|M].
      * unfold leave, final. exists ((x, y) :: l), (x + hdid), y'. cbn [r_x r_status r_y r_nok r_nbad r_kcount r_xp r_yp List.length]. split; [exact Hp'|]. split; [exact Cnt|]. split; [lia|]. split. { right. split; [left; reflexivity|auto]. }
        exists kount', kount'. rewrite Bool.orb_false_r. cbn [Z.eqb andb]. split; [lia|]. split; [reflexivity|]. split; [now apply recs_cons|]. split; [lia|]. split; [exact Hsp'|]. split; [exact Hst'|]. split; [|discriminate].
        intros K2 Hdx _. destruct kount'; [|lia]. destruct (Hsv' (x, y)) as [V _]. destruct (V eq_refl) as [_ V2]. specialize (V2 K2 Hdx). discriminate.
      * replace (S k + List.length l)%nat with (k + List.length ((x, y) :: l))%nat by (cbn [List.length]; lia). apply IH; auto.
        -- destruct D1 as [D5 D6]. split; intros W; [specialize (D5 W)|specialize (D6 W)]; nra.
        -- intros i. change (maxabs i ((x + hdid, y') :: (x, y) :: l)) with (Rmax (Rabs (y' i)) (maxabs i ((x, y) :: l))). now rewrite <- Mx.
        -- now apply recs_cons.
        -- discriminate.
Qed.
End Ode.
(** odeintegrate, odeintegrateP and odeintegrate_HR: there is never an access outside of the arrays and never an error exit.  The points
    visited form a path of accepted steps from x1 towards x2.  With status 0 the returned x is x2 and ystart is the end of the path; with
    status -1 or -2 the returned x is the end of the path and ystart is unchanged.  nok+nbad is the number of steps, at most 10000.
    The recorded points are points of the path, at most kmax, more than |dxsav| apart except for the last, which is the end point. *)
Theorem C104_odeintegrate hr fuel f nvar ystart x1 x2 eps hmin kmax kcount0 dxsav h1 xp yp : 0 < eps -> (0 <= kmax)%Z -> List.length xp = Z.to_nat kmax -> List.length yp = Z.to_nat kmax ->
  match odeintegrate hr fuel f nvar ystart x1 x2 eps hmin kmax kcount0 dxsav h1 xp yp with
  | Done r => exists l xe ye, path hr f nvar eps x1 x2 ystart ((xe, ye) :: l) /\ (r_nok r + r_nbad r = List.length l)%nat /\ (Z.of_nat (List.length l) <= 10000)%Z /\
      ((r_status r = 0%Z /\ r_x r = x2 /\ xe = x2 /\ r_y r = ye) \/ ((r_status r = (-1)%Z \/ r_status r = (-2)%Z /\ Z.of_nat (List.length l) = 10000%Z) /\ r_x r = xe /\ betw x1 x2 xe /\ r_y r = ystart)) /\
      exists kount m, (Z.of_nat kount <= kmax)%Z /\ r_kcount r = (if hr || (r_status r =? 0)%Z then Z.of_nat kount else kcount0) /\
        (forall j, (j < kount)%nat -> exists a b, nth_error (r_xp r) j = Some a /\ nth_error (r_yp r) j = Some b /\ In (a, b) ((xe, ye) :: l)) /\
        kount = (m + if (r_status r =? 0)%Z && negb (kmax =? 0)%Z then 1 else 0)%nat /\
        (forall j a b, (S j < m)%nat -> nth_error (r_xp r) j = Some a -> nth_error (r_xp r) (S j) = Some b -> Rabs (b - a) > Rabs dxsav) /\
        ((1 <= m)%nat -> dxsav <> 0 -> nth_error (r_xp r) 0 = Some x1) /\ ((2 <= kmax)%Z -> dxsav <> 0 -> (1 <= List.length l)%nat -> (1 <= m)%nat) /\
        (r_status r = 0%Z -> kmax <> 0%Z -> nth_error (r_xp r) m = Some x2 /\ nth_error (r_yp r) m = Some ye)
  | More => True | _ => False end.
Proof.
  intros He Hk Lx Ly. unfold odeintegrate.
  pose proof (loop_ok hr fuel f nvar ystart x1 x2 eps hmin kmax kcount0 dxsav He Hk (N.to_nat 10000) [] x1 (if Rge_dec (x2 - x1) 0 then Rabs h1 else - Rabs h1) ystart (fun i => Rabs (ystart i)) 0 0 0 (x1 - dxsav * 2) xp yp) as L.
  specialize (L (path_start _ _ _ _ _ _ _)). assert (B : betw x1 x2 x1) by (split; [apply Rmin_l|apply Rmax_l]). specialize (L B).
  assert (D : dirn x1 x2 (if Rge_dec (x2 - x1) 0 then Rabs h1 else - Rabs h1)). { pose proof (Rabs_pos h1). unfold dirn. destruct (Rge_dec _ _); split; intros; lra. } specialize (L D).
  specialize (L (fun i => eq_trans (Rmax_left _ _ (Rle_refl _)) (eq_sym (Rmax_left _ _ (Rabs_pos _))))). specialize (L eq_refl (conj Lx Ly) (or_introl eq_refl)).
  specialize (L ltac:(intros j Hj; lia) ltac:(intros j a b Hj; lia) ltac:(intros H; lia)). specialize (L ltac:(split; [auto|intros H; lia]) (fun _ => eq_refl)).
  destruct (ode_loop _ _ _ _ _ _ _ _ _ _ _ _ (N.to_nat 10000) _ _ _ _ _ _ _ _ _ _) as [r| | |]; auto. cbn [List.length] in L. rewrite Nat.add_0_r in L. destruct L as (l & xe & ye & A & B' & C & E & F).
  exists l, xe, ye. split; [exact A|]. split; [exact B'|]. split; [lia|]. split; [|exact F]. destruct E as [E|[[E|[E1 E2]] E']]; auto. right. split; [|exact E']. right. split; [exact E1|lia].
Qed.
(** every point of a path lies between x1 and x2 *)
Theorem C104_path_between hr f n eps x1 x2 y1 l : path hr f n eps x1 x2 y1 l -> forall p, In p l -> betw x1 x2 (fst p).
Proof.
  intros H. assert (W : (forall p, In p l -> betw x1 x2 (fst p))).
  { induction H as [|x y l h h0 H IH B Hh Ha]. - intros p [<-|[]]. split; [apply Rmin_l|apply Rmax_l].
    - intros p [<-|I]; [|now apply IH]. specialize (IH (x, y) ltac:(now left)). cbn [fst] in *. unfold betw, Rmin, Rmax in *. destruct (Rle_dec x1 x2), (Rle_dec x x2); lra. } exact W.
Qed.

(** on failure odeintegrate and odeintegrateP do not tell how many points they have recorded: here one point is recorded and *kcount keeps
    its old value 7 *)
Lemma zero_step fuel n x h y ys eps : 0 < eps -> rkqs fuel (fun _ _ _ => 0) n x h eps y (fun _ => 0) ys = Done (x + h, y, h, 5 * h).
Proof.
  intros He. unfold rkqs. assert (E : rkck (fun _ _ _ => 0) y (fun _ => 0) x h = (y, fun _ => 0)). { unfold rkck. f_equal; apply functional_extensionality; intros; ring. }
  assert (Z : forall k i, errloop k i (fun _ => 0) ys 0 = 0). { induction k as [|k IH]; intros i; cbn [errloop]; [reflexivity|]. replace (FMAX 0 (Rabs (0 / ys i))) with 0; [apply IH|]. rewrite FMAX_spec. unfold Rdiv. rewrite Rmult_0_l, Rabs_R0, Rmax_left; lra. }
  destruct fuel; cbn [qs_loop]; rewrite E, Z; (replace (0 / eps) with 0 by (unfold Rdiv; ring)); (destruct (Rle_dec 0 1); [|lra]); (destruct (Rgt_dec 0 _); [lra|reflexivity]).
Qed.
Lemma ode_one hr fuel x1 x2 kmax kc dxs h1 xp yp r : (forall k mx, ode_loop hr fuel (fun _ _ _ => 0) 1 (fun _ => 0) x1 x2 1 0 kmax kc dxs (S k) x1 (if Rge_dec (x2 - x1) 0 then Rabs h1 else - Rabs h1) (fun _ => 0) mx 0 0 0 (x1 - dxs * 2) xp yp = r) -> odeintegrate hr fuel (fun _ _ _ => 0) 1 (fun _ => 0) x1 x2 1 0 kmax kc dxs h1 xp yp = r.
Proof. intros H. unfold odeintegrate. assert (E : exists k, N.to_nat 10000 = S k) by (exists (pred (N.to_nat 10000)); lia). destruct E as (k & ->). apply H. Qed.
Theorem C104_kcount_refuted : exists f x1 x2 xp yp r, odeintegrate false 0 f 1 (fun _ => 0) x1 x2 1 0 2 7 1 0 xp yp = Done r /\ r_status r = (-1)%Z /\ r_kcount r = 7%Z /\ nth_error xp 0 = Some 5 /\ nth_error (r_xp r) 0 = Some 0.
Proof.
  exists (fun _ _ _ => 0), 0, 1, [5; 5], [fun _ => 0; fun _ => 0]. eexists. split.
  - apply ode_one. intros k mx. cbn [ode_loop]. destruct (Rge_dec (1 - 0) 0); [|lra]. rewrite Rabs_R0. 
    destruct (Rgt_dec (Rabs (0 - (0 - 1 * 2))) (Rabs 1)) as [_|N]; [|exfalso; apply N; rewrite !Rabs_pos_eq; lra]. cbn [Z.ltb Z.compare Z.of_nat Z.sub Z.add Z.opp Z.pos_sub Pos.compare Pos.compare_cont andb store put].
    destruct (Rgt_dec ((0 + 0 - 1) * (0 + 0 - 0)) 0); [lra|]. rewrite zero_step by lra. destruct (Req_EM_T 0 0); [|lra]. destruct (Rge_dec _ 0); [lra|]. rewrite Rmult_0_r, Rabs_R0. destruct (Rle_dec 0 0); [|lra]. reflexivity.
  - cbn. auto.
Qed.
(** with a negative kmax the end point is written in front of the arrays *)
Theorem C104_negative_kmax_refuted : exists f x1 x2 xp yp, odeintegrate false 0 f 1 (fun _ => 0) x1 x2 1 0 (-1) 0 1 1 xp yp = Bad.
Proof.
  exists (fun _ _ _ => 0), 0, 0, [], []. apply ode_one. intros k mx. cbn [ode_loop]. destruct (Rge_dec (0 - 0) 0); [|lra]. rewrite Rabs_R1. cbn [Z.ltb Z.compare andb].
  destruct (Rgt_dec ((0 + 1 - 0) * (0 + 1 - 0)) 0); [|lra]. rewrite zero_step by lra. destruct (Req_EM_T _ _); [|lra]. destruct (Rge_dec _ 0); [|lra]. reflexivity.
Qed.
(** a run with status 0 *)
Example C104_nontrivial : exists r, odeintegrate false 0 (fun _ _ _ => 0) 1 (fun _ => 0) 0 1 1 0 2 0 1 3 [5; 5] [fun _ => 5; fun _ => 5] = Done r /\ r_status r = 0%Z /\ r_x r = 1 /\ r_kcount r = 2%Z /\ r_nok r = 1%nat.
Proof.
  eexists. split.
  - apply ode_one. intros k mx. cbn [ode_loop]. destruct (Rge_dec (1 - 0) 0); [|lra]. rewrite (Rabs_pos_eq 3) by lra.
    destruct (Rgt_dec (Rabs (0 - (0 - 1 * 2))) (Rabs 1)) as [_|N]; [|exfalso; apply N; rewrite !Rabs_pos_eq; lra]. cbn [Z.ltb Z.compare Z.of_nat Z.sub Z.add Z.opp Z.pos_sub Pos.compare Pos.compare_cont andb store put].
    destruct (Rgt_dec ((0 + 3 - 1) * (0 + 3 - 0)) 0); [|lra]. rewrite zero_step by lra. destruct (Req_EM_T (1 - 0) (1 - 0)); [|lra]. destruct (Rge_dec _ 0); [|lra]. reflexivity.
  - cbn. auto.
Qed.
Print Assumptions C104_rkck. Print Assumptions C104_rkqs. Print Assumptions C104_rkqs_ends. Print Assumptions C104_odeintegrate. Print Assumptions C104_path_between. Print Assumptions C104_kcount_refuted. Print Assumptions C104_negative_kmax_refuted.

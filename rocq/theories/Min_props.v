(** C114: the minimization routines. *)
From Verif Require Import Rutil Base Loops Sparse_model Min_model Min_spec.
From Coq Require Import Lra Lia Psatz.
Local Open Scope R_scope.

(** * a bracket contains a local minimum *)
Lemma bracket_min : forall f a x b, a < x < b -> f x <= f a -> f x <= f b -> (forall y, a <= y <= b -> continuity_pt f y) ->
  exists z, a < z < b /\ local_min f z /\ f z <= f x.
Proof.
  intros f a x b [Hax Hxb] Ha Hb Hc.
  destruct (continuity_ab_min f a b) as [z [Hz [Hz1 Hz2]]]; [lra | exact Hc |].
  assert (Hloc : forall y, a < y < b -> f y <= f z -> local_min f y).
  { intros y Hy Hyz. exists (Rmin (y - a) (b - y)). split; [apply Rmin_glb_lt; lra|].
    intros t Ht. assert (Rmin (y - a) (b - y) <= y - a) by apply Rmin_l. assert (Rmin (y - a) (b - y) <= b - y) by apply Rmin_r.
    apply Rabs_def2 in Ht. apply (Rle_trans _ (f z)); [exact Hyz|]. apply Hz. lra. }
  destruct (Req_EM_T z a) as [->|Na].
  - exists x. split; [lra|]. split; [apply Hloc; lra|lra].
  - destruct (Req_EM_T z b) as [->|Nb].
    + exists x. split; [lra|]. split; [apply Hloc; lra|lra].
    + exists z. split; [lra|]. split; [apply Hloc; lra|apply Hz; lra].
Qed.

(** * mnbrak *)
Ltac btw := unfold between in *; repeat match goal with H : _ \/ _ |- _ => destruct H end; first [left; lra | right; lra | exfalso; lra | lra].
Definition minv (f : R -> R) (v : R) (s : mst) : Prop :=
  between (ma s) (mb s) (mc s) /\ mfa s = f (ma s) /\ mfb s = f (mb s) /\ mfc s = f (mc s) /\ mfb s <= mfa s /\ mfb s <= v.
Lemma GOLD_pos : 0 < GOLD. Proof. unfold GOLD. lra. Qed.
Lemma beyond : forall b c k, 0 < k -> b <> c -> between b c (c + k * (c - b)).
Proof. intros b c k Hk Hbc. unfold between. destruct (Rlt_dec b c); [left|right]; nra. Qed.
Lemma mul_pos_cases : forall x y, 0 < x * y -> (0 < x /\ 0 < y) \/ (x < 0 /\ y < 0).
Proof.
  intros x y Hp. destruct (Rlt_dec 0 x) as [Hx|Hx].
  - left. split; [exact Hx|]. destruct (Rlt_dec 0 y) as [Hy|Hy]; [exact Hy|]. nra.
  - right. destruct (Req_EM_T x 0) as [->|Hx0]; [nra|]. split; [lra|]. destruct (Rlt_dec y 0) as [Hy|Hy]; [exact Hy|]. nra.
Qed.
Lemma mshift_inv : forall f v s u, minv f v s -> mfc s < mfb s -> between (mb s) (mc s) u -> minv f v (mshift s u (f u)).
Proof.
  intros f v s u (Hb & Ha1 & Hb1 & Hc1 & Hle & Hv) Hlt Hu. unfold minv, mshift. cbn [ma mb mc mfa mfb mfc].
  split; [exact Hu|]. split; [exact Hb1|]. split; [exact Hc1|]. split; [reflexivity|]. lra.
Qed.
Lemma mnbrak_pass_inv : forall f v s, minv f v s -> mfc s < mfb s ->
  minv f v (snd (mnbrak_pass f s)) /\ (fst (mnbrak_pass f s) = true -> mfb (snd (mnbrak_pass f s)) <= mfc (snd (mnbrak_pass f s))).
Proof.
  intros f v [ax b c fa fb fc] Hi Hlt. pose proof Hi as (Hb & Ha1 & Hb1 & Hc1 & Hle & Hv). cbn [ma mb mc mfa mfb mfc] in *.
  pose proof GOLD_pos as HG. assert (Hbc : b <> c) by (unfold between in Hb; lra).
  unfold mnbrak_pass. cbv zeta. set (u := b - _ / _). clearbody u. set (ulim := b + GLIMIT * (c - b)).
  assert (Hgold : minv f v (mshift (M ax b c fa fb fc) (c + GOLD * (c - b)) (f (c + GOLD * (c - b))))).
  { apply mshift_inv; cbn [ma mb mc mfa mfb mfc]; [exact Hi | exact Hlt | apply beyond; assumption]. }
  destruct (Rlt_dec 0 ((b - u) * (u - c))) as [H1|H1].
  - assert (Hu : between b u c). { apply mul_pos_cases in H1. btw. }
    destruct (Rlt_dec (f u) fc) as [H2|H2]; [|destruct (Rlt_dec fb (f u)) as [H3|H3]]; cbn [fst snd].
    + split; [|intros _; cbn [mfb mfc]; lra]. unfold minv. cbn [ma mb mc mfa mfb mfc]. repeat split; try assumption; lra.
    + split; [|intros _; cbn [mfb mfc]; lra]. unfold minv. cbn [ma mb mc mfa mfb mfc]. repeat split; try assumption; try lra; btw.
    + split; [exact Hgold|discriminate].
  - destruct (Rlt_dec 0 ((c - u) * (u - ulim))) as [H2|H2].
    + assert (Hu : between b c u). { apply mul_pos_cases in H2. unfold ulim, GLIMIT in H2. btw. }
      destruct (Rlt_dec (f u) fc) as [H3|H3]; cbn [fst snd]; (split; [|discriminate]).
      * assert (Hcu : c <> u) by (unfold between in Hu; lra).
        apply mshift_inv; cbn [ma mb mc mfa mfb mfc]; [|exact H3|apply beyond; assumption].
        unfold minv. cbn [ma mb mc mfa mfb mfc]. repeat split; try assumption; try lra; btw.
      * apply mshift_inv; cbn [ma mb mc mfa mfb mfc]; assumption.
    + destruct (Rle_dec 0 ((u - ulim) * (ulim - c))) as [H3|H3]; cbn [fst snd]; (split; [|discriminate]).
      * apply mshift_inv; cbn [ma mb mc mfa mfb mfc]; [exact Hi|exact Hlt|]. unfold ulim, GLIMIT in *. btw.
      * exact Hgold.
Qed.
Lemma mnbrak_loop_inv : forall f v n s s', minv f v s -> mnbrak_loop f n s = Some s' -> minv f v s' /\ mfb s' <= mfc s'.
Proof.
  intros f v n. induction n as [|n IH]; intros s s' Hi Hl; cbn [mnbrak_loop] in Hl; destruct (Rlt_dec (mfc s) (mfb s)) as [Hlt|Hge].
  - discriminate.
  - injection Hl as <-. split; [exact Hi|lra].
  - pose proof (mnbrak_pass_inv f v s Hi Hlt) as [Hp Hr]. destruct (mnbrak_pass f s) as [ret s1]. cbn [fst snd] in Hp, Hr.
    destruct ret; [injection Hl as <-; split; [exact Hp|apply Hr; reflexivity] | apply (IH s1); assumption].
  - injection Hl as <-. split; [exact Hi|lra].
Qed.
(** mnbrak, if it returns, returns a bracket with the values there, and its middle is no higher than the two points it got. *)
Theorem C114_mnbrak : forall f n x0 x1 s, x0 <> x1 -> mnbrak f n x0 x1 = Some s ->
  bracket f (ma s) (mb s) (mc s) /\ mfa s = f (ma s) /\ mfb s = f (mb s) /\ mfc s = f (mc s) /\ f (mb s) <= f x0 /\ f (mb s) <= f x1.
Proof.
  intros f n x0 x1 s Hne Hm. unfold mnbrak in Hm.
  assert (Hinit : minv f (Rmin (f x0) (f x1)) (mnbrak_init f x0 x1)).
  { unfold mnbrak_init. destruct (Rlt_dec (f x0) (f x1)) as [Hl|Hl]; unfold minv; cbn [ma mb mc mfa mfb mfc];
      (split; [apply beyond; [apply GOLD_pos|auto]|]); repeat split; try lra; apply Rmin_glb; lra. }
  destruct (mnbrak_loop_inv f _ n _ s Hinit Hm) as [(Hb & Ha1 & Hb1 & Hc1 & Hle & Hv) Hbc].
  pose proof (Rmin_l (f x0) (f x1)). pose proof (Rmin_r (f x0) (f x1)).
  unfold bracket. repeat split; try assumption; lra.
Qed.
(** Nothing makes it return: on a function without a minimum it goes on forever. *)
Theorem C114_mnbrak_refuted : forall n, mnbrak (fun x => - x) n 0 1 = None.
Proof.
  intro n. unfold mnbrak.
  assert (Hs : ma (mnbrak_init (fun x => - x) 0 1) < mb (mnbrak_init (fun x => - x) 0 1) < mc (mnbrak_init (fun x => - x) 0 1) /\ minv (fun x => - x) 0 (mnbrak_init (fun x => - x) 0 1)).
  { unfold mnbrak_init. destruct (Rlt_dec _ _); [lra|]. unfold minv, between, GOLD. cbn [ma mb mc mfa mfb mfc]. cbv beta iota. cbn [ma mb mc mfa mfb mfc]. split; [lra|]. split; [left; lra|]. repeat split; lra. }
  revert Hs. generalize (mnbrak_init (fun x => - x) 0 1). induction n as [|n IH]; intros s [Hord Hi]; pose proof Hi as (Hb & Ha1 & Hb1 & Hc1 & Hle & Hv); cbn [mnbrak_loop]; (destruct (Rlt_dec (mfc s) (mfb s)) as [Hlt|Hge]; [|lra]); [reflexivity|].
  cbv beta in *.   pose proof (mnbrak_pass_inv (fun x => - x) 0 s Hi Hlt) as [Hp Hr].
  assert (Hgrow : ma (snd (mnbrak_pass (fun x => - x) s)) < mb (snd (mnbrak_pass (fun x => - x) s))).
  { destruct Hp as (Pb & Pa1 & Pb1 & Pc1 & Ple & Pv). rewrite Pa1, Pb1 in Ple. unfold between in Pb. lra. }
  destruct (mnbrak_pass (fun x => - x) s) as [ret s1]. cbn [fst snd] in *.
  pose proof Hp as (Pb & Pa1 & Pb1 & Pc1 & Ple & Pv). unfold between in Pb.
  destruct ret; [specialize (Hr eq_refl); rewrite Pb1, Pc1 in Hr; lra|].
  apply IH. split; [lra|exact Hp].
Qed.

(** * brent *)
Definition binv (f : R -> R) (a0 b0 v : R) (s : bst) : Prop :=
  ba s < bx s < bb s /\ a0 <= ba s /\ bb s <= b0 /\ bfx s = f (bx s) /\ f (bx s) <= f (ba s) /\ f (bx s) <= f (bb s) /\ f (bx s) <= v /\ (bd s = None -> be s = 0).
Lemma SIGN_cases : forall t x, 0 < t -> (0 <= x /\ SIGN t x = t) \/ (x < 0 /\ SIGN t x = - t).
Proof. intros t x Ht. unfold SIGN. rewrite (Rabs_right t) by lra. destruct (Rle_dec 0 x); [left|right]; lra. Qed.
(** where the next point is *)
Definition next_x (x d tol1 : R) : R := if Rle_dec tol1 (Rabs d) then x + d else x + SIGN tol1 d.
Lemma brent_step_ok : forall s tol1, 0 < tol1 -> ba s < bx s < bb s -> (bd s = None -> be s = 0) ->
  2 * tol1 - 0.5 * (bb s - ba s) < Rabs (bx s - 0.5 * (ba s + bb s)) ->
  exists d e, brent_step s (0.5 * (ba s + bb s)) tol1 (2 * tol1) = Ok (d, e) /\ ba s < next_x (bx s) d tol1 < bb s /\ next_x (bx s) d tol1 <> bx s.
Proof.
  intros [a b d e x w v fx fw fv] tol1 Ht Hx Hd Hnc. cbn [ba bb bd be bx bw bv bfx bfw bfv] in *.
  set (xm := 0.5 * (a + b)) in *.
  set (e' := if Rle_dec xm x then a - x else b - x).
  assert (Hsec : a < next_x x (CGOLD * e') tol1 < b /\ next_x x (CGOLD * e') tol1 <> x).
  { unfold next_x, CGOLD, e'. destruct (Rle_dec xm x) as [Hxm|Hxm].
    - rewrite (Rabs_right (x - xm)) in Hnc by lra. unfold xm in Hnc, Hxm.
      destruct (Rle_dec tol1 _); [lra|]. destruct (SIGN_cases tol1 (3819660 / 10000000 * (a - x)) Ht) as [ [Hs ->] | [Hs ->] ]; lra.
    - rewrite (Rabs_left1 (x - xm)) in Hnc by lra. unfold xm in Hnc, Hxm.
      destruct (Rle_dec tol1 _); [lra|]. destruct (SIGN_cases tol1 (3819660 / 10000000 * (b - x)) Ht) as [ [Hs ->] | [Hs ->] ]; lra. }
  assert (Hmid : a < next_x x (SIGN tol1 (xm - x)) tol1 < b /\ next_x x (SIGN tol1 (xm - x)) tol1 <> x).
  { unfold next_x. destruct (SIGN_cases tol1 (xm - x) Ht) as [ [Hs ->] | [Hs ->] ].
    - rewrite (Rabs_left1 (x - xm)) in Hnc by lra. rewrite (Rabs_right tol1) by lra. destruct (Rle_dec tol1 tol1); unfold xm in *; lra.
    - rewrite (Rabs_right (x - xm)) in Hnc by lra. rewrite Rabs_Ropp, (Rabs_right tol1) by lra. destruct (Rle_dec tol1 tol1); unfold xm in *; lra. }
  unfold brent_step. cbv zeta. fold e'.
  destruct (Rlt_dec tol1 (Rabs e)) as [He|He]; [|exists (CGOLD * e'), e'; split; [reflexivity|exact Hsec]].
  destruct d as [d0|]; [|rewrite (Hd eq_refl), Rabs_R0 in He; lra].
  set (q := Rabs (2 * ((x - v) * (fx - fw) - (x - w) * (fx - fv)))). set (p := if Rlt_dec 0 _ then _ else _).
  destruct (Rle_dec (Rabs (0.5 * q * e)) (Rabs p)) as [H1|H1]; [exists (CGOLD * e'), e'; split; [reflexivity|exact Hsec]|].
  destruct (Rle_dec p (q * (a - x))) as [H2|H2]; [exists (CGOLD * e'), e'; split; [reflexivity|exact Hsec]|].
  destruct (Rle_dec (q * (b - x)) p) as [H3|H3]; [exists (CGOLD * e'), e'; split; [reflexivity|exact Hsec]|].
  assert (Hq : 0 < q).
  { assert (0 <= q) by apply Rabs_pos. destruct (Req_EM_T q 0) as [E|E]; [|lra]. exfalso. apply H1. rewrite E. replace (0.5 * 0 * e) with 0 by ring. rewrite Rabs_R0. apply Rabs_pos. }
  assert (Hp1 : a - x < p / q). { apply (Rmult_lt_reg_r q); [exact Hq|]. unfold Rdiv. rewrite Rmult_assoc, Rinv_l by lra. lra. }
  assert (Hp2 : p / q < b - x). { apply (Rmult_lt_reg_r q); [exact Hq|]. unfold Rdiv. rewrite Rmult_assoc, Rinv_l by lra. lra. }
  clearbody p q. set (d := p / q) in *. clearbody d.
  destruct (Rlt_dec (x + d - a) (2 * tol1)) as [H4|H4]; [exists (SIGN tol1 (xm - x)), d0; split; [reflexivity|exact Hmid]|].
  destruct (Rlt_dec (b - (x + d)) (2 * tol1)) as [H5|H5]; [exists (SIGN tol1 (xm - x)), d0; split; [reflexivity|exact Hmid]|].
  exists d, d0. split; [reflexivity|]. unfold next_x. destruct (Rle_dec tol1 (Rabs d)) as [H6|H6].
  - split; [lra|]. intro Q. assert (Hd0 : d = 0) by lra. rewrite Hd0, Rabs_R0 in H6. lra.
  - apply Rnot_le_lt, Rabs_def2 in H6. destruct (SIGN_cases tol1 d Ht) as [ [Hs ->] | [Hs ->] ]; lra.
Qed.
Lemma brent_update_inv : forall f a0 b0 v s d e tol1, binv f a0 b0 v s -> ba s < next_x (bx s) d tol1 < bb s -> next_x (bx s) d tol1 <> bx s ->
  binv f a0 b0 v (brent_update f s d e tol1).
Proof.
  intros f a0 b0 v0 [a b d0 e0 x w v fx fw fv] d e tol1 (Hx & Ha & Hb & Hfx & Hfa & Hfb & Hv & Hd) Hu Hne. cbn [ba bb bd be bx bw bv bfx bfw bfv] in *.
  unfold brent_update. cbv zeta. fold (next_x x d tol1). set (u := next_x x d tol1) in *. clearbody u.
  destruct (Rle_dec (f u) fx) as [H1|H1].
  - unfold binv. cbn [ba bb bd be bx bw bv bfx bfw bfv]. destruct (Rle_dec x u); repeat split; try lra; discriminate.
  - destruct (Rle_dec (f u) fw); [|destruct (Req_EM_T w x); [|destruct (Rle_dec (f u) fv); [|destruct (Req_EM_T v x); [|destruct (Req_EM_T v w)]]]];
      unfold binv; cbn [ba bb bd be bx bw bv bfx bfw bfv]; destruct (Rlt_dec u x); repeat split; try lra; discriminate.
Qed.
Lemma brent_loop_ok : forall f a0 b0 v tol n s, 0 <= tol -> binv f a0 b0 v s ->
  exists r, brent_loop f tol n s = Ok r /\
    forall s', r = Some s' -> binv f a0 b0 v s' /\ Rabs (bx s' - 0.5 * (ba s' + bb s')) <= 2 * (tol * Rabs (bx s') + ZEPS) - 0.5 * (bb s' - ba s').
Proof.
  intros f a0 b0 v tol n. induction n as [|n IH]; intros s Htol Hi; cbn [brent_loop]; [exists None; split; [reflexivity|discriminate]|].
  cbv zeta. destruct (Rle_dec _ _) as [Hc|Hc].
  - exists (Some s). split; [reflexivity|]. intros s' E. injection E as <-. split; [exact Hi|exact Hc].
  - pose proof Hi as (Hx & Ha & Hb & Hfx & Hfa & Hfb & Hv & Hd).
    assert (Ht1 : 0 < tol * Rabs (bx s) + ZEPS). { assert (0 < ZEPS) by (unfold ZEPS; apply Rinv_0_lt_compat, pow_lt; lra). assert (0 <= tol * Rabs (bx s)) by (apply Rmult_le_pos; [exact Htol|apply Rabs_pos]). lra. }
    destruct (brent_step_ok s _ Ht1 Hx Hd (Rnot_le_lt _ _ Hc)) as (d & e & Hstep & Hu & Hne). rewrite Hstep. cbn [rbind].
    apply IH; [exact Htol|]. apply brent_update_inv; assumption.
Qed.
Lemma binv_init : forall f a b c, bracket f a b c -> binv f (Rmin a c) (Rmax a c) (f b) (brent_init f a b c).
Proof.
  intros f a b c [Hb [H1 H2]]. unfold brent_init, binv. cbn [ba bb bd be bx bw bv bfx bfw bfv].
  unfold between in Hb. unfold Rmin, Rmax. destruct (Rlt_dec a c), (Rlt_dec c a), (Rle_dec a c); repeat split; try lra.
Qed.
(** brent never reads the uninitialized d.  If it returns, the point is inside of the bracket, the value is the value there and no higher than at the middle; and if the function is continuous a local minimum is within twice the tolerance. *)
Theorem C114_brent : forall f a b c tol, 0 <= tol -> bracket f a b c ->
  exists r, brent f a b c tol = Ok r /\
  forall x fx, r = Some (x, fx) ->
    inside a c x /\ fx = f x /\ fx <= f b /\
    (cont_on f a c -> exists z, inside a c z /\ local_min f z /\ f z <= fx /\ Rabs (z - x) <= 2 * (tol * Rabs x + ZEPS)).
Proof.
  intros f a b c tol Htol Hbr.
  destruct (brent_loop_ok f _ _ _ tol 100 _ Htol (binv_init f a b c Hbr)) as [r [Hr Hs]].
  unfold brent. rewrite Hr. cbn [rbind]. eexists. split; [reflexivity|]. intros x fx E.
  destruct r as [s|]; [|discriminate]. injection E as <- <-.
  destruct (Hs s eq_refl) as [(Hx & Ha & Hb & Hfx & Hfa & Hfb & Hv & Hd) Hend]. unfold inside.
  split; [lra|]. split; [exact Hfx|]. split; [lra|]. intro Hcont.
  destruct (bracket_min f (ba s) (bx s) (bb s) Hx Hfa Hfb) as [z [Hz [Hlm Hfz]]].
  { intros y Hy. apply Hcont. unfold inside. lra. }
  exists z. split; [lra|]. split; [exact Hlm|]. split; [lra|].
  unfold Rabs in Hend |- *. destruct (Rcase_abs (bx s - 0.5 * (ba s + bb s))), (Rcase_abs (z - bx s)), (Rcase_abs (bx s)); lra.
Qed.

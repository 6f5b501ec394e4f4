From Verif Require Import Rutil Rsum Loops Sparse_model Arrays Solvers_model Solvers_proofs Mat_proofs Lu_model Lu_spec Lu_proofs Lsrch_model Lsrch_spec.
Local Open Scope R_scope.

Lemma ALPHA_val : ALPHA = 1 / 10000.
Proof. unfold ALPHA. replace (10 ^ 4) with 10000 by ring. lra. Qed.
Lemma TOLX_pos : 0 < TOLX.
Proof. apply Rinv_0_lt_compat, pow_lt; lra. Qed.

(** *** the line search along a descent direction *)
(** y_i = (f_i - fold - l_i s) / l_i^2 *)
Lemma disc_nonneg s l1 a y1 : s < 0 -> 0 < l1 -> (1 - ALPHA) * (- s) < y1 * l1 -> 0 <= (y1 - l1 * a) * (y1 - l1 * a) - 3 * a * s.
Proof.
  intros Hs Hl Hy. assert (HA : 0 < ALPHA < 1 / 100) by (rewrite ALPHA_val; lra).
  destruct (Rle_lt_dec 0 a) as [H|H].
  - pose proof (Rle_0_sqr (y1 - l1 * a)) as Q. unfold Rsqr in Q. assert (0 <= a * - s) by (apply Rmult_le_pos; lra). lra.
  - pose proof (Rle_0_sqr (y1 + l1 * a)) as Q. unfold Rsqr in Q. assert (3 * (- s) <= 4 * (y1 * l1)) by nra.
    assert (0 <= - a * (4 * (y1 * l1) - 3 * (- s))) by (apply Rmult_le_pos; lra). lra.
Qed.
Section LS.
Variables (n : nat) (F : list R -> list R) (xold p : list R) (fold slope : R).
Hypothesis Hs : slope < 0.
Definition pt (lam : R) : list R := zip (fun xo pi => xo + lam * pi) xold p.
Definition ls_post (l : R) (r : list R * R * list R * bool) : Prop := exists lam, 0 < lam <= 1 /\
  match r with (x, f, fv, chk) => f = fmin F (pt lam) /\ fv = F (pt lam) /\
    if chk then x = xold /\ lam < l else x = pt lam /\ f <= fold + ALPHA * lam * slope /\ l <= lam end.
Lemma ls_loop_ok l : 0 < l -> forall fuel alam prev, 0 < alam <= 1 ->
  ((alam = 1 /\ prev = None) \/ (exists l2 f2, prev = Some (l2, f2) /\ alam < 1 /\ alam < l2 <= 1 /\ fold + ALPHA * l2 * slope < f2)) ->
  alam * (0.51) ^ fuel < l ->
  exists r, ls_loop F xold p fold slope (Some l) (S fuel) alam prev = Ok r /\ ls_post l r.
Proof.
  assert (HA : 0 < ALPHA < 1 / 1000) by (rewrite ALPHA_val; lra).
  intros Hl. induction fuel as [|fuel IH]; intros alam prev Ha Hp Hf.
  - cbn [ls_loop]. rewrite pow_O, Rmult_1_r in Hf. destruct (Rlt_dec alam l) as [H|H]; [|lra]. eexists. split; [reflexivity|]. exists alam. split; auto.
  - remember (S fuel) as fl. cbn [ls_loop]. fold (pt alam). destruct (Rlt_dec alam l) as [H|H]. { eexists. split; [reflexivity|]. exists alam. split; auto. }
    set (f := fmin F (pt alam)) in *. destruct (Rle_dec f (fold + ALPHA * alam * slope)) as [H1|H1]. { eexists. split; [reflexivity|]. exists alam. split; auto. split; auto. split; auto. split; auto. split; auto. lra. }
    apply Rnot_le_lt in H1. subst fl.
    assert (Rec : forall t, t <= 0.51 * alam -> exists r, ls_loop F xold p fold slope (Some l) (S fuel) (Rmax t (0.1 * alam)) (Some (alam, f)) = Ok r /\ ls_post l r).
    { intros t Ht. assert (B : 0.1 * alam <= Rmax t (0.1 * alam) <= 0.51 * alam). { split; [apply Rmax_r|]. apply Rmax_lub; lra. } apply IH.
      - lra.
      - right. exists alam, f. split; auto. split; [lra|]. split; [lra|]. lra.
      - assert (0 < 0.51 ^ fuel) by (apply pow_lt; lra). cbn [pow] in Hf. nra. }
    destruct (Req_EM_T alam 1) as [->|N1].
    + assert (D : (1 - ALPHA) * (- slope) < f - fold - slope) by lra. unfold ldiv. destruct (Req_EM_T (2 * (f - fold - slope)) 0) as [Z|NZ]; [nra|]. cbn [rbind]. apply Rec.
      apply Rmult_le_reg_r with (2 * (f - fold - slope)); [nra|]. replace (- slope / (2 * (f - fold - slope)) * (2 * (f - fold - slope))) with (- slope) by (field; nra). nra.
    + destruct Hp as [[? _]|(l2 & f2 & -> & H3 & H4 & H5)]; [lra|].
      set (t1 := f - fold - alam * slope). set (t2 := f2 - fold - l2 * slope). unfold ldiv at 1. destruct (Req_EM_T (alam - l2) 0) as [Z|NZ]; [lra|]. cbn [rbind]. unfold ldiv at 1. destruct (Req_EM_T (alam - l2) 0) as [?|_]; [lra|]. cbn [rbind].
      set (a := (t1 / (alam * alam) - t2 / (l2 * l2)) / (alam - l2)). set (b := (- l2 * t1 / (alam * alam) + alam * t2 / (l2 * l2)) / (alam - l2)).
      set (y1 := t1 / (alam * alam)). assert (Eb : b = y1 - alam * a). { unfold b, y1, a. field. lra. }
      assert (Hy : (1 - ALPHA) * (- slope) < y1 * alam). { unfold y1. apply Rmult_lt_reg_r with alam; [lra|]. replace (t1 / (alam * alam) * alam * alam) with t1 by (field; lra). unfold t1. nra. }
      assert (Hc : exists t, (if Req_EM_T a 0 then ldiv (- slope) (2 * b) else if Rlt_dec (b * b - 3 * a * slope) 0 then Err else ldiv (- b + sqrt (b * b - 3 * a * slope)) (3 * a)) = Ok t).
      { destruct (Req_EM_T a 0) as [Za|Na].
        - unfold ldiv. destruct (Req_EM_T (2 * b) 0) as [Zb|_]; [|eexists; reflexivity]. exfalso. rewrite Za in Eb. assert (y1 = 0) by lra. nra.
        - destruct (Rlt_dec (b * b - 3 * a * slope) 0) as [D|_]. + exfalso. rewrite Eb in D. pose proof (disc_nonneg slope alam a y1 Hs (proj1 Ha) Hy). lra.
          + unfold ldiv. destruct (Req_EM_T (3 * a) 0); [lra|]. eexists; reflexivity. }
      destruct Hc as (t & Et). cbv zeta. rewrite Et. cbn [rbind]. apply Rec. destruct (Rlt_dec (0.5 * alam) t); lra.
Qed.
Lemma ls_terminates l : 0 < l -> exists N, forall fuel, (N <= fuel)%nat -> exists r, ls_loop F xold p fold slope (Some l) fuel 1 None = Ok r /\ ls_post l r.
Proof.
  intros Hl. destruct (pow_lt_1_zero 0.51 ltac:(rewrite Rabs_pos_eq; lra) l Hl) as (N & HN). exists (S N). intros fuel Hf. destruct fuel as [|fuel]; [lia|]. apply ls_loop_ok; auto; [lra|]. rewrite Rmult_1_l. specialize (HN fuel ltac:(lia)). rewrite Rabs_pos_eq in HN; auto. apply pow_le. lra.
Qed.
End LS.

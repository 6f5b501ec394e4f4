(** C114, second part: the golden section search, line minimization and Powell's method. *)
From Verif Require Import Rutil Base Loops Sparse_model Sparse_proofs Min_model Min_spec Min_props.
From Coq Require Import Lra Lia Psatz.
Local Open Scope R_scope.

(** * golden *)
Definition chain (s : gst) : Prop := g0 s < g1 s < g2 s /\ g2 s < g3 s \/ g3 s < g2 s < g1 s /\ g1 s < g0 s.
Definition ginv (f : R -> R) (a c v : R) (s : gst) : Prop :=
  chain s /\ gf1 s = f (g1 s) /\ gf2 s = f (g2 s) /\ Rmin (gf1 s) (gf2 s) <= f (g0 s) /\ Rmin (gf1 s) (gf2 s) <= f (g3 s) /\ Rmin (gf1 s) (gf2 s) <= v /\ inside a c (g0 s) /\ inside a c (g3 s).
Lemma golden_pass_inv : forall f a c v s, ginv f a c v s -> ginv f a c v (golden_pass f s).
Proof.
  intros f a c v [x0 x1 x2 x3 f1 f2] (Hc & H1 & H2 & H3 & H4 & H5 & H6 & H7). unfold chain in Hc. cbn [g0 g1 g2 g3 gf1 gf2] in *.
  unfold golden_pass. cbn [g0 g1 g2 g3 gf1 gf2]. cbv zeta. unfold inside in *.
  destruct (Rlt_dec f2 f1) as [Hl|Hl]; unfold ginv, chain, inside; cbn [g0 g1 g2 g3 gf1 gf2].
  - rewrite (Rmin_right f1 f2) in * by lra. pose proof (Rmin_l f2 (f (gR * x2 + gC * x3))). split; [unfold gC, gR; destruct Hc; [left|right]; lra|]. repeat split; try assumption; try reflexivity; destruct Hc; lra.
  - rewrite (Rmin_left f1 f2) in * by lra. pose proof (Rmin_r (f (gR * x1 + gC * x0)) f1). split; [unfold gC, gR; destruct Hc; [left|right]; lra|]. repeat split; try assumption; try reflexivity; destruct Hc; lra.
Qed.
Lemma golden_init_inv : forall f a b c, bracket f a b c -> ginv f a c (f b) (golden_init f a b c).
Proof.
  intros f a b c [Hb [Ha Hc]]. unfold golden_init, ginv, chain, inside. unfold between in Hb.
  assert (Hin : Rmin a c <= a <= Rmax a c /\ Rmin a c <= c <= Rmax a c) by (pose proof (Rmin_l a c); pose proof (Rmin_r a c); pose proof (Rmax_l a c); pose proof (Rmax_r a c); lra).
  destruct (Rlt_dec _ _); cbv zeta; cbn [g0 g1 g2 g3 gf1 gf2].
  - pose proof (Rmin_l (f b) (f (b + gC * (c - b)))). split; [unfold gC, gR; destruct Hb; [left|right]; lra|]. repeat split; try reflexivity; lra.
  - pose proof (Rmin_r (f (b - gC * (b - a))) (f b)). split; [unfold gC, gR; destruct Hb; [left|right]; lra|]. repeat split; try reflexivity; lra.
Qed.
Lemma golden_loop_inv : forall f a c v tol n s s', ginv f a c v s -> golden_loop f tol n s = Some s' -> ginv f a c v s' /\ Rabs (g3 s' - g0 s') <= tol * (Rabs (g1 s') + Rabs (g2 s')).
Proof.
  intros f a c v tol n. induction n as [|n IH]; intros s s' Hi Hl; cbn [golden_loop] in Hl; destruct (Rlt_dec _ _) as [Hd|Hd]; try discriminate.
  - injection Hl as <-. split; [exact Hi|lra].
  - apply (IH (golden_pass f s)); [apply golden_pass_inv; exact Hi|exact Hl].
  - injection Hl as <-. split; [exact Hi|lra].
Qed.
(** If it returns, the point is inside of the bracket, the value is the value there and no higher than at the middle, and a local minimum is near. *)
Theorem C114_golden : forall f n a b c tol x fx, 0 <= tol -> bracket f a b c -> golden f n a b c tol = Some (x, fx) ->
  inside a c x /\ fx = f x /\ fx <= f b /\
  (cont_on f a c -> exists z, inside a c z /\ local_min f z /\ f z <= fx /\ (1 - tol) * Rabs (z - x) <= 2 * tol * Rabs x).
Proof.
  intros f n a b c tol x fx Htol Hbr Hg. unfold golden in Hg.
  destruct (golden_loop f tol n (golden_init f a b c)) as [s|] eqn:El; [|discriminate].
  destruct (golden_loop_inv f a c (f b) tol n _ s (golden_init_inv f a b c Hbr) El) as [(Hc & H1 & H2 & H3 & H4 & H5 & H6 & H7) Hend].
  assert (Hx : fx = f x /\ fx = Rmin (gf1 s) (gf2 s) /\ between (g0 s) x (g3 s) /\ Rabs (g1 s) + Rabs (g2 s) <= 2 * Rabs x + Rabs (g3 s - g0 s)).
  { unfold chain in Hc. injection Hg as Hg. destruct (Rlt_dec (gf1 s) (gf2 s)) as [Hl|Hl]; injection Hg as <- <-.
    - split; [exact H1|]. split; [rewrite Rmin_left; lra|]. split; [unfold between; destruct Hc; [left|right]; lra|].
      unfold Rabs. destruct (Rcase_abs (g1 s)), (Rcase_abs (g2 s)), (Rcase_abs (g3 s - g0 s)); destruct Hc; lra.
    - split; [exact H2|]. split; [rewrite Rmin_right; lra|]. split; [unfold between; destruct Hc; [left|right]; lra|].
      unfold Rabs. destruct (Rcase_abs (g1 s)), (Rcase_abs (g2 s)), (Rcase_abs (g3 s - g0 s)); destruct Hc; lra. }
  clear Hg. destruct Hx as (Hfx & Hmin & Hbt & Hsum). unfold inside in *.
  split; [unfold between in Hbt; lra|]. split; [exact Hfx|]. split; [lra|]. intro Hcont.
  assert (Hz : exists z, between (g0 s) z (g3 s) /\ local_min f z /\ f z <= f x).
  { unfold between in *. destruct Hbt as [Hbt|Hbt].
    - destruct (bracket_min f (g0 s) x (g3 s) Hbt) as [z [Hz1 [Hz2 Hz3]]]; [lra|lra|intros y Hy; apply Hcont; unfold inside; lra|]. exists z. repeat split; [left; lra|exact Hz2|exact Hz3].
    - destruct (bracket_min f (g3 s) x (g0 s) Hbt) as [z [Hz1 [Hz2 Hz3]]]; [lra|lra|intros y Hy; apply Hcont; unfold inside; lra|]. exists z. repeat split; [right; lra|exact Hz2|exact Hz3]. }
  destruct Hz as [z [Hz1 [Hz2 Hz3]]]. exists z. split; [unfold between in Hz1; lra|]. split; [exact Hz2|]. split; [lra|].
  assert (HL : Rabs (z - x) <= Rabs (g3 s - g0 s)).
  { unfold between in *. unfold Rabs. destruct (Rcase_abs (z - x)), (Rcase_abs (g3 s - g0 s)); lra. }
  assert (Hk : tol * (Rabs (g1 s) + Rabs (g2 s)) <= tol * (2 * Rabs x + Rabs (g3 s - g0 s))) by (apply Rmult_le_compat_l; assumption).
  pose proof (Rabs_pos x). pose proof (Rabs_pos (z - x)). pose proof (Rabs_pos (g3 s - g0 s)).
  destruct (Rle_dec tol 1); nra.
Qed.

(** ** it ends *)
(** one of the inner points divides the part between the other and an end in the ratio gR : gC *)
Definition cut (s : gst) : Prop := g2 s = g1 s + gC * (g3 s - g1 s) \/ g1 s = g2 s - gC * (g2 s - g0 s).
Lemma golden_pass_cut : forall f s, cut (golden_pass f s).
Proof. intros f [x0 x1 x2 x3 f1 f2]. unfold golden_pass, cut. cbn [g0 g1 g2 g3 gf1 gf2]. destruct (Rlt_dec f2 f1); cbn [g0 g1 g2 g3 gf1 gf2]; unfold gC; [left|right]; ring. Qed.
Lemma golden_init_cut : forall f a b c, cut (golden_init f a b c).
Proof. intros. unfold golden_init, cut. destruct (Rlt_dec _ _); cbv zeta; cbn [g0 g1 g2 g3]; [left|right]; reflexivity. Qed.
Definition len (s : gst) : R := Rabs (g3 s - g0 s).
Lemma golden_shrink : forall f s, chain s -> cut s -> len (golden_pass f (golden_pass f (golden_pass f s))) <= 0.62 * len s.
Proof.
  intros f [x0 x1 x2 x3 f1 f2] Hc Hk. unfold chain, cut, len, gC, gR in *. cbn [g0 g1 g2 g3] in *.
  set (s1 := golden_pass f (G x0 x1 x2 x3 f1 f2)). set (s2 := golden_pass f s1). set (s3 := golden_pass f s2).
  assert (P1 : forall s, (g0 (golden_pass f s) = g1 s /\ g1 (golden_pass f s) = g2 s /\ g2 (golden_pass f s) = gR * g2 s + gC * g3 s /\ g3 (golden_pass f s) = g3 s) \/
                         (g3 (golden_pass f s) = g2 s /\ g2 (golden_pass f s) = g1 s /\ g1 (golden_pass f s) = gR * g1 s + gC * g0 s /\ g0 (golden_pass f s) = g0 s)).
  { intros s. unfold golden_pass. destruct (Rlt_dec (gf2 s) (gf1 s)); cbn [g0 g1 g2 g3]; [left|right]; repeat split. }
  pose proof (P1 (G x0 x1 x2 x3 f1 f2)) as Q1. pose proof (P1 s1) as Q2. pose proof (P1 s2) as Q3. fold s1 in Q1. fold s2 in Q2. fold s3 in Q3. cbn [g0 g1 g2 g3] in Q1.
  clearbody s3 s2 s1. unfold gC, gR in *.
  destruct Hc as [Hc|Hc]; [rewrite (Rabs_right (x3 - x0)) by lra | rewrite (Rabs_left1 (x3 - x0)) by lra];
  (destruct Q1 as [ (Q10 & Q11 & Q12 & Q13) | (Q10 & Q11 & Q12 & Q13) ]; rewrite Q10, Q11, Q12, Q13 in Q2;
   destruct Q2 as [ (Q20 & Q21 & Q22 & Q23) | (Q20 & Q21 & Q22 & Q23) ]; rewrite Q20, Q21, Q22, Q23 in Q3;
   destruct Q3 as [ (Q30 & Q31 & Q32 & Q33) | (Q30 & Q31 & Q32 & Q33) ]; rewrite Q30, Q33;
   clear Q10 Q11 Q12 Q13 Q20 Q21 Q22 Q23 Q30 Q31 Q32 Q33; destruct Hk as [Hk|Hk]; subst; apply Rabs_le; lra).
Qed.
Lemma golden_more : forall f tol n s, golden_loop f tol n (golden_pass f s) <> None -> golden_loop f tol (S n) s <> None.
Proof. intros f tol n s Hn. cbn [golden_loop]. destruct (Rlt_dec _ _); [exact Hn|discriminate]. Qed.
Lemma golden_mono : forall f tol n s r, golden_loop f tol n s = Some r -> forall m, (n <= m)%nat -> golden_loop f tol m s = Some r.
Proof.
  intros f tol n. induction n as [|n IH]; intros s r Hr m Hm; cbn [golden_loop] in Hr; destruct (Rlt_dec _ _) as [Hd|Hd]; try discriminate.
  - destruct m; cbn [golden_loop]; (destruct (Rlt_dec _ _); [contradiction|exact Hr]).
  - destruct m as [|m]; [lia|]. cbn [golden_loop]. destruct (Rlt_dec _ _); [|contradiction]. apply IH; [exact Hr|lia].
  - destruct m as [|m]; [lia|]. cbn [golden_loop]. destruct (Rlt_dec _ _); [contradiction|exact Hr].
Qed.
Lemma golden_ends : forall f a c v tol m k s, 0 < m -> 0 < tol -> (forall y, inside a c y -> m <= Rabs y) -> ginv f a c v s -> cut s ->
  0.62 ^ k * len s <= 2 * tol * m -> golden_loop f tol (3 * k) s <> None.
Proof.
  intros f a c v tol m k. induction k as [|k IH]; intros s Hm Htol Hy Hi Hk Hlen.
  - pose proof Hi as (Hc & H1 & H2 & H3 & H4 & H5 & H6 & H7). unfold chain, inside in *.
    assert (Ha1 : m <= Rabs (g1 s)) by (apply Hy; lra). assert (Ha2 : m <= Rabs (g2 s)) by (apply Hy; lra).
    change (3 * 0)%nat with 0%nat. cbn [golden_loop]. destruct (Rlt_dec _ _) as [Hd|Hd]; [|discriminate].
    cbn [pow] in Hlen. unfold len in Hlen. assert (tol * (m + m) <= tol * (Rabs (g1 s) + Rabs (g2 s))) by (apply Rmult_le_compat_l; lra). lra.
  - replace (3 * S k)%nat with (S (S (S (3 * k)))) by lia. do 3 apply golden_more.
    apply IH; try assumption; [do 3 apply golden_pass_inv; exact Hi | apply golden_pass_cut |].
    pose proof (golden_shrink f s (proj1 Hi) Hk) as Hs. cbn [pow] in Hlen.
    assert (0 < 0.62 ^ k) by (apply pow_lt; lra).
    apply (Rle_trans _ (0.62 ^ k * (0.62 * len s))); [apply Rmult_le_compat_l; lra|]. lra.
Qed.
(** It ends, with the same result for every larger number of passes, if zero is not in the bracket. *)
Theorem C114_golden_ends : forall f a b c tol, 0 < tol -> bracket f a b c -> 0 < a * c ->
  exists N r, forall n, (N <= n)%nat -> golden f n a b c tol = Some r.
Proof.
  intros f a b c tol Htol Hbr Hac.
  assert (Hm : exists m, 0 < m /\ forall y, inside a c y -> m <= Rabs y).
  { destruct (mul_pos_cases a c Hac) as [ [Ha Hc] | [Ha Hc] ].
    - exists (Rmin a c). split; [apply Rmin_glb_lt; assumption|]. intros y [Hy _]. assert (0 < Rmin a c) by (apply Rmin_glb_lt; assumption). rewrite Rabs_right; lra.
    - exists (- Rmax a c). assert (Rmax a c < 0) by (unfold Rmax; destruct (Rle_dec a c); assumption). split; [lra|]. intros y [_ Hy]. rewrite Rabs_left; lra. }
  destruct Hm as [m [Hm Hy]]. pose proof (golden_init_inv f a b c Hbr) as Hi. pose proof (golden_init_cut f a b c) as Hk. set (s := golden_init f a b c) in *.
  assert (Hl : 0 <= len s) by apply Rabs_pos.
  destruct (pow_lt_1_zero 0.62 ltac:(rewrite Rabs_right; lra) (2 * tol * m / (len s + 1))) as [N HN].
  { apply Rdiv_lt_0_compat; [|lra]. apply Rmult_lt_0_compat; [lra|exact Hm]. }
  specialize (HN N (le_n N)). assert (Hp : 0 < 0.62 ^ N) by (apply pow_lt; lra). rewrite Rabs_right in HN by lra.
  assert (Hb : 0.62 ^ N * len s <= 2 * tol * m).
  { apply (Rmult_lt_compat_r (len s + 1)) in HN; [|lra]. unfold Rdiv in HN. rewrite Rmult_assoc, Rinv_l in HN by lra. nra. }
  pose proof (golden_ends f a c (f b) tol m N s Hm Htol Hy Hi Hk Hb) as He.
  destruct (golden_loop f tol (3 * N) s) as [r|] eqn:El; [|congruence].
  exists (3 * N)%nat. eexists. intros n Hn. unfold golden. fold s. rewrite (golden_mono f tol _ s r El n Hn). reflexivity.
Qed.
(** The tolerance is relative: for a minimum at zero it is never reached. *)
Theorem C114_golden_refuted : forall a b c tol n, a < b < c -> a <= 0 <= c -> 0 <= tol < 1 / 2 -> golden (fun y => y * y) n a b c tol = None.
Proof.
  intros a b c tol n Hb H0 Ht. unfold golden.
  assert (Hi : forall s, g0 s < g1 s < g2 s /\ g2 s < g3 s /\ g0 s <= 0 <= g3 s /\ gf1 s = g1 s * g1 s /\ gf2 s = g2 s * g2 s -> golden_loop (fun y => y * y) tol n s = None).
  { induction n as [|n IH]; intros s (Hc & Hc2 & Hz & H1 & H2).
    - cbn [golden_loop]. destruct (Rlt_dec _ _) as [Hd|Hd]; [reflexivity|]. exfalso. apply Hd. rewrite (Rabs_right (g3 s - g0 s)) by lra.
      assert (Rabs (g1 s) + Rabs (g2 s) <= 2 * (g3 s - g0 s)) by (unfold Rabs; destruct (Rcase_abs (g1 s)), (Rcase_abs (g2 s)); lra). pose proof (Rabs_pos (g1 s)). pose proof (Rabs_pos (g2 s)). nra.
    - cbn [golden_loop]. destruct (Rlt_dec _ _) as [Hd|Hd].
      + apply IH. unfold golden_pass. destruct (Rlt_dec (gf2 s) (gf1 s)) as [Hl|Hl]; cbn [g0 g1 g2 g3 gf1 gf2]; unfold gC, gR; rewrite H1, H2 in Hl.
        * repeat split; try lra; try nra.
        * repeat split; try lra; try nra.
      + exfalso. apply Hd. rewrite (Rabs_right (g3 s - g0 s)) by lra.
        assert (Rabs (g1 s) + Rabs (g2 s) <= 2 * (g3 s - g0 s)) by (unfold Rabs; destruct (Rcase_abs (g1 s)), (Rcase_abs (g2 s)); lra). pose proof (Rabs_pos (g1 s)). pose proof (Rabs_pos (g2 s)). nra. }
  rewrite Hi; [reflexivity|]. unfold golden_init. destruct (Rlt_dec _ _); cbv zeta; cbn [g0 g1 g2 g3 gf1 gf2]; unfold gC, gR; repeat split; lra.
Qed.

(** * linmin *)
Lemma along_line_nth : forall p xi x j, List.length xi = List.length p -> nth j (along_line p xi x) 0 = nth j p 0 + x * nth j xi 0.
Proof.
  intros p xi x j Hl. unfold along_line. destruct (Nat.lt_ge_cases j (List.length p)) as [Hj|Hj].
  - rewrite (nth_indep _ 0 (nth 0 p 0 + x * nth 0 xi 0)) by (rewrite map_length, seq_length; exact Hj).
    rewrite (map_nth (fun j => nth j p 0 + x * nth j xi 0)), seq_nth by exact Hj. reflexivity.
  - rewrite (nth_overflow _ 0) by (rewrite map_length, seq_length; exact Hj). rewrite (nth_overflow p 0), (nth_overflow xi 0) by lia. ring.
Qed.
Lemma along_line_length : forall p xi x, List.length (along_line p xi x) = List.length p.
Proof. intros. unfold along_line. rewrite map_length, seq_length. reflexivity. Qed.
Lemma along_line_0 : forall p xi, List.length xi = List.length p -> along_line p xi 0 = p.
Proof. intros p xi Hl. apply (nth_ext _ _ 0 0); [apply along_line_length|]. intros j _. rewrite along_line_nth by exact Hl. ring. Qed.
Lemma scaled_nth : forall xi t j, nth j (map (fun c => c * t) xi) 0 = nth j xi 0 * t.
Proof. intros xi t j. pose proof (map_nth (fun c => c * t) xi 0 j) as E. cbv beta in E. rewrite Rmult_0_l in E. exact E. Qed.
(** linmin has no undefined access.  If it returns, p has moved along xi, xi is the way it has moved, and the value is the value at the new p: no higher than at the old p and at the old p plus xi. *)
Theorem C114_linmin : forall func n p xi, List.length xi = List.length p ->
  exists r, linmin func n p xi = Ok r /\
  forall p' xi' fret, r = Some (p', xi', fret) ->
    exists t, on_line p xi p' t /\ List.length xi' = List.length p /\ (forall j, nth j xi' 0 = nth j p' 0 - nth j p 0) /\ fret = func p' /\ fret <= func p /\ forall q, on_line p xi q 1 -> fret <= func q.
Proof.
  intros func n p xi Hl. unfold linmin. set (f := fun x => func (along_line p xi x)).
  destruct (mnbrak f n 0 1) as [s|] eqn:Em; [|exists None; split; [reflexivity|discriminate]].
  destruct (C114_mnbrak f n 0 1 s ltac:(lra) Em) as (Hbr & _ & _ & _ & H0 & H1).
  destruct (C114_brent f (ma s) (mb s) (mc s) (2 / 10000) ltac:(lra) Hbr) as [r [Hr Hs]]. rewrite Hr. cbn [rbind]. eexists. split; [reflexivity|].
  intros p' xi' fret E. destruct r as [[xmin fx]|]; [|discriminate]. injection E as <- <- <-.
  destruct (Hs xmin fx eq_refl) as (_ & Hfx & Hle & _).
  assert (Hp : map (fun j => nth j p 0 + nth j (map (fun c => c * xmin) xi) 0) (seq 0 (List.length p)) = along_line p xi xmin).
  { unfold along_line. apply map_ext. intro j. rewrite scaled_nth. ring. }
  rewrite Hp. exists xmin. split; [split; [apply along_line_length|intro j; apply along_line_nth; exact Hl]|].
  split; [rewrite map_length; exact Hl|]. split; [intro j; rewrite scaled_nth, along_line_nth by exact Hl; ring|]. split; [exact Hfx|].
  split; [unfold f in H0; rewrite along_line_0 in H0 by exact Hl; fold f in Hle; unfold f in Hle; lra|].
  intros q [Hq1 Hq2]. replace q with (along_line p xi 1). { fold (f 1). lra. }
  apply (nth_ext _ _ 0 0); [rewrite along_line_length; symmetry; exact Hq1|]. intros j _. rewrite along_line_nth by exact Hl. symmetry. apply Hq2.
Qed.

(** * powell *)
Definition square (m : nat) (cols : list (list R)) : Prop := forall c, In c cols -> List.length c = m.
Lemma powell_lines_ok : forall func n cols i p fret del ibig, (0 < i)%nat -> (ibig < i)%nat -> fret = func p -> (ibig = 0%nat -> del = 0) -> 0 <= del -> square (List.length p) cols ->
  exists r, powell_lines func n cols i p fret del ibig = Ok r /\
  forall p' fret' del' ibig', r = Some (p', fret', del', ibig') ->
    List.length p' = List.length p /\ fret' = func p' /\ fret' <= fret /\ (ibig' < i + List.length cols)%nat /\ (ibig' = 0%nat -> ibig = 0%nat /\ fret' = fret).
Proof.
  intros func n cols. induction cols as [|xit cols IH]; intros i p fret del ibig Hi Hib Hf Hd Hdel Hsq; cbn [powell_lines].
  - eexists. split; [reflexivity|]. intros p' fret' del' ibig' E. injection E as <- <- <- <-. cbn [List.length]. repeat split; try lia; try lra. 
  - destruct (C114_linmin func n p xit (Hsq xit (or_introl eq_refl))) as [r [Hr Hs]]. rewrite Hr. cbn [rbind].
    destruct r as [[[p1 xi1] fret1]|]; [|exists None; split; [reflexivity|discriminate]].
    destruct (Hs p1 xi1 fret1 eq_refl) as (t & [Hlen _] & _ & _ & Hf1 & Hle & _).
    assert (Hsq1 : square (List.length p1) cols) by (intros c Hc; rewrite Hlen; apply Hsq; right; exact Hc).
    destruct (Rlt_dec del (Rabs (fret - fret1))) as [Hbig|Hbig].
    + destruct (IH (i + 1)%nat p1 fret1 (Rabs (fret - fret1)) i ltac:(lia) ltac:(lia) Hf1 ltac:(lia) (Rabs_pos _) Hsq1) as [r [Hr' Hs']].
      exists r. split; [exact Hr'|]. intros p' fret' del' ibig' E. destruct (Hs' _ _ _ _ E) as (A1 & A2 & A3 & A4 & A5). cbn [List.length].
      split; [lia|]. split; [exact A2|]. split; [rewrite Hf; lra|]. split; [lia|]. intro Z0. destruct (A5 Z0) as [Z1 _]. lia.
    + destruct (IH (i + 1)%nat p1 fret1 del ibig ltac:(lia) ltac:(lia) Hf1 Hd Hdel Hsq1) as [r [Hr' Hs']].
      exists r. split; [exact Hr'|]. intros p' fret' del' ibig' E. destruct (Hs' _ _ _ _ E) as (A1 & A2 & A3 & A4 & A5). cbn [List.length].
      split; [lia|]. split; [exact A2|]. split; [rewrite Hf; lra|]. split; [lia|]. intro Z0. destruct (A5 Z0) as [Z1 Z2]. split; [exact Z1|].
      rewrite (Hd Z1) in Hbig. assert (fret - fret1 = 0) by (pose proof (Rabs_pos (fret - fret1)); destruct (Req_EM_T (fret - fret1) 0) as [E0|E0]; [exact E0|pose proof (Rabs_pos_lt _ E0); lra]). lra.
Qed.
Lemma upd_square : forall m cols i (c : list R), square m cols -> List.length c = m -> square m (upd cols i c).
Proof.
  intros m cols. induction cols as [|c0 cols IH]; intros i c Hsq Hc; destruct i as [|i]; cbn [upd]; try exact Hsq.
  - intros x [<-|Hx]; [exact Hc|apply Hsq; right; exact Hx].
  - intros x [<-|Hx]; [apply Hsq; left; reflexivity|]. apply (IH i c); [intros y Hy; apply Hsq; right; exact Hy|exact Hc|exact Hx].
Qed.
Lemma new_columns_ok : forall cols ibig xit m, (0 < ibig)%nat -> (ibig < 1 + List.length cols)%nat -> square m cols -> List.length xit = m ->
  exists cols', new_columns cols ibig xit = Ok cols' /\ List.length cols' = List.length cols /\ square m cols'.
Proof.
  intros cols ibig xit m H1 H2 Hsq Hx. unfold new_columns. destruct ibig as [|i]; [lia|].
  rewrite (rd_ok cols _ []) by lia. cbn [rbind]. rewrite wr_ok by lia. cbn [rbind]. rewrite wr_ok by (rewrite upd_length; lia).
  eexists. split; [reflexivity|]. split; [rewrite !upd_length; reflexivity|].
  apply upd_square; [|exact Hx]. apply upd_square; [exact Hsq|]. apply Hsq. apply nth_In. lia.
Qed.
Lemma powell_loop_ok : forall func n ftol k cols pt p fret, 0 <= ftol -> fret = func p -> List.length pt = List.length p -> square (List.length p) cols ->
  exists r, powell_loop func n ftol k cols pt p fret = Ok r /\
  forall p' cols' fret', r = Some (p', cols', fret') ->
    List.length p' = List.length p /\ List.length cols' = List.length cols /\ square (List.length p) cols' /\ fret' = func p' /\ fret' <= fret.
Proof.
  intros func n ftol k. induction k as [|k IH]; intros cols pt p fret Hft Hf Hpt Hsq; cbn [powell_loop]; [exists None; split; [reflexivity|discriminate]|].
  cbv zeta. destruct (powell_lines_ok func n cols 1 p fret 0 0 ltac:(lia) ltac:(lia) Hf ltac:(reflexivity) ltac:(lra) Hsq) as [r [Hr Hs]]. rewrite Hr. cbn [rbind].
  destruct r as [[[[p1 fret1] del] ibig]|]; [|exists None; split; [reflexivity|discriminate]].
  destruct (Hs p1 fret1 del ibig eq_refl) as (A1 & A2 & A3 & A4 & A5).
  destruct (Rle_dec _ _) as [Hend|Hend].
  { eexists. split; [reflexivity|]. intros p' cols' fret' E. injection E as <- <- <-. repeat split; try assumption; reflexivity. }
  destruct k as [|k']; [exists None; split; [reflexivity|discriminate]|].
  assert (Hib : (0 < ibig)%nat).
  { destruct ibig; [|lia]. exfalso. apply Hend. destruct (A5 eq_refl) as [_ ->]. replace (fret - fret) with 0 by ring. rewrite Rabs_R0.
    pose proof (Rabs_pos fret). assert (0 <= ftol * (Rabs fret + Rabs fret)) by (apply Rmult_le_pos; lra). lra. }
  assert (Hsq1 : square (List.length p1) cols) by (rewrite A1; exact Hsq).
  assert (Hnext : exists r, powell_loop func n ftol (S k') cols p1 p1 fret1 = Ok r /\ forall p' cols' fret', r = Some (p', cols', fret') ->
    List.length p' = List.length p /\ List.length cols' = List.length cols /\ square (List.length p) cols' /\ fret' = func p' /\ fret' <= fret).
  { destruct (IH cols p1 p1 fret1 Hft A2 eq_refl Hsq1) as [r [Hr1 Hs1]]. exists r. split; [exact Hr1|]. intros p' cols' fret' E. destruct (Hs1 _ _ _ E) as (B1 & B2 & B3 & B4 & B5).
    rewrite A1 in *. repeat split; try assumption. lra. }
  destruct (Rlt_dec _ fret); [|exact Hnext]. destruct (Rlt_dec _ 0); [|exact Hnext]. clear Hnext.
  match goal with |- context [linmin func n p1 ?x] => destruct (C114_linmin func n p1 x) as [r3 [Hr1 Hs1]]; [rewrite map_length, seq_length; reflexivity|] end.
  rewrite Hr1. cbn [rbind]. destruct r3 as [[[p2 xi2] fret2]|]; [|exists None; split; [reflexivity|discriminate]].
  destruct (Hs1 p2 xi2 fret2 eq_refl) as (t & [C1 _] & C2 & _ & C3 & C4 & _).
  destruct (new_columns_ok cols ibig xi2 (List.length p1) Hib A4 Hsq1 C2) as (cols2 & D1 & D2 & D3). rewrite D1. cbn [rbind].
  destruct (IH cols2 p1 p2 fret2 Hft C3 (eq_sym C1)) as [r4 [Hr2 Hs2]]; [rewrite C1; exact D3|]. exists r4. split; [exact Hr2|].
  intros p' cols' fret' E. destruct (Hs2 _ _ _ E) as (B1 & B2 & B3 & B4 & B5). rewrite C1, A1 in *. repeat split; try assumption; [congruence|]. rewrite <- A2 in C4. lra.
Qed.
(** powell never writes outside of the matrix of directions.  If it returns, the value is the value at the new point and no higher than at the first one, and the matrix has kept its size. *)
Theorem C114_powell : forall func n ftol cols p, 0 <= ftol -> square (List.length p) cols ->
  exists r, powell func n ftol cols p = Ok r /\
  forall p' cols' fret, r = Some (p', cols', fret) ->
    List.length p' = List.length p /\ List.length cols' = List.length cols /\ square (List.length p) cols' /\ fret = func p' /\ fret <= func p.
Proof. intros func n ftol cols p Hft Hsq. unfold powell. apply powell_loop_ok; [exact Hft|reflexivity|reflexivity|exact Hsq]. Qed.

(** Concrete cases. *)
Definition par (y : R) : R := (y - 1) * (y - 1).
Example C114_ex : bracket par 0.5 1.25 3 /\ cont_on par 0.5 3 /\ 0 < 0.5 * 3 /\ local_min par 1 /\ inside 0.5 3 1 /\
  mnbrak par 0 0 1 = Some (M 0 1 (1 + GOLD * (1 - 0)) (par 0) (par 1) (par (1 + GOLD * (1 - 0)))) /\ square 2 [[1; 0]; [0; 1]].
Proof.
  unfold par. split; [unfold bracket, between; split; [left|]; lra|].
  split. { intros y _. apply derivable_continuous_pt. reg. }
  split; [lra|]. split. { exists 1. split; [lra|]. intros y _. pose proof (Rle_0_sqr (y - 1)) as Hsq. unfold Rsqr in Hsq. lra. }
  split. { unfold inside, Rmin, Rmax. destruct (Rle_dec 0.5 3); lra. }
  split. { unfold mnbrak, mnbrak_init. destruct (Rlt_dec _ _); [lra|]. cbn [mnbrak_loop mfc mfb]. destruct (Rlt_dec _ _) as [Hl|Hl]; [unfold GOLD in Hl; lra|reflexivity]. }
  intros c [<-|[<-|[]]]; reflexivity.
Qed.
Print Assumptions C114_mnbrak.
Print Assumptions C114_mnbrak_refuted.
Print Assumptions C114_brent.
Print Assumptions C114_golden.
Print Assumptions C114_golden_ends.
Print Assumptions C114_golden_refuted.
Print Assumptions C114_linmin.
Print Assumptions C114_powell.

(** C92: boundary conditions that keep or copy values, inside the time integrators.  C93: the radiative boundary condition. *)
From Coq Require Import List Arith Bool FunctionalExtensionality Lia.
From Coq Require Import QArith Qreals.
From Verif Require Import Rutil Coord_model Coord_spec Rk_model Rk_spec Rk_props Bound_model.
Import ListNotations.
Local Open Scope R_scope.

Lemma loc_eqb_spec a b : loc_eqb a b = true <-> a = b.
Proof.
  destruct a as [[a1 a2] a3], b as [[b1 b2] b3]. cbn. rewrite !andb_true_iff, !Nat.eqb_eq. split; [intros [[-> ->] ->]; reflexivity|intros [= -> -> ->]; auto].
Qed.
Lemma setf_same u l x : setf u l x l = x.
Proof. unfold setf. now rewrite (proj2 (loc_eqb_spec l l) eq_refl). Qed.
Lemma setf_other u l x l' : l' <> l -> setf u l x l' = u l'.
Proof. intros H. unfold setf. destruct (loc_eqb l' l) eqn:E; auto. apply loc_eqb_spec in E. contradiction. Qed.
(** a loop that stores at every point of the list a value that does not depend on the values stored before *)
Lemma store_in (val : nat * nat -> R) j : forall PL new b p, In (b, p) PL ->
  fold_left (fun u bp => setf u (j, fst bp, snd bp) (val bp)) PL new (j, b, p) = val (b, p).
Proof.
  induction PL as [|[b0 p0] PL IH] using rev_ind; intros new b p H; [destruct H|]. rewrite fold_left_app. cbn [fold_left fst snd].
  destruct (loc_eqb (j, b, p) (j, b0, p0)) eqn:E.
  - apply loc_eqb_spec in E. injection E as -> ->. apply setf_same.
  - rewrite setf_other; [|intros X; rewrite (proj2 (loc_eqb_spec _ _) X) in E; discriminate]. apply IH. apply in_app_or in H. destruct H as [H|[H|[]]]; auto.
    injection H as -> ->. rewrite (proj2 (loc_eqb_spec _ _) eq_refl) in E. discriminate.
Qed.
Lemma store_out (val : nat * nat -> field -> R) j : forall PL new l, (forall b p, In (b, p) PL -> l <> (j, b, p)) ->
  fold_left (fun u bp => setf u (j, fst bp, snd bp) (val bp u)) PL new l = new l.
Proof.
  induction PL as [|[b0 p0] PL IH] using rev_ind; intros new l H; auto. rewrite fold_left_app. cbn [fold_left fst snd].
  rewrite setf_other by (apply H; apply in_or_app; right; now left). apply IH. intros b p Hb. apply H. apply in_or_app. now left.
Qed.
Lemma all_vars_in (f : nat -> field -> field) n : (forall j u l, fst (fst l) <> j -> f j u l = u l) ->
  forall j new b p, (j < n)%nat -> exists u, (forall b p, u (j, b, p) = new (j, b, p)) /\ all_vars n f new (j, b, p) = f j u (j, b, p).
Proof.
  intros L j new b p H. unfold all_vars.
  assert (A : forall k s u q, (forall i, In i (seq s k) -> i <> fst (fst q)) -> fold_left (fun u j => f j u) (seq s k) u q = u q).
  { induction k as [|k IH]; intros s u q Hq; auto. cbn [seq fold_left]. rewrite IH; [apply L|]; [|intros; apply Hq; now right]. intros E. apply (Hq s); [now left|auto]. }
  replace (seq 0 n) with (seq 0 j ++ j :: seq (S j) (n - S j)).
  2:{ replace n with (j + S (n - S j))%nat at 2 by lia. rewrite seq_app. reflexivity. }
  rewrite fold_left_app. cbn [fold_left]. exists (fold_left (fun u j => f j u) (seq 0 j) new). split.
  - intros b0 p0. apply A. intros i Hi. apply in_seq in Hi. cbn. lia.
  - rewrite A; auto. intros i Hi. apply in_seq in Hi. cbn. lia.
Qed.
Lemma all_vars_out (f : nat -> field -> field) n l : (forall j u, f j u l = u l) -> forall new, all_vars n f new l = new l.
Proof. intros H. unfold all_vars. generalize (seq 0 n). induction l0 as [|j s IH]; intros new; auto. cbn [fold_left]. rewrite IH. apply H. Qed.
Lemma constant_other PL j pre u l : fst (fst l) <> j -> set_boundary_constant PL j pre u l = u l.
Proof. intros H. apply (store_out (fun bp _ => pre (j, fst bp, snd bp))). intros b p _ ->. now apply H. Qed.
Lemma excision_other PL j pre u l : fst (fst l) <> j -> set_boundary_simpleExcision PL j pre u l = u l.
Proof. intros H. apply (store_out (fun bp u => pre (j, fst bp, snd bp) + u (j, fst bp, S (snd bp)) - pre (j, fst bp, S (snd bp)))). intros b p _ ->. now apply H. Qed.

(** ** One step of an integrator whose right-hand side sees the old state *)
Section Step.
Variable I : Type.
Variable G : vl I -> R -> vl I -> vec I.
Lemma adds_P dt c : forall js (m : mem I), adds I dt c js m P = m P.
Proof. induction js; intros m; auto. cbn [adds]. rewrite IHjs. unfold vladd. now rewrite put_other by discriminate. Qed.
Lemma bstages_eq p dt T : forall is_ m, m P = p -> bstages I G dt T is_ m = stages I (G p 0) None dt T is_ m /\ bstages I G dt T is_ m P = p.
Proof.
  induction is_ as [|i is_ IH]; intros m H; [auto|]. cbn [bstages stages].
  assert (E : bstage I G dt T i m = stage I (G p 0) None dt T i m).
  { unfold bstage, stage, brhs, rhs0, conditions. cbv zeta. rewrite adds_P. 
    assert (H' : (if Nat.eqb i 0 then m else vlcopy I m C P) P = p) by (destruct (Nat.eqb i 0); auto; unfold vlcopy; now rewrite put_other by discriminate). match goal with |- put _ _ _ (G ?x _ _, _) = _ => replace x with p by (symmetry; exact H') end. reflexivity. }
  rewrite <- E. apply IH. unfold bstage, brhs. cbv zeta. rewrite put_other by discriminate. rewrite adds_P. destruct (Nat.eqb i 0); auto.
Qed.
Lemma bgeneric_eq dt T m : bevolve_rk_generic I G dt T m = evolve_rk_generic I (G (m C) 0) None dt T m.
Proof.
  unfold bevolve_rk_generic, evolve_rk_generic, conditions. cbv zeta. set (m0 := vlcopy I m P C). destruct (bstages_eq (m C) dt T (seq 0 (nstages T)) m0) as [-> _]; auto.
Qed.
Lemma brk4_eq dt m : bevolve_rk_rk4 I G dt m = evolve_rk_rk4 I (G (m C) 0) None dt m.
Proof.
  assert (B : forall m p a b, m P = p -> brhs I G m a P 0 b = rhs0 I (G p 0) m a b). { intros m0 p a b <-. reflexivity. }
  assert (P1 : forall (m : mem I) F a b, rhs0 I F m (K a) b P = m P) by (intros; unfold rhs0; now rewrite put_other by discriminate).
  assert (P2 : forall (m : mem I) a r, vladdto I m C a r P = m P) by (intros; rewrite vladdto1; now rewrite put_other by discriminate).
  assert (P3 : forall (m : mem I) a b c d e, vladd I m (K a) b c d e P = m P) by (intros; unfold vladd; now rewrite put_other by discriminate).
  unfold bevolve_rk_rk4, evolve_rk_rk4, conditions. cbv zeta. set (m0 := vlcopy I m P C).
  assert (M0 : m0 P = m C) by (unfold m0, vlcopy; now rewrite put_same). clearbody m0.
  assert (P4 : forall (m : mem I) a b, brhs I G m (K a) P 0 b P = m P) by (intros; unfold brhs; now rewrite put_other by discriminate).
  repeat (match goal with |- context [brhs I G ?x (K 0) P 0 ?y] => rewrite (B x (m C) (K 0) y) by (rewrite ?P3, ?P2, ?P4, ?P3, ?P2, ?P4, ?P3, ?P2, ?P4, ?P1, ?P2, ?P3, ?P2, ?P1, ?P3, ?P2, ?P1; exact M0) end). reflexivity.
Qed.
(** the new values are the old ones plus dt times the weighted rates, each rate taken with the old state *)
Lemma brk_values T is4 dt (m : mem I) : (is4 = true -> T = rk4) ->
  exists cur : nat -> vl I, forall l, fst (bevolve_rk I G T is4 dt m C) l = fst (m C) l + dt * rsum (fun j => Q2R (bj T j) * G (m C) 0 (cur j) l) (nstages T).
Proof.
  intros H. unfold bevolve_rk. cbv zeta. destruct is4.
  - rewrite (H eq_refl). rewrite brk4_eq. destruct (rk4_step I (G (set_ktime I m C) 0) None dt (set_ktime I m)) as (v & (k & K1 & K2) & _ & E); [reflexivity|reflexivity|].
    rewrite E. cbn [cond fst]. cbn [set_ktime] in *. eexists. intros l. rewrite K2. f_equal. f_equal. apply rsum_ext. intros i Hi. rewrite (K1 i Hi). reflexivity.
  - rewrite bgeneric_eq. destruct (generic_step I (G (set_ktime I m C) 0) None dt T (set_ktime I m)) as (v & (k & K1 & K2) & _ & E); [reflexivity|].
    rewrite E. cbn [cond fst]. cbn [set_ktime] in *. eexists. intros l. rewrite K2. f_equal. f_equal. apply rsum_ext. intros i Hi. rewrite (K1 i Hi). reflexivity.
Qed.
End Step.

(** ** C92 *)
(** what the boundary conditions with a value at point [l] do *)
Lemma constant_value o s c pre cur new j b p : b_constant o = true -> b_simpleExcision o = false -> (j < nv s)%nat -> In (b, p) (constPL s) ->
  set_boundary o s c pre cur new (j, b, p) = pre (j, b, p).
Proof.
  intros Hc He Hj Hp. unfold set_boundary. rewrite Hc, He. cbv zeta.
  match goal with |- all_vars _ _ ?N _ = _ => destruct (all_vars_in (fun j => set_boundary_constant (constPL s) j pre) (nv s) (fun j u l => constant_other _ j pre u l) j N b p Hj) as (u & _ & ->) end.
  apply (store_in (fun bp => pre (j, fst bp, snd bp))). exact Hp.
Qed.
(** C92: "constant" boundary values.  With the Euler and the iterated Crank-Nicholson integrator the values at the points of the constant boundary stay what they were,
    whatever the equations and the other conditions do.  (Holds only if the right-hand side is called with a step size different from 0; see C92_constant_refuted.) *)
Theorem C92_constant_partial : forall o s f dt (m : mem loc) j b p, dt <> 0 -> b_constant o = true -> b_simpleExcision o = false -> (j < nv s)%nat -> In (b, p) (constPL s) ->
  fst (bevolve_euler loc (with_boundary f o s) dt m C) (j, b, p) = fst (m C) (j, b, p) /\
  fst (bevolve_icn loc (with_boundary f o s) dt m C) (j, b, p) = fst (m C) (j, b, p).
Proof.
  intros o s f dt m j b p _ Hc He Hj Hp. split.
  - unfold bevolve_euler, brhs. rewrite put_same. cbn [fst]. unfold with_boundary. rewrite (constant_value o s dt _ _ _ j b p Hc He Hj Hp). unfold vlcopy. now rewrite put_same.
  - unfold bevolve_icn, bicn_iter, brhs. rewrite put_same. cbn [fst]. unfold with_boundary at 1. rewrite (constant_value o s dt _ _ _ j b p Hc He Hj Hp).
    unfold vlaverage, vlcopy. rewrite ?put_other by discriminate. now rewrite put_same.
Qed.
Print Assumptions C92_constant_partial.
(** With every Runge-Kutta method the same condition multiplies the values at these points by 1 + dt in each step. *)
Theorem C92_constant_growth : forall T n is4, In (T, n) nominal -> (is4 = true -> T = rk4) ->
  forall o s f dt (m : mem loc) j b p, b_constant o = true -> b_simpleExcision o = false -> (j < nv s)%nat -> In (b, p) (constPL s) ->
  fst (bevolve_rk loc (with_boundary f o s) T is4 dt m C) (j, b, p) = (1 + dt) * fst (m C) (j, b, p).
Proof.
  intros T n is4 HT H4 o s f dt m j b p Hc He Hj Hp. destruct (brk_values loc (with_boundary f o s) T is4 dt m H4) as (cur & E). rewrite E.
  rewrite (rsum_ext _ (fun i => Q2R (bj T i) * fst (m C) (j, b, p))).
  2:{ intros i _. f_equal. unfold with_boundary. apply constant_value; auto. }
  assert (S : forall c x k, rsum (fun i => c i * x) k = rsum c k * x). { intros c x. induction k; [unfold rsum; cbn; lra|]. rewrite !rsum_S, IHk. lra. }
  rewrite S. pose proof (sums_one T n HT) as W. unfold weights_sum_one in W. rewrite W. lra.
Qed.
Print Assumptions C92_constant_growth.
Definition set0 (radPL constPL excPL : points) : bsetup := {| bx := fun _ _ => 1; by_ := fun _ _ => 0; bz := fun _ _ => 0; ddx := fun u => u; ddy := fun u => u; ddz := fun u => u;
  nv := 1; speed := fun _ => 1; far := fun _ => 0; radPL := radPL; constPL := constPL; excPL := excPL |}.
Definition mem1 (u : field) : mem loc := fun r => match r with C => (u, 0) | _ => (fun _ => 0, 0) end.
(** one point, the value 2 there, equations that do not change anything, rk4, dt = 1/10: the "constant" value becomes 11/5 *)
Theorem C92_constant_refuted : exists o s f dt (m : mem loc), b_constant o = true /\ In (0, 0)%nat (constPL s) /\ (forall u l, f u l = 0) /\
  fst (bevolve_rk loc (with_boundary f o s) rk4 true dt m C) (0, 0, 0)%nat <> fst (m C) (0, 0, 0)%nat.
Proof.
  exists {| b_radiative := false; b_constant := true; b_simpleExcision := false |}, (set0 [] [(0, 0)%nat] []), (fun _ _ => 0), (1/10), (mem1 (fun _ => 2)).
  split; [reflexivity|]. split; [now left|]. split; [reflexivity|].
  rewrite (C92_constant_growth rk4 4 true ltac:(cbn; tauto) (fun _ => eq_refl)); [|reflexivity|reflexivity|cbn; lia|now left]. cbn [mem1 fst]. lra.
Qed.
Print Assumptions C92_constant_refuted.
Example C92_constant_case : fst (bevolve_icn loc (with_boundary (fun u l => 3 + fst u l) {| b_radiative := false; b_constant := true; b_simpleExcision := false |} (set0 [] [(0, 0)%nat] [])) (1/10) (mem1 (fun _ => 2)) C) (0, 0, 0)%nat = 2.
Proof. apply (C92_constant_partial _ _ _ (1/10) (mem1 (fun _ => 2)) 0 0 0); [lra|reflexivity|reflexivity|cbn; lia|now left]. Qed.

(** simple excision: the point next in the list of points must not be an excision point too, no point twice *)
Lemma excision_value : forall PL j pre new b p, In (b, p) PL -> (forall q, In (b, q) PL -> q <> S p) -> 
  set_boundary_simpleExcision PL j pre new (j, b, p) = pre (j, b, p) + new (j, b, S p) - pre (j, b, S p).
Proof.
  intros PL j pre new b p Hp Hn. unfold set_boundary_simpleExcision. cbv zeta.
  assert (N : forall PL', (forall q, In (b, q) PL' -> q <> S p) -> fold_left (fun u bp => setf u (j, fst bp, snd bp) (pre (j, fst bp, snd bp) + u (j, fst bp, S (snd bp)) - pre (j, fst bp, S (snd bp)))) PL' new (j, b, S p) = new (j, b, S p)).
  { intros PL' H. apply (store_out (fun bp u => pre (j, fst bp, snd bp) + u (j, fst bp, S (snd bp)) - pre (j, fst bp, S (snd bp)))). intros b0 p0 H0 [= <- <-]. now apply (H (S p)). }
  revert Hp Hn. induction PL as [|[b0 p0] PL IH] using rev_ind; intros Hp Hn; [destruct Hp|]. rewrite fold_left_app. cbn [fold_left fst snd].
  destruct (loc_eqb (j, b, p) (j, b0, p0)) eqn:E.
  - apply loc_eqb_spec in E. injection E as -> ->. rewrite setf_same. rewrite N; [reflexivity|]. intros q Hq. apply Hn. apply in_or_app. now left.
  - rewrite setf_other; [|intros X; rewrite (proj2 (loc_eqb_spec _ _) X) in E; discriminate]. apply IH; [|intros q Hq; apply Hn; apply in_or_app; now left].
    apply in_app_or in Hp. destruct Hp as [H|[H|[]]]; auto. injection H as -> ->. rewrite (proj2 (loc_eqb_spec _ _) eq_refl) in E. discriminate.
Qed.
Lemma excision_in o s c pre cur new j b p : b_simpleExcision o = true -> (j < nv s)%nat -> In (b, p) (excPL s) -> (forall q, In (b, q) (excPL s) -> q <> S p) ->
  set_boundary o s c pre cur new (j, b, p) = pre (j, b, p) + set_boundary o s c pre cur new (j, b, S p) - pre (j, b, S p).
Proof.
  intros He Hj Hp Hn. unfold set_boundary. rewrite He. cbv zeta.
  match goal with |- all_vars _ _ ?N _ = _ => 
    destruct (all_vars_in (fun j => set_boundary_simpleExcision (excPL s) j pre) (nv s) (fun j u l => excision_other _ j pre u l) j N b p Hj) as (u & U & ->);
    destruct (all_vars_in (fun j => set_boundary_simpleExcision (excPL s) j pre) (nv s) (fun j u l => excision_other _ j pre u l) j N b (S p) Hj) as (u' & U' & ->) end.
  rewrite excision_value by auto. f_equal. f_equal. rewrite U, <- U'. symmetry.
  apply (store_out (fun bp u => pre (j, fst bp, snd bp) + u (j, fst bp, S (snd bp)) - pre (j, fst bp, S (snd bp)))). intros b0 p0 H0 [= <- <-]. now apply (Hn (S p)).
Qed.
(** C92: simpleExcision: with Euler and iterated Crank-Nicholson the change of the value at the excision point is the change at the next point. *)
Theorem C92_excision_partial : forall o s f dt (m : mem loc) j b p, b_simpleExcision o = true -> (j < nv s)%nat -> In (b, p) (excPL s) -> (forall q, In (b, q) (excPL s) -> q <> S p) ->
  let e := fst (bevolve_euler loc (with_boundary f o s) dt m C) in let i := fst (bevolve_icn loc (with_boundary f o s) dt m C) in let u := fst (m C) in
  e (j, b, p) - u (j, b, p) = e (j, b, S p) - u (j, b, S p) /\ i (j, b, p) - u (j, b, p) = i (j, b, S p) - u (j, b, S p).
Proof.
  intros o s f dt m j b p He Hj Hp Hn e i u. split.
  - unfold e, bevolve_euler, brhs. rewrite put_same. cbn [fst]. unfold with_boundary. rewrite (excision_in o s dt _ _ _ j b p He Hj Hp Hn). unfold vlcopy. rewrite put_same. unfold u. lra.
  - unfold i, bevolve_icn. set (m0 := bicn_iter loc (with_boundary f o s) dt (bicn_iter loc (with_boundary f o s) dt (vlcopy loc m P C))). 
    assert (M : m0 P = m C) by reflexivity.
    assert (B : bicn_iter loc (with_boundary f o s) dt m0 C = (with_boundary f o s (m0 P) dt (scal loc (1/2) (comb loc 1 (m0 C) 1 (m0 P))), snd (m0 C))) by reflexivity.
    rewrite B, M. cbn [fst]. unfold with_boundary at 1. rewrite (excision_in o s dt _ _ _ j b p He Hj Hp Hn). unfold with_boundary, u. lra.
Qed.
Print Assumptions C92_excision_partial.
(** With the Runge-Kutta methods the two changes differ by dt times the difference of the two old values. *)
Theorem C92_excision_growth : forall T n is4, In (T, n) nominal -> (is4 = true -> T = rk4) ->
  forall o s f dt (m : mem loc) j b p, b_simpleExcision o = true -> (j < nv s)%nat -> In (b, p) (excPL s) -> (forall q, In (b, q) (excPL s) -> q <> S p) ->
  let e := fst (bevolve_rk loc (with_boundary f o s) T is4 dt m C) in let u := fst (m C) in
  e (j, b, p) - u (j, b, p) = e (j, b, S p) - u (j, b, S p) + dt * (u (j, b, p) - u (j, b, S p)).
Proof.
  intros T n is4 HT H4 o s f dt m j b p He Hj Hp Hn e u. destruct (brk_values loc (with_boundary f o s) T is4 dt m H4) as (cur & E). unfold e, u. rewrite !E.
  rewrite (rsum_ext (fun i => _ * with_boundary f o s (m C) 0 (cur i) (j, b, p)) (fun i => Q2R (bj T i) * with_boundary f o s (m C) 0 (cur i) (j, b, S p) + Q2R (bj T i) * (fst (m C) (j, b, p) - fst (m C) (j, b, S p)))).
  2:{ intros i _. unfold with_boundary at 1. rewrite (excision_in o s 0 _ _ _ j b p He Hj Hp Hn). unfold with_boundary. lra. }
  assert (S1 : forall c x k, rsum (fun i => c i * x) k = rsum c k * x). { intros c x. induction k; [unfold rsum; cbn; lra|]. rewrite !rsum_S, IHk. lra. }
  assert (S2 : forall a c k, rsum (fun i => a i + c i) k = rsum a k + rsum c k). { intros a c. induction k; [unfold rsum; cbn; lra|]. rewrite !rsum_S, IHk. lra. }
  rewrite S2, S1. pose proof (sums_one T n HT) as W. unfold weights_sum_one in W. rewrite W. lra.
Qed.
Print Assumptions C92_excision_growth.
Example C92_excision_case : let o := {| b_radiative := false; b_constant := false; b_simpleExcision := true |} in let s := set0 [] [] [(0, 0)%nat] in let u := fun l : loc => match l with (_, _, O) => 5 | _ => 2 end in
  fst (bevolve_euler loc (with_boundary (fun _ _ => 3) o s) (1/10) (mem1 u) C) (0, 0, 0)%nat = 5 + 3/10 /\
  fst (bevolve_rk loc (with_boundary (fun _ _ => 3) o s) rk4 true (1/10) (mem1 u) C) (0, 0, 0)%nat - 5 <> fst (bevolve_rk loc (with_boundary (fun _ _ => 3) o s) rk4 true (1/10) (mem1 u) C) (0, 0, 1)%nat - 2.
Proof.
  cbv zeta. set (o := Build_bopts _ _ _). set (s := set0 _ _ _). set (u := fun l : loc => match l with (_, _, O) => 5 | _ => 2 end).
  assert (Hn : forall q, In (0%nat, q) (excPL s) -> q <> 1%nat). { intros q [[= <-]|[]]. discriminate. }
  split.
  - destruct (C92_excision_partial o s (fun _ _ => 3) (1/10) (mem1 u) 0 0 0 eq_refl ltac:(cbn; lia) ltac:(now left) Hn) as [E _]. cbn [mem1 fst u] in E.
    assert (V : fst (bevolve_euler loc (with_boundary (fun _ _ => 3) o s) (1 / 10) (mem1 u) C) (0, 0, 1)%nat = 2 + 3/10).
    { unfold bevolve_euler, brhs. rewrite put_same. cbn [fst]. cbv [with_boundary set_boundary o s set0 b_radiative b_constant b_simpleExcision nv all_vars seq fold_left excPL set_boundary_simpleExcision setf loc_eqb fst snd Nat.eqb andb].
      destruct (Req_EM_T (1/10) 0); [lra|]. cbn. subst u. cbn. lra. }
    rewrite V in E. cbn in E. unfold u in *. cbn in *. lra.
  - pose proof (C92_excision_growth rk4 4 true ltac:(cbn; tauto) (fun _ => eq_refl) o s (fun _ _ => 3) (1/10) (mem1 u) 0 0 0 eq_refl ltac:(cbn; lia) ltac:(now left) Hn) as E.
    cbv zeta in E. change (fst (mem1 u C)) with u in E. set (F := fst _) in *. clearbody F. subst u. cbn in E. lra.
Qed.

(** ** C93 *)
(** a spherical wave that moves outwards with speed v, and the value far away *)
Definition outgoing (far v : R) (w : R -> R) (t x y z : R) : R := far + w (sqrt (x * x + y * y + z * z) - v * t) / sqrt (x * x + y * y + z * z).
Lemma radius_pd j x y z : 0 < x * x + y * y + z * z ->
  pd (fun x y z => sqrt (x * x + y * y + z * z)) j x y z (match j with D1 => x | D2 => y | D3 => z end / sqrt (x * x + y * y + z * z)).
Proof.
  intros H. assert (S0 : sqrt (x * x + y * y + z * z) <> 0) by (apply Rgt_not_eq, sqrt_lt_R0; auto).
  assert (A : forall a f, f a = x * x + y * y + z * z -> derivable_pt_lim f a (2 * a) -> derivable_pt_lim (fun t => sqrt (f t)) a (a / sqrt (x * x + y * y + z * z))).
  { intros a f Hf Df. replace (a / sqrt (x * x + y * y + z * z)) with (/ (2 * sqrt (f a)) * (2 * a)) by (rewrite Hf; field; auto).
    apply (derivable_pt_lim_comp f sqrt); auto. apply derivable_pt_lim_sqrt. now rewrite Hf. }
  assert (Q : forall a b c, derivable_pt_lim (fun t => t * t) a (2 * a) /\ derivable_pt_lim (fun t => t * t + b + c) a (2 * a) /\ derivable_pt_lim (fun t => b + t * t + c) a (2 * a) /\ derivable_pt_lim (fun t => b + c + t * t) a (2 * a)).
  { intros a b c. assert (Q0 : derivable_pt_lim (fun t => t * t) a (2 * a)). { replace (2 * a) with (1 * id a + id a * 1) by (unfold id; lra). apply (derivable_pt_lim_mult id id a 1 1); apply derivable_pt_lim_id. }
    split; [exact Q0|]. split; [|split].
    - replace (2 * a) with (2 * a + 0 + 0) by lra. apply (derivable_pt_lim_plus (fun t => t * t + b) (fun _ => c)); [apply (derivable_pt_lim_plus (fun t => t * t) (fun _ => b)); auto|]; apply derivable_pt_lim_const.
    - replace (2 * a) with (0 + 2 * a + 0) by lra. apply (derivable_pt_lim_plus (fun t => b + t * t) (fun _ => c)); [apply (derivable_pt_lim_plus (fun _ => b) (fun t => t * t)); auto|]; apply derivable_pt_lim_const.
    - replace (2 * a) with (0 + 2 * a) by lra. apply (derivable_pt_lim_plus (fun _ => b + c) (fun t => t * t)); auto; apply derivable_pt_lim_const. }
  destruct j; cbn [pd].
  - apply (A x (fun t => t * t + y * y + z * z)); auto. apply Q.
  - apply (A y (fun t => x * x + t * t + z * z)); auto. apply Q.
  - apply (A z (fun t => x * x + y * y + t * t)); auto. apply Q.
Qed.
Lemma pd_radial g g' j x y z : 0 < x * x + y * y + z * z -> derivable_pt_lim g (sqrt (x * x + y * y + z * z)) g' ->
  pd (fun x y z => g (sqrt (x * x + y * y + z * z))) j x y z (g' * (match j with D1 => x | D2 => y | D3 => z end / sqrt (x * x + y * y + z * z))).
Proof.
  intros H Hg. pose proof (radius_pd j x y z H) as D. destruct j; cbn [pd] in *.
  - apply (derivable_pt_lim_comp (fun t => sqrt (t * t + y * y + z * z)) g); auto.
  - apply (derivable_pt_lim_comp (fun t => sqrt (x * x + t * t + z * z)) g); auto.
  - apply (derivable_pt_lim_comp (fun t => sqrt (x * x + y * y + t * t)) g); auto.
Qed.
Lemma shell_deriv far v w w' t r : r <> 0 -> derivable_pt_lim w (r - v * t) w' -> derivable_pt_lim (fun s => far + w (s - v * t) / s) r (w' / r - w (r - v * t) / r²).
Proof.
  intros Hr Hw. replace (w' / r - w (r - v * t) / r²) with (0 + (w' * 1 * id r - 1 * w (r - v * t)) / (id r)²) by (unfold id, Rsqr; field; auto).
  apply (derivable_pt_lim_plus (fun _ => far) (fun s => w (s - v * t) / s)); [apply derivable_pt_lim_const|].
  apply (derivable_pt_lim_div (fun s => w (s - v * t)) id); [|apply derivable_pt_lim_id|exact Hr].
  apply (derivable_pt_lim_comp (fun s => s - v * t) w); [|exact Hw]. replace 1 with (1 - 0) by lra.
  apply (derivable_pt_lim_minus id (fun _ => v * t)); [apply derivable_pt_lim_id|apply derivable_pt_lim_const].
Qed.
Lemma pd_unique' f j x y z l m : pd f j x y z l -> pd f j x y z m -> l = m.
Proof. destruct j; cbn [pd]; apply uniqueness_limite. Qed.
(** C93: the rate that the radiative condition gives is the time derivative of an outgoing wave, for every differentiable profile, speed and far value, away from r = 0. *)
Theorem C93_outgoing : forall far v w w' t x y z ux uy uz, 0 < x * x + y * y + z * z ->
  derivable_pt_lim w (sqrt (x * x + y * y + z * z) - v * t) w' ->
  pd (outgoing far v w t) D1 x y z ux -> pd (outgoing far v w t) D2 x y z uy -> pd (outgoing far v w t) D3 x y z uz ->
  derivable_pt_lim (fun s => outgoing far v w s x y z) t (rad_rhs v far x y z (outgoing far v w t x y z) ux uy uz).
Proof.
  intros far v w w' t x y z ux uy uz H Hw Hx Hy Hz. set (r := sqrt (x * x + y * y + z * z)) in *.
  assert (r0 : r <> 0) by (apply Rgt_not_eq, sqrt_lt_R0; auto).
  assert (Dg : derivable_pt_lim (fun s => far + w (s - v * t) / s) r (w' / r - w (r - v * t) / r²)) by (apply shell_deriv; auto).
  assert (P : forall j l, pd (outgoing far v w t) j x y z l -> l = (w' / r - w (r - v * t) / r²) * (match j with D1 => x | D2 => y | D3 => z end / r)).
  { intros j l Hl. apply (pd_unique' _ _ _ _ _ _ _ Hl). apply (pd_radial (fun s => far + w (s - v * t) / s)); auto. }
  rewrite (P D1 ux), (P D2 uy), (P D3 uz) by auto.
  assert (RR : x * x + y * y + z * z = r * r) by (unfold r; rewrite sqrt_sqrt; lra).
  assert (E : rad_rhs v far x y z (outgoing far v w t x y z) ((w' / r - w (r - v * t) / r²) * (x / r)) ((w' / r - w (r - v * t) / r²) * (y / r)) ((w' / r - w (r - v * t) / r²) * (z / r)) = - v * w' / r).
  { unfold rad_rhs, outgoing. fold r. cbv zeta.
    replace (v * x / r * ((w' / r - w (r - v * t) / r²) * (x / r)) + v * y / r * ((w' / r - w (r - v * t) / r²) * (y / r)) + v * z / r * ((w' / r - w (r - v * t) / r²) * (z / r)))
      with (v * (w' / r - w (r - v * t) / r²) * ((x * x + y * y + z * z) / (r * r))) by (unfold Rsqr; field; auto).
    rewrite RR. unfold Rsqr. field. auto. }
  rewrite E. unfold outgoing. fold r. replace (- v * w' / r) with (0 + w' * (0 - v * 1) * / r) by (field; auto).
  apply (derivable_pt_lim_plus (fun _ => far) (fun s => w (r - v * s) / r)); [apply derivable_pt_lim_const|].
  replace (w' * (0 - v * 1) * / r) with ((w' * (0 - v * 1)) * (fun _ : R => / r) t + w (r - v * t) * 0) by (cbv beta; lra).
  apply (derivable_pt_lim_mult (fun s => w (r - v * s)) (fun _ => / r)); [|apply derivable_pt_lim_const].
  apply (derivable_pt_lim_comp (fun s => r - v * s) w); auto.
  apply (derivable_pt_lim_minus (fun _ => r) (fun s => v * s)); [apply derivable_pt_lim_const|].
  apply (derivable_pt_lim_scal id v t 1). apply derivable_pt_lim_id.
Qed.
Print Assumptions C93_outgoing.
(** ... and only of waves of this kind: a field that moves by this rate at all points of a ray is, at fixed distance minus speed times time, of the form far + const/r.  Stated along the ray: r (u - far) is constant along r - v t = const. *)
Theorem C93_only : forall far v (u : R -> R -> R -> R -> R) (a b c : R) ut ux uy uz t r, a * a + b * b + c * c = 1 -> 0 < r ->
  let x := r * a in let y := r * b in let z := r * c in
  ut = rad_rhs v far x y z (u t x y z) ux uy uz ->
  (* rate of r (u - far) seen by an observer that moves outwards with speed v *)
  v * (u t x y z - far) + r * (ut + v * (a * ux + b * uy + c * uz)) = 0.
Proof.
  intros far v u a b c ut ux uy uz t r N Hr x y z ->. unfold rad_rhs. cbv zeta.
  replace (x * x + y * y + z * z) with (r * r) by (unfold x, y, z; nra). rewrite sqrt_square by lra. unfold x, y, z. field. lra.
Qed.
Print Assumptions C93_only.
(** the analytic version: the rate is that of the difference to the initial data *)
Theorem C93_analytic : forall v x y z u ux uy uz w wx wy wz, rad_rhs_analytic v x y z u ux uy uz w wx wy wz = rad_rhs v 0 x y z (u - w) (ux - wx) (uy - wy) (uz - wz).
Proof. intros. unfold rad_rhs_analytic, rad_rhs. cbv zeta. rewrite Rminus_0_r. reflexivity. Qed.
Print Assumptions C93_analytic.
(** What is stored: at the points of the list the rate if the step size is 0, upre + c times the rate otherwise; nothing else changes; a point that is more than once in the list is no problem. *)
Theorem C93_stored : forall xs ys zs dx dy dz PL j c var0 v pre cur new,
  let new' := set_boundary_radiative xs ys zs dx dy dz PL j c var0 v pre cur new in
  (forall b p, In (b, p) PL -> let l := (j, b, p) in let rate := rad_rhs v var0 (xs b p) (ys b p) (zs b p) (cur l) (dx cur l) (dy cur l) (dz cur l) in
     (c = 0 -> new' l = rate) /\ (c <> 0 -> new' l = pre l + c * rate)) /\
  (forall l, (forall b p, In (b, p) PL -> l <> (j, b, p)) -> new' l = new l).
Proof.
  intros xs ys zs dx dy dz PL j c var0 v pre cur new.
  set (val := fun bp : nat * nat => let l := (j, fst bp, snd bp) in let rhs := rad_rhs v var0 (xs (fst bp) (snd bp)) (ys (fst bp) (snd bp)) (zs (fst bp) (snd bp)) (cur l) (dx cur l) (dy cur l) (dz cur l) in if Req_EM_T c 0 then rhs else pre l + c * rhs).
  assert (E : forall PL new, set_boundary_radiative xs ys zs dx dy dz PL j c var0 v pre cur new = fold_left (fun u bp => setf u (j, fst bp, snd bp) (val bp)) PL new).
  { unfold set_boundary_radiative. induction PL0 as [|[b p] PL0 IH]; intros n0; auto. cbn [fold_left]. rewrite IH. reflexivity. }
  cbv zeta. rewrite E. split.
  - intros b p Hp. rewrite (store_in val) by auto. unfold val. cbn [fst snd]. destruct (Req_EM_T c 0); split; intros; auto; contradiction.
  - intros l H. now apply (store_out (fun bp _ => val bp)).
Qed.
Print Assumptions C93_stored.
(** Variables with speed 0 (those named in boundary_radconstant) do not change at the boundary. *)
Theorem C93_radconstant : forall var0 x y z u ux uy uz, rad_rhs 0 var0 x y z u ux uy uz = 0.
Proof. intros. unfold rad_rhs. cbv zeta. unfold Rdiv. lra. Qed.
Print Assumptions C93_radconstant.
(** a case: the wave 1 + (r - t)/r = 2 - t/r at t = 1 on the z axis at r = 2: rate -1/2 *)
Example C93_case : rad_rhs 1 1 0 0 2 (outgoing 1 1 (fun s => s) 1 0 0 2) 0 0 (1/4) = -1/2 /\
  derivable_pt_lim (fun s => s) (sqrt (0 * 0 + 0 * 0 + 2 * 2) - 1 * 1) 1 /\ 0 < 0 * 0 + 0 * 0 + 2 * 2 /\ pd (outgoing 1 1 (fun s => s) 1) D3 0 0 2 (1/4).
Proof.
  assert (S2 : sqrt (0 * 0 + 0 * 0 + 2 * 2) = 2) by (replace (0 * 0 + 0 * 0 + 2 * 2) with (2 * 2) by lra; apply sqrt_square; lra).
  split; [unfold rad_rhs, outgoing; rewrite S2; lra|]. split; [apply derivable_pt_lim_id|]. split; [lra|].
  replace (1/4) with ((1 / 2 - (2 - 1 * 1) / 2²) * (2 / sqrt (0 * 0 + 0 * 0 + 2 * 2))) by (rewrite S2; unfold Rsqr; lra).
  apply (pd_radial (fun s => 1 + (s - 1 * 1) / s)); [lra|]. rewrite S2. apply (shell_deriv 1 1 (fun s => s) 1 1 2); [lra|]. apply derivable_pt_lim_id.
Qed.
(** The radiative condition fits all integrators: together with the equations it is one right-hand side F that does not depend on the old state, and with a step size c gives upre + c F.
    (The constant condition is not of this kind, which is why it fails with Runge-Kutta.) *)
Theorem C93_consistent : forall f o s, b_constant o = false -> b_simpleExcision o = false ->
  exists F : vl loc -> vec loc, (forall pre cur l, with_boundary f o s pre 0 cur l = F cur l) /\
    (forall pre c cur l, c <> 0 -> with_boundary f o s pre c cur l = fst pre l + c * F cur l) /\
    (forall cur j b p, b_radiative o = true -> (j < nv s)%nat -> In (b, p) (radPL s) -> let l := (j, b, p) in
       F cur l = rad_rhs (speed s j) (far s j) (bx s b p) (by_ s b p) (bz s b p) (fst cur l) (ddx s (fst cur) l) (ddy s (fst cur) l) (ddz s (fst cur) l)) /\
    (forall cur j b p, b_radiative o = false \/ ~ In (b, p) (radPL s) -> F cur (j, b, p) = f cur (j, b, p)).
Proof.
  intros f o s Hc He. exists (fun cur l => with_boundary f o s cur 0 cur l). unfold with_boundary, set_boundary. rewrite Hc, He. cbv zeta.
  destruct (Req_EM_T 0 0) as [_|N]; [|contradiction].
  destruct (b_radiative o).
  2:{ split; [reflexivity|]. split; [|split; [discriminate|reflexivity]]. intros pre c cur l Hc0. destruct (Req_EM_T c 0); [contradiction|reflexivity]. }
  set (g := fun (c : R) (pre cur : field) j => set_boundary_radiative (bx s) (by_ s) (bz s) (ddx s) (ddy s) (ddz s) (radPL s) j c (far s j) (speed s j) pre cur).
  assert (L : forall c pre cur j u l, fst (fst l) <> j -> g c pre cur j u l = u l).
  { intros c pre cur j u l H. unfold g. apply (C93_stored (bx s) (by_ s) (bz s) (ddx s) (ddy s) (ddz s) (radPL s) j c (far s j) (speed s j) pre cur u). intros b p _ ->. now apply H. }
  assert (V : forall c pre cur new j b p, (j < nv s)%nat -> In (b, p) (radPL s) -> 
     let l := (j, b, p) in let rate := rad_rhs (speed s j) (far s j) (bx s b p) (by_ s b p) (bz s b p) (cur l) (ddx s cur l) (ddy s cur l) (ddz s cur l) in
     (c = 0 -> all_vars (nv s) (g c pre cur) new l = rate) /\ (c <> 0 -> all_vars (nv s) (g c pre cur) new l = pre l + c * rate)).
  { intros c pre cur new j b p Hj Hp. cbv zeta. destruct (all_vars_in (g c pre cur) (nv s) (L c pre cur) j new b p Hj) as (u & _ & ->).
    apply (C93_stored (bx s) (by_ s) (bz s) (ddx s) (ddy s) (ddz s) (radPL s) j c (far s j) (speed s j) pre cur u). exact Hp. }
  assert (O : forall c pre cur new j b p, ~ ((j < nv s)%nat /\ In (b, p) (radPL s)) -> all_vars (nv s) (g c pre cur) new (j, b, p) = new (j, b, p)).
  { intros c pre cur new j b p H. destruct (lt_dec j (nv s)) as [Hj|Hj].
    - destruct (all_vars_in (g c pre cur) (nv s) (L c pre cur) j new b p Hj) as (u & U & ->). rewrite <- U.
      apply (C93_stored (bx s) (by_ s) (bz s) (ddx s) (ddy s) (ddz s) (radPL s) j c (far s j) (speed s j) pre cur u). intros b0 p0 H0 [= <- <-]. tauto.
    - unfold all_vars. assert (A : forall k s0 u, (forall i, In i (seq s0 k) -> i <> j) -> fold_left (fun u j => g c pre cur j u) (seq s0 k) u (j, b, p) = u (j, b, p)).
      { induction k as [|k IH]; intros s0 u Hq; auto. cbn [seq fold_left]. rewrite IH by (intros; apply Hq; now right). apply L. cbn. intros E. apply (Hq s0); [now left|auto]. }
      apply A. intros i Hi. apply in_seq in Hi. lia. }
  assert (D : forall j b p, (j < nv s)%nat /\ In (b, p) (radPL s) \/ ~ ((j < nv s)%nat /\ In (b, p) (radPL s))).
  { intros j b p. destruct (lt_dec j (nv s)); [|tauto]. destruct (in_dec (fun x y : nat * nat => ltac:(decide equality; apply Nat.eq_dec) : {x = y} + {x <> y}) (b, p) (radPL s)); tauto. }
  split; [|split; [|split]].
  - intros pre cur [[j b] p]. destruct (D j b p) as [[Hj Hp]|H].
    + etransitivity; [exact (proj1 (V 0 (fst pre) (fst cur) _ j b p Hj Hp) eq_refl)|]. symmetry. exact (proj1 (V 0 (fst cur) (fst cur) _ j b p Hj Hp) eq_refl).
    + etransitivity; [apply (O 0 (fst pre)); auto|]. symmetry. apply (O 0 (fst cur)); auto.
  - intros pre c cur [[j b] p] Hc0. destruct (Req_EM_T c 0); [contradiction|]. destruct (D j b p) as [[Hj Hp]|H].
    + etransitivity; [exact (proj2 (V c (fst pre) (fst cur) _ j b p Hj Hp) Hc0)|]. f_equal. f_equal. symmetry. exact (proj1 (V 0 (fst cur) (fst cur) _ j b p Hj Hp) eq_refl).
    + etransitivity; [apply (O c (fst pre)); auto|]. f_equal. f_equal. symmetry. apply (O 0 (fst cur)); auto.
  - intros cur j b p _ Hj Hp. exact (proj1 (V 0 (fst cur) (fst cur) _ j b p Hj Hp) eq_refl).
  - intros cur j b p [H|H]; [discriminate|]. apply (O 0 (fst cur)). tauto.
Qed.
Print Assumptions C93_consistent.

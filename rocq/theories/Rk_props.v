(** C25: the Runge-Kutta methods are explicit Runge-Kutta methods of their nominal order.  C26: the low-storage RK4 is the table RK4. *)
From Verif Require Import Rutil Rk_model Rk_spec.
From Coq Require Import QArith Qreals FunctionalExtensionality.
Local Open Scope R_scope.

(** ** trees up to a given number of nodes *)
Fixpoint forests (fuel n : nat) : list (list tree) :=
  match n, fuel with
  | O, _ => [[]]
  | S m, O => []
  | S m, S fu => flat_map (fun k => flat_map (fun c => map (fun r => Node c :: r) (forests fu (m - k)))  (forests fu k)) (seq 0 (S m))
  end.
Lemma forests_all : forall fuel n l, (n <= fuel)%nat -> list_sum (map nodes l) = n -> In l (forests fuel n).
Proof.
  induction fuel as [|fu IH]; intros n l L E.
  - destruct l as [|[c] r]; [destruct n; [now left|discriminate]|]. cbn [map nodes list_sum fold_right] in E. unfold list_sum in E. cbn in E. lia.
  - destruct l as [|[c] r]. { cbn in E. subst n. now left. }
    change (list_sum (map nodes (Node c :: r))) with (S (list_sum (map nodes c)) + list_sum (map nodes r))%nat in E.
    destruct n as [|m]; [lia|]. cbn [forests]. apply in_flat_map. exists (list_sum (map nodes c)). split; [apply in_seq; lia|].
    apply in_flat_map. exists c. split; [apply IH; [lia|reflexivity]|]. apply in_map. apply IH; lia.
Qed.
Definition check (s : nat) (a : nat -> nat -> Q) (b : nat -> Q) (p : nat) : bool :=
  forallb (fun n => forallb (fun c => Qeq_bool (weight s a b (Node c) * gamma (Node c)) 1) (forests p n)) (seq 0 p).
Lemma check_ok s a b p : check s a b p = true -> has_order s a b p.
Proof.
  intros H [c] L. unfold check in H. rewrite forallb_forall in H. change (nodes (Node c)) with (S (list_sum (map nodes c))) in L.
  assert (H1 : In (list_sum (map nodes c)) (seq 0 p)) by (apply in_seq; lia).
  specialize (H _ H1). rewrite forallb_forall in H.
  apply Qeq_bool_iff. apply H. apply forests_all; lia.
Qed.
(** the order of the methods *)
Definition nominal : list (butcher * nat) :=
  [(rk1, 1); (rk2, 2); (rk2a, 2); (rk3, 3); (rk3a, 3); (rk3b, 3); (rk4, 4); (rk4a, 4); (rk5, 5)]%nat.
Theorem C25_order : forall T p, In (T, p) nominal -> has_order (nstages T) (aij T) (bj T) p /\ ~ has_order (nstages T) (aij T) (bj T) (S p).
Proof.
  intros T p H.
  assert (N : forall t, (nodes t <= S p)%nat -> Qeq_bool (weight (nstages T) (aij T) (bj T) t * gamma t) 1 = false -> ~ has_order (nstages T) (aij T) (bj T) (S p)).
  { intros t L W O. apply O in L. apply Qeq_bool_iff in L. congruence. }
  set (tall := fix tall n := match n with O => Node [] | S m => Node [tall m] end). set (bushy := fun n => Node (repeat (Node []) n)).
  repeat (destruct H as [E|H]; [injection E as <- <-; split; [apply check_ok; vm_compute; reflexivity|]|]); [..|destruct H].
  - apply (N (tall 1%nat)); [cbn; lia|]. vm_compute. reflexivity.
  - apply (N (tall 2%nat)); [cbn; lia|]. vm_compute. reflexivity.
  - apply (N (tall 2%nat)); [cbn; lia|]. vm_compute. reflexivity.
  - apply (N (tall 3%nat)); [cbn; lia|]. vm_compute. reflexivity.
  - apply (N (tall 3%nat)); [cbn; lia|]. vm_compute. reflexivity.
  - apply (N (tall 3%nat)); [cbn; lia|]. vm_compute. reflexivity.
  - apply (N (tall 4%nat)); [cbn; lia|]. vm_compute. reflexivity.
  - apply (N (tall 4%nat)); [cbn; lia|]. vm_compute. reflexivity.
  - apply (N (tall 5%nat)); [cbn; lia|]. vm_compute. reflexivity.
Qed.
Print Assumptions C25_order.

(** ** the step *)
Section P.
Variable I : Type.
Variable F : vl I -> vec I.
Variable alg : option (vl I -> vl I -> vec I).
(** what evolve_algebraicConditions makes of the values x at time t; p is the old state *)
Definition cond (p x : vl I) : vec I := match alg with Some g => g x p | None => fst x end.
Lemma put_same (m : mem I) r x : put I m r x r = x.
Proof. unfold put. destruct r; cbn; try reflexivity. now rewrite Nat.eqb_refl. Qed.
Lemma put_other (m : mem I) r x s : s <> r -> put I m r x s = m s.
Proof. intros H. unfold put. destruct r, s; cbn; try reflexivity; try contradiction. destruct (Nat.eqb_spec i0 i); auto. subst. contradiction. Qed.
Lemma vladd1 m r a cb b : vladd I m r 1 a cb b = put I m r (comb I 1 (m a) cb (m b)).
Proof.
  unfold vladd. destruct (Req_EM_T 1 0); [lra|]. destruct (Req_EM_T cb 0) as [->|]; auto. f_equal. unfold scal, comb. f_equal; [|lra].
  apply functional_extensionality. intros i. lra.
Qed.
Lemma vladdto1 m r ca a : vladdto I m r ca a = put I m r (comb I 1 (m r) ca (m a)).
Proof.
  unfold vladdto. destruct (Req_EM_T ca 0) as [->|]; auto. apply functional_extensionality. intros s. unfold put. destruct (reg_eqb s r) eqn:E; auto.
  assert (s = r) as -> by (destruct s, r; cbn in E; try discriminate; auto; apply Nat.eqb_eq in E; congruence).
  unfold comb. destruct (m r) as [x t]. cbn. f_equal; [|lra]. apply functional_extensionality. intros i. lra.
Qed.
Lemma cond_put m r p : conditions I alg m r p = put I m r (cond (m p) (m r), snd (m r)).
Proof.
  unfold conditions, cond. destruct alg; auto. apply functional_extensionality. intros s. unfold put. destruct (reg_eqb s r) eqn:E; auto.
  assert (s = r) as -> by (destruct s, r; cbn in E; try discriminate; auto; apply Nat.eqb_eq in E; congruence). now destruct (m r).
Qed.
Lemma rsum_S f n : rsum f (S n) = rsum f n + f n.
Proof.
  unfold rsum. rewrite seq_S, map_app, fold_right_app. cbn.
  enough (H : forall l y, fold_right Rplus y l = fold_right Rplus 0 l + y). { rewrite (H _ (f n + 0)). lra. }
  induction l; intros z; cbn; [lra|]. rewrite IHl. lra.
Qed.
Lemma rsum_ext f g n : (forall i, (i < n)%nat -> f i = g i) -> rsum f n = rsum g n.
Proof. intros H. unfold rsum. f_equal. apply map_ext_in. intros i Hi. apply H. apply in_seq in Hi. lia. Qed.
Lemma adds_spec dt c : forall n m, (forall j, (j < n)%nat -> snd (m (K j)) = 1) ->
  let m' := adds I dt c (seq 0 n) m in
  (forall r, r <> C -> m' r = m r) /\
  (forall i, fst (m' C) i = fst (m C) i + dt * rsum (fun j => c j * fst (m (K j)) i) n) /\ snd (m' C) = snd (m C) + dt * rsum c n.
Proof.
  assert (A : forall l1 l2 m, adds I dt c (l1 ++ l2) m = adds I dt c l2 (adds I dt c l1 m)).
  { induction l1; intros l2 m; cbn; auto. }
  induction n as [|n IH]; intros m H; cbv zeta.
  - cbn. repeat split; auto; intros; unfold rsum; cbn; lra.
  - rewrite seq_S, A. destruct (IH m) as (B1 & B2 & B3); [intros; apply H; lia|]. set (m1 := adds I dt c (seq 0 n) m) in *. cbn [adds]. rewrite vladd1.
    cbn [Nat.add]. split; [intros r Hr; rewrite put_other by auto; now apply B1|]. rewrite put_same. unfold comb. cbn [fst snd].
    rewrite (B1 (K n)) by discriminate. rewrite H by lia. split.
    + intros i. rewrite B2, rsum_S. lra.
    + rewrite B3, rsum_S. lra.
Qed.
(** the memory after the stages 0..n-1 *)
Definition stage_val (dt : R) (T : butcher) (p : vl I) (k : nat -> vec I) (i : nat) : vl I :=
  (fun x => fst p x + dt * rsum (fun j => Q2R (aij T i j) * k j x) i, snd p + dt * rsum (fun j => Q2R (aij T i j)) i).
Definition J (dt : R) (T : butcher) (p : vl I) (n : nat) (m : mem I) : Prop :=
  m P = p /\ (forall j, snd (m (K j)) = 1) /\
  forall i, (i < n)%nat -> fst (m (K i)) = F (cond p (stage_val dt T p (fun j => fst (m (K j))) i), snd (stage_val dt T p (fun j => fst (m (K j))) i)).
Lemma stage_J dt T p n (m : mem I) : (n = 0%nat -> m C = p) -> J dt T p n m -> J dt T p (S n) (stage I F alg dt T n m).
Proof.
  intros C0 (JP & JT & JK). unfold stage. cbv zeta.
  set (m1 := if Nat.eqb n 0 then m else vlcopy I m C P).
  assert (M1 : m1 C = p /\ forall r, r <> C -> m1 r = m r).
  { unfold m1, vlcopy. destruct (Nat.eqb_spec n 0); [auto|]. rewrite put_same. split; auto. intros r Hr. now apply put_other. }
  destruct M1 as [M1C M1o]. clearbody m1.
  destruct (adds_spec dt (fun j => Q2R (aij T n j)) n m1) as (A1 & A2 & A3). { intros j _. rewrite M1o by discriminate. apply JT. }
  set (m2 := adds I dt (fun j => Q2R (aij T n j)) (seq 0 n) m1) in *. clearbody m2. rewrite cond_put. unfold rhs0.
  assert (V : m2 C = stage_val dt T p (fun j => fst (m (K j))) n).
  { rewrite (surjective_pairing (m2 C)). unfold stage_val. f_equal.
    - apply functional_extensionality. intros x. rewrite A2, M1C. f_equal. f_equal. apply rsum_ext. intros j _. now rewrite M1o by discriminate.
    - now rewrite A3, M1C. }
  assert (PP : m2 P = p) by (rewrite A1, M1o; auto; discriminate).
  assert (KK : forall j, m2 (K j) = m (K j)) by (intros j; rewrite A1, M1o; auto; discriminate).
  assert (NE : forall j, K j <> C) by discriminate. assert (NP : P <> C) by discriminate.
  unfold J. rewrite put_same. cbn [snd].
  assert (KV : forall j, put I (put I m2 C (cond (m2 P) (m2 C), snd (m2 C))) (K n) (F (cond (m2 P) (m2 C), snd (m2 C)), snd (put I m2 C (cond (m2 P) (m2 C), snd (m2 C)) (K n))) (K j) =
     (if Nat.eqb j n then F (cond p (m2 C), snd (m2 C)) else fst (m (K j)), 1)).
  { intros j. destruct (Nat.eqb_spec j n) as [->|ne].
    - rewrite put_same. rewrite put_other by auto. rewrite KK, JT, PP. reflexivity.
    - rewrite !put_other by congruence. rewrite KK. rewrite (surjective_pairing (m (K j))). now rewrite JT. }
  split. { rewrite !put_other by discriminate. exact PP. }
  split. { intros j. now rewrite KV. }
  intros i Hi. rewrite KV. cbn [fst].
  assert (SV : stage_val dt T p (fun j => fst (put I (put I m2 C (cond (m2 P) (m2 C), snd (m2 C))) (K n) (F (cond (m2 P) (m2 C), snd (m2 C)), snd (put I m2 C (cond (m2 P) (m2 C), snd (m2 C)) (K n))) (K j))) i
      = stage_val dt T p (fun j => fst (m (K j))) i).
  { unfold stage_val. f_equal. apply functional_extensionality. intros x. f_equal. f_equal. apply rsum_ext. intros j Hj. rewrite KV. cbn [fst].
    destruct (Nat.eqb_spec j n); [lia|reflexivity]. }
  rewrite SV. destruct (Nat.eqb_spec i n) as [->|ne]; [now rewrite V|]. apply JK. lia.
Qed.
Lemma stages_J dt T p (m : mem I) : m C = p -> J dt T p 0 m -> forall n, J dt T p n (stages I F alg dt T (seq 0 n) m).
Proof.
  intros C0 J0. assert (A : forall l1 l2 m, stages I F alg dt T (l1 ++ l2) m = stages I F alg dt T l2 (stages I F alg dt T l1 m)).
  { induction l1; intros l2 m0; cbn; auto. }
  induction n as [|n IH]; [exact J0|]. rewrite seq_S, A. cbn [Nat.add stages]. apply stage_J; auto. intros ->. exact C0.
Qed.
(** One call: for every right-hand side, state and step size the new values are those of the explicit Runge-Kutta method with this table, with every
    stage evaluated at t + dt * (row sum), and the time of the list is t + dt * (sum of the weights). Algebraic conditions, if registered, are applied
    to the argument of every evaluation and to the result. *)
Theorem generic_step dt T (m : mem I) : (forall j, snd (m (K j)) = 1) ->
  let u := fst (m C) in let t := snd (m C) in
  let m' := evolve_rk_generic I F alg dt T m in
  exists v, explicit_rk (fun s y => F (cond (u, t) (y, s), s)) (nstages T) (fun i j => Q2R (aij T i j)) (fun j => Q2R (bj T j)) dt t u v /\
    snd (m' C) = t + dt * rsum (fun j => Q2R (bj T j)) (nstages T) /\ fst (m' C) = cond (u, t) (v, snd (m' C)).
Proof.
  intros HT u t m'. unfold m', evolve_rk_generic. cbv zeta. set (m0 := vlcopy I m P C).
  assert (M0 : m0 C = m C /\ m0 P = m C /\ forall j, m0 (K j) = m (K j)).
  { unfold m0, vlcopy. rewrite put_same. rewrite put_other by discriminate. repeat split. }
  destruct M0 as (M0C & M0P & M0K). clearbody m0.
  assert (J0 : J dt T (m C) 0 m0). { split; [exact M0P|]. split; [intros j; rewrite M0K; apply HT|]. intros i Hi. lia. }
  pose proof (stages_J dt T (m C) m0 M0C J0 (nstages T)) as (JP & JT & JK). set (m1 := stages I F alg dt T (seq 0 (nstages T)) m0) in *. clearbody m1.
  set (m2 := vlcopy I m1 C P).
  assert (M2 : m2 C = m C /\ forall r, r <> C -> m2 r = m1 r).
  { unfold m2, vlcopy. rewrite put_same. split; auto. intros r Hr. now apply put_other. }
  destruct M2 as (M2C & M2o). clearbody m2.
  destruct (adds_spec dt (fun j => Q2R (bj T j)) (nstages T) m2) as (A1 & A2 & A3). { intros j _. rewrite M2o by discriminate. apply JT. }
  set (m3 := adds I dt (fun j => Q2R (bj T j)) (seq 0 (nstages T)) m2) in *. clearbody m3. rewrite cond_put, put_same. cbn [fst snd].
  assert (PP : m3 P = m C) by (rewrite A1, M2o; auto; discriminate). rewrite PP.
  assert (EU : m C = (u, t)) by (apply surjective_pairing).
  exists (fst (m3 C)). split; [|split].
  - exists (fun j => fst (m1 (K j))). split.
    + intros i Hi x. etransitivity; [exact (f_equal (fun g => g x) (JK i Hi))|]. unfold stage_val. rewrite EU. cbn [fst snd]. reflexivity.
    + intros x. rewrite A2, M2C, EU. cbn [fst]. f_equal. f_equal. apply rsum_ext. intros j _. now rewrite M2o by discriminate.
  - rewrite A3, M2C, EU. reflexivity.
  - rewrite <- EU. now rewrite <- surjective_pairing.
Qed.
(** explicit_rk determines the result *)
Lemma rk_unique (f : R -> vec I -> vec I) s a b h t u v w : explicit_rk f s a b h t u v -> explicit_rk f s a b h t u w -> v = w.
Proof.
  intros (k & K1 & K2) (l & L1 & L2). assert (E : forall i, (i < s)%nat -> k i = l i).
  { induction i as [i IH] using lt_wf_ind. intros Hi. apply functional_extensionality. intros x. rewrite K1, L1 by auto. f_equal.
    apply functional_extensionality. intros y. f_equal. f_equal. apply rsum_ext. intros j Hj. now rewrite IH by lia. }
  apply functional_extensionality. intros x. rewrite K2, L2. f_equal. f_equal. apply rsum_ext. intros j Hj. now rewrite E.
Qed.
(** the low-storage version *)
Theorem rk4_step dt (m : mem I) : (forall j, snd (m (K j)) = 1) -> cond (m C) (m C) = fst (m C) ->
  let u := fst (m C) in let t := snd (m C) in
  let m' := evolve_rk_rk4 I F alg dt m in
  exists v, explicit_rk (fun s y => F (cond (u, t) (y, s), s)) 4 (fun i j => Q2R (aij rk4 i j)) (fun j => Q2R (bj rk4 j)) dt t u v /\
    snd (m' C) = t + dt /\ fst (m' C) = cond (u, t) (v, snd (m' C)).
Proof.
  intros HT HC u t m'.
  assert (EU : m C = (u, t)) by (apply surjective_pairing). rewrite EU in HC. cbn [fst] in HC.
  set (f := fun (s : R) (y : vec I) => F (cond (u, t) (y, s), s)).
  set (k0 := f t u).
  set (k1 := f (t + dt / 2) (fun x => u x + dt / 2 * k0 x)).
  set (k2 := f (t + dt / 2) (fun x => u x + dt / 2 * k1 x)).
  set (k3 := f (t + dt) (fun x => u x + dt * k2 x)).
  set (v := fun x => u x + dt / 6 * k0 x + dt / 3 * k1 x + dt / 3 * k2 x + dt / 6 * k3 x).
  assert (V : m' C = (cond (u, t) (v, t + dt), t + dt)).
  { unfold m', evolve_rk_rk4. cbv zeta.
    assert (S1 : forall c (x : vec I) s, comb I 1 (u, t) c (x, s) = (fun i => u i + c * x i, t + c * s)).
    { intros. unfold comb. cbn [fst snd]. f_equal; [|lra]. apply functional_extensionality; intros; lra. }
    assert (B0 : forall ma, ma P = (u, t) -> ma C = (u, t) -> snd (ma (K 0)) = 1 ->
       let mb := vladdto I (rhs0 I F (conditions I alg ma C P) (K 0) C) C (dt / 6) (K 0) in
       mb P = (u, t) /\ mb (K 0) = (k0, 1) /\ mb C = (fun i => u i + dt / 6 * k0 i, t + dt / 6)).
    { intros ma HP HCc HK mb. unfold mb. rewrite vladdto1, cond_put. unfold rhs0. rewrite HP, HCc. cbn [snd].
      rewrite !put_same. rewrite (put_other _ _ _ C) by discriminate. rewrite put_same. rewrite HC.
      rewrite !(put_other _ _ _ P) by discriminate. rewrite !(put_other _ _ _ (K 0)) by discriminate. rewrite put_same. rewrite !(put_other _ _ _ (K 0)) by discriminate.
      rewrite HK. split; [exact HP|]. split; [unfold k0, f; now rewrite HC|]. rewrite S1. fold k0. f_equal; [|lra]. unfold k0, f. now rewrite HC. }
    assert (BA : forall ma cb k, ma P = (u, t) -> ma (K 0) = (k, 1) ->
       let mb := vladd I ma (K 1) 1 P cb (K 0) in
       mb P = (u, t) /\ mb (K 0) = (k, 1) /\ mb C = ma C /\ mb (K 1) = (fun i => u i + cb * k i, t + cb)).
    { intros ma cb k HP HK mb. unfold mb. rewrite vladd1, put_same. rewrite !put_other by discriminate. rewrite HP, HK, S1, Rmult_1_r. auto. }
    assert (B1 : forall ma ca y s k w tc, ma P = (u, t) -> ma C = (w, tc) -> ma (K 0) = (k, 1) -> ma (K 1) = (y, s) ->
       let mb := vladdto I (rhs0 I F (conditions I alg ma (K 1) P) (K 0) (K 1)) C ca (K 0) in
       mb P = (u, t) /\ mb (K 0) = (f s y, 1) /\ mb C = (fun i => w i + ca * f s y i, tc + ca)).
    { intros ma ca y s k w tc HP HCc HK0 HK1 mb. unfold mb. rewrite vladdto1, cond_put. unfold rhs0. rewrite HP, HK1. cbn [snd].
      rewrite !put_same. rewrite !(put_other _ _ _ P) by discriminate. rewrite !(put_other _ _ _ (K 0)) by discriminate. rewrite put_same.
      rewrite !(put_other _ _ _ (K 0)) by discriminate. rewrite !(put_other _ _ _ C) by discriminate. rewrite HK0, HCc. cbn [snd].
      split; [exact HP|]. split; [reflexivity|]. unfold comb. cbn [fst snd]. f_equal; [|lra]. apply functional_extensionality. intros i. unfold f. lra. }
    set (ma := vlcopy I m P C).
    assert (A : ma P = (u, t) /\ ma C = (u, t) /\ snd (ma (K 0)) = 1).
    { unfold ma, vlcopy. rewrite put_same. rewrite !put_other by discriminate. rewrite EU. auto. }
    clearbody ma. destruct A as (AP & AC & AK).
    destruct (B0 ma AP AC AK) as (P1 & K1_ & C1). match type of P1 with ?M P = _ => set (mb := M) in *; clearbody mb end.
    destruct (BA mb (dt / 2) _ P1 K1_) as (P2 & K2_ & C2 & V2). match type of P2 with ?M P = _ => set (mc := M) in *; clearbody mc end. rewrite C1 in C2.
    destruct (B1 mc (dt / 3) _ _ _ _ _ P2 C2 K2_ V2) as (P3 & K3_ & C3). match type of P3 with ?M P = _ => set (md := M) in *; clearbody md end. fold k1 in K3_, C3.
    destruct (BA md (dt / 2) _ P3 K3_) as (P4 & K4_ & C4 & V4). match type of P4 with ?M P = _ => set (me := M) in *; clearbody me end. rewrite C3 in C4.
    destruct (B1 me (dt / 3) _ _ _ _ _ P4 C4 K4_ V4) as (P5 & K5_ & C5). match type of P5 with ?M P = _ => set (mf := M) in *; clearbody mf end. fold k2 in K5_, C5.
    destruct (BA mf dt _ P5 K5_) as (P6 & K6_ & C6 & V6). match type of P6 with ?M P = _ => set (mg := M) in *; clearbody mg end. rewrite C5 in C6.
    destruct (B1 mg (dt / 6) _ _ _ _ _ P6 C6 K6_ V6) as (P7 & K7_ & C7). match type of P7 with ?M P = _ => set (mh := M) in *; clearbody mh end. fold k3 in K7_, C7.
    rewrite cond_put, put_same. rewrite P7, C7. cbn [snd].
    replace (t + dt / 6 + dt / 3 + dt / 3 + dt / 6) with (t + dt) by lra. f_equal. }
  exists v. rewrite V. cbn [fst snd]. fold f. split; [|split; reflexivity].
  exists (fun j => match j with O => k0 | 1%nat => k1 | 2%nat => k2 | _ => k3 end).
  assert (Q12 : Q2R (1 # 2) = 1/2) by (unfold Q2R; cbn; lra). assert (Q16 : Q2R (1 # 6) = 1/6) by (unfold Q2R; cbn; lra). assert (Q13 : Q2R (1 # 3) = 1/3) by (unfold Q2R; cbn; lra).
  assert (Q0 : Q2R 0 = 0) by (unfold Q2R; cbn; lra). assert (Q1 : Q2R 1 = 1) by (unfold Q2R; cbn; lra).
  split.
  - intros i Hi x. destruct i as [|[|[|[|i]]]]; [..|lia]; unfold rsum, aij; cbn [nth a_ rk4 seq map fold_right]; rewrite ?Q12, ?Q0, ?Q1.
    + unfold k0. match goal with |- f ?a ?b x = F (cond (u, t) (?d, ?c), ?c) x => change (f a b x = f c d x); replace c with a by lra; replace d with b by (apply functional_extensionality; intros y; lra) end. reflexivity.
    + unfold k1 at 1. match goal with |- f ?a ?b x = F (cond (u, t) (?d, ?c), ?c) x => change (f a b x = f c d x); replace c with a by lra; replace d with b by (apply functional_extensionality; intros y; lra) end. reflexivity.
    + unfold k2 at 1. match goal with |- f ?a ?b x = F (cond (u, t) (?d, ?c), ?c) x => change (f a b x = f c d x); replace c with a by lra; replace d with b by (apply functional_extensionality; intros y; lra) end. reflexivity.
    + unfold k3 at 1. match goal with |- f ?a ?b x = F (cond (u, t) (?d, ?c), ?c) x => change (f a b x = f c d x); replace c with a by lra; replace d with b by (apply functional_extensionality; intros y; lra) end. reflexivity.
  - intros x. unfold v, rsum, bj. cbn [nth b_ rk4 seq map fold_right]. rewrite Q16, Q13. lra.
Qed.
End P.

Definition weights_sum_one (T : butcher) : Prop := rsum (fun j => Q2R (bj T j)) (nstages T) = 1.
Lemma sums_one : forall T p, In (T, p) nominal -> weights_sum_one T.
Proof.
  intros T p H. unfold nominal in H. cbn [In] in H. unfold weights_sum_one, rsum, bj.
  repeat (destruct H as [E|H]; [injection E as <- <-; cbn [nstages rk1 rk2 rk2a rk3 rk3a rk3b rk4 rk4a rk5 b_ seq map nth fold_right]; unfold Q2R; cbn [Qnum Qden]; field|]). destruct H.
Qed.
(** C25: for every right-hand side, state, time, step size, every method: the step is the explicit Runge-Kutta step of the table; the result is
    at time t + dt. *)
Theorem C25_step : forall T p, In (T, p) nominal -> forall (I : Type) (F : vl I -> vec I) dt (m : mem I),
  let u := fst (m C) in let t := snd (m C) in
  let m' := evolve_rk I F None T false dt m in
  explicit_rk (fun s y => F (y, s)) (nstages T) (fun i j => Q2R (aij T i j)) (fun j => Q2R (bj T j)) dt t u (fst (m' C)) /\
  snd (m' C) = t + dt.
Proof.
  intros T p HT I F dt m u t m'.
  destruct (generic_step I F None dt T (set_ktime I m)) as (v & E1 & E2 & E3); [reflexivity|].
  cbn [cond] in *. unfold m', evolve_rk. unfold cond in E3. cbn [fst] in E3. cbv zeta. split.
  - rewrite E3. exact E1.
  - rewrite E2. rewrite (sums_one T p HT). cbn [set_ktime]. fold t. lra.
Qed.
Print Assumptions C25_step.
(** C25: the same with algebraic conditions: they are applied to the argument of each evaluation and to the result. *)
Theorem C25_step_conditions : forall T p, In (T, p) nominal -> forall (I : Type) (F : vl I -> vec I) g dt (m : mem I),
  let u := fst (m C) in let t := snd (m C) in
  let m' := evolve_rk I F (Some g) T false dt m in
  exists v, explicit_rk (fun s y => F (g (y, s) (u, t), s)) (nstages T) (fun i j => Q2R (aij T i j)) (fun j => Q2R (bj T j)) dt t u v /\
    fst (m' C) = g (v, t + dt) (u, t) /\ snd (m' C) = t + dt.
Proof.
  intros T p HT I F g dt m u t m'.
  destruct (generic_step I F (Some g) dt T (set_ktime I m)) as (v & E1 & E2 & E3); [reflexivity|]. rewrite (sums_one T p HT), Rmult_1_r in E2. cbn [set_ktime] in E2. fold t in E2.
  exists v. split; [exact E1|]. unfold m', evolve_rk. cbv zeta. split; [|exact E2]. rewrite E3. rewrite E2. reflexivity.
Qed.
Print Assumptions C25_step_conditions.
(** evolution_method_rk: each name selects a method of the order in its name *)
Theorem C25_names : forall w T, pick (str_eqb w) = Some T -> exists p, In (T, p) nominal /\
   (w = S_ "midpoint" /\ p = 2%nat \/ w = S_ "euler" /\ p = 1%nat \/ exists d r, w = "r"%char :: "k"%char :: d :: r /\ nat_of_ascii d = (48 + p)%nat).
Proof.
  intros w T. unfold pick.
  destruct (str_eqb w _) eqn:E; [intros [= <-]; apply str_eqb_eq in E; subst w; exists 5%nat; split; [unfold nominal; cbn [In]; tauto|]; right; right; eexists _, _; split; reflexivity|clear E].
  destruct (str_eqb w _) eqn:E; [intros [= <-]; apply str_eqb_eq in E; subst w; exists 4%nat; split; [unfold nominal; cbn [In]; tauto|]; right; right; eexists _, _; split; reflexivity|clear E].
  destruct (str_eqb w _) eqn:E; [intros [= <-]; apply str_eqb_eq in E; subst w; exists 4%nat; split; [unfold nominal; cbn [In]; tauto|]; right; right; eexists _, _; split; reflexivity|clear E].
  destruct (str_eqb w _) eqn:E; [intros [= <-]; apply str_eqb_eq in E; subst w; exists 3%nat; split; [unfold nominal; cbn [In]; tauto|]; right; right; eexists _, _; split; reflexivity|clear E].
  destruct (str_eqb w _) eqn:E; [intros [= <-]; apply str_eqb_eq in E; subst w; exists 3%nat; split; [unfold nominal; cbn [In]; tauto|]; right; right; eexists _, _; split; reflexivity|clear E].
  destruct (str_eqb w _) eqn:E; [intros [= <-]; apply str_eqb_eq in E; subst w; exists 3%nat; split; [unfold nominal; cbn [In]; tauto|]; right; right; eexists _, _; split; reflexivity|clear E].
  destruct (str_eqb w _) eqn:E; [intros [= <-]; apply str_eqb_eq in E; subst w; exists 2%nat; split; [unfold nominal; cbn [In]; tauto|]; right; right; eexists _, _; split; reflexivity|clear E].
  destruct (str_eqb w _) eqn:E; [intros [= <-]; apply str_eqb_eq in E; subst w; exists 2%nat; split; [unfold nominal; cbn [In]; tauto|]; right; right; eexists _, _; split; reflexivity|clear E].
  destruct (str_eqb w _) eqn:E; [intros [= <-]; apply str_eqb_eq in E; subst w; exists 1%nat; split; [unfold nominal; cbn [In]; tauto|]; right; right; eexists _, _; split; reflexivity|clear E].
  destruct (str_eqb w _) eqn:E; [intros [= <-]; apply str_eqb_eq in E; subst w; exists 2%nat; split; [unfold nominal; cbn [In]; tauto|]; left; auto|clear E].
  destruct (str_eqb w _) eqn:E; [intros [= <-]; apply str_eqb_eq in E; subst w; exists 1%nat; split; [unfold nominal; cbn [In]; tauto|]; right; left; auto|clear E].
  discriminate.
Qed.
Print Assumptions C25_names.
(** The methods with traditional names are the traditional ones: "euler" is the Euler step, "midpoint" the midpoint rule, "rk4" the classical fourth-order step. *)
Theorem C25_traditional : forall (I : Type) (F : vl I -> vec I) dt (m : mem I) w T, pick (str_eqb w) = Some T ->
  let u := fst (m C) in let t := snd (m C) in let u' := fst (evolve_rk I F None T false dt m C) in
  (w = S_ "euler" -> forall x, u' x = u x + dt * F (u, t) x) /\
  (w = S_ "midpoint" -> forall x, u' x = u x + dt * F (fun y => u y + dt / 2 * F (u, t) y, t + dt / 2) x) /\
  (w = S_ "rk4" -> exists k1 k2 k3 k4, k1 = F (u, t) /\ k2 = F (fun y => u y + dt / 2 * k1 y, t + dt / 2) /\ k3 = F (fun y => u y + dt / 2 * k2 y, t + dt / 2) /\
     k4 = F (fun y => u y + dt * k3 y, t + dt) /\ forall x, u' x = u x + dt * (k1 x + 2 * k2 x + 2 * k3 x + k4 x) / 6).
Proof.
  intros I F dt m w T HT u t u'. destruct (C25_names w T HT) as (p & HN & _). destruct (C25_step T p HN I F dt m) as ((k & K & KU) & _). cbv zeta in KU. fold u t u' in K, KU.
  split; [|split]; intros ->; vm_compute in HT; injection HT as <-; cbn [nstages aij bj a_ b_] in *; unfold rsum, Q2R in *.
  - intros x. rewrite KU. pose proof (K 0%nat ltac:(lia) x) as K0. cbn [seq map fold_right nth aij bj a_ b_ Qnum Qden] in *.
    replace (fun y : I => u y + dt * 0) with u in K0 by (apply functional_extensionality; intros; lra). replace (t + dt * 0) with t in K0 by lra. rewrite K0. rewrite Rinv_1, !Rmult_1_l, Rplus_0_r. reflexivity.
  - intros x. rewrite KU. pose proof (fun y => K 0%nat ltac:(lia) y) as K0. pose proof (fun y => K 1%nat ltac:(lia) y) as K1. cbn [seq map fold_right nth aij bj a_ b_ Qnum Qden] in *.
    assert (E0 : k 0%nat = F (u, t)). { apply functional_extensionality. intros y. rewrite K0. f_equal. f_equal; [apply functional_extensionality; intros; lra|lra]. }
    assert (E1 : k 1%nat = F (fun y => u y + dt / 2 * F (u, t) y, t + dt / 2)). { apply functional_extensionality. intros y. rewrite K1. rewrite E0. f_equal. f_equal; [apply functional_extensionality; intros; field|field]. }
    rewrite E1. field.
  - assert (K' : forall i, (i < 4)%nat -> k i = F (fun y => u y + dt * fold_right Rplus 0 (map (fun j => IZR (Qnum (aij rk4 i j)) * / IZR (QDen (aij rk4 i j)) * k j y) (seq 0 i)), t + dt * fold_right Rplus 0 (map (fun j => IZR (Qnum (aij rk4 i j)) * / IZR (QDen (aij rk4 i j))) (seq 0 i)))).
    { intros i Hi. apply functional_extensionality. intros x. now rewrite (K i Hi). }
    exists (k 0%nat), (k 1%nat), (k 2%nat), (k 3%nat). repeat split.
    + rewrite K' by lia. cbn [seq map fold_right]. f_equal. f_equal; [apply functional_extensionality; intros; lra|lra].
    + rewrite K' at 1 by lia. cbn [seq map fold_right nth aij a_ rk4 Qnum Qden]. f_equal. f_equal; [apply functional_extensionality; intros; field|field].
    + rewrite K' at 1 by lia. cbn [seq map fold_right nth aij a_ rk4 Qnum Qden]. f_equal. f_equal; [apply functional_extensionality; intros; field|field].
    + rewrite K' at 1 by lia. cbn [seq map fold_right nth aij a_ rk4 Qnum Qden]. f_equal. f_equal; [apply functional_extensionality; intros; field|field].
    + intros x. rewrite KU. cbn [seq map fold_right nth bj b_ Qnum Qden]. field.
Qed.
Print Assumptions C25_traditional.
(** Non-vacuity: u' = u with rk3: one step is the Taylor polynomial of degree 3. *)
Example C25_example : let m := fun r => match r with C => (fun _ : unit => 1, 0) | _ => (fun _ => 0, 0) end in
  fst (evolve_rk unit (fun x => fst x) None rk3 false 1 m C) tt = 1 + 1 + 1/2 + 1/6.
Proof.
  cbv zeta. destruct (C25_step rk3 3 ltac:(cbn; tauto) unit (fun x => fst x) 1 (fun r => match r with C => (fun _ : unit => 1, 0) | _ => (fun _ => 0, 0) end)) as ((k & K1 & K2) & _).
  cbv zeta in K2. rewrite K2. cbn [fst]. unfold rsum, bj, aij in *. cbn [nstages rk3] in *. pose proof (K1 0%nat ltac:(lia) tt) as A. pose proof (K1 1%nat ltac:(lia) tt) as B. pose proof (K1 2%nat ltac:(lia) tt) as D.
  cbn [fst snd seq map fold_right nth a_ b_ rk3] in *. unfold Q2R in *. cbn [Qnum Qden] in *. rewrite D, B, A. field.
Qed.
(** C26: for every right-hand side, if the state already satisfies the algebraic conditions (or there are none), the low-storage version gives the values and
    the time of the generic one. *)
Theorem C26_partial : forall (I : Type) (F : vl I -> vec I) alg dt (m : mem I),
  (forall g, alg = Some g -> g (m C) (m C) = fst (m C)) ->
  evolve_rk I F alg rk4 true dt m C = evolve_rk I F alg rk4 false dt m C.
Proof.
  intros I F alg dt m H. unfold evolve_rk. cbv zeta.
  destruct (generic_step I F alg dt rk4 (set_ktime I m)) as (v & E1 & E2 & E3); [reflexivity|].
  destruct (rk4_step I F alg dt (set_ktime I m)) as (w & L1 & L2 & L3); [reflexivity| |].
  { unfold cond. cbn [set_ktime]. destruct alg as [g|]; auto. }
  cbv zeta in *. pose proof (rk_unique I _ _ _ _ _ _ _ _ _ E1 L1) as <-.
  rewrite (sums_one rk4 4) in E2 by (cbn; tauto). rewrite Rmult_1_r in E2.
  rewrite (surjective_pairing (evolve_rk_rk4 _ _ _ _ _ _)), (surjective_pairing (evolve_rk_generic _ _ _ _ _ _ _)).
  rewrite E3, L3, E2, L2. reflexivity.
Qed.
Print Assumptions C26_partial.
Theorem C26_no_conditions : forall (I : Type) (F : vl I -> vec I) dt (m : mem I),
  evolve_rk I F None rk4 true dt m C = evolve_rk I F None rk4 false dt m C.
Proof. intros. apply C26_partial. discriminate. Qed.
Print Assumptions C26_no_conditions.
(** If the initial state does not satisfy the conditions, the two differ: the low-storage version keeps the corrected values as the start of the sum.
    Example: no evolution, and the condition sets the new values to half of what they were. *)
Theorem C26_conditions_refuted : exists (F : vl unit -> vec unit) g dt (m : mem unit),
  evolve_rk unit F (Some g) rk4 true dt m C <> evolve_rk unit F (Some g) rk4 false dt m C.
Proof.
  set (g := fun (x p : vl unit) => (fun i : unit => fst x i / 2) : vec unit). set (F := fun _ : vl unit => (fun _ : unit => 0) : vec unit).
  set (m := (fun r => match r with C => (fun _ : unit => 1, 0) | _ => (fun _ => 0, 0) end) : mem unit).
  exists F, g, 0, m. intros E.
  destruct (C25_step_conditions rk4 4 ltac:(cbn; tauto) unit F g 0 m) as (v & (k & K1 & K2) & E1 & _). cbv zeta in *.
  apply (f_equal fst) in E. pose proof (f_equal (fun h => h tt) (eq_trans E E1)) as E2. cbv beta in E2. clear E E1.
  assert (V : v tt = 1) by (rewrite K2; unfold m; cbn [fst]; lra).
  unfold g in E2 at 2. cbn [fst] in E2. rewrite V in E2. clear V K1 K2 k v.
  assert (A0 : forall ma r a c, c = 0 -> vladdto unit ma r c a = ma) by (intros ma r a c ->; unfold vladdto; destruct (Req_EM_T 0 0); [reflexivity|lra]).
  assert (A1 : forall ma i r, rhs0 unit F ma (K i) r C = ma C) by (intros; unfold rhs0; now rewrite put_other by discriminate).
  assert (A2 : forall ma i, conditions unit (Some g) ma (K i) P C = ma C) by (intros; unfold conditions; now rewrite put_other by discriminate).
  assert (A3 : forall ma i ca a cb b, vladd unit ma (K i) ca a cb b C = ma C) by (intros; unfold vladd; now rewrite put_other by discriminate).
  assert (A4 : forall ma, fst (conditions unit (Some g) ma C P C) tt = fst (ma C) tt / 2) by (intros; unfold conditions; now rewrite put_same).
  unfold evolve_rk, evolve_rk_rk4 in E2. cbv zeta in E2. rewrite A4 in E2. rewrite !A0 in E2 by lra.
  do 3 (rewrite A1, A2, A3 in E2). rewrite A1, A4 in E2. unfold vlcopy, put, m in E2. cbn [reg_eqb set_ktime fst] in E2. lra.
Qed.
Print Assumptions C26_conditions_refuted.

(** ** C54: iterative Crank-Nicholson and Euler *)
Definition icn_table := {| nstages := 3; a_ := [[]; [1#2]; [0; 1#2]]%Q; b_ := [0; 0; 1]%Q |}.
(** For a right-hand side that does not depend on time, evolve_icn is the explicit Runge-Kutta method with stages u, u + dt/2 k1, u + dt/2 k2 and weight 1 for
    the last one, ... *)
Theorem C54_icn_partial : forall (I : Type) (f : vec I -> vec I) dt (m : mem I),
  explicit_rk (fun s y => f y) 3 (fun i j => Q2R (aij icn_table i j)) (fun j => Q2R (bj icn_table j)) dt (snd (m C)) (fst (m C)) (fst (evolve_icn I (fun x => f (fst x)) None dt m C)).
Proof.
  intros I f dt m. set (u := fst (m C)). set (k0 := f u). set (k1 := f (fun x => u x + dt / 2 * k0 x)). set (k2 := f (fun x => u x + dt / 2 * k1 x)).
  assert (A : forall ma k, fst (ma P) = u -> (forall x, fst (ma C) x = u x + dt * k x) ->
     let mb := icn_iter I (fun x => f (fst x)) None dt ma in fst (mb P) = u /\ forall x, fst (mb C) x = u x + dt * f (fun y => u y + dt / 2 * k y) x).
  { intros ma k HP HC mb. unfold mb, icn_iter, conditions, rhs, vlaverage. cbv zeta. rewrite !put_same. rewrite !(put_other _ _ _ _ P) by discriminate.
    split; [exact HP|]. cbn [fst]. intros x. rewrite HP. f_equal. f_equal. f_equal. unfold scal, comb. cbn [fst]. apply functional_extensionality. intros y. rewrite HC, HP. lra. }
  set (m0 := vlcopy I m P C). assert (P0 : fst (m0 P) = u) by (unfold m0, vlcopy; now rewrite put_same).
  assert (C0 : forall x, fst (m0 C) x = u x + dt * 0) by (intros x; unfold m0, vlcopy; rewrite put_other by discriminate; fold u; lra).
  unfold evolve_icn. fold m0. clearbody m0.
  destruct (A m0 (fun _ => 0) P0 C0) as (P1 & C1). destruct (A _ _ P1 C1) as (P2 & C2). destruct (A _ _ P2 C2) as (P3 & C3).
  assert (E0 : (fun y => u y + dt / 2 * 0) = u) by (apply functional_extensionality; intros; lra). rewrite E0 in *. fold k0 k1 k2 in C3.
  exists (fun j => match j with O => k0 | 1%nat => k1 | _ => k2 end).
  assert (Q12 : Q2R (1 # 2) = 1/2) by (unfold Q2R; cbn; lra). assert (Q0 : Q2R 0 = 0) by (unfold Q2R; cbn; lra). assert (Q1 : Q2R 1 = 1) by (unfold Q2R; cbn; lra).
  split.
  - intros i Hi x. destruct i as [|[|[|i]]]; [..|lia]; unfold rsum, aij; cbn [nth a_ icn_table seq map fold_right]; rewrite ?Q12, ?Q0, ?Q1.
    + unfold k0. f_equal. apply functional_extensionality. intros y. lra.
    + unfold k1. f_equal. apply functional_extensionality. intros y. lra.
    + unfold k2. f_equal. apply functional_extensionality. intros y. lra.
  - intros x. unfold rsum, bj. cbn [nth b_ icn_table seq map fold_right]. rewrite Q0, Q1. rewrite C3. fold k0. fold k1. fold k2. lra.
Qed.
Print Assumptions C54_icn_partial.
(** ... which has order 2 and not 3. *)
Theorem C54_icn_order : has_order 3 (aij icn_table) (bj icn_table) 2 /\ ~ has_order 3 (aij icn_table) (bj icn_table) 3.
Proof.
  split; [apply check_ok; vm_compute; reflexivity|]. intros H. specialize (H (Node [Node []; Node []]) ltac:(cbn; lia)). apply Qeq_bool_iff in H. vm_compute in H. discriminate.
Qed.
Print Assumptions C54_icn_order.
(** If the right-hand side depends on time, every evaluation of evolve_icn is made at the old time, not at the middle of the step. *)
Theorem C54_icn_time_refuted : forall dt t, dt <> 0 ->
  let m := fun r => match r with C => (fun _ : unit => 0, t) | _ => (fun _ => 0, 0) end in
  fst (evolve_icn unit (fun x _ => snd x) None dt m C) tt = dt * t /\ dt * t <> dt * (t + dt / 2).
Proof.
  intros dt t H m. split; [|nra]. unfold evolve_icn, icn_iter, vlcopy, vlaverage, rhs, conditions, m. unfold put, comb, scal. cbn [reg_eqb fst snd]. lra.
Qed.
Print Assumptions C54_icn_time_refuted.
(** evolve_euler: u + dt F(u, t) *)
Theorem C54_euler : forall (I : Type) (F : vl I -> vec I) dt (m : mem I) x,
  fst (evolve_euler I F None dt m C) x = fst (m C) x + dt * F (m C) x.
Proof. intros. unfold evolve_euler, rhs, vlcopy, conditions. cbv zeta. rewrite put_same. cbn [fst]. now rewrite put_same. Qed.
Print Assumptions C54_euler.
Example C54_example : let m := fun r => match r with C => (fun _ : unit => 1, 0) | _ => (fun _ => 0, 0) end in
  fst (evolve_icn unit (fun x => fst x) None 1 m C) tt = 1 + 1 + 1/2 + 1/4.
Proof. cbv zeta. unfold evolve_icn, icn_iter, vlcopy, vlaverage, rhs, conditions, put, comb, scal. cbn [reg_eqb fst snd]. lra. Qed.

(** C15 (active boxes), C16 (index macros), C17 (plane loops). *)
From Coq Require Import Logic.FinFun.
From Verif Require Import Base Index_model.
Local Open Scope Z_scope.

(** ** C16 *)
(** Index maps the triples of the box into 0..n1*n2*n3-1, and the inverse macros give the triple back. *)
Theorem C16_inverse n1 n2 n3 i j k : 0 <= i < n1 -> 0 <= j < n2 -> 0 <= k < n3 ->
  let ijk := Index n1 n2 i j k in
  0 <= ijk < n1 * n2 * n3 /\
  kOfInd ijk n1 n2 = k /\ jOfInd ijk n1 n2 (kOfInd ijk n1 n2) = j /\
  iOfInd ijk n1 n2 (jOfInd ijk n1 n2 (kOfInd ijk n1 n2)) (kOfInd ijk n1 n2) = i.
Proof.
  intros Hi Hj Hk. cbv zeta. unfold Index.
  assert (R : 0 <= i + n1 * j < n1 * n2) by nia.
  assert (P : 0 <= i + n1 * (j + n2 * k) < n1 * n2 * n3) by nia.
  split; auto.
  assert (K : kOfInd (i + n1 * (j + n2 * k)) n1 n2 = k).
  { unfold kOfInd. symmetry. apply Z.quot_unique with (r := i + n1 * j); nia. }
  rewrite K.
  assert (J : jOfInd (i + n1 * (j + n2 * k)) n1 n2 k = j).
  { unfold jOfInd. symmetry. apply Z.quot_unique with (r := i); nia. }
  rewrite J. repeat split; auto. unfold iOfInd. ring.
Qed.
(** Index is onto: the inverse macros give a triple of the box whose index is the point. *)
Theorem C16_onto n1 n2 n3 ijk : 0 < n1 -> 0 < n2 -> 0 <= ijk < n1 * n2 * n3 ->
  let k := kOfInd ijk n1 n2 in let j := jOfInd ijk n1 n2 k in let i := iOfInd ijk n1 n2 j k in
  0 <= i < n1 /\ 0 <= j < n2 /\ 0 <= k < n3 /\ Index n1 n2 i j k = ijk.
Proof.
  intros P1 P2 H. cbv zeta. unfold kOfInd.
  rewrite Z.quot_div_nonneg by nia.
  pose proof (Z.div_mod ijk (n1 * n2) ltac:(nia)) as E. pose proof (Z.mod_pos_bound ijk (n1 * n2) ltac:(nia)) as M.
  set (k := ijk / (n1 * n2)) in *. set (r := ijk mod (n1 * n2)) in *.
  unfold jOfInd. replace (ijk - n1 * n2 * k) with r by lia.
  rewrite Z.quot_div_nonneg by lia.
  pose proof (Z.div_mod r n1 ltac:(lia)) as E2. pose proof (Z.mod_pos_bound r n1 ltac:(lia)) as M2.
  set (j := r / n1) in *. set (i := r mod n1) in *.
  unfold iOfInd. replace (ijk - n1 * n2 * k - n1 * j) with i by lia.
  assert (0 <= j < n2) by nia. assert (0 <= k < n3) by nia. repeat split; try lia. unfold Index. nia.
Qed.
Theorem C16_injective n1 n2 n3 i j k i' j' k' :
  0 <= i < n1 -> 0 <= j < n2 -> 0 <= k < n3 -> 0 <= i' < n1 -> 0 <= j' < n2 -> 0 <= k' < n3 ->
  Index n1 n2 i j k = Index n1 n2 i' j' k' -> i = i' /\ j = j' /\ k = k'.
Proof.
  intros A B C A' B' C' E.
  destruct (C16_inverse n1 n2 n3 i j k A B C) as (_ & K & J & I).
  destruct (C16_inverse n1 n2 n3 i' j' k' A' B' C') as (_ & K' & J' & I').
  cbv zeta in *. rewrite <- E in K', J', I'. rewrite J in I. rewrite J' in I'. rewrite K in *. rewrite <- K' in *.
  assert (j = j') by congruence. subst j'. repeat split; congruence.
Qed.

(** ** Loops *)
Definition zseq (lo : Z) (n : nat) : list Z := map (fun i => lo + Z.of_nat i) (seq 0 n).
Lemma zseq_S lo n : zseq lo (S n) = lo :: zseq (lo + 1) n.
Proof.
  unfold zseq. simpl. rewrite Z.add_0_r. f_equal. rewrite <- seq_shift, map_map. apply map_ext. intros. lia.
Qed.
Lemma zseq_In lo n x : In x (zseq lo n) <-> lo <= x < lo + Z.of_nat n.
Proof.
  unfold zseq. rewrite in_map_iff. split.
  - intros (i & <- & H). apply in_seq in H. lia.
  - intros H. exists (Z.to_nat (x - lo)). split; [lia|]. apply in_seq. lia.
Qed.
Lemma zseq_NoDup lo n : NoDup (zseq lo n).
Proof. unfold zseq. apply Injective_map_NoDup; [|apply seq_NoDup]. intros a b H. lia. Qed.
(** a counting loop from lo to hi (exclusive) *)
Lemma cloop_up {A} (cond : Z -> bool) (body : Z -> list A -> Prop) (f : Z -> list A) lo hi :
  (forall x t, lo <= x < hi -> body x t <-> t = f x) ->
  (forall x, lo <= x < hi -> cond x = true) -> (cond (Z.max lo hi) = false) ->
  forall t, cloop cond Z.succ body lo t <-> t = flat_map f (zseq lo (Z.to_nat (hi - lo))).
Proof.
  intros B C1 C2. remember (Z.to_nat (hi - lo)) as n eqn:En. revert lo B C1 C2 En.
  induction n as [|n IH]; intros lo B C1 C2 En t.
  - replace (Z.max lo hi) with lo in C2 by lia. simpl. split.
    + intros H. inversion H; subst; auto. congruence.
    + intros ->. now constructor.
  - rewrite zseq_S. simpl. split.
    + intros H. inversion H; subst. { rewrite C1 in H0 by lia. discriminate. }
      apply B in H1; [|lia]. subst. f_equal. unfold Z.succ in H2. apply IH in H2; auto; try lia.
      * intros x t Hx. apply B. lia.
      * intros x Hx. apply C1. lia.
      * replace (Z.max (lo + 1) hi) with (Z.max lo hi) by lia. auto.
    + intros ->. constructor; [apply C1; lia|apply B; auto; lia|]. apply IH; auto; try lia.
      * intros x t Hx. apply B. lia.
      * intros x Hx. apply C1. lia.
      * replace (Z.max (Z.succ lo) hi) with (Z.max lo hi) by lia. auto.
Qed.
Lemma cloop_ltb {A} (body : Z -> list A -> Prop) (f : Z -> list A) lo hi :
  (forall x t, lo <= x < hi -> body x t <-> t = f x) ->
  forall t, cloop (fun x => x <? hi) Z.succ body lo t <-> t = flat_map f (zseq lo (Z.to_nat (hi - lo))).
Proof.
  intros B. apply cloop_up; auto.
  - intros x H. apply Z.ltb_lt. lia.
  - apply Z.ltb_ge. lia.
Qed.
Lemma flat_map_single {A B} (f : A -> B) l : flat_map (fun x => [f x]) l = map f l.
Proof. induction l; simpl; congruence. Qed.
Lemma visit_iff {A} (a : A) t : visit a t <-> t = [a].
Proof. reflexivity. Qed.
(** all triples of a box, i fastest *)
Definition boxpts (l1 l2 l3 : list Z) : list point :=
  flat_map (fun k => flat_map (fun j => map (fun i => (i, j, k)) l1) l2) l3.
Lemma boxpts_In l1 l2 l3 i j k : In (i, j, k) (boxpts l1 l2 l3) <-> In i l1 /\ In j l2 /\ In k l3.
Proof.
  unfold boxpts. rewrite in_flat_map. split.
  - intros (k' & K & H). apply in_flat_map in H. destruct H as (j' & J & H). apply in_map_iff in H.
    destruct H as (i' & E & I). injection E as <- <- <-. auto.
  - intros (I & J & K). exists k. split; auto. apply in_flat_map. exists j. split; auto. apply in_map_iff. eauto.
Qed.
Lemma NoDup_flat {A B} (f : A -> list B) l : NoDup l -> (forall a, In a l -> NoDup (f a)) ->
  (forall a b x, In a l -> In b l -> In x (f a) -> In x (f b) -> a = b) -> NoDup (flat_map f l).
Proof.
  induction l as [|a l IH]; simpl; intros N F D; [constructor|]. inversion N; subst.
  assert (Q : forall x, In x (f a) -> ~ In x (flat_map f l)).
  { intros x Hx Hy. apply in_flat_map in Hy. destruct Hy as (b & Hb & Hxb).
    assert (a = b) by (apply (D a b x); auto). subst. contradiction. }
  specialize (IH H2 (fun b Hb => F b (or_intror Hb)) (fun b c x Hb Hc => D b c x (or_intror Hb) (or_intror Hc))).
  specialize (F a (or_introl eq_refl)). clear - Q IH F.
  induction (f a) as [|x r IHr]; simpl; auto. inversion F; subst. constructor.
  - rewrite in_app_iff. intros [?|?]; [contradiction|]. apply (Q x); simpl; auto.
  - apply IHr; auto. intros y Hy. apply Q. now right.
Qed.
Lemma boxpts_NoDup l1 l2 l3 : NoDup l1 -> NoDup l2 -> NoDup l3 -> NoDup (boxpts l1 l2 l3).
Proof.
  intros N1 N2 N3. unfold boxpts. apply NoDup_flat; auto.
  - intros k _. apply NoDup_flat; auto.
    + intros j _. apply Injective_map_NoDup; auto. intros a b H. congruence.
    + intros j j' [[a b] c] _ _ H H'. apply in_map_iff in H, H'. destruct H as (? & E & _), H' as (? & E' & _). congruence.
  - intros k k' [[a b] c] _ _ H H'. apply in_flat_map in H, H'. destruct H as (? & _ & H), H' as (? & _ & H').
    apply in_map_iff in H, H'. destruct H as (? & E & _), H' as (? & E' & _). congruence.
Qed.
(** what it means to visit a set of points once *)
Definition visits_once (loop : list point -> Prop) (S : Z -> Z -> Z -> Prop) : Prop :=
  exists t, (forall t', loop t' <-> t' = t) /\ NoDup t /\ forall i j k, In (i, j, k) t <-> S i j k.

Lemma loop3 c1 c2 c3 lo1 hi1 lo2 hi2 lo3 hi3 :
  (forall x, lo1 <= x < hi1 -> c1 x = true) -> c1 (Z.max lo1 hi1) = false ->
  (forall x, lo2 <= x < hi2 -> c2 x = true) -> c2 (Z.max lo2 hi2) = false ->
  (forall x, lo3 <= x < hi3 -> c3 x = true) -> c3 (Z.max lo3 hi3) = false ->
  forall t, cloop c3 Z.succ (fun k => cloop c2 Z.succ (fun j => cloop c1 Z.succ (fun i => visit (i, j, k)) lo1) lo2) lo3 t
    <-> t = boxpts (zseq lo1 (Z.to_nat (hi1 - lo1))) (zseq lo2 (Z.to_nat (hi2 - lo2))) (zseq lo3 (Z.to_nat (hi3 - lo3))).
Proof.
  intros A1 B1 A2 B2 A3 B3 t. unfold boxpts. apply cloop_up; auto. intros k t3 _. apply cloop_up; auto.
  intros j t2 _. rewrite <- flat_map_single. apply cloop_up; auto. intros i t1 _. apply visit_iff.
Qed.
Lemma once3 (loop : list point -> Prop) lo1 hi1 lo2 hi2 lo3 hi3 (S : Z -> Z -> Z -> Prop) :
  (forall t, loop t <-> t = boxpts (zseq lo1 (Z.to_nat (hi1 - lo1))) (zseq lo2 (Z.to_nat (hi2 - lo2))) (zseq lo3 (Z.to_nat (hi3 - lo3)))) ->
  (forall i j k, S i j k <-> lo1 <= i < hi1 /\ lo2 <= j < hi2 /\ lo3 <= k < hi3) -> visits_once loop S.
Proof.
  intros L H. eexists. split; [exact L|]. split. { apply boxpts_NoDup; apply zseq_NoDup. }
  intros i j k. rewrite boxpts_In, !zseq_In, H. lia.
Qed.

(** forallijk visits all points of the box, in the order of their Index. *)
Theorem C16_forallijk n1 n2 n3 : 0 <= n1 -> 0 <= n2 -> 0 <= n3 ->
  visits_once (forallijk n1 n2 n3) (fun i j k => 0 <= i < n1 /\ 0 <= j < n2 /\ 0 <= k < n3) /\
  forall t, forallijk n1 n2 n3 t ->
    map (fun '(i, j, k) => Index n1 n2 i j k) t = zseq 0 (Z.to_nat (n1 * n2 * n3)).
Proof.
  intros P1 P2 P3. assert (L : forall t, forallijk n1 n2 n3 t <-> t = boxpts (zseq 0 (Z.to_nat (n1 - 0))) (zseq 0 (Z.to_nat (n2 - 0))) (zseq 0 (Z.to_nat (n3 - 0)))).
  { intros t. apply loop3; intros; try (apply Z.ltb_lt; lia); apply Z.ltb_ge; lia. }
  split. { eapply once3; [exact L|]. intros. lia. }
  intros t Ht. apply L in Ht. subst t. rewrite !Z.sub_0_r. unfold boxpts.
  assert (G1 : forall a b c, map (fun i => a + i) (zseq b c) = zseq (a + b) c).
  { intros. unfold zseq. rewrite map_map. apply map_ext. intros. lia. }
  assert (G2 : forall lo a b, zseq lo a ++ zseq (lo + Z.of_nat a) b = zseq lo (a + b)).
  { intros. unfold zseq. rewrite seq_app, map_app. f_equal.
    replace (seq (0 + a) b) with (map (fun i => (a + i)%nat) (seq 0 b)).
    - rewrite map_map. apply map_ext. intros. lia.
    - clear. simpl. revert a. induction b; intros; simpl; auto. rewrite Nat.add_0_r. f_equal.
      rewrite <- seq_shift, map_map. rewrite <- (IHb (S a)). apply map_ext. intros. lia. }
  assert (Row : forall j k, map (fun '(i, j, k) => Index n1 n2 i j k) (map (fun i => (i, j, k)) (zseq 0 (Z.to_nat n1)))
     = zseq (n1 * (j + n2 * k)) (Z.to_nat n1)).
  { intros j k. rewrite map_map. transitivity (zseq (n1 * (j + n2 * k) + 0) (Z.to_nat n1)); [|now rewrite Z.add_0_r]. rewrite <- G1. apply map_ext.
    intros i. unfold Index. lia. }
  assert (Plane : forall k m lo, lo + Z.of_nat m <= n2 -> map (fun '(i, j, k) => Index n1 n2 i j k)
     (flat_map (fun j => map (fun i => (i, j, k)) (zseq 0 (Z.to_nat n1))) (zseq lo m)) =
     zseq (n1 * (lo + n2 * k)) (m * Z.to_nat n1)).
  { intros k. induction m as [|m IH]; intros lo Hm; [reflexivity|]. rewrite zseq_S. cbn [flat_map].
    rewrite map_app, Row, IH by lia.
    replace (n1 * (lo + 1 + n2 * k)) with (n1 * (lo + n2 * k) + Z.of_nat (Z.to_nat n1)) by lia.
    rewrite G2. reflexivity. }
  assert (Box : forall m lo, map (fun '(i, j, k) => Index n1 n2 i j k)
     (flat_map (fun k => flat_map (fun j => map (fun i => (i, j, k)) (zseq 0 (Z.to_nat n1))) (zseq 0 (Z.to_nat n2))) (zseq lo m)) =
     zseq (n1 * (n2 * lo)) (m * (Z.to_nat n2 * Z.to_nat n1))).
  { induction m as [|m IH]; intros lo; [reflexivity|]. rewrite zseq_S. cbn [flat_map].
    rewrite map_app, Plane, IH by lia.
    replace (n1 * (n2 * (lo + 1))) with (n1 * (0 + n2 * lo) + Z.of_nat (Z.to_nat n2 * Z.to_nat n1)).
    2:{ rewrite Nat2Z.inj_mul, !Z2Nat.id by lia. ring. }
    rewrite G2. f_equal. }
  rewrite Box. f_equal; [lia|]. rewrite <- !Z2Nat.inj_mul by nia. f_equal. lia.
Qed.
Theorem C16_forinnerijk n1 n2 n3 :
  visits_once (forinnerijk n1 n2 n3) (fun i j k => 0 < i < n1 - 1 /\ 0 < j < n2 - 1 /\ 0 < k < n3 - 1).
Proof.
  apply (once3 _ 1 (n1 - 1) 1 (n2 - 1) 1 (n3 - 1)).
  - intros t. apply loop3; intros; try (apply Z.ltb_lt; lia); apply Z.ltb_ge; lia.
  - intros. lia.
Qed.

(** ** C17 *)
Definition in_box (n1 n2 n3 i j k : Z) : Prop := 0 <= i < n1 /\ 0 <= j < n2 /\ 0 <= k < n3.
(** the coordinate of direction N *)
Definition coordN (N i j k : Z) : Z := if N =? 1 then i else if N =? 2 then j else k.
Definition size (N n1 n2 n3 : Z) : Z := coordN N n1 n2 n3.
(** not on an edge of the plane: the other two coordinates are interior *)
Definition not_edge (N n1 n2 n3 i j k : Z) : Prop :=
  (N <> 1 -> 0 < i < n1 - 1) /\ (N <> 2 -> 0 < j < n2 - 1) /\ (N <> 3 -> 0 < k < n3 - 1).

Lemma loop2 lo1 hi1 lo2 hi2 (f : Z -> Z -> point) :
  forall t, cloop (fun k => k <? hi2) Z.succ (fun k => cloop (fun j => j <? hi1) Z.succ (fun j => visit (f j k)) lo1) lo2 t <->
   t = flat_map (fun k => map (fun j => f j k) (zseq lo1 (Z.to_nat (hi1 - lo1)))) (zseq lo2 (Z.to_nat (hi2 - lo2))).
Proof.
  intros t. apply cloop_ltb. intros k t2 _. rewrite <- flat_map_single. apply cloop_ltb. intros. apply visit_iff.
Qed.
Lemma once2 (loop : list point -> Prop) (f : Z -> Z -> point) n m (S : Z -> Z -> Z -> Prop) :
  (forall t, loop t <-> t = flat_map (fun k => map (fun j => f j k) (zseq 0 (Z.to_nat (n - 0)))) (zseq 0 (Z.to_nat (m - 0)))) ->
  (forall a b a' b', f a b = f a' b' -> a = a' /\ b = b') ->
  (forall i j k, S i j k <-> exists a b, 0 <= a < n /\ 0 <= b < m /\ f a b = (i, j, k)) -> visits_once loop S.
Proof.
  intros L Inj H. eexists. split; [exact L|]. split.
  - apply NoDup_flat; [apply zseq_NoDup| |].
    + intros k _. apply Injective_map_NoDup; [|apply zseq_NoDup]. intros a b E. now apply Inj in E.
    + intros a b x _ _ Hx Hy. apply in_map_iff in Hx, Hy. destruct Hx as (c & <- & _), Hy as (d & E & _).
      apply Inj in E. destruct E; auto.
  - intros i j k. rewrite in_flat_map, H. split.
    + intros (b & Hb & Hx). apply in_map_iff in Hx. destruct Hx as (a & Ha & Hin). apply zseq_In in Hb, Hin.
      exists a, b. repeat split; auto; lia.
    + intros (a & b & Ha & Hb & E). exists b. split; [apply zseq_In; lia|]. apply in_map_iff. exists a. split; auto.
      apply zseq_In. lia.
Qed.
Theorem C17_forplane1 n1 n2 n3 p : 0 <= p < n1 ->
  visits_once (forplane1 n1 n2 n3 p) (fun i j k => in_box n1 n2 n3 i j k /\ i = p).
Proof.
  intros P. apply (once2 _ (fun j k => (p, j, k)) n2 n3); [apply loop2| |].
  - intros. split; congruence.
  - intros i j k. unfold in_box. split.
    + intros (Q & ->). exists j, k. repeat split; tauto.
    + intros (a & b & Ha & Hb & E). injection E as <- <- <-. tauto.
Qed.
Theorem C17_forplane2 n1 n2 n3 p : 0 <= p < n2 ->
  visits_once (forplane2 n1 n2 n3 p) (fun i j k => in_box n1 n2 n3 i j k /\ j = p).
Proof.
  intros P. apply (once2 _ (fun i k => (i, p, k)) n1 n3); [apply loop2| |].
  - intros. split; congruence.
  - intros i j k. unfold in_box. split.
    + intros (Q & ->). exists i, k. repeat split; tauto.
    + intros (a & b & Ha & Hb & E). injection E as <- <- <-. tauto.
Qed.
Theorem C17_forplane3 n1 n2 n3 p : 0 <= p < n3 ->
  visits_once (forplane3 n1 n2 n3 p) (fun i j k => in_box n1 n2 n3 i j k /\ k = p).
Proof.
  intros P. apply (once2 _ (fun i j => (i, j, p)) n1 n2); [apply loop2| |].
  - intros. split; congruence.
  - intros i j k. unfold in_box. split.
    + intros (Q & ->). exists i, j. repeat split; tauto.
    + intros (a & b & Ha & Hb & E). injection E as <- <- <-. tauto.
Qed.
(** one loop of forplaneN or forinnerplaneN: d is 0 (whole plane) or 1 (without edges) *)
Lemma planeN_1 (eqN : bool) n p d : 0 <= p < n -> d = 0 \/ d = 1 ->
  let lo := if eqN then p else d in let hi := if eqN then p + 1 else n - d in
  let c := fun x => (x <? n - (if eqN then 0 else d)) && ((x =? p) || negb eqN) in
  (forall x, lo <= x < hi -> c x = true) /\ c (Z.max lo hi) = false.
Proof.
  intros P D. cbv zeta. destruct eqN; simpl.
  - split.
    + intros x H. rewrite orb_false_r. apply andb_true_intro. split; [apply Z.ltb_lt|apply Z.eqb_eq]; lia.
    + replace (Z.max p (p + 1) =? p) with false; [now rewrite andb_false_r|]. symmetry. apply Z.eqb_neq. lia.
  - split.
    + intros x H. rewrite orb_true_r, andb_true_r. apply Z.ltb_lt. lia.
    + rewrite orb_true_r, andb_true_r. apply Z.ltb_ge. lia.
Qed.
Theorem C17_forplaneN N n1 n2 n3 p : N = 1 \/ N = 2 \/ N = 3 -> 0 <= p < size N n1 n2 n3 ->
  visits_once (forplaneN N n1 n2 n3 p) (fun i j k => in_box n1 n2 n3 i j k /\ coordN N i j k = p).
Proof.
  intros HN P.
  apply (once3 _ (if N =? 1 then p else 0) (if N =? 1 then p + 1 else n1) (if N =? 2 then p else 0) (if N =? 2 then p + 1 else n2)
    (if N =? 3 then p else 0) (if N =? 3 then p + 1 else n3)).
  2:{ intros i j k. unfold in_box, coordN. destruct HN as [-> | [-> | ->]]; cbn in *; lia. }
  intros t. unfold forplaneN.
  replace (p * b2z (N =? 1)) with (if N =? 1 then p else 0) by (destruct (N =? 1); unfold b2z; lia).
  replace (p * b2z (N =? 2)) with (if N =? 2 then p else 0) by (destruct (N =? 2); unfold b2z; lia).
  replace (p * b2z (N =? 3)) with (if N =? 3 then p else 0) by (destruct (N =? 3); unfold b2z; lia).
  apply loop3; destruct HN as [-> | [-> | ->]]; cbn in P |- *; intros;
    rewrite ?orb_false_r, ?orb_true_r, ?andb_true_r in *; 
    try (apply Z.ltb_lt; lia); try (apply Z.ltb_ge; lia);
    try (apply andb_true_intro; split; [apply Z.ltb_lt|apply Z.eqb_eq]; lia);
    try (apply andb_false_intro2; apply Z.eqb_neq; lia).
Qed.
Theorem C17_forinnerplaneN N n1 n2 n3 p : N = 1 \/ N = 2 \/ N = 3 -> 0 <= p < size N n1 n2 n3 ->
  visits_once (forinnerplaneN N n1 n2 n3 p)
    (fun i j k => in_box n1 n2 n3 i j k /\ coordN N i j k = p /\ not_edge N n1 n2 n3 i j k).
Proof.
  intros HN P.
  apply (once3 _ (if N =? 1 then p else 1) (if N =? 1 then p + 1 else n1 - 1) (if N =? 2 then p else 1) (if N =? 2 then p + 1 else n2 - 1)
    (if N =? 3 then p else 1) (if N =? 3 then p + 1 else n3 - 1)).
  2:{ intros i j k. unfold in_box, coordN, not_edge. destruct HN as [-> | [-> | ->]]; cbn in *; lia. }
  intros t. unfold forinnerplaneN.
  replace (1 + (p - 1) * b2z (N =? 1)) with (if N =? 1 then p else 1) by (destruct (N =? 1); unfold b2z; lia).
  replace (1 + (p - 1) * b2z (N =? 2)) with (if N =? 2 then p else 1) by (destruct (N =? 2); unfold b2z; lia).
  replace (1 + (p - 1) * b2z (N =? 3)) with (if N =? 3 then p else 1) by (destruct (N =? 3); unfold b2z; lia).
  apply loop3; destruct HN as [-> | [-> | ->]]; unfold b2z; cbn [negb Z.eqb Pos.eqb] in *; cbn in P; intros;
    rewrite ?orb_false_r, ?orb_true_r, ?andb_true_r in *; 
    try (apply Z.ltb_lt; lia); try (apply Z.ltb_ge; lia);
    try (apply andb_true_intro; split; [apply Z.ltb_lt|apply Z.eqb_eq]; lia);
    try (apply andb_false_intro2; apply Z.eqb_neq; lia).
Qed.
(** neighbouring points differ by one step in one coordinate *)
Definition adjacent (a b : point) : Prop :=
  match a, b with (i, j, k), (i', j', k') => Z.abs (i - i') + Z.abs (j - j') + Z.abs (k - k') = 1 end.
Inductive no_jump : list point -> Prop :=
| nj_nil : no_jump []
| nj_one a : no_jump [a]
| nj_cons a b l : adjacent a b -> no_jump (b :: l) -> no_jump (a :: b :: l).

Definition up (n : Z) : list Z := zseq 0 (Z.to_nat n).
Definition row (n k : Z) : list Z := if Z.even k then up n else rev (up n).
Lemma snake_up n (body : Z -> list point -> Prop) f m : 0 <= m -> (forall x t, body x t <-> t = [f x]) ->
  forall t, cloop (fun x => (x <? n) && (x >=? 0)) (fun x => x + 1 - 0) body m t <-> t = map f (zseq m (Z.to_nat (n - m))).
Proof.
  intros M B. remember (Z.to_nat (n - m)) as c eqn:Ec. revert m M Ec. induction c as [|c IH]; intros m M Ec t.
  - assert (F : (m <? n) && (m >=? 0) = false). { apply andb_false_intro1. apply Z.ltb_ge. lia. }
    simpl. split; [intros H; inversion H; subst; auto; congruence|intros ->; now constructor].
  - assert (F : (m <? n) && (m >=? 0) = true).
    { apply andb_true_intro. split; [apply Z.ltb_lt; lia|]. rewrite Z.geb_leb. apply Z.leb_le. lia. }
    rewrite zseq_S. cbn [map]. split.
    + intros H. inversion H; subst. { congruence. } apply B in H1. subst. simpl. f_equal.
      replace (m + 1 - 0) with (m + 1) in H2 by lia. apply IH in H2; auto; lia.
    + intros ->. change (f m :: ?r) with ([f m] ++ r). constructor; auto. { now apply B. }
      replace (m + 1 - 0) with (m + 1) by lia. apply IH; auto; lia.
Qed.
Lemma rev_zseq_S lo n : rev (zseq lo (S n)) = (lo + Z.of_nat n) :: rev (zseq lo n).
Proof. unfold zseq. rewrite seq_S, map_app, rev_app_distr. reflexivity. Qed.
Lemma snake_down n (body : Z -> list point -> Prop) f m : m < n -> -1 <= m -> (forall x t, body x t <-> t = [f x]) ->
  forall t, cloop (fun x => (x <? n) && (x >=? 0)) (fun x => x + 1 - 2) body m t <-> t = map f (rev (zseq 0 (Z.to_nat (m + 1)))).
Proof.
  intros M1 M2 B. remember (Z.to_nat (m + 1)) as c eqn:Ec. revert m M1 M2 Ec. induction c as [|c IH]; intros m M1 M2 Ec t.
  - assert (F : (m <? n) && (m >=? 0) = false). { apply andb_false_intro2. rewrite Z.geb_leb. apply Z.leb_gt. lia. }
    simpl. split; [intros H; inversion H; subst; auto; congruence|intros ->; now constructor].
  - assert (F : (m <? n) && (m >=? 0) = true).
    { apply andb_true_intro. split; [apply Z.ltb_lt; lia|]. rewrite Z.geb_leb. apply Z.leb_le. lia. }
    rewrite rev_zseq_S. replace (0 + Z.of_nat c) with m by lia. cbn [map]. split.
    + intros H. inversion H; subst. { congruence. } apply B in H1. subst. simpl. f_equal.
      replace (m + 1 - 2) with (m - 1) in H2 by lia. apply IH in H2; auto; lia.
    + intros ->. change (f m :: ?r) with ([f m] ++ r). constructor; auto. { now apply B. }
      replace (m + 1 - 2) with (m - 1) by lia. apply IH; auto; lia.
Qed.
Lemma snake_ok n k f : 0 <= n -> 0 <= k -> forall t, snake n k (fun x => visit (f x)) t <-> t = map f (row n k).
Proof.
  intros Hn Hk t. unfold snake, row, up. rewrite Z.rem_mod_nonneg by lia. rewrite Zmod_even. destruct (Z.even k).
  - rewrite !Z.mul_0_r. rewrite (snake_up n _ f 0); [|lia|intros; apply visit_iff].
    now rewrite Z.sub_0_r.
  - rewrite !Z.mul_1_r. rewrite (snake_down n _ f (n - 1)); try lia; [|intros; apply visit_iff].
    now replace (n - 1 + 1) with n by lia.
Qed.
Lemma row_In n k x : In x (row n k) <-> 0 <= x < n.
Proof. unfold row, up. destruct (Z.even k); rewrite <- ?in_rev, zseq_In; lia. Qed.
Lemma row_NoDup n k : NoDup (row n k).
Proof. unfold row. destruct (Z.even k); [|apply NoDup_rev]; apply zseq_NoDup. Qed.
Lemma no_jump_app l l' a : no_jump (l ++ [a]) -> (match l' with [] => True | b :: _ => adjacent a b end) -> no_jump l' ->
  no_jump (l ++ a :: l').
Proof.
  intros H A H'. induction l as [|x l IH]; cbn [app] in *.
  - destruct l'; constructor; auto.
  - destruct l as [|y l]; cbn [app] in *; inversion H; subst; constructor; auto.
Qed.
Definition lastx (n k : Z) : Z := if Z.even k then n - 1 else 0.
Definition firstx (n k : Z) : Z := if Z.even k then 0 else n - 1.
Lemma row_last n k : 0 < n -> exists l, row n k = l ++ [lastx n k].
Proof.
  intros H. unfold row, up, lastx. destruct (Z.even k).
  - replace (Z.to_nat n) with (S (Z.to_nat (n - 1))) by lia. exists (zseq 0 (Z.to_nat (n - 1))).
    unfold zseq. rewrite seq_S, map_app. simpl. do 2 f_equal. lia.
  - replace (Z.to_nat n) with (S (Z.to_nat (n - 1))) by lia. rewrite zseq_S. simpl. eauto.
Qed.
Lemma row_first n k : 0 < n -> exists l, row n k = firstx n k :: l.
Proof.
  intros H. unfold row, up, firstx. destruct (Z.even k).
  - replace (Z.to_nat n) with (S (Z.to_nat (n - 1))) by lia. rewrite zseq_S. eauto.
  - replace (Z.to_nat n) with (S (Z.to_nat (n - 1))) by lia. rewrite rev_zseq_S. 
    replace (0 + Z.of_nat (Z.to_nat (n - 1))) with (n - 1) by lia. eauto.
Qed.
Lemma first_last n k : firstx n (k + 1) = lastx n k.
Proof.
  unfold firstx, lastx. rewrite Z.even_add. change (Z.even 1) with false. destruct (Z.even k); reflexivity.
Qed.
Lemma adjacent_sym a b : adjacent a b -> adjacent b a.
Proof. destruct a as [[? ?] ?], b as [[? ?] ?]. unfold adjacent. lia. Qed.
Lemma no_jump_rev_zseq (f : Z -> point) : (forall x, adjacent (f x) (f (x + 1))) -> forall n lo, no_jump (map f (zseq lo n)) /\ no_jump (map f (rev (zseq lo n))).
Proof.
  intros A. induction n as [|n IH]; intros lo.
  - split; constructor.
  - split.
    + rewrite zseq_S. cbn [map]. destruct n. { constructor. } destruct (IH (lo + 1)) as [I _].
      rewrite zseq_S in *. cbn [map] in *. constructor; auto.
    + rewrite rev_zseq_S. cbn [map]. destruct n. { constructor. } destruct (IH lo) as [_ I].
      rewrite rev_zseq_S in *. cbn [map] in *. constructor; auto. apply adjacent_sym.
      replace (lo + Z.of_nat (S n)) with (lo + Z.of_nat n + 1) by lia. auto.
Qed.
Lemma no_jump_row (f : Z -> point) n k : (forall x, adjacent (f x) (f (x + 1))) -> no_jump (map f (row n k)).
Proof. intros A. unfold row, up. destruct (Z.even k); now apply no_jump_rev_zseq. Qed.
Lemma no_jump_plane (f : Z -> Z -> point) n : (forall x k, adjacent (f x k) (f (x + 1) k)) -> (forall x k, adjacent (f x k) (f x (k + 1))) ->
  forall m lo, no_jump (flat_map (fun k => map (fun x => f x k) (row n k)) (zseq lo m)).
Proof.
  intros A B. destruct (Z_le_gt_dec n 0) as [Z0|Z0].
  { intros m lo. assert (forall k, row n k = []) as R.
    { intros k. destruct (row n k) as [|y r] eqn:E; auto. assert (In y (row n k)) by (rewrite E; now left). apply row_In in H. lia. }
    induction (zseq lo m); simpl; [constructor|]. now rewrite R. }
  induction m as [|m IH]; intros lo. { constructor. }
  rewrite zseq_S. cbn [flat_map]. destruct (row_last n lo ltac:(lia)) as (l & Er). rewrite Er, map_app. cbn [map].
  rewrite <- app_assoc. cbn [app]. apply no_jump_app; auto.
  - pose proof (no_jump_row (fun x => f x lo) n lo (fun x => A x lo)) as N. rewrite Er, map_app in N. exact N.
  - destruct m. { exact I. } rewrite zseq_S. cbn [flat_map]. destruct (row_first n (lo + 1) ltac:(lia)) as (r & ->).
    cbn [map app]. rewrite first_last. apply B.
Qed.
Lemma nojump_loop n m (f : Z -> Z -> point) : 0 <= n -> forall t,
  cloop (fun k => k <? m) Z.succ (fun k => snake n k (fun x => visit (f x k))) 0 t <->
  t = flat_map (fun k => map (fun x => f x k) (row n k)) (zseq 0 (Z.to_nat (m - 0))).
Proof. intros Hn t. apply cloop_ltb. intros k t' Hk. apply snake_ok; lia. Qed.
Lemma once_snake (loop : list point -> Prop) (f : Z -> Z -> point) n m (S : Z -> Z -> Z -> Prop) :
  (forall t, loop t <-> t = flat_map (fun k => map (fun j => f j k) (row n k)) (zseq 0 (Z.to_nat (m - 0)))) ->
  (forall a b a' b', f a b = f a' b' -> a = a' /\ b = b') ->
  (forall i j k, S i j k <-> exists a b, 0 <= a < n /\ 0 <= b < m /\ f a b = (i, j, k)) -> visits_once loop S.
Proof.
  intros L Inj H. eexists. split; [exact L|]. split.
  - apply NoDup_flat; [apply zseq_NoDup| |].
    + intros k _. apply Injective_map_NoDup; [|apply row_NoDup]. intros a b E. now apply Inj in E.
    + intros a b x _ _ Hx Hy. apply in_map_iff in Hx, Hy. destruct Hx as (c & <- & _), Hy as (d & E & _).
      apply Inj in E. destruct E; auto.
  - intros i j k. rewrite in_flat_map, H. split.
    + intros (b & Hb & Hx). apply in_map_iff in Hx. destruct Hx as (a & Ha & Hin). apply zseq_In in Hb. apply row_In in Hin.
      exists a, b. repeat split; auto; lia.
    + intros (a & b & Ha & Hb & E). exists b. split; [apply zseq_In; lia|]. apply in_map_iff. exists a. split; auto.
      apply row_In. lia.
Qed.
Ltac adj := intros; unfold adjacent; lia.
Theorem C17_forplane1_nojump n1 n2 n3 p : 0 <= p < n1 -> 0 <= n2 ->
  visits_once (forplane1_nojump n1 n2 n3 p) (fun i j k => in_box n1 n2 n3 i j k /\ i = p) /\
  forall t, forplane1_nojump n1 n2 n3 p t -> no_jump t.
Proof.
  intros P Q. pose proof (nojump_loop n2 n3 (fun j k => (p, j, k)) Q) as L. split.
  - apply (once_snake _ _ n2 n3 _ L).
    + intros. split; congruence.
    + intros i j k. unfold in_box. split.
      * intros (R & ->). exists j, k. repeat split; tauto.
      * intros (a & b & Ha & Hb & E). injection E as <- <- <-. tauto.
  - intros t H. apply L in H. subst. apply no_jump_plane; adj.
Qed.
Theorem C17_forplane2_nojump n1 n2 n3 p : 0 <= p < n2 -> 0 <= n1 ->
  visits_once (forplane2_nojump n1 n2 n3 p) (fun i j k => in_box n1 n2 n3 i j k /\ j = p) /\
  forall t, forplane2_nojump n1 n2 n3 p t -> no_jump t.
Proof.
  intros P Q. pose proof (nojump_loop n1 n3 (fun i k => (i, p, k)) Q) as L. split.
  - apply (once_snake _ _ n1 n3 _ L).
    + intros. split; congruence.
    + intros i j k. unfold in_box. split.
      * intros (R & ->). exists i, k. repeat split; tauto.
      * intros (a & b & Ha & Hb & E). injection E as <- <- <-. tauto.
  - intros t H. apply L in H. subst. apply no_jump_plane; adj.
Qed.
Theorem C17_forplane3_nojump n1 n2 n3 p : 0 <= p < n3 -> 0 <= n1 ->
  visits_once (forplane3_nojump n1 n2 n3 p) (fun i j k => in_box n1 n2 n3 i j k /\ k = p) /\
  forall t, forplane3_nojump n1 n2 n3 p t -> no_jump t.
Proof.
  intros P Q. pose proof (nojump_loop n1 n2 (fun i j => (i, j, p)) Q) as L. split.
  - apply (once_snake _ _ n1 n2 _ L).
    + intros. split; congruence.
    + intros i j k. unfold in_box. split.
      * intros (R & ->). exists i, j. repeat split; tauto.
      * intros (a & b & Ha & Hb & E). injection E as <- <- <-. tauto.
  - intros t H. apply L in H. subst. apply no_jump_plane; adj.
Qed.

(** ** C15 *)
(** the active boxes in increasing order *)
Definition active_boxes (fs : list bool) : list Z :=
  filter (fun b => negb (nth (Z.to_nat b) fs true)) (zseq 0 (List.length fs)).
(** flags after a history of calls: the last call that names a box counts *)
Definition names (o : aop) (b : Z) : option bool :=
  match o with
  | Deact il => if in_dec Z.eq_dec b il then Some true else None
  | Act il => if in_dec Z.eq_dec b il then Some false else None
  | DeactAll => Some true
  | ActAll => Some false
  end.
Fixpoint flag_after (os : list aop) (b : Z) (fl : bool) : bool :=
  match os with [] => fl | o :: r => flag_after r b (match names o b with Some f => f | None => fl end) end.
Definition valid_op (nb : nat) (o : aop) : Prop :=
  match o with Deact il => forall b, In b il -> 0 <= b < Z.of_nat nb | Act il => forall b, In b il -> 0 <= b < Z.of_nat nb | _ => True end.

Lemma count_active_ok l : forall n, count_active l n = n + Z.of_nat (List.length (filter negb l)).
Proof. induction l as [|[] l IH]; intros n; simpl; rewrite ?IH; lia. Qed.
Lemma filter_len l : (List.length (filter negb l) + List.length (filter (fun x => x) l) = List.length l)%nat.
Proof. induction l as [|[] l IH]; simpl; lia. Qed.
Definition AInv (g : agrid) : Prop := ninactive g = Z.of_nat (List.length (filter (fun x => x) (inactive g))).
Lemma set_ninactive_inv g : AInv (set_ninactive g).
Proof. unfold AInv, set_ninactive. simpl. rewrite count_active_ok. pose proof (filter_len (inactive g)). lia. Qed.
Lemma set_flags_ok fl il : forall fs, (forall b, In b il -> 0 <= b < Z.of_nat (List.length fs)) ->
  exists fs', set_flags fs il fl = Ok fs' /\ List.length fs' = List.length fs /\
  forall b, 0 <= b < Z.of_nat (List.length fs) ->
    nth (Z.to_nat b) fs' true = if in_dec Z.eq_dec b il then fl else nth (Z.to_nat b) fs true.
Proof.
  induction il as [|x il IH]; intros fs V.
  - exists fs. simpl. auto.
  - cbn [set_flags]. destruct (V x (or_introl eq_refl)) as [V1 V2].
    replace ((0 <=? x) && (x <? Z.of_nat (List.length fs))) with true.
    2:{ symmetry. apply andb_true_intro. split; [apply Z.leb_le|apply Z.ltb_lt]; lia. }
    destruct (IH (upd fs (Z.to_nat x) fl)) as (fs' & E & L & H).
    { rewrite upd_length. intros b Hb. apply V. now right. }
    rewrite upd_length in *. exists fs'. split; auto. split; auto. intros b Hb. rewrite H by auto.
    assert (U : nth (Z.to_nat b) (upd fs (Z.to_nat x) fl) true = if Z.eq_dec x b then fl else nth (Z.to_nat b) fs true).
    { destruct (Z.eq_dec x b) as [->|NE].
      - apply nth_error_nth. apply nth_error_upd_eq. lia.
      - pose proof (nth_error_upd_ne fs (Z.to_nat x) (Z.to_nat b) fl ltac:(lia)) as Q.
        destruct (nth_error fs (Z.to_nat b)) as [y|] eqn:Ey.
        + rewrite (nth_error_nth _ _ true Ey). now apply nth_error_nth.
        + apply nth_error_None in Ey. lia. }
    rewrite U. simpl. destruct (in_dec Z.eq_dec b il), (Z.eq_dec x b); auto.
Qed.
Lemma astep_ok g o nb : List.length (inactive g) = nb -> valid_op nb o -> exists g', astep g o = Ok g' /\ AInv g' /\
  List.length (inactive g') = nb /\
  forall b, 0 <= b < Z.of_nat nb -> nth (Z.to_nat b) (inactive g') true = match names o b with Some f => f | None => nth (Z.to_nat b) (inactive g) true end.
Proof.
  intros L V. destruct o as [il|il| |]; simpl in *; unfold set_box_inactiveflags.
  - destruct (set_flags_ok true il (inactive g)) as (fs & -> & L' & H). { now rewrite L. } cbn [rbind].
    eexists. split; [reflexivity|]. split; [apply set_ninactive_inv|]. simpl. split; [lia|]. intros b Hb.
    rewrite H by lia. destruct (in_dec Z.eq_dec b il); auto.
  - destruct (set_flags_ok false il (inactive g)) as (fs & -> & L' & H). { now rewrite L. } cbn [rbind].
    eexists. split; [reflexivity|]. split; [apply set_ninactive_inv|]. simpl. split; [lia|]. intros b Hb.
    rewrite H by lia. destruct (in_dec Z.eq_dec b il); auto.
  - eexists. split; [reflexivity|]. split; [apply set_ninactive_inv|]. simpl. rewrite map_length. split; auto. intros b Hb.
    now rewrite (map_nth (fun _ : bool => true) (inactive g) true).
  - eexists. split; [reflexivity|]. split; [apply set_ninactive_inv|]. simpl. rewrite map_length. split; auto. intros b Hb.
    rewrite nth_indep with (d' := false) by (rewrite map_length; lia). now rewrite (map_nth (fun _ : bool => false) (inactive g) true).
Qed.
Lemma arun_ok os nb : forall g, List.length (inactive g) = nb -> Forall (valid_op nb) os -> AInv g ->
  exists g', arun g os = Ok g' /\ AInv g' /\ List.length (inactive g') = nb /\
  forall b, 0 <= b < Z.of_nat nb -> nth (Z.to_nat b) (inactive g') true = flag_after os b (nth (Z.to_nat b) (inactive g) true).
Proof.
  induction os as [|o os IH]; intros g L V I; simpl.
  - eauto.
  - inversion V; subst. destruct (astep_ok g o _ eq_refl H1) as (g1 & -> & I1 & L1 & N1). cbn [rbind].
    destruct (IH g1 L1 H2 I1) as (g2 & E2 & I2 & L2 & N2). exists g2. split; auto. split; auto. split; auto.
    intros b Hb. rewrite N2 by auto. rewrite N1 by auto. reflexivity.
Qed.
Lemma ith_loop_ok l : forall b nn i, ith_loop l b nn i =
  if i <? nn then -1 else nth (Z.to_nat (i - nn)) (map (fun x => b + x) (active_boxes l)) (-1).
Proof.
  assert (AB : forall fl l, active_boxes (fl :: l) = (if fl then [] else [0]) ++ map (fun x => 1 + x) (active_boxes l)).
  { intros fl l0. unfold active_boxes. cbn [List.length]. rewrite zseq_S. cbn [filter].
    assert (filter (fun b => negb (nth (Z.to_nat b) (fl :: l0) true)) (zseq (0 + 1) (List.length l0)) =
      map (fun x => 1 + x) (filter (fun b => negb (nth (Z.to_nat b) l0 true)) (zseq 0 (List.length l0)))) as ->.
    { replace (zseq (0 + 1) (List.length l0)) with (map (fun x => 1 + x) (zseq 0 (List.length l0))).
      2:{ unfold zseq. rewrite map_map. apply map_ext. intros. lia. }
      assert (G : forall m, (forall x, In x m -> 0 <= x) ->
        filter (fun b => negb (nth (Z.to_nat b) (fl :: l0) true)) (map (fun x => 1 + x) m) =
        map (fun x => 1 + x) (filter (fun b => negb (nth (Z.to_nat b) l0 true)) m)).
      { induction m as [|x m IH]; intros P; auto. cbn [map filter].
        replace (Z.to_nat (1 + x)) with (S (Z.to_nat x)) by (specialize (P x (or_introl eq_refl)); lia).
        change (nth (S (Z.to_nat x)) (fl :: l0) true) with (nth (Z.to_nat x) l0 true).
        destruct (negb (nth (Z.to_nat x) l0 true)); cbn [map]; rewrite IH; auto; intros; apply P; now right. }
      apply G. intros x Hx. apply zseq_In in Hx. lia. }
    cbn [Z.to_nat nth]. destruct fl; reflexivity. }
  induction l as [|fl l IH]; intros b nn i; cbn [ith_loop].
  - destruct (i <? nn); auto. unfold active_boxes. simpl. now destruct (Z.to_nat (i - nn)).
  - rewrite AB. destruct fl.
    + rewrite IH. cbn [app]. rewrite map_map. destruct (i <? nn); auto. f_equal. apply map_ext. intros. lia.
    + cbn [app map]. rewrite map_map. destruct (Z.eqb_spec nn i) as [->|NE].
      * rewrite Z.ltb_irrefl, Z.sub_diag. simpl. lia.
      * rewrite IH. destruct (Z.ltb_spec i nn), (Z.ltb_spec i (nn + 1)); auto; try lia.
        replace (Z.to_nat (i - nn)) with (S (Z.to_nat (i - (nn + 1)))) by lia. cbn [nth]. f_equal. apply map_ext. intros. lia.
Qed.
Lemma active_count fs : Z.of_nat (List.length (active_boxes fs)) = Z.of_nat (List.length (filter negb fs)).
Proof.
  f_equal. unfold active_boxes, zseq. generalize (@eq_refl _ fs).
  assert (G : forall pre l, fs = pre ++ l ->
    List.length (filter (fun b => negb (nth (Z.to_nat b) fs true)) (map (fun i => 0 + Z.of_nat i) (seq (List.length pre) (List.length l))))
    = List.length (filter negb l)).
  { intros pre l. revert pre. induction l as [|x l IH]; intros pre E; auto. cbn [List.length seq map filter].
    assert (nth (Z.to_nat (0 + Z.of_nat (List.length pre))) fs true = x) as ->.
    { rewrite Z.add_0_l, Nat2Z.id, E, app_nth2 by lia. now rewrite Nat.sub_diag. }
    specialize (IH (pre ++ [x])). rewrite app_length, Nat.add_1_r in IH.
    destruct (negb x); cbn [List.length]; rewrite IH; auto; now rewrite <- app_assoc. }
  intros _. apply (G [] fs). reflexivity.
Qed.
Lemma all_active fs : filter (fun x => x) fs = [] -> active_boxes fs = zseq 0 (List.length fs).
Proof.
  intros H. unfold active_boxes. assert (A : forall x, In x fs -> x = false).
  { intros [] Hx; auto. assert (In true (filter (fun x => x) fs)) by (now apply filter_In). rewrite H in H0. destruct H0. }
  assert (B : forall x, In x (zseq 0 (List.length fs)) -> negb (nth (Z.to_nat x) fs true) = true).
  { intros x Hx. apply zseq_In in Hx. rewrite (A (nth (Z.to_nat x) fs true)); auto. apply nth_In. lia. }
  induction (zseq 0 (List.length fs)) as [|x l IH]; simpl; auto. rewrite B by (now left). f_equal. apply IH. intros. apply B. now right.
Qed.
(** After any history of activating and deactivating boxes of the grid, the flag of a box is the one of the last
    call naming it, ninactive is the number of inactive boxes and the i-th active box is found. *)
Theorem C15_active_boxes nb os : Forall (valid_op nb) os ->
  exists g, arun (alloc_agrid nb) os = Ok g /\
    List.length (inactive g) = nb /\
    (forall b, 0 <= b < Z.of_nat nb -> nth (Z.to_nat b) (inactive g) true = flag_after os b false) /\
    ninactive g = Z.of_nat nb - Z.of_nat (List.length (active_boxes (inactive g))) /\
    forall i, IndexOf_ith_ActiveBox g i = if 0 <=? i then nth (Z.to_nat i) (active_boxes (inactive g)) (-1) else -1.
Proof.
  intros V. destruct (arun_ok os nb (alloc_agrid nb)) as (g & E & I & L & N); auto.
  { simpl. apply repeat_length. }
  { unfold AInv, alloc_agrid. simpl. clear. induction nb; simpl; auto. }
  exists g. split; auto. split; auto. split.
  { intros b Hb. rewrite N by auto. f_equal. simpl. apply nth_error_nth. apply nth_error_repeat. lia. }
  assert (C : ninactive g = Z.of_nat nb - Z.of_nat (List.length (active_boxes (inactive g)))).
  { rewrite active_count, I. pose proof (filter_len (inactive g)). lia. }
  split; auto. intros i. unfold IndexOf_ith_ActiveBox. destruct (Z.eqb_spec (ninactive g) 0) as [Z0|NZ].
  - rewrite all_active.
    2:{ unfold AInv in I. destruct (filter (fun x => x) (inactive g)); auto. simpl in I. lia. }
    destruct (Z.leb_spec 0 i); auto. cbn [andb]. destruct (Z.ltb_spec i (Z.of_nat (List.length (inactive g)))).
    + symmetry. apply nth_error_nth. unfold zseq. rewrite nth_error_map.
      rewrite (nth_error_nth' _ 0%nat) by (rewrite seq_length; lia). rewrite seq_nth by lia. simpl. f_equal. lia.
    + rewrite nth_overflow; auto. unfold zseq. rewrite map_length, seq_length. lia.
  - rewrite ith_loop_ok, Z.sub_0_r. replace (i <? 0) with (negb (0 <=? i)) by (rewrite Z.leb_antisym, negb_involutive; auto).
    destruct (0 <=? i); auto. cbn [negb]. f_equal. apply (map_id (active_boxes (inactive g))).
Qed.
Example C15_ex : exists g, arun (alloc_agrid 4) [Deact [0; 2]; Act [2]; Deact [3]] = Ok g /\
  ninactive g = 2 /\ IndexOf_ith_ActiveBox g 1 = 2 /\ IndexOf_ith_ActiveBox g 2 = -1.
Proof. eexists. repeat split. Qed.
Example C17_ex : forplane1_nojump 5 2 3 4 [(4,0,0); (4,1,0); (4,1,1); (4,0,1); (4,0,2); (4,1,2)].
Proof. apply (nojump_loop 2 3 (fun j k => (4, j, k))); [lia|reflexivity]. Qed.
Print Assumptions C15_active_boxes.
Print Assumptions C16_inverse.
Print Assumptions C16_onto.
Print Assumptions C16_injective.
Print Assumptions C16_forallijk.
Print Assumptions C16_forinnerijk.
Print Assumptions C17_forplane1.
Print Assumptions C17_forplane2.
Print Assumptions C17_forplane3.
Print Assumptions C17_forplaneN.
Print Assumptions C17_forinnerplaneN.
Print Assumptions C17_forplane1_nojump.
Print Assumptions C17_forplane2_nojump.
Print Assumptions C17_forplane3_nojump.

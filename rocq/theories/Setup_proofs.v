(** Proofs about arrangements of boxes. *)
From Verif Require Import Rutil Base Loops Sparse_model Sparse_proofs Coord_model Coord_spec Cub_model Cub_spec Cub_proofs Cub_props Cub2_props Cub3_props Setup_model Setup_spec.
From Coq Require Import Lia.
Local Open Scope R_scope.

(** ** six pyramids around a cuboid *)
Definition posD (D : nat -> R) : Prop := forall d, (d < 6)%nat -> 0 < D d.
Definition rng (d : nat) (D : nat -> R) (A B : R) : Prop := exists a b c e, set_AB_min_max_from_Din d D = Ok (a, b, c, e) /\ a <= A <= b /\ c <= B <= e.
Definition srng (d : nat) (D : nat -> R) (A B : R) : Prop := exists a b c e, set_AB_min_max_from_Din d D = Ok (a, b, c, e) /\ a < A < b /\ c < B < e.
Lemma srng_rng d D A B : srng d D A B -> rng d D A B.
Proof. intros (a & b & c & e & E & HA & HB). exists a, b, c, e. split; auto. lra. Qed.
Lemma six_all (P : nat -> Prop) : P 0%nat -> P 1%nat -> P 2%nat -> P 3%nat -> P 4%nat -> P 5%nat -> forall d, (d < 6)%nat -> P d.
Proof. intros. destruct (six d H5) as [E|[E|[E|[E|[E|E]]]]]; now subst. Qed.
Lemma rng_iff D : posD D -> forall d, (d < 6)%nat -> forall A B, rng d D A B <-> forall e, (e < 6)%nat -> sgn e * ray d A B (axis e) <= D e / D d.
Proof.
  intros P. pose proof (P 0%nat ltac:(lia)) as P0. pose proof (P 1%nat ltac:(lia)) as P1. pose proof (P 2%nat ltac:(lia)) as P2. pose proof (P 3%nat ltac:(lia)) as P3. pose proof (P 4%nat ltac:(lia)) as P4. pose proof (P 5%nat ltac:(lia)) as P5.
  assert (Q : forall a b, 0 < a -> 0 < b -> 0 < a / b) by (intros; now apply Rdiv_lt_0_compat). assert (O : forall a, 0 < a -> a / a = 1) by (intros; field; lra). assert (N : forall a b, 0 < b -> - a / b = - (a / b)) by (intros; field; lra).
  apply (six_all (fun d => forall A B, rng d D A B <-> forall e, (e < 6)%nat -> sgn e * ray d A B (axis e) <= D e / D d)); intros A B; split.
  all: try (intros (a & b & c & e & E & HA & HB); cbn in E; injection E as <- <- <- <-; rewrite ?N in HA, HB by auto; apply six_all; unfold ray, sgn; cbn [axis Nat.odd Nat.even negb]; rewrite ?O by auto; try lra;
    match goal with |- _ <= ?x / ?y => pose proof (Q x y ltac:(auto) ltac:(auto)); lra end).
  all: intros H; do 4 eexists; (split; [reflexivity|]); pose proof (H 0%nat ltac:(lia)) as H0; pose proof (H 1%nat ltac:(lia)) as H1; pose proof (H 2%nat ltac:(lia)) as H2; pose proof (H 3%nat ltac:(lia)) as H3; pose proof (H 4%nat ltac:(lia)) as H4; pose proof (H 5%nat ltac:(lia)) as H5;
    unfold ray, sgn in *; cbn [axis Nat.odd Nat.even negb] in *; rewrite ?N by auto; lra.
Qed.
Lemma srng_out D : posD D -> forall d, (d < 6)%nat -> forall A B, srng d D A B -> forall e, (e < 6)%nat -> e <> d -> sgn e * ray d A B (axis e) < D e / D d.
Proof.
  intros P. pose proof (P 0%nat ltac:(lia)) as P0. pose proof (P 1%nat ltac:(lia)) as P1. pose proof (P 2%nat ltac:(lia)) as P2. pose proof (P 3%nat ltac:(lia)) as P3. pose proof (P 4%nat ltac:(lia)) as P4. pose proof (P 5%nat ltac:(lia)) as P5.
  assert (Q : forall a b, 0 < a -> 0 < b -> 0 < a / b) by (intros; now apply Rdiv_lt_0_compat). assert (N : forall a b, 0 < b -> - a / b = - (a / b)) by (intros; field; lra).
  apply (six_all (fun d => forall A B, srng d D A B -> forall e, (e < 6)%nat -> e <> d -> sgn e * ray d A B (axis e) < D e / D d)); intros A B (a & b & c & e & E & HA & HB); cbn in E; injection E as <- <- <- <-; rewrite ?N in HA, HB by auto.
  all: match goal with |- forall e, (e < 6)%nat -> e <> ?d -> _ => apply (six_all (fun e => e <> d -> sgn e * ray d A B (axis e) < D e / D d)) end; intros NE; try congruence; unfold ray, sgn; cbn [axis Nat.odd Nat.even negb]; try lra.
  all: match goal with |- _ < ?x / ?y => pose proof (Q x y ltac:(auto) ltac:(auto)); lra end.
Qed.
Lemma ray_self d A B : (d < 6)%nat -> sgn d * ray d A B (axis d) = 1.
Proof. intros H. unfold ray. destruct (sgn_or d) as [-> | ->]; destruct (axis d); ring. Qed.
Lemma ray_ex d v : (d < 6)%nat -> 0 < sgn d * v (axis d) -> exists A B, forall k, v k = sgn d * v (axis d) * ray d A B k.
Proof.
  intros H P. assert (SS : sgn d * sgn d = 1) by (destruct (sgn_or d) as [-> | ->]; ring). assert (NZ : v (axis d) <> 0) by (intros E; rewrite E in P; lra).
  assert (G : forall x y, x <> 0 -> y = sgn d * x * (sgn d * (y / x))) by (intros x y Nx; transitivity (sgn d * sgn d * y); [rewrite SS; ring|field; auto]).
  unfold ray. destruct (axis d) eqn:E.
  - exists (v D2 / v D1), (v D3 / v D1). intros k. destruct k; [transitivity (sgn d * sgn d * v D1); [rewrite SS; ring|ring]|now apply G|now apply G].
  - exists (v D1 / v D2), (v D3 / v D2). intros k. destruct k; [now apply G|transitivity (sgn d * sgn d * v D2); [rewrite SS; ring|ring]|now apply G].
  - exists (v D2 / v D3), (v D1 / v D3). intros k. destruct k; [now apply G|now apply G|transitivity (sgn d * sgn d * v D3); [rewrite SS; ring|ring]].
Qed.
Lemma largest (f : nat -> R) n : exists d, (d <= n)%nat /\ forall e, (e <= n)%nat -> f e <= f d.
Proof.
  induction n as [|n (d & Hd & M)]; [exists 0%nat; split; auto; intros e He; replace e with 0%nat by lia; lra|].
  destruct (Rle_dec (f (S n)) (f d)) as [L|L].
  - exists d. split; [lia|]. intros e He. destruct (Nat.eq_dec e (S n)) as [->|]; auto. apply M. lia.
  - exists (S n). split; [lia|]. intros e He. destruct (Nat.eq_dec e (S n)) as [->|]; [lra|]. apply Rle_trans with (f d); [apply M; lia|lra].
Qed.
Lemma pyramid_cover D v : posD D -> (exists k, v k <> 0) -> exists d A B t, (d < 6)%nat /\ rng d D A B /\ 0 < t /\ forall k, v k = t * ray d A B k.
Proof.
  intros P (k & NZ). destruct (largest (fun d => sgn d * v (axis d) / D d) 5) as (d & Hd & M). assert (Hd6 : (d < 6)%nat) by lia. pose proof (P d Hd6) as Pd.
  assert (T : 0 < sgn d * v (axis d)).
  { assert (E : exists e, (e < 6)%nat /\ 0 < sgn e * v (axis e)).
    { destruct (Rlt_dec 0 (v k)) as [L|L]; destruct k; [exists 1%nat|exists 3%nat|exists 5%nat|exists 0%nat|exists 2%nat|exists 4%nat]; (split; [lia|]); unfold sgn; cbn [axis Nat.odd Nat.even negb]; lra. }
    destruct E as (e & He & Pe). pose proof (M e ltac:(lia)) as L. pose proof (P e He) as PD. assert (0 < sgn e * v (axis e) / D e) by (now apply Rdiv_lt_0_compat).
    assert (0 < sgn d * v (axis d) / D d) by lra. replace (sgn d * v (axis d)) with (sgn d * v (axis d) / D d * D d) by (field; lra). now apply Rmult_lt_0_compat. }
  destruct (ray_ex d v Hd6 T) as (A & B & E). exists d, A, B, (sgn d * v (axis d)). split; auto. split; [|split; auto]. apply rng_iff; auto. intros e He. pose proof (M e ltac:(lia)) as L. pose proof (P e He) as PD.
  set (t := sgn d * v (axis d)) in *. rewrite (E (axis e)) in L. apply (Rmult_le_reg_l t); auto. replace (t * (sgn e * ray d A B (axis e))) with (sgn e * (t * ray d A B (axis e)) / D e * D e) by (field; lra). replace (t * (D e / D d)) with (t / D d * D e) by (field; lra).
  apply Rmult_le_compat_r; lra.
Qed.
Lemma pyramid_once D v d A B t d' A' B' t' : posD D -> (d < 6)%nat -> (d' < 6)%nat -> srng d D A B -> rng d' D A' B' -> 0 < t -> 0 < t' -> (forall k, v k = t * ray d A B k) -> (forall k, v k = t' * ray d' A' B' k) -> d = d'.
Proof.
  intros P Hd Hd' R R' T T' E E'. destruct (Nat.eq_dec d' d) as [|NE]; auto. exfalso. pose proof (P d Hd) as Pd. pose proof (P d' Hd') as Pd'.
  pose proof (srng_out D P d Hd A B R d' Hd' NE) as L. pose proof (proj1 (rng_iff D P d' Hd' A' B') R' d Hd) as L'.
  assert (V : sgn d' * v (axis d') = t'). { rewrite E'. transitivity (t' * (sgn d' * ray d' A' B' (axis d'))); [ring|]. rewrite ray_self by auto. ring. }
  assert (V' : sgn d * v (axis d) = t). { rewrite E. transitivity (t * (sgn d * ray d A B (axis d))); [ring|]. rewrite ray_self by auto. ring. }
  assert (U : t' < t * (D d' / D d)). { rewrite <- V, E. replace (sgn d' * (t * ray d A B (axis d'))) with (t * (sgn d' * ray d A B (axis d'))) by ring. now apply Rmult_lt_compat_l. }
  assert (U' : t <= t' * (D d / D d')). { rewrite <- V', E'. replace (sgn d * (t' * ray d' A' B' (axis d))) with (t' * (sgn d * ray d' A' B' (axis d))) by ring. apply Rmult_le_compat_l; lra. }
  assert (W : t * (D d' / D d) <= t'). { replace t' with (t' * (D d / D d') * (D d' / D d)) by (field; lra). apply Rmult_le_compat_r; auto. apply Rlt_le. now apply Rdiv_lt_0_compat. }
  lra.
Qed.
Lemma ray_same d A B t A' B' t' v : (d < 6)%nat -> (forall k, v k = t * ray d A B k) -> (forall k, v k = t' * ray d A' B' k) -> 0 < t -> t = t' /\ A = A' /\ B = B'.
Proof.
  intros H E E' P. assert (T : t = t'). { transitivity (sgn d * v (axis d)); [rewrite E|rewrite E']; [transitivity (t * (sgn d * ray d A B (axis d))); [rewrite ray_self by auto; ring|ring]|transitivity (t' * (sgn d * ray d A' B' (axis d))); [ring|rewrite ray_self by auto; ring]]. }
  subst t'. split; auto. assert (G : forall k, ray d A B k = ray d A' B' k) by (intros k; apply (Rmult_eq_reg_l t); [rewrite <- E, <- E'; auto|lra]).
  pose proof (G D1) as G1. pose proof (G D2) as G2. pose proof (G D3) as G3. unfold ray in *. destruct (sgn_or d) as [Q|Q]; rewrite Q in *; destruct (axis d); lra.
Qed.
(** the cuboid, seen along a ray *)
Lemma cuboid_ray D d A B t v : posD D -> (d < 6)%nat -> rng d D A B -> 0 < t -> (forall k, v k = t * ray d A B k) -> (cuboid D v <-> t <= D d) /\ (beyond D v <-> D d <= t).
Proof.
  intros P Hd R T E. pose proof (P d Hd) as Pd. pose proof (proj1 (rng_iff D P d Hd A B) R) as L.
  assert (V : sgn d * v (axis d) = t). { rewrite E. transitivity (t * (sgn d * ray d A B (axis d))); [ring|]. rewrite ray_self by auto. ring. }
  assert (U : forall e, (e < 6)%nat -> sgn e * v (axis e) <= t * (D e / D d)). { intros e He. rewrite E. replace (sgn e * (t * ray d A B (axis e))) with (t * (sgn e * ray d A B (axis e))) by ring. apply Rmult_le_compat_l; [lra|auto]. }
  split; split.
  - intros C. rewrite <- V. now apply C.
  - intros C e He. apply Rle_trans with (1 := U e He). pose proof (P e He). replace (D e) with (D d * (D e / D d)) at 2 by (field; lra). apply Rmult_le_compat_r; auto. apply Rlt_le. now apply Rdiv_lt_0_compat.
  - intros (e & He & C). pose proof (P e He). specialize (U e He). apply (Rmult_le_reg_r (D e / D d)); [now apply Rdiv_lt_0_compat|]. replace (D d * (D e / D d)) with (D e) by (field; lra). lra.
  - intros C. exists d. split; auto. lra.
Qed.
Lemma sphere_ray d A B t v : 0 <= t -> (forall k, v k = t * ray d A B k) -> norm3 v = t * sqrt (q A B).
Proof. intros T E. unfold q. rewrite <- norm_ray with (d := d) by auto. unfold norm3, S3. now rewrite !E. Qed.
Lemma div_le a b c : 0 < c -> (a * c <= b <-> a <= b / c).
Proof. intros P. split; intros H; [apply (Rmult_le_reg_r c); auto; replace (b / c * c) with b by (field; lra); auto|]. replace b with (b / c * c) by (field; lra). apply Rmult_le_compat_r; lra. Qed.
Lemma le_div a b c : 0 < c -> (b <= a * c <-> b / c <= a).
Proof. intros P. split; intros H; [apply (Rmult_le_reg_r c); auto; replace (b / c * c) with b by (field; lra); auto|]. replace b with (b / c * c) by (field; lra). apply Rmult_le_compat_r; lra. Qed.

(** ** tilings *)
Definition tilesO (g : list gbox) (i n : nat) (S O : R * R * R -> Prop) : Prop := tiles g i n S /\ forall p k, (k < n)%nat -> holds_inside g (i + k) p -> O p.
Lemma inside_holds g i p : holds_inside g i p -> holds g i p.
Proof. intros (b & X & Y & Z & E & P & H). exists b, X, Y, Z. unfold within. split; auto. split; auto. lra. Qed.
Lemma tiles_app g i n m S1 O1 S2 O2 : tilesO g i n S1 O1 -> tilesO g (i + n) m S2 O2 -> (forall p, O1 p -> ~ S2 p) -> (forall p, O2 p -> ~ S1 p) ->
  tilesO g i (n + m) (fun p => S1 p \/ S2 p) (fun p => O1 p \/ O2 p).
Proof.
  intros ((C1 & U1) & I1) ((C2 & U2) & I2) N12 N21.
  assert (SP : forall k, (k < n + m)%nat -> (k < n)%nat \/ exists l, (l < m)%nat /\ k = (n + l)%nat). { intros k Hk. destruct (Nat.lt_ge_cases k n) as [|G]; [auto|right; exists (k - n)%nat; lia]. }
  assert (AS : forall l, (i + (n + l) = i + n + l)%nat) by (intros; lia).
  split; [split|].
  - intros p. rewrite C1, C2. split.
    + intros [(k & Hk & H)|(k & Hk & H)]; [exists k; split; auto; lia|exists (n + k)%nat; rewrite AS; split; auto; lia].
    + intros (k & Hk & H). destruct (SP k Hk) as [L|(l & Hl & ->)]; [left; eauto|right; exists l; rewrite AS in H; auto].
  - intros p k l Hk Hl NE HI HH. destruct (SP k Hk) as [Lk|(k' & Lk & ->)], (SP l Hl) as [Ll|(l' & Ll & ->)]; rewrite ?AS in HI; rewrite ?AS in HH.
    + now apply (U1 p k l).
    + apply (N12 p); [eapply I1; eauto|]. apply C2. eauto.
    + apply (N21 p); [eapply I2; eauto|]. apply C1. eauto.
    + assert (NE' : k' <> l') by (intros ->; auto). now apply (U2 p k' l').
  - intros p k Hk HI. destruct (SP k Hk) as [L|(l & Hl & ->)]; [left; eauto|right]. rewrite AS in HI. eauto.
Qed.
Lemma tiles_weak g i n (S O S' O' : R * R * R -> Prop) : tilesO g i n S O -> (forall p, S p <-> S' p) -> (forall p, O p -> O' p) -> tilesO g i n S' O'.
Proof. intros ((C & U) & I) HS HO. split; [split; auto|eauto]. intros p. now rewrite <- HS. Qed.
Lemma tiles_grid g g' i n S O : (forall k, (i <= k < i + n)%nat -> nth_error g' k = nth_error g k) -> tilesO g i n S O -> tilesO g' i n S O.
Proof.
  intros E ((C & U) & I). assert (H : forall k p, (k < n)%nat -> holds g' (i + k) p <-> holds g (i + k) p). { intros k p Hk. unfold holds. now rewrite E by lia. }
  assert (HI : forall k p, (k < n)%nat -> holds_inside g' (i + k) p <-> holds_inside g (i + k) p). { intros k p Hk. unfold holds_inside. now rewrite E by lia. }
  split; [split|].
  - intros p. rewrite C. split; intros (k & Hk & Q); exists k; split; auto; now apply H.
  - intros p k l Hk Hl NE Q1 Q2. apply (U p k l); auto; [now apply HI|now apply H].
  - intros p k Hk Q. apply (I p k); auto. now apply HI.
Qed.
Lemma from_inj c p p' : (forall k, from c p k = from c p' k) -> p = p'.
Proof. intros E. destruct p as [[x y] z], p' as [[x' y'] z']. pose proof (E D1). pose proof (E D2). pose proof (E D3). unfold from, vec in *. cbn [fst snd] in *. f_equal; [f_equal|]; lra. Qed.
Lemma six_tiles g b0 c D (h0 h1 : nat -> R -> R -> R) (S0 S1 O : (d3 -> R) -> Prop) : posD D ->
  (forall d, (d < 6)%nat -> exists b, nth_error g (b0 + d) = Some b /\ gmin b D1 = 0 /\ gmax b D1 = 1 /\ set_AB_min_max_from_Din d D = Ok (gmin b D2, gmax b D2, gmin b D3, gmax b D3) /\
     forall A B, rng d D A B ->
       (forall X, 0 <= X <= 1 -> exists p t, box_point b X A B = Ok p /\ h0 d A B <= t <= h1 d A B /\ (0 < X < 1 -> h0 d A B < t < h1 d A B) /\ forall k, from c p k = t * ray d A B k) /\
       (forall t, h0 d A B <= t <= h1 d A B -> exists X p, 0 <= X <= 1 /\ box_point b X A B = Ok p /\ forall k, from c p k = t * ray d A B k)) ->
  (forall d A B t v, (d < 6)%nat -> rng d D A B -> 0 < t -> (forall k, v k = t * ray d A B k) -> (S0 v <-> h0 d A B <= t) /\ (S1 v <-> t <= h1 d A B) /\ (h0 d A B < t < h1 d A B -> O v)) ->
  (forall d A B, (d < 6)%nat -> rng d D A B -> 0 < h0 d A B) -> (forall v, S0 v -> exists k, v k <> 0) ->
  tilesO g b0 6 (fun p => S0 (from c p) /\ S1 (from c p)) (fun p => O (from c p)).
Proof.
  intros P HB HS H0 HC.
  assert (HH : forall d p, (d < 6)%nat -> holds g (b0 + d) p <-> exists A B t, rng d D A B /\ h0 d A B <= t <= h1 d A B /\ forall k, from c p k = t * ray d A B k).
  { intros d p Hd. destruct (HB d Hd) as (b & E & M0 & M1 & SA & F). split.
    - intros (b' & X & Y & Z & E' & PT & WX & WY & WZ). rewrite E in E'. injection E' as <-. unfold within in *. rewrite M0, M1 in WX.
      assert (RG : rng d D Y Z) by (do 4 eexists; split; [exact SA|split; auto]). destruct (F Y Z RG) as [F1 _]. destruct (F1 X WX) as (p' & t & PT' & HT & _ & V). rewrite PT in PT'. injection PT' as <-. exists Y, Z, t. auto.
    - intros (A & B & t & RG & HT & V). destruct (F A B RG) as [_ F2]. destruct (F2 t HT) as (X & p' & WX & PT & V'). assert (p = p') by (apply (from_inj c); intros; rewrite V, V'; auto). subst p'.
      exists b, X, A, B. split; auto. split; auto. rewrite M0, M1. split; auto. destruct RG as (a & b' & c' & e & E' & RA & RB). rewrite SA in E'. injection E' as <- <- <- <-. split; auto. }
  assert (HI : forall d p, (d < 6)%nat -> holds_inside g (b0 + d) p -> exists A B t, srng d D A B /\ h0 d A B < t < h1 d A B /\ forall k, from c p k = t * ray d A B k).
  { intros d p Hd. destruct (HB d Hd) as (b & E & M0 & M1 & SA & F).
    intros (b' & X & Y & Z & E' & PT & WX & WY & WZ). rewrite E in E'. injection E' as <-. rewrite M0, M1 in WX.
    assert (RG : srng d D Y Z) by (do 4 eexists; split; [exact SA|split; auto]). destruct (F Y Z (srng_rng _ _ _ _ RG)) as [F1 _]. destruct (F1 X ltac:(lra)) as (p' & t & PT' & HT & HT' & V). rewrite PT in PT'. injection PT' as <-. exists Y, Z, t. auto. }
  split; [split|].
  - intros p. split.
    + intros [Q0 Q1]. destruct (pyramid_cover D (from c p) P (HC _ Q0)) as (d & A & B & t & Hd & RG & T & V). destruct (HS d A B t _ Hd RG T V) as (E0 & E1 & _). exists d. split; auto. apply HH; auto. exists A, B, t. split; auto. split; auto. split; [now apply E0|now apply E1].
    + intros (d & Hd & Q). apply HH in Q; auto. destruct Q as (A & B & t & RG & HT & V). pose proof (H0 d A B Hd RG). destruct (HS d A B t _ Hd RG ltac:(lra) V) as (E0 & E1 & _). split; [apply E0|apply E1]; lra.
  - intros p k l Hk Hl NE QI Q. apply HI in QI; auto. apply HH in Q; auto. destruct QI as (A & B & t & RG & HT & V). destruct Q as (A' & B' & t' & RG' & HT' & V').
    pose proof (H0 k A B Hk (srng_rng _ _ _ _ RG)). pose proof (H0 l A' B' Hl RG'). apply NE. apply (pyramid_once D (from c p) k A B t l A' B' t'); auto; lra.
  - intros p k Hk QI. apply HI in QI; auto. destruct QI as (A & B & t & RG & HT & V). pose proof (H0 k A B Hk (srng_rng _ _ _ _ RG)). apply (HS k A B t _ Hk (srng_rng _ _ _ _ RG)); auto. lra.
Qed.

(** C122, C123: the boundary conditions of the scalar field on Kerr. *)
From Verif Require Import Rutil Sokb_model.
From Coq Require Import List Arith Lia.
Import ListNotations.
Local Open Scope R_scope.
(** ** the characteristic fields at a point *)
Lemma c_unit B p : 0 < k_gnn B p -> k_dot B p (k_c B p) = 1.
Proof.
  intros H. assert (S : sqrt (k_gnn B p) * sqrt (k_gnn B p) = k_gnn B p) by (apply sqrt_sqrt; lra). assert (S0 : sqrt (k_gnn B p) <> 0) by (apply Rgt_not_eq, sqrt_lt_R0, H).
  transitivity (k_gnn B p / (sqrt (k_gnn B p) * sqrt (k_gnn B p))); [|rewrite S; field; lra]. unfold k_dot, k_cup, k_c. unfold k_gnn at 13. field. exact S0.
Qed.
Lemma dot_lin B p u v x : k_dot B p (fun i => u i + x * v i) = k_dot B p u + x * k_dot B p v.
Proof. unfold k_dot. ring. Qed.
Lemma dot_ext B p u v : (forall i, (i < 3)%nat -> u i = v i) -> k_dot B p u = k_dot B p v.
Proof. intros E. unfold k_dot. rewrite !E by lia. reflexivity. Qed.
(** ** specification *)
(** phi at a point of a box, the outgoing and ingoing field and the part of phi tangential to the sphere *)
Definition s_phi (u : kvars) (p : nat) (i : nat) : R := u (4 + i)%nat p.
Definition s_out (B : kbox) (u : kvars) (p : nat) : R := u 1%nat p + k_dot B p (s_phi u p).
Definition s_in (B : kbox) (u : kvars) (p : nat) : R := u 1%nat p - k_dot B p (s_phi u p).
Definition s_tan (B : kbox) (u : kvars) (p i : nat) : R := s_phi u p i - k_dot B p (s_phi u p) * k_c B p i.
(** psi, Pi, phi *)
Definition evolved (v : nat) : Prop := v = 0%nat \/ v = 1%nat \/ v = 4%nat \/ v = 5%nat \/ v = 6%nat.
(** c has length one and the tangential part has no component along it *)
Lemma tan_dot B u p : 0 < k_gnn B p -> k_dot B p (s_tan B u p) = 0.
Proof. intros H. transitivity (k_dot B p (fun i => s_phi u p i + - k_dot B p (s_phi u p) * k_c B p i)); [apply dot_ext; intros; unfold s_tan; ring|]. rewrite dot_lin, (c_unit B p H). ring. Qed.
Section GRID.
Variables (nb n2 n3 : nat) (G : nat -> kbox) (onb : nat -> nat -> bool).
Notation up b j k := (kind (b_n1 (G b)) n2 (b_n1 (G b) - 1) j k).
Notation lo b j k := (kind (b_n1 (G b)) n2 0 j k).
Hypothesis N1 : forall b, (b < nb)%nat -> (2 <= b_n1 (G b))%nat.
Lemma kind_inj n1 i j k i' j' k' : (i < n1)%nat -> (i' < n1)%nat -> (j < n2)%nat -> (j' < n2)%nat -> kind n1 n2 i j k = kind n1 n2 i' j' k' -> i = i' /\ j = j' /\ k = k'.
Proof.
  unfold kind. intros Hi Hi' Hj Hj' E.
  assert (E1 : i = i' /\ (j + n2 * k = j' + n2 * k')%nat).
  { assert (A : (i = (i + n1 * (j + n2 * k)) mod n1)%nat) by (rewrite Nat.mul_comm, Nat.mod_add by lia; symmetry; now apply Nat.mod_small).
    assert (A' : (i' = (i' + n1 * (j' + n2 * k')) mod n1)%nat) by (rewrite Nat.mul_comm, Nat.mod_add by lia; symmetry; now apply Nat.mod_small).
    assert (i = i') by (rewrite A, A', E; reflexivity). subst i'. split; [reflexivity|]. nia. }
  destruct E1 as (-> & E1). split; [reflexivity|].
  assert (A : (j = (j + n2 * k) mod n2)%nat) by (rewrite Nat.mul_comm, Nat.mod_add by lia; symmetry; now apply Nat.mod_small).
  assert (A' : (j' = (j' + n2 * k') mod n2)%nat) by (rewrite Nat.mul_comm, Nat.mod_add by lia; symmetry; now apply Nat.mod_small).
  assert (j = j') by (rewrite A, A', E1; reflexivity). subst j'. split; [reflexivity|]. nia.
Qed.
Lemma plane1_in j k : In (j, k) (plane1 n2 n3) <-> (j < n2 /\ k < n3)%nat.
Proof.
  unfold plane1. rewrite in_flat_map. split.
  - intros (k' & Hk & Hj). apply in_map_iff in Hj. destruct Hj as (j' & E & Hj). inversion E; subst. apply in_seq in Hk, Hj. lia.
  - intros (Hj & Hk). exists k. split; [apply in_seq; lia|]. apply in_map_iff. exists j. split; [reflexivity|apply in_seq; lia].
Qed.
Definition moved (v : nat) : Prop := v = 3%nat \/ v = 0%nat \/ v = 7%nat \/ v = 8%nat \/ v = 9%nat.
Lemma upd_eq s b v p x : kupd s b v p x b v p = x. Proof. unfold kupd. now rewrite !Nat.eqb_refl. Qed.
Lemma upd_ne s b v p x b' v' p' : ~ (b' = b /\ v' = v /\ p' = p) -> kupd s b v p x b' v' p' = s b' v' p'.
Proof. intros N. unfold kupd. destruct (Nat.eqb_spec b' b), (Nat.eqb_spec v' v), (Nat.eqb_spec p' p); cbn; auto. now elim N. Qed.
(** one point *)
Lemma step_frame b s j k b' v' x : ~ (b' = S b /\ v' = 2%nat /\ x = lo (S b) j k) -> ~ (b' = b /\ moved v' /\ x = up b j k) -> xfer1 n2 G b s (j, k) b' v' x = s b' v' x.
Proof.
  intros A1 A2. unfold xfer1. rewrite !upd_ne; auto; intros (Q1 & Q2 & Q3); try (apply A2; unfold moved; tauto).
Qed.
Lemma step_out b s j k : xfer1 n2 G b s (j, k) (S b) 2%nat (lo (S b) j k) = s b 2%nat (up b j k).
Proof. unfold xfer1. rewrite !(upd_ne _ b) by lia. apply upd_eq. Qed.
Lemma step_in b s j k v : moved v -> xfer1 n2 G b s (j, k) b v (up b j k) = s (S b) v (lo (S b) j k).
Proof.
  intros Hv. unfold xfer1. destruct Hv as [-> | [-> | [-> | [-> | ->]]]]; repeat (first [rewrite upd_eq | rewrite upd_ne by lia]); reflexivity.
Qed.
(** one interface *)
Lemma face_frame b l : forall s b' v' x, (forall j k, In (j, k) l -> ~ (b' = S b /\ v' = 2%nat /\ x = lo (S b) j k) /\ ~ (b' = b /\ moved v' /\ x = up b j k)) -> fold_left (xfer1 n2 G b) l s b' v' x = s b' v' x.
Proof.
  induction l as [|[j k] l IH]; intros s b' v' x A; cbn [fold_left]; [reflexivity|]. rewrite IH by (intros; apply A; now right). apply step_frame; apply (A j k); now left.
Qed.
Lemma face_val b l j k : (forall j k, In (j, k) l -> (j < n2)%nat) -> (S b < nb)%nat -> In (j, k) l -> forall s,
  fold_left (xfer1 n2 G b) l s (S b) 2%nat (lo (S b) j k) = s b 2%nat (up b j k) /\ forall v, moved v -> fold_left (xfer1 n2 G b) l s b v (up b j k) = s (S b) v (lo (S b) j k).
Proof.
  intros Hl Hb. pose proof (N1 b ltac:(lia)) as M1. pose proof (N1 (S b) Hb) as M2. induction l as [|[j' k'] l IH]; intros Hin s; [destruct Hin|]. cbn [fold_left].
  assert (DE : {In (j, k) l} + {~ In (j, k) l}) by (apply in_dec; decide equality; apply Nat.eq_dec).
  assert (Hj : (j < n2)%nat) by (apply (Hl j k Hin)).
  destruct DE as [D|D].
  - destruct (IH (fun j k H => Hl j k (or_intror H)) D (xfer1 n2 G b s (j', k'))) as (I1 & I2). split.
    + rewrite I1. apply step_frame; [lia|]. unfold moved. lia.
    + intros v Hv. rewrite I2 by exact Hv. apply step_frame; [|lia]. unfold moved in Hv. lia.
  - destruct Hin as [E|Hin]; [|contradiction]. inversion E; subst j' k'. split.
    + rewrite face_frame; [apply step_out|]. intros j' k' H'. split; [|unfold moved; lia]. intros (_ & _ & Q). apply kind_inj in Q; try lia; [|apply (Hl j' k'); now right]. destruct Q as (_ & -> & ->). contradiction.
    + intros v Hv. rewrite face_frame; [now apply step_in|]. intros j' k' H'. split; [lia|]. intros (_ & _ & Q). apply kind_inj in Q; try lia; [|apply (Hl j' k'); now right]. destruct Q as (_ & -> & ->). contradiction.
Qed.
(** all interfaces *)
Definition hit (b b' v' x : nat) : Prop := exists j k, (j < n2)%nat /\ (k < n3)%nat /\ ((b' = S b /\ v' = 2%nat /\ x = lo (S b) j k) \/ (b' = b /\ moved v' /\ x = up b j k)).
Lemma faces_frame L : forall s b' v' x, (forall b, In b L -> ~ hit b b' v' x) -> fold_left (fun s b => fold_left (xfer1 n2 G b) (plane1 n2 n3) s) L s b' v' x = s b' v' x.
Proof.
  induction L as [|b L IH]; intros s b' v' x A; cbn [fold_left]; [reflexivity|]. rewrite IH by (intros; apply A; now right). apply face_frame. intros j k Hj. apply plane1_in in Hj. destruct Hj as (Hj & Hk).
  assert (A' := A b (or_introl eq_refl)). split; intros Q; apply A'; exists j, k; tauto.
Qed.
Lemma xfer_val b j k s : (S b < nb)%nat -> (j < n2)%nat -> (k < n3)%nat ->
  xfer nb n2 n3 G s (S b) 2%nat (lo (S b) j k) = s b 2%nat (up b j k) /\ forall v, moved v -> xfer nb n2 n3 G s b v (up b j k) = s (S b) v (lo (S b) j k).
Proof.
  intros Hb Hj Hk. unfold xfer. assert (E : seq 0 (nb - 1) = seq 0 b ++ b :: seq (S b) (nb - 1 - S b)).
  { replace (nb - 1)%nat with (b + S (nb - 1 - S b))%nat at 1 by lia. rewrite seq_app. reflexivity. }
  rewrite E, fold_left_app. cbn [fold_left]. set (s1 := fold_left _ (seq 0 b) s).
  pose proof (N1 b ltac:(lia)) as M1. pose proof (N1 (S b) Hb) as M2.
  destruct (face_val b (plane1 n2 n3) j k (fun j k H => proj1 (proj1 (plane1_in j k) H)) Hb (proj2 (plane1_in j k) (conj Hj Hk)) s1) as (V1 & V2). split.
  - rewrite faces_frame; [rewrite V1; unfold s1; apply faces_frame|].
    + intros b1 H1 (j1 & k1 & Hj1 & Hk1 & Q). destruct Q as [(Q1 & _ & Q2)|(_ & Q & _)]; [|unfold moved in Q; lia]. subst b. apply in_seq in H1. apply kind_inj in Q2; lia.
    + intros b1 H1 (j1 & k1 & Hj1 & Hk1 & Q). apply in_seq in H1. destruct Q as [(Q1 & _ & Q2)|(_ & Q & _)]; [lia|unfold moved in Q; lia].
  - intros v Hv. rewrite faces_frame; [rewrite V2 by exact Hv; unfold s1; apply faces_frame|].
    + intros b1 H1 (j1 & k1 & Hj1 & Hk1 & Q). apply in_seq in H1. destruct Q as [(Q1 & Q & Q2)|(Q & _ & _)]; [unfold moved in Hv; lia|lia].
    + intros b1 H1 (j1 & k1 & Hj1 & Hk1 & Q). apply in_seq in H1. destruct Q as [(Q1 & Q & Q2)|(Q & _ & _)]; [unfold moved in Hv; lia|lia].
Qed.
Lemma xfer_up2 b j k s : (b < nb)%nat -> (j < n2)%nat -> xfer nb n2 n3 G s b 2%nat (up b j k) = s b 2%nat (up b j k).
Proof.
  intros Hb Hj. pose proof (N1 b Hb). unfold xfer. apply faces_frame. intros b1 H1 (j1 & k1 & Hj1 & Hk1 & [(Q1 & _ & Q2)|(_ & Q & _)]); [|unfold moved in Q; lia]. subst b. apply in_seq in H1. apply kind_inj in Q2; lia.
Qed.
Lemma xfer_lo b j k v s : (b < nb)%nat -> (j < n2)%nat -> moved v -> xfer nb n2 n3 G s b v (lo b j k) = s b v (lo b j k).
Proof.
  intros Hb Hj Hv. pose proof (N1 b Hb). unfold xfer. apply faces_frame. intros b1 H1 (j1 & k1 & Hj1 & Hk1 & [(Q1 & Q & Q2)|(Q & _ & Q2)]); [unfold moved in Hv; lia|]. subst b1. apply in_seq in H1. apply kind_inj in Q2; lia.
Qed.
Lemma in_up b j k : (S b < nb)%nat -> (j < n2)%nat -> (k < n3)%nat -> inplane nb n2 n3 G b (up b j k) = true.
Proof.
  intros Hb Hj Hk. unfold inplane. apply existsb_exists. exists (j, k). split; [apply plane1_in; auto|]. apply existsb_exists. exists (b_n1 (G b) - 1)%nat. split; [|apply Nat.eqb_refl].
  apply in_or_app. right. destruct (Nat.eqb_spec b (nb - 1)); [lia|now left].
Qed.
Lemma in_lo b j k : (j < n2)%nat -> (k < n3)%nat -> inplane nb n2 n3 G (S b) (lo (S b) j k) = true.
Proof.
  intros Hj Hk. unfold inplane. apply existsb_exists. exists (j, k). split; [apply plane1_in; auto|]. apply existsb_exists. exists 0%nat. split; [|apply Nat.eqb_refl].
  apply in_or_app. left. now left.
Qed.
Hypothesis ON : forall b j k, (b < nb)%nat -> (j < n2)%nat -> (k < n3)%nat -> onb b (up b j k) = true /\ onb b (lo b j k) = true.
Lemma join_both b j k s : (S b < nb)%nat -> (j < n2)%nat -> (k < n3)%nat ->
  let J := join nb n2 n3 G onb s in let t := xfer nb n2 n3 G (set_chars G onb s) in
  (forall v, J b v (up b j k) = k_back (G b) (up b j k) (t b) v) /\ (forall v, J (S b) v (lo (S b) j k) = k_back (G (S b)) (lo (S b) j k) (t (S b)) v) /\
  t b 2%nat (up b j k) = s_out (G b) (s b) (up b j k) /\ t (S b) 2%nat (lo (S b) j k) = s_out (G b) (s b) (up b j k) /\
  (t b 3%nat (up b j k) = s_in (G (S b)) (s (S b)) (lo (S b) j k) /\ t (S b) 3%nat (lo (S b) j k) = s_in (G (S b)) (s (S b)) (lo (S b) j k)) /\
  (t b 0%nat (up b j k) = s (S b) 0%nat (lo (S b) j k) /\ t (S b) 0%nat (lo (S b) j k) = s (S b) 0%nat (lo (S b) j k)) /\
  (forall i, (i < 3)%nat -> t b (7 + i)%nat (up b j k) = s_tan (G (S b)) (s (S b)) (lo (S b) j k) i /\ t (S b) (7 + i)%nat (lo (S b) j k) = s_tan (G (S b)) (s (S b)) (lo (S b) j k) i).
Proof.
  intros Hb Hj Hk J t. destruct (ON b j k ltac:(lia) Hj Hk) as (O1 & _). destruct (ON (S b) j k Hb Hj Hk) as (_ & O2).
  destruct (xfer_val b j k (set_chars G onb s) Hb Hj Hk) as (V1 & V2).
  assert (U : forall v, set_chars G onb s b v (up b j k) = k_chars (G b) (up b j k) (s b) v) by (intros; unfold set_chars; now rewrite O1).
  assert (L : forall v, set_chars G onb s (S b) v (lo (S b) j k) = k_chars (G (S b)) (lo (S b) j k) (s (S b)) v) by (intros; unfold set_chars; now rewrite O2).
  split; [|split; [|split; [|split; [|split; [|split]]]]].
  - intros v. unfold J, join, compute_unew. destruct (Nat.ltb_spec b nb); [|lia]. now rewrite in_up.
  - intros v. unfold J, join, compute_unew. destruct (Nat.ltb_spec (S b) nb); [|lia]. now rewrite in_lo.
  - unfold t. rewrite xfer_up2 by lia. rewrite U. reflexivity.
  - unfold t. rewrite V1, U. reflexivity.
  - unfold t. rewrite V2, xfer_lo by (auto; unfold moved; tauto). rewrite L. split; reflexivity.
  - unfold t. rewrite V2, xfer_lo by (auto; unfold moved; tauto). rewrite L. split; reflexivity.
  - intros i Hi. unfold t. rewrite V2, xfer_lo by (auto; unfold moved; lia). rewrite L. destruct i as [|[|[|i]]]; [split; reflexivity..|lia].
Qed.
End GRID.
Lemma back_chars B p u : 0 < k_gnn B p -> k_dot B p (fun i => u (7 + i)%nat p) = 0 ->
  s_out B (fun v q => if (q =? p)%nat then k_back B p u v else 0) p = u 2%nat p /\ s_in B (fun v q => if (q =? p)%nat then k_back B p u v else 0) p = u 3%nat p /\
  forall i, (i < 3)%nat -> s_tan B (fun v q => if (q =? p)%nat then k_back B p u v else 0) p i = u (7 + i)%nat p.
Proof.
  intros H T. assert (D : k_dot B p (s_phi (fun v q => if (q =? p)%nat then k_back B p u v else 0) p) = (u 2%nat p - u 3%nat p) * (1 / 2)).
  { transitivity (k_dot B p (fun i => u (7 + i)%nat p + (u 2%nat p - u 3%nat p) * (1 / 2) * k_c B p i)).
    - apply dot_ext. intros i Hi. unfold s_phi. rewrite Nat.eqb_refl. destruct i as [|[|[|i]]]; [reflexivity..|lia].
    - rewrite dot_lin, T, (c_unit B p H). ring. }
  unfold s_out, s_in, s_tan. rewrite D, Nat.eqb_refl. cbn [k_back]. split; [field|]. split; [field|].
  intros i Hi. unfold s_phi. rewrite Nat.eqb_refl. destruct i as [|[|[|i]]]; [cbn [k_back Nat.add]; ring..|lia].
Qed.
Lemma chars_local B u u' p : (forall v, u v p = u' v p) -> s_out B u p = s_out B u' p /\ s_in B u p = s_in B u' p /\ forall i, s_tan B u p i = s_tan B u' p i.
Proof. intros E. unfold s_out, s_in, s_tan, k_dot, s_phi. rewrite !E. repeat split. intros i. now rewrite !E. Qed.
(** the same point with the same metric in two boxes *)
Definition same_point (B : kbox) (p : nat) (B' : kbox) (p' : nat) : Prop := (forall i, (i < 3)%nat -> b_x B i p = b_x B' i p') /\ (forall i, (i < 6)%nat -> b_gup B i p = b_gup B' i p').
Lemma same_c B p B' p' : same_point B p B' p' -> (forall i, (i < 3)%nat -> k_c B p i = k_c B' p' i) /\ (forall v, k_dot B p v = k_dot B' p' v) /\ k_gnn B p = k_gnn B' p' /\ k_r B p = k_r B' p'.
Proof.
  intros (X & M). assert (ER : k_r B p = k_r B' p') by (unfold k_r; rewrite !X by lia; reflexivity).
  assert (EN : forall i, (i < 3)%nat -> k_n B p i = k_n B' p' i) by (intros i Hi; unfold k_n; rewrite ER, X by lia; reflexivity).
  assert (EG : k_gnn B p = k_gnn B' p') by (unfold k_gnn; rewrite !M by lia; rewrite !EN by lia; reflexivity).
  assert (EC : forall i, (i < 3)%nat -> k_c B p i = k_c B' p' i) by (intros i Hi; unfold k_c; rewrite EG, EN by lia; reflexivity).
  repeat split; auto. intros v. unfold k_dot, k_cup. rewrite !M, !EC by lia. reflexivity.
Qed.
(** ** the interfaces between the shells *)
(** inner and outer points of the boxes; every box has at least two points in the first direction and its inner and outer plane are in the list of boundary points *)
Definition shells (nb n2 n3 : nat) (G : nat -> kbox) (onb : nat -> nat -> bool) : Prop := forall b, (b < nb)%nat -> (2 <= b_n1 (G b))%nat /\
  forall j k, (j < n2)%nat -> (k < n3)%nat -> onb b (kind (b_n1 (G b)) n2 (b_n1 (G b) - 1) j k) = true /\ onb b (kind (b_n1 (G b)) n2 0 j k) = true.
(** Where box b ends and box b+1 begins, both hold the same psi, Pi and phi afterwards; the outgoing field is that of box b, the ingoing field, the tangential part of phi and psi are those of box b+1. *)
Theorem C122_join nb n2 n3 G onb s b j k : shells nb n2 n3 G onb -> (S b < nb)%nat -> (j < n2)%nat -> (k < n3)%nat ->
  let p := kind (b_n1 (G b)) n2 (b_n1 (G b) - 1) j k in let q := kind (b_n1 (G (S b))) n2 0 j k in let J := join nb n2 n3 G onb s in
  same_point (G b) p (G (S b)) q -> 0 < k_gnn (G b) p ->
  (forall v, evolved v -> J b v p = J (S b) v q) /\ J b 0%nat p = s (S b) 0%nat q /\
  s_out (G b) (J b) p = s_out (G b) (s b) p /\ s_in (G b) (J b) p = s_in (G (S b)) (s (S b)) q /\ (forall i, (i < 3)%nat -> s_tan (G b) (J b) p i = s_tan (G (S b)) (s (S b)) q i).
Proof.
  intros SH Hb Hj Hk p q J SPt GP.
  destruct (join_both nb n2 n3 G onb (fun b H => proj1 (SH b H)) (fun b j k H H1 H2 => proj2 (SH b H) j k H1 H2) b j k s Hb Hj Hk) as (J1 & J2 & A1 & A2 & (A3 & A4) & (A5 & A6) & A7). cbv zeta in J1, J2, A1, A2, A3, A4, A5, A6, A7. fold p q in J1, J2, A1, A2, A3, A4, A5, A6, A7. fold J in J1, J2.
  set (t := xfer nb n2 n3 G (set_chars G onb s)) in *. destruct (same_c _ _ _ _ SPt) as (EC & ED & EG & _).
  assert (T : k_dot (G b) p (fun i => t b (7 + i)%nat p) = 0).
  { rewrite ED. transitivity (k_dot (G (S b)) q (s_tan (G (S b)) (s (S b)) q)); [apply dot_ext; intros i Hi; now apply A7|]. apply tan_dot. now rewrite <- EG. }
  destruct (back_chars (G b) p (t b) GP T) as (O & I & TT).
  destruct (chars_local (G b) (J b) (fun v r => if (r =? p)%nat then k_back (G b) p (t b) v else 0) p) as (L1 & L2 & L3); [intros v; rewrite Nat.eqb_refl; apply J1|].
  split; [|split; [|split; [|split]]].
  - intros v Hv. rewrite J1, J2.
    destruct (A7 0%nat ltac:(lia)) as (B1 & B2). destruct (A7 1%nat ltac:(lia)) as (B3 & B4). destruct (A7 2%nat ltac:(lia)) as (B5 & B6). cbn [Nat.add] in *.
    destruct Hv as [-> | [-> | [-> | [-> | ->]]]]; cbn [k_back]; rewrite ?A1, ?A2, ?A3, ?A4, ?A5, ?A6, ?B1, ?B2, ?B3, ?B4, ?B5, ?B6, ?EC by lia; reflexivity.
  - rewrite J1. cbn [k_back]. exact A5.
  - rewrite L1, O. exact A1.
  - rewrite L2, I. exact A3.
  - intros i Hi. rewrite L3, TT by exact Hi. now apply A7.
Qed.
(** if the boxes agreed before, nothing changes *)
Theorem C122_agree nb n2 n3 G onb s b j k : shells nb n2 n3 G onb -> (S b < nb)%nat -> (j < n2)%nat -> (k < n3)%nat ->
  let p := kind (b_n1 (G b)) n2 (b_n1 (G b) - 1) j k in let q := kind (b_n1 (G (S b))) n2 0 j k in let J := join nb n2 n3 G onb s in
  same_point (G b) p (G (S b)) q -> 0 < k_gnn (G b) p -> (forall v, evolved v -> s b v p = s (S b) v q) -> forall v, evolved v -> J b v p = s b v p /\ J (S b) v q = s b v p.
Proof.
  intros SH Hb Hj Hk p q J SPt GP AG v Hv. destruct (C122_join nb n2 n3 G onb s b j k SH Hb Hj Hk SPt GP) as (E & E0 & O & I & T). fold p q in E, E0, O, I, T. fold J in E, E0, O, I, T.
  destruct (same_c _ _ _ _ SPt) as (EC & ED & EG & _).
  assert (DD : k_dot (G (S b)) q (s_phi (s (S b)) q) = k_dot (G b) p (s_phi (s b) p)).
  { rewrite <- ED. apply dot_ext. intros i Hi. unfold s_phi. symmetry. apply AG. unfold evolved. lia. }
  assert (AP : s (S b) 1%nat q = s b 1%nat p) by (symmetry; apply AG; unfold evolved; lia).
  unfold s_out, s_in in O, I. rewrite DD, AP in I.
  assert (P : J b 1%nat p = s b 1%nat p) by lra. assert (Q : k_dot (G b) p (s_phi (J b) p) = k_dot (G b) p (s_phi (s b) p)) by lra.
  assert (F : forall i, (i < 3)%nat -> J b (4 + i)%nat p = s b (4 + i)%nat p).
  { intros i Hi. specialize (T i Hi). unfold s_tan in T. rewrite DD, Q, (EC i Hi) in T. unfold s_phi in T at 1 3. rewrite <- (AG (4 + i)%nat) in T by (unfold evolved; lia). lra. }
  assert (R : J b v p = s b v p).
  { destruct Hv as [-> | [-> | [-> | [-> | ->]]]]; [rewrite E0; symmetry; apply AG; unfold evolved; tauto|exact P|apply (F 0%nat); lia|apply (F 1%nat); lia|apply (F 2%nat); lia]. }
  split; [exact R|]. rewrite <- (E v Hv). exact R.
Qed.
(** psi, Pi and phi change at the interfaces only *)
Theorem C122_frame nb n2 n3 G onb s b p v : evolved v -> (forall j k, (j < n2)%nat -> (k < n3)%nat -> ((0 < b)%nat -> p <> kind (b_n1 (G b)) n2 0 j k) /\ ((S b < nb)%nat -> p <> kind (b_n1 (G b)) n2 (b_n1 (G b) - 1) j k)) -> join nb n2 n3 G onb s b v p = s b v p.
Proof.
  intros Hv NP. assert (X : xfer nb n2 n3 G (set_chars G onb s) b v p = s b v p).
  { unfold xfer. rewrite (faces_frame nb n2 n3 G onb).
    - unfold set_chars. destruct (onb b p); [|reflexivity]. destruct Hv as [-> | [-> | [-> | [-> | ->]]]]; reflexivity.
    - intros b1 H1 (j1 & k1 & Hj1 & Hk1 & Q). apply in_seq in H1. destruct Q as [(-> & -> & _)|(-> & _ & ->)]; [unfold evolved in Hv; lia|]. destruct (NP j1 k1 Hj1 Hk1) as (_ & W). apply W; [lia|reflexivity]. }
  unfold join, compute_unew. destruct (Nat.ltb_spec b nb) as [Hb|Hb]; [|exact X]. destruct (inplane nb n2 n3 G b p) eqn:E; [|exact X]. exfalso.
  unfold inplane in E. apply existsb_exists in E. destruct E as ((j, k) & Hin & E). apply plane1_in in Hin. destruct Hin as (Hj & Hk). apply existsb_exists in E. destruct E as (i & Hi & E). apply Nat.eqb_eq in E. cbn [fst snd] in E. destruct (NP j k Hj Hk) as (W1 & W2).
  apply in_app_or in Hi. destruct Hi as [Hi|Hi].
  - destruct (Nat.eqb_spec b 0); [destruct Hi|]. destruct Hi as [<-|[]]. apply W1; [lia|exact E].
  - destruct (Nat.eqb_spec b (nb - 1)); [destruct Hi|]. destruct Hi as [<-|[]]. apply W2; [lia|exact E].
Qed.
(** ** the outer boundary *)
From Coq Require Import FunctionalExtensionality.
Section OUT.
Variables (n2 n3 : nat) (B : kbox) (part : (nat -> R) -> nat -> nat -> R) (pre cur new : kvars).
Lemma outerp_in p : outerp n2 n3 B p = true <-> exists j k, (j < n2)%nat /\ (k < n3)%nat /\ p = kind (b_n1 B) n2 (b_n1 B - 1) j k.
Proof.
  unfold outerp. rewrite existsb_exists. split.
  - intros ((j, k) & Hin & E). apply plane1_in in Hin. apply Nat.eqb_eq in E. exists j, k. tauto.
  - intros (j & k & Hj & Hk & E). exists (j, k). split; [now apply plane1_in|]. now apply Nat.eqb_eq.
Qed.
Lemma outer_psi dt cp : outer_bc n2 n3 B part dt pre cur cp new 0%nat = o_first n2 n3 B dt pre cur cp new 0%nat.
Proof. apply functional_extensionality. intros p. unfold outer_bc. destruct (outerp n2 n3 B p); reflexivity. Qed.
Lemma first_other dt cp v p : v <> 0%nat -> o_first n2 n3 B dt pre cur cp new v p = new v p.
Proof. intros N. unfold o_first. destruct (outerp n2 n3 B p); [|reflexivity]. destruct v; [congruence|reflexivity]. Qed.
(** the rates (no time step) at a point of the outer boundary *)
Lemma outer_rates cp p : outerp n2 n3 B p = true -> let new' := outer_bc n2 n3 B part 0 pre cur cp new in let d := fun i => part (new' 0%nat) i p in
  let up := s_out B new p in let um := if cp then up - 2 * k_dot B p d else - cur 1%nat p / k_r B p in
  new' 0%nat p = (if cp then o_psi_CP B cur p else o_psi B cur p) /\ new' 1%nat p = 1 / 2 * (up + um) /\ forall i, (i < 3)%nat -> new' (4 + i)%nat p = 1 / 2 * (up - um) * k_c B p i + (d i - k_dot B p d * k_c B p i).
Proof.
  intros O new' d up um. assert (E0 : new' 0%nat p = (if cp then o_psi_CP B cur p else o_psi B cur p)).
  { unfold new'. rewrite outer_psi. unfold o_first. rewrite O. unfold o_new. destruct (Req_EM_T 0 0); [reflexivity|congruence]. }
  split; [exact E0|]. assert (P : forall v, new' v p = o_point B part 0 pre cur cp (o_first n2 n3 B 0 pre cur cp new) p v) by (intros v; unfold new', outer_bc; now rewrite O).
  assert (DD : k_dot B p (fun i => o_first n2 n3 B 0 pre cur cp new (4 + i)%nat p) = k_dot B p (s_phi new p)) by (apply dot_ext; intros i Hi; apply first_other; lia).
  assert (E1 : o_first n2 n3 B 0 pre cur cp new 1%nat p = new 1%nat p) by (apply first_other; lia).
  assert (Ed : part (o_first n2 n3 B 0 pre cur cp new 0%nat) = part (new' 0%nat)) by (unfold new'; now rewrite outer_psi).
  assert (Z : forall v x, o_new 0 pre v p x = x) by (intros; unfold o_new; destruct (Req_EM_T 0 0); [reflexivity|congruence]).
  split.
  - rewrite P. unfold o_point. rewrite Z, DD, E1, Ed. unfold um, up, s_out, d. destruct cp; reflexivity.
  - intros i Hi. rewrite P. unfold o_point. rewrite DD, E1, Ed. destruct i as [|[|[|i]]]; [cbn [Nat.add]; rewrite Z; unfold um, up, s_out, d; destruct cp; reflexivity..|lia].
Qed.
End OUT.
(** Rates (no time step): the outgoing field keeps its rate.  Without constraintPreserving the ingoing field gets the rate - Pi / r and the tangential part of phi that of the tangential part of the gradient of the rate of psi. *)
Theorem C123_radiative n2 n3 B part pre cur new j k : (j < n2)%nat -> (k < n3)%nat -> let p := kind (b_n1 B) n2 (b_n1 B - 1) j k in 0 < k_gnn B p ->
  let new' := outer_bc n2 n3 B part 0 pre cur false new in let d := fun i => part (new' 0%nat) i p in
  s_out B new' p = s_out B new p /\ s_in B new' p = - cur 1%nat p / k_r B p /\ forall i, (i < 3)%nat -> s_tan B new' p i = d i - k_dot B p d * k_c B p i.
Proof.
  intros Hj Hk p GP new' d. assert (O : outerp n2 n3 B p = true) by (apply outerp_in; exists j, k; auto).
  set (up := s_out B new p). set (um := - cur 1%nat p / k_r B p).
  assert (E1 : new' 1%nat p = 1 / 2 * (up + um)) by exact (proj1 (proj2 (outer_rates n2 n3 B part pre cur new false p O))).
  assert (E2 : forall i, (i < 3)%nat -> new' (4 + i)%nat p = 1 / 2 * (up - um) * k_c B p i + (d i - k_dot B p d * k_c B p i)) by exact (proj2 (proj2 (outer_rates n2 n3 B part pre cur new false p O))).
  assert (D : k_dot B p (s_phi new' p) = 1 / 2 * (up - um)).
  { transitivity (k_dot B p (fun i => d i + (1 / 2 * (up - um) - k_dot B p d) * k_c B p i)); [apply dot_ext; intros i Hi; unfold s_phi; rewrite E2 by exact Hi; ring|]. rewrite dot_lin, (c_unit B p GP). ring. }
  unfold s_out, s_in, s_tan. rewrite D, E1. split; [field|]. split; [field|]. intros i Hi. unfold s_phi. rewrite E2 by exact Hi. ring.
Qed.
(** With constraintPreserving the rate of psi is - c.phi - psi / r, the rate of phi is the gradient of the rate of psi, so that phi - grad psi stays what it was, and the outgoing field keeps its rate. *)
Theorem C123_constraint n2 n3 B part pre cur new j k : (j < n2)%nat -> (k < n3)%nat -> let p := kind (b_n1 B) n2 (b_n1 B - 1) j k in 0 < k_gnn B p ->
  let new' := outer_bc n2 n3 B part 0 pre cur true new in
  new' 0%nat p = - k_dot B p (s_phi cur p) - cur 0%nat p / k_r B p /\ (forall i, (i < 3)%nat -> s_phi new' p i = part (new' 0%nat) i p) /\ s_out B new' p = s_out B new p.
Proof.
  intros Hj Hk p GP new'. assert (O : outerp n2 n3 B p = true) by (apply outerp_in; exists j, k; auto).
  destruct (outer_rates n2 n3 B part pre cur new true p O) as (E0 & E1 & E2). cbv zeta in E0, E1, E2. fold new' in E0, E1, E2. cbv iota in E0, E1, E2.
  assert (F : forall i, (i < 3)%nat -> s_phi new' p i = part (new' 0%nat) i p) by (intros i Hi; unfold s_phi; rewrite E2 by exact Hi; field).
  split; [exact E0|]. split; [exact F|]. unfold s_out at 1. rewrite E1. rewrite (dot_ext B p _ _ F). field.
Qed.
(** only the outer plane changes, and there only psi, Pi and phi *)
Theorem C123_frame n2 n3 B part dt pre cur new cp v p : (~ evolved v \/ forall j k, (j < n2)%nat -> (k < n3)%nat -> p <> kind (b_n1 B) n2 (b_n1 B - 1) j k) -> outer_bc n2 n3 B part dt pre cur cp new v p = new v p.
Proof.
  intros H. unfold outer_bc. destruct (outerp n2 n3 B p) eqn:O.
  - destruct H as [H|H]; [|apply outerp_in in O; destruct O as (j & k & Hj & Hk & E); elim (H j k Hj Hk E)].
    unfold evolved in H. do 7 (destruct v as [|v]; [try (elim H; lia); cbn [o_point]; apply first_other; lia|]). cbn [o_point]. apply first_other. lia.
  - unfold o_first. rewrite O. reflexivity.
Qed.
(** The rate of psi should be that of the evolution inside,  beta.phi - alpha Pi, at the point.  It is so at the first point of the plane, but not at the others: *)
Theorem C123_psi_partial n2 n3 B part pre cur new j k : (j < n2)%nat -> (k < n3)%nat -> let p := kind (b_n1 B) n2 (b_n1 B - 1) j k in
  let bphi := fun q => b_beta B 0 q * cur 4%nat q + b_beta B 1 q * cur 5%nat q + b_beta B 2 q * cur 6%nat q in let new' := outer_bc n2 n3 B part 0 pre cur false new in
  new' 0%nat p = bphi (b_n1 B - 1)%nat - b_alpha B p * cur 1%nat p /\ (bphi (b_n1 B - 1)%nat = bphi p -> new' 0%nat p = bphi p - b_alpha B p * cur 1%nat p) /\ (j = 0%nat -> k = 0%nat -> new' 0%nat p = bphi p - b_alpha B p * cur 1%nat p).
Proof.
  intros Hj Hk p bphi new'. assert (O : outerp n2 n3 B p = true) by (apply outerp_in; exists j, k; auto).
  destruct (outer_rates n2 n3 B part pre cur new false p O) as (E0 & _). fold new' in E0. cbv iota in E0.
  assert (E : new' 0%nat p = bphi (b_n1 B - 1)%nat - b_alpha B p * cur 1%nat p) by (rewrite E0; unfold o_psi, bphi; ring).
  assert (PE : j = 0%nat -> k = 0%nat -> (b_n1 B - 1)%nat = p) by (intros Ej Ek; unfold p, kind; subst j k; lia).
  split; [exact E|]. split; [intros <-; exact E|]. intros Ej Ek. rewrite E, (PE Ej Ek). reflexivity.
Qed.
(** a box with 2 by 2 by 1 points at distance 1 from the centre, flat metric, lapse 1 and shift 1/2 in x *)
Definition flat_box : kbox := KBox 2 (fun i _ => match i with 0%nat => 1 | _ => 0 end) (fun i _ => match i with 0%nat | 3%nat | 5%nat => 1 | _ => 0 end) (fun _ => 1) (fun i _ => match i with 0%nat => / 2 | _ => 0 end).
Lemma flat_r p : k_r flat_box p = 1. Proof. unfold k_r, flat_box. cbn [b_x]. replace (1 * 1 + 0 * 0 + 0 * 0) with 1 by ring. apply sqrt_1. Qed.
Lemma flat_gnn p : k_gnn flat_box p = 1. Proof. unfold k_gnn, k_n. rewrite flat_r. unfold flat_box. cbn [b_x b_gup]. field. Qed.
Theorem C123_psi_refuted : exists n2 n3 B part pre cur new j k, (j < n2)%nat /\ (k < n3)%nat /\ let p := kind (b_n1 B) n2 (b_n1 B - 1) j k in 0 < k_gnn B p /\
  outer_bc n2 n3 B part 0 pre cur false new 0%nat p <> b_beta B 0 p * cur 4%nat p + b_beta B 1 p * cur 5%nat p + b_beta B 2 p * cur 6%nat p - b_alpha B p * cur 1%nat p.
Proof.
  exists 2%nat, 1%nat, flat_box, (fun _ _ _ => 0), (fun _ _ => 0), (fun v p => if ((v =? 4) && (p =? 3))%nat%bool then 1 else 0), (fun _ _ => 0), 1%nat, 0%nat. split; [lia|]. split; [lia|].
  cbv zeta. split; [rewrite flat_gnn; lra|]. destruct (C123_psi_partial 2 1 flat_box (fun _ _ _ => 0) (fun _ _ => 0) (fun v p => if ((v =? 4) && (p =? 3))%nat%bool then 1 else 0) (fun _ _ => 0) 1 0 ltac:(lia) ltac:(lia)) as (E & _).
  cbv zeta in E. rewrite E. cbn. lra.
Qed.
(** With a time step the new values should be the previous ones plus the step times these rates.  They are not: the values found inside are taken for rates. *)
Theorem C123_step_refuted : exists n2 n3 B part dt pre cur rate j k, dt <> 0 /\ (j < n2)%nat /\ (k < n3)%nat /\ let p := kind (b_n1 B) n2 (b_n1 B - 1) j k in 0 < k_gnn B p /\ forall cp,
  outer_bc n2 n3 B part dt pre cur cp (fun v q => pre v q + dt * rate v q) 1%nat p <> pre 1%nat p + dt * outer_bc n2 n3 B part 0 pre cur cp rate 1%nat p.
Proof.
  exists 1%nat, 1%nat, flat_box, (fun _ _ _ => 0), 1, (fun v _ => match v with 1%nat => 1 | _ => 0 end), (fun _ _ => 0), (fun _ _ => 0), 0%nat, 0%nat. split; [lra|]. split; [lia|]. split; [lia|].
  cbv zeta. split; [rewrite flat_gnn; lra|]. intros cp. change (kind (b_n1 flat_box) 1 (b_n1 flat_box - 1) 0 0) with 1%nat.
  assert (O : outerp 1 1 flat_box 1 = true) by reflexivity.
  destruct (outer_rates 1 1 flat_box (fun _ _ _ => 0) (fun v _ => match v with 1%nat => 1 | _ => 0 end) (fun _ _ => 0) (fun _ _ => 0) cp 1 O) as (_ & E1 & _). cbv zeta in E1. rewrite E1. clear E1.
  unfold outer_bc at 1. rewrite O. unfold o_point, o_first. rewrite O. unfold o_new. destruct (Req_EM_T 1 0) as [Q|_]; [lra|]. rewrite flat_r. unfold s_out, s_phi, k_dot. destruct cp; cbn [Nat.add]; intros Q; field_simplify in Q; lra.
Qed.
(** three flat shells *)
Example C122_ex : let G := fun _ : nat => flat_box in shells 3 2 1 G (fun _ _ => true) /\ same_point (G 0%nat) (kind 2 2 1 1 0) (G 1%nat) (kind 2 2 0 1 0) /\ 0 < k_gnn (G 0%nat) (kind 2 2 1 1 0).
Proof.
  intros G. split; [|split; [split; reflexivity|unfold G; rewrite flat_gnn; lra]]. intros b Hb. split; [cbn; lia|]. auto.
Qed.
Print Assumptions C122_join.
Print Assumptions C122_agree.
Print Assumptions C122_frame.
Print Assumptions C123_radiative.
Print Assumptions C123_constraint.
Print Assumptions C123_frame.
Print Assumptions C123_psi_partial.
Print Assumptions C123_psi_refuted.
Print Assumptions C123_step_refuted.

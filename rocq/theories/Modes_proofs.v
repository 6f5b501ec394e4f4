(** Proofs about the mode computer: the loops, the copies, the integral of a sum of modes. *)
From Verif Require Import Base Loops Arrays Sparse_model Sparse_proofs Cart_model Mat_model Mat_spec Mat_proofs Four_model Four_spec Four_proofs Four_props Dir_model Dir_spec Dir_props
  Lines_model Lines_spec Lines_proofs Lines_props Integ_spec Integ_proofs Integ_props Dcov_model Dcov_spec Dcov_props Sphere_model Sphere_props Swsh_model Swsh_spec Swsh_proofs Swsh_props Modes_math Modes_model Modes_spec.
Local Open Scope R_scope.
Notation inbox := Lines_spec.inbox.
Notation integral := Integ_spec.integral.

(** ** total *)
Lemma total_ext {A} (f g : A -> R) l : (forall x, In x l -> f x = g x) -> total f l = total g l.
Proof. induction l as [|x l IH]; cbn [total]; intros H; auto. rewrite H by (left; auto). rewrite IH; auto. intros. apply H. now right. Qed.
Lemma total_scal {A} (f : A -> R) k l : total (fun x => k * f x) l = k * total f l.
Proof. induction l as [|x l IH]; cbn [total]; [ring|]. rewrite IH. ring. Qed.
Lemma total_plus {A} (f g : A -> R) l : total (fun x => f x + g x) l = total f l + total g l.
Proof. induction l as [|x l IH]; cbn [total]; [ring|]. rewrite IH. ring. Qed.
Lemma total_map {A B} (f : B -> R) (h : A -> B) l : total f (map h l) = total (fun x => f (h x)) l.
Proof. induction l as [|x l IH]; cbn [total map]; auto. now rewrite IH. Qed.
Lemma total_zero {A} (f : A -> R) l : (forall x, In x l -> f x = 0) -> total f l = 0.
Proof. induction l as [|x l IH]; cbn [total]; intros H; auto. rewrite H by (left; auto). rewrite IH; [ring|]. intros. apply H. now right. Qed.
Lemma Sig_total {A} n (f : A -> nat -> R) l : Sig n (fun k => total (fun x => f x k) l) = total (fun x => Sig n (f x)) l.
Proof. induction l as [|x l IH]; cbn [total]. { apply Sig_zero. auto. } rewrite Sig_plus, IH. reflexivity. Qed.
Lemma TP_total {A} D (f : A -> R -> R) l : (forall x, In x l -> TP D (f x)) -> TP D (fun t => total (fun x => f x t) l).
Proof.
  induction l as [|x l IH]; intros H; cbn [total]. { apply TP_const. }
  apply (TPplus D (f x) (fun t => total (fun x => f x t) l)). { apply H. now left. } apply IH. intros. apply H. now right.
Qed.
Lemma int_total {A} (f : A -> R -> R) (y : A -> R) (l : list A) : (forall x, In x l -> integral (fun t => f x t * sin t) 0 PI (y x)) -> integral (fun t => total (fun x => f x t) l * sin t) 0 PI (total y l).
Proof.
  induction l as [|x l IH]; intros H; cbn [total].
  - exists (fun _ => 0). split; [|ring]. intros X. replace (0 * sin X) with 0 by ring. apply derivable_pt_lim_const.
  - refine (int_ext _ _ 0 PI _ _ _ _ (int_lin _ _ 0 PI _ _ 1 1 (H x (or_introl eq_refl)) (IH _))). { intros t. cbv beta. ring. } { ring. } intros. apply H. now right.
Qed.

(** ** Values of arrays *)
Lemma val_rd b u i j k : inbox b (i, j, k) -> List.length u = npoints b -> rd u (Ix b i j k) = Ok (val b u (i, j, k)).
Proof. intros I L. apply (rd_ok u (Ix b i j k) 0). rewrite L. now apply (Ixp_lt b (i, j, k)). Qed.
Lemma inbox3 b i j k : inbox b (i, j, k) <-> (i < nn b X1 /\ j < nn b X2 /\ k < nn b X3)%nat.
Proof. split. { intros H. exact (conj (H X1) (conj (H X2) (H X3))). } intros (A & B & D) []; auto. Qed.

(** ** Loops that write right values only *)
Lemma forl_fill b (F : point -> R) (K : list R -> Prop) (g : point -> list R -> res R) tasks : (forall t, In t tasks -> inbox b t) ->
  (forall u u', List.length u = npoints b -> List.length u' = npoints b -> K u -> (forall p, inbox b p -> val b u p = F p -> val b u' p = F p) -> K u') ->
  (forall t u, In t tasks -> List.length u = npoints b -> K u -> g t u = Ok (F t)) ->
  forall u, List.length u = npoints b -> K u -> exists u', forl tasks (fun t u => do v <- g t u; wr u (Ixp b t) v) u = Ok u' /\ List.length u' = npoints b /\ K u' /\
    (forall t, In t tasks -> val b u' t = F t) /\ (forall p, inbox b p -> val b u p = F p -> val b u' p = F p).
Proof.
  intros HI HK. induction tasks as [|t tasks IH]; intros Hg u Lu Ku; cbn [forl]. { exists u. repeat split; auto. intros t []. }
  rewrite Hg by (auto; now left). cbn [rbind]. assert (It := HI t (or_introl eq_refl)). assert (Pt := Ixp_lt b t It). rewrite wr_ok by lia. cbn [rbind]. set (u1 := upd u (Ixp b t) (F t)).
  assert (L1 : List.length u1 = npoints b) by (unfold u1; now rewrite upd_length).
  assert (V : forall p q, val b q p = nth (Ixp b p) q 0) by (intros [[i j] k] q; reflexivity).
  assert (Vt : val b u1 t = F t) by (rewrite V; unfold u1; apply nth_upd_eq; lia).
  assert (Vp : forall p, inbox b p -> val b u p = F p -> val b u1 p = F p).
  { intros p Ip E. destruct (Nat.eq_dec (Ixp b p) (Ixp b t)) as [Q|Q]. { apply Ixp_inj in Q; auto. subst p. exact Vt. } rewrite V. unfold u1. rewrite nth_upd_ne by auto. now rewrite <- V. }
  destruct (IH (fun x H => HI x (or_intror H)) (fun x u H => Hg x u (or_intror H)) u1 L1 (HK u u1 Lu L1 Ku Vp)) as (u' & E & L' & K' & Ht & Hp). exists u'. repeat split; auto. intros x [<-|Ix]; auto.
Qed.

(** ** The modes and their numbers *)
Lemma mode_pairs_S L : mode_pairs (S L) = mode_pairs L ++ map (fun q => (Z.of_nat (S L), Z.of_nat q - Z.of_nat (S L))%Z) (seq 0 (2 * S L + 1)).
Proof. unfold mode_pairs. replace (S L + 1)%nat with (S (L + 1)) by lia. rewrite seq_S, flat_map_app. cbn [flat_map]. rewrite app_nil_r. replace (0 + (L + 1))%nat with (S L) by lia. reflexivity. Qed.
Lemma mode_pairs_length L : List.length (mode_pairs L) = ((L + 1) * (L + 1))%nat.
Proof. induction L as [|L IH]. { reflexivity. } rewrite mode_pairs_S, app_length, IH, map_length, seq_length. nia. Qed.
Lemma mode_pairs_nth L l m : (0 <= l <= Z.of_nat L)%Z -> (- l <= m <= l)%Z -> nth_error (mode_pairs L) (Z.to_nat (l * l + l + m)) = Some (l, m).
Proof.
  induction L as [|L IH]; intros Hl Hm. { assert (l = 0)%Z by lia. assert (m = 0)%Z by lia. subst. reflexivity. }
  rewrite mode_pairs_S. destruct (Z.eq_dec l (Z.of_nat (S L))) as [->|N].
  - rewrite nth_error_app2; rewrite mode_pairs_length; [|nia]. rewrite (map_nth_error (fun q => (Z.of_nat (S L), (Z.of_nat q - Z.of_nat (S L))%Z)) _ _ (d := Z.to_nat (m + Z.of_nat (S L)))).
    + f_equal. f_equal. lia.
    + rewrite (nth_error_nth' _ 0%nat) by (rewrite seq_length; nia). f_equal. rewrite seq_nth by nia. nia.
  - rewrite nth_error_app1; [|rewrite mode_pairs_length; nia]. apply IH; lia.
Qed.
Lemma mode_pairs_in L l m : In (l, m) (mode_pairs L) <-> ((0 <= l <= Z.of_nat L)%Z /\ (- l <= m <= l)%Z).
Proof.
  split.
  - intros H. unfold mode_pairs in H. apply in_flat_map in H. destruct H as (x & Hx & H). apply in_seq in Hx. apply in_map_iff in H. destruct H as (q & E & Hq). apply in_seq in Hq. injection E as <- <-. lia.
  - intros [A B]. exact (nth_error_In _ _ (mode_pairs_nth L l m A B)).
Qed.
Lemma numbered_in {A} (l : list A) i x : In (i, x) (numbered l) <-> nth_error l i = Some x.
Proof.
  unfold numbered. assert (G : forall l a, In (i, x) (combine (seq a (List.length l)) l) <-> (a <= i)%nat /\ nth_error l (i - a) = Some x).
  { induction l0 as [|y l0 IH]; intros a; cbn [List.length seq combine In]. { split; [easy|]. intros [_ E]. destruct (i - a)%nat; discriminate. }
    rewrite IH. split.
    - intros [E|[L E]]. { injection E as -> ->. split; auto. now rewrite Nat.sub_diag. } split; [lia|]. replace (i - a)%nat with (S (i - S a)) by lia. exact E.
    - intros [L E]. destruct (Nat.eq_dec i a) as [->|N]. { rewrite Nat.sub_diag in E. injection E as ->. now left. } right. split; [lia|]. replace (i - a)%nat with (S (i - S a)) in E by lia. exact E. }
  rewrite G, Nat.sub_0_r. split; [now intros []|]. intros. split; auto; lia.
Qed.

Lemma set_points_ok b L (g : Z -> Z -> nat -> res R) (G : Z -> Z -> nat -> nat -> nat -> R) u : ((L + 1) * (L + 1) <= nn b X1)%nat -> List.length u = npoints b ->
  (forall i l m j k, nth_error (mode_pairs L) i = Some (l, m) -> inbox b (i, j, k) -> (j < nn b X2 / 2)%nat -> g l m (Ix b i j k) = Ok (G l m i j k)) ->
  exists u', set_points b L g u = Ok u' /\ List.length u' = npoints b /\ forall i l m j k, nth_error (mode_pairs L) i = Some (l, m) -> inbox b (i, j, k) -> (j < nn b X2 / 2)%nat -> val b u' (i, j, k) = G l m i j k.
Proof.
  intros HL Lu Hg. set (gp := fun p : point => let '(i, j, k) := p in match nth_error (mode_pairs L) i with Some (l, m) => g l m (Ix b i j k) | None => Err end).
  set (F := fun p : point => let '(i, j, k) := p in match nth_error (mode_pairs L) i with Some (l, m) => G l m i j k | None => 0 end).
  set (tasks := flat_map (fun x : nat * (Z * Z) => flat_map (fun k => map (fun j => (fst x, j, k)) (seq 0 (nn b X2 / 2 - 0))) (seq 0 (nn b X3 - 0))) (numbered (mode_pairs L))).
  assert (H2 : (nn b X2 / 2 <= nn b X2)%nat) by (apply Nat.div_le_upper_bound; lia).
  assert (Tin : forall i j k, In (i, j, k) tasks -> inbox b (i, j, k) /\ (j < nn b X2 / 2)%nat /\ exists l m, nth_error (mode_pairs L) i = Some (l, m)).
  { intros i j k H. apply in_flat_map in H. destruct H as ((i', (l, m)) & Hx & H). apply numbered_in in Hx. apply in_flat_map in H. destruct H as (k' & Hk & H). apply in_map_iff in H. destruct H as (j' & E & Hj). cbn [fst] in E. injection E as -> -> ->. apply in_seq in Hk, Hj.
    assert (i < List.length (mode_pairs L))%nat by (apply nth_error_Some; congruence). rewrite mode_pairs_length in H. split; [apply inbox3; lia|]. split; [lia|]. now exists l, m. }
  assert (Tall : forall i l m j k, nth_error (mode_pairs L) i = Some (l, m) -> inbox b (i, j, k) -> (j < nn b X2 / 2)%nat -> In (i, j, k) tasks).
  { intros i l m j k E I Hj. apply inbox3 in I. apply in_flat_map. exists (i, (l, m)). split; [now apply numbered_in|]. apply in_flat_map. exists k. split; [apply in_seq; lia|]. apply in_map_iff. exists j. split; auto. apply in_seq. lia. }
  destruct (forl_fill b F (fun _ => True) (fun p _ => gp p) tasks) with (u := u) as (u' & E & Lu' & _ & Ht & _); auto.
  { intros [[i j] k] H. now apply Tin in H. }
  { intros [[i j] k] v H _ _. destruct (Tin i j k H) as (I & Hj & l & m & E). unfold gp, F. rewrite E. eapply Hg; eauto. }
  exists u'. split; [|split; auto].
  - rewrite <- E. unfold tasks, set_points. rewrite forl_flat. apply forl_ext. intros [i [l m]] v Hx. apply numbered_in in Hx. rewrite forl_flat. unfold for_nat. apply forl_ext. intros k w Hk. rewrite forl_map. apply forl_ext. intros j z Hj. unfold gp, Ixp. cbn [fst]. now rewrite Hx.
  - intros i l m j k E' I Hj. rewrite (Ht (i, j, k)) by eauto. unfold F. now rewrite E'.
Qed.

(** ** Copies *)
Lemma copy_arr_ok ks b u : Nat.Even (nn b X2) -> Nat.Even (nn b X3) -> copy_orders b ks -> List.length u = npoints b ->
  exists u', copy_arr ks b u = Ok u' /\ List.length u' = npoints b /\
    (forall i j k, inbox b (i, j, k) -> (j < nn b X2 / 2)%nat -> val b u' (i, j, k) = val b u (i, j, k)) /\
    (forall i j k, inbox b (i, j, k) -> (nn b X2 / 2 <= j)%nat -> val b u' (i, j, k) = val b u (i, nn b X2 - 1 - j, (k + nn b X3 / 2) mod nn b X3)%nat).
Proof.
  intros E2 E3 [P1 P2] Lu. destruct (C69_copy (fst ks) (snd ks) (Dims (nn b X1) (nn b X2) (nn b X3)) 0%nat (fun _ => Some u) u) as (v' & u' & E & Ev & (LC & C1 & C2) & _); auto. { split; auto. }
  exists u'. unfold copy_arr. rewrite E. cbn [rbind]. unfold deref. rewrite Ev. split; auto. split; [congruence|].
  assert (V : forall w i j k, at_ijk (Dims (nn b X1) (nn b X2) (nn b X3)) w i j k = val b w (i, j, k)). { intros. unfold at_ijk, val. cbn [d1 d2]. f_equal. ring. }
  split; intros i j k I Hj; apply inbox3 in I; rewrite <- V.
  - rewrite C1, V; auto.
  - rewrite C2 by auto. unfold at_partner, partner. cbn [d2 d3n fst snd]. now rewrite V.
Qed.

(** ** Sums of modes on the grid *)
Record term := { tf : R -> R; tn : Z; tp : R; tq : R; ty : R }.
Definition tval (E : list term) (th ph : R) : R := total (fun e => tf e th * (tp e * cos (IZR (tn e) * ph) + tq e * sin (IZR (tn e) * ph))) E.
Definition good (N3 D : nat) (e : term) : Prop := (Z.abs (tn e) < Z.of_nat N3)%Z /\ (forall th, tf e (2 * PI - th) = (-1) ^ Z.abs_nat (tn e) * tf e th) /\
  (tn e = 0%Z -> TP D (tf e) /\ integral (fun th => tf e th * sin th) 0 PI (ty e)).
Lemma nat_pi n : cos (INR n * PI) = (-1) ^ n /\ sin (INR n * PI) = 0.
Proof.
  induction n as [|n [A B]]. { simpl INR. rewrite Rmult_0_l, cos_0, sin_0. split; auto. }
  rewrite S_INR, Rmult_plus_distr_r, Rmult_1_l, cos_plus, sin_plus, A, B, cos_PI, sin_PI. cbn [pow]. split; ring.
Qed.
Lemma z_pi n : cos (IZR n * PI) = (-1) ^ Z.abs_nat n /\ sin (IZR n * PI) = 0.
Proof.
  destruct (Z.le_ge_cases 0 n) as [H|H].
  - replace (IZR n) with (INR (Z.abs_nat n)) by (rewrite INR_IZR_INZ; f_equal; lia). apply nat_pi.
  - replace (IZR n * PI) with (- (INR (Z.abs_nat n) * PI)) by (rewrite INR_IZR_INZ; replace (Z.of_nat (Z.abs_nat n)) with (- n)%Z by lia; rewrite opp_IZR; ring). destruct (nat_pi (Z.abs_nat n)) as [A B]. rewrite cos_neg, sin_neg, A, B. split; auto; ring.
Qed.
Lemma m1_sq n : (-1) ^ n * (-1) ^ n = 1.
Proof. rewrite <- Rpow_mult_distr. replace (-1 * -1) with 1 by ring. apply pow1. Qed.
Lemma tval_antipode N3 D E th ph : (forall e, In e E -> good N3 D e) -> tval E (2 * PI - th) (ph + PI) = tval E th ph.
Proof.
  intros H. apply total_ext. intros e He. destruct (H e He) as (_ & S & _). rewrite S. destruct (z_pi (tn e)) as [A B]. rewrite (Rmult_plus_distr_l (IZR (tn e)) ph PI), cos_plus, sin_plus, A, B. assert (Q := m1_sq (Z.abs_nat (tn e))).
  set (sg := (-1) ^ Z.abs_nat (tn e)) in *. transitivity (sg * sg * (tf e th * (tp e * cos (IZR (tn e) * ph) + tq e * sin (IZR (tn e) * ph)))); [ring|]. rewrite Q. ring.
Qed.
Lemma z_2pi n ph z : cos (IZR n * (ph + 2 * PI * IZR z)) = cos (IZR n * ph) /\ sin (IZR n * (ph + 2 * PI * IZR z)) = sin (IZR n * ph).
Proof.
  replace (IZR n * (ph + 2 * PI * IZR z)) with (IZR n * ph + IZR (2 * (n * z)) * PI) by (rewrite !mult_IZR; ring). destruct (z_pi (2 * (n * z))) as [A B]. rewrite cos_plus, sin_plus, A, B. replace (Z.abs_nat (2 * (n * z))) with (2 * Z.abs_nat (n * z))%nat by lia. rewrite pow_1_even. split; ring.
Qed.
Lemma phi_sum N n p q : (1 <= N)%nat -> (Z.abs n < Z.of_nat N)%Z -> Sig N (fun k => p * cos (IZR n * (2 * PI * INR k / INR N)) + q * sin (IZR n * (2 * PI * INR k / INR N))) = if Z.eq_dec n 0 then INR N * p else 0.
Proof.
  intros HN Hn. set (a := Z.abs_nat n). assert (Ha : (a < N)%nat) by lia. assert (PN : 0 < INR N) by (apply lt_0_INR; lia).
  assert (exists q', forall k, p * cos (IZR n * (2 * PI * INR k / INR N)) + q * sin (IZR n * (2 * PI * INR k / INR N)) = p * cos (INR a * phase N k) + q' * sin (INR a * phase N k)) as [q' Hq].
  { destruct (Z.le_ge_cases 0 n) as [H|H].
    - exists q. intros k. replace (INR a) with (IZR n) by (unfold a; rewrite INR_IZR_INZ; f_equal; lia). reflexivity.
    - exists (- q). intros k. replace (IZR n * (2 * PI * INR k / INR N)) with (- (INR a * phase N k)). { rewrite cos_neg, sin_neg. ring. } unfold a, phase. rewrite INR_IZR_INZ. replace (Z.of_nat (Z.abs_nat n)) with (- n)%Z by lia. rewrite opp_IZR. field. lra. }
  rewrite (Sig_ext N _ _ (fun k _ => Hq k)), Sig_plus, !Sig_scal, Csum, Ssum by lia. destruct (Z.eq_dec n 0) as [E|E].
  - replace a with 0%nat by (unfold a; lia). cbn [Nat.eqb orb]. ring.
  - destruct (Nat.eqb_spec a 0), (Nat.eqb_spec a N); cbn [orb]; try lia. ring.
Qed.
Definition picked (E : list term) : R := total (fun e => if Z.eq_dec (tn e) 0 then 2 * PI * tp e * ty e else 0) E.
Lemma quad b sc rad X Y Z_ u D : mode_box b -> (forall d, schedule b d (sc d)) -> mode_coords b rad X Y Z_ -> List.length u = npoints b -> (2 * D < nn b X2)%nat ->
  exists V, spec_sphericalDF2dIntegral b sc (fun _ => fourmeth) X true u u = Ok V /\ List.length V = npoints b /\
    forall i E, (i < nn b X1)%nat -> (forall e, In e E -> good (nn b X3) D e) -> (forall j k, inbox b (i, j, k) -> val b u (i, j, k) = tval E (theta b j) (phi b k) / (rad i * rad i)) -> V.[i] = picked E.
Proof.
  intros (B2 & B3 & L2 & H2 & L3 & H3 & E2 & E3 & N2 & N3) Sc (LX & LY & LZ & HC) Lu HD. assert (PP := PI_RGT_0).
  assert (EV : (nn b X2 mod 2 = 0)%nat) by (destruct E2 as [h ->]; rewrite Nat.mul_comm; apply Nat.mod_mul; lia).
  destruct (C44_exact_partial Fourier b sc X true u u) as (W & V & E & LV & HW & H); auto; try lia. { destruct E2 as [h ->]. intros Q. assert (A := Nat.div_mod (2 * h) 4 ltac:(lia)). lia. }
  exists V. split. { rewrite <- E. reflexivity. } split; auto. intros i Es Hi Hg Hu.
  assert (I0 : inbox b (i, 0, 0)%nat) by (apply inbox3; lia). destruct (H _ I0) as (c & x & Lc & Hc & Hx & HV). cbv zeta in Hc, Hx. destruct (HC i 0%nat 0%nat I0) as (R0 & XR & _).
  set (N := nn b X2) in *. set (sh := PI / (INR (1 + N mod 2) * INR N)) in *. assert (PN : 0 < INR N) by (apply lt_0_INR; lia). assert (PN3 : 0 < INR (nn b X3)) by (apply lt_0_INR; lia).
  set (h := fun th => total (fun e => if Z.eq_dec (tn e) 0 then 2 * PI * tp e / (rad i * rad i) * tf e th else 0) Es).
  assert (Tj : forall j, coord Fourier 0 (2 * PI) N j + sh = theta b j). { intros j. rewrite coord_fourier. unfold theta, sh. fold N. rewrite EV. simpl (INR (1 + 0)). field. lra. }
  assert (Hx2 : x = total (fun e => if Z.eq_dec (tn e) 0 then 2 * PI * tp e / (rad i * rad i) * ty e else 0) Es).
  { apply (theta_exact N D c h sh); auto; [lia| | |].
    - unfold h. apply TP_total. intros e He. destruct (Z.eq_dec (tn e) 0) as [Z0|Z0]; [|apply TP_const]. apply TPscal. now apply Hg.
    - intros m Hm. rewrite Tj. rewrite Hc by auto. cbn [setc]. assert (Im : inbox b (i, m, 0)%nat) by (apply inbox3; fold N; lia).
      rewrite (fourier_sum (bd b X3) (line b X3 u (i, m, 0%nat)) (val b W (i, m, 0%nat))); [|lra|exact N3|unfold line; rewrite map_length; apply seq_length|now apply HW]. rewrite L3, H3. change (b_n (bd b X3)) with (nn b X3).
      rewrite (Sig_ext _ _ (fun k => total (fun e => tf e (theta b m) / (rad i * rad i) * (tp e * cos (IZR (tn e) * phi b k) + tq e * sin (IZR (tn e) * phi b k))) Es)).
      2:{ intros k Hk. rewrite line_nth by auto. cbn [setc]. rewrite Hu by (apply inbox3; fold N; lia). unfold tval, Rdiv at 1. rewrite Rmult_comm, <- total_scal. apply total_ext. intros. field. auto. }
      rewrite Sig_total, <- total_scal. unfold h. apply total_ext. intros e He. destruct (Hg e He) as (Hn & _). rewrite Sig_scal. unfold phi. rewrite phi_sum by lia. destruct (Z.eq_dec (tn e) 0); [field; split; auto; lra|ring].
    - unfold h. apply int_total. intros e He. destruct (Z.eq_dec (tn e) 0) as [Z0|Z0].
      + destruct (Hg e He) as (_ & _ & G). destruct (G Z0) as [_ I]. refine (int_ext _ _ 0 PI _ _ _ eq_refl (int_scal _ 0 PI _ (2 * PI * tp e / (rad i * rad i)) I)). intros t. cbv beta. ring.
      + exists (fun _ => 0). split; [|ring]. intros X0. replace (0 * sin X0) with 0 by ring. apply derivable_pt_lim_const. }
  assert (VE : val b V (i, 0, 0)%nat = V.[i]). { unfold val. f_equal. lia. } rewrite <- VE, HV, XR, Hx2. unfold picked. rewrite Rmult_comm, <- Rmult_assoc, <- total_scal, Rmult_comm, <- total_scal. (**)
  apply total_ext. intros e He. destruct (Z.eq_dec (tn e) 0); [field; auto|ring].
Qed.

(** ** The harmonics as such sums *)
Lemma m1_even_z a : (-1) ^ Z.abs_nat a = if Z.even a then 1 else -1.
Proof.
  destruct (Z.even a) eqn:E.
  - apply Z.even_spec in E. destruct E as [z ->]. replace (Z.abs_nat (2 * z)) with (2 * Z.abs_nat z)%nat by lia. apply pow_1_even.
  - assert (O : Z.odd a = true) by (rewrite <- Z.negb_even, E; auto). apply Z.odd_spec in O. destruct O as [z ->]. destruct (Z.le_ge_cases 0 z).
    + replace (Z.abs_nat (2 * z + 1)) with (S (2 * Z.abs_nat z)) by lia. apply pow_1_odd.
    + destruct (Z.eq_dec z 0) as [->|]. { simpl. ring. } replace (Z.abs_nat (2 * z + 1)) with (S (2 * Z.abs_nat (z + 1))) by lia. apply pow_1_odd.
Qed.
Lemma m1_sub a b : (-1) ^ Z.abs_nat a * (-1) ^ Z.abs_nat b = (-1) ^ Z.abs_nat (b - a).
Proof. rewrite !m1_even_z, Z.even_sub. destruct (Z.even a), (Z.even b); cbn; ring. Qed.
Lemma dd_antipode l m s th : dd l m s (2 * PI - th) = (-1) ^ Z.abs_nat (m - s) * dd l m s th.
Proof.
  unfold dd, W. rewrite (Rmult_comm (Nrm l m s)), (Rmult_comm (Nrm l m s)), <- Rmult_assoc. f_equal. rewrite <- Sig_scal. apply Sig_ext. intros i _. unfold Wt, mono.
  replace ((2 * PI - th) / 2) with (PI - th / 2) by field. replace (cos (PI - th / 2)) with (- cos (th / 2)) by (rewrite Rtrigo_facts.cos_pi_minus; ring). rewrite Rtrigo_facts.sin_pi_minus.
  destruct (Kc_nz l m s (Z.of_nat i)) as [E|E]; [rewrite E; ring|]. replace (- cos (th / 2)) with (-1 * cos (th / 2)) by ring. rewrite Rpow_mult_distr.
  replace ((-1) ^ Z.to_nat (ea l m s (Z.of_nat i))) with ((-1) ^ Z.abs_nat (m - s)); [ring|]. unfold ea. replace (Z.to_nat (2 * l + m - s - 2 * Z.of_nat i)) with (Z.abs_nat (2 * l + m - s - 2 * Z.of_nat i)) by lia.
  rewrite !m1_even_z. replace (2 * l + m - s - 2 * Z.of_nat i)%Z with (m - s + 2 * (l - Z.of_nat i))%Z by ring. rewrite Z.even_add, Z.even_mul. cbn [Z.even orb]. destruct (Z.even (m - s)); reflexivity.
Qed.
Lemma Sig_mult n n' (f g : nat -> R) : Sig n f * Sig n' g = Sig n (fun i => Sig n' (fun i' => f i * g i')).
Proof. rewrite Rmult_comm, <- Sig_scal. apply Sig_ext. intros i _. rewrite Sig_scal. ring. Qed.
Lemma TP_dd l l' m s D : (0 <= l)%Z -> (0 <= l')%Z -> (Z.to_nat (l + l') <= D)%nat -> TP D (fun th => dd l m s th * dd l' m s th).
Proof.
  intros Hl Hl' HD. apply (TPext D (fun th => Nrm l m s * Nrm l' m s * Sig (top l) (fun i => Sig (top l') (fun i' => Wt l m s th i * Wt l' m s th i')))).
  2:{ intros th. unfold dd, W. rewrite <- Sig_mult. ring. }
  apply TPscal. apply TP_Sig. intros i _. apply TP_Sig. intros i' _. unfold Wt, mono.
  destruct (Kc_nz l m s (Z.of_nat i)) as [E|E]. { apply (TPext D (fun _ => 0)); [apply TP_const|]. intros. rewrite E. ring. }
  destruct (Kc_nz l' m s (Z.of_nat i')) as [E'|E']. { apply (TPext D (fun _ => 0)); [apply TP_const|]. intros. rewrite E'. ring. }
  set (p := Z.to_nat (l + l' + m - s - Z.of_nat i - Z.of_nat i')). set (q := Z.to_nat (Z.of_nat i + Z.of_nat i' + s - m)).
  apply (TPext D (fun t => (-1) ^ i * Kc l m s (Z.of_nat i) * ((-1) ^ i' * Kc l' m s (Z.of_nat i')) * (cos (t / 2) ^ (2 * p) * sin (t / 2) ^ (2 * q)))).
  { apply TPscal. apply (TP_le (p + q)); [apply TP_half|]. unfold p, q. lia. }
  intros t. replace (2 * p)%nat with (Z.to_nat (ea l m s (Z.of_nat i)) + Z.to_nat (ea l' m s (Z.of_nat i')))%nat by (unfold p, ea; lia).
  replace (2 * q)%nat with (Z.to_nat (eb m s (Z.of_nat i)) + Z.to_nat (eb m s (Z.of_nat i')))%nat by (unfold q, eb; lia). rewrite !pow_add. ring.
Qed.
Definition amp (l m s : Z) (th : R) : R := sylm_c l s * dd l m (- s) th.
Lemma Re_amp l m s th ph : modes l m s -> Re_sYlm l m s th ph = amp l m s th * cos (IZR m * ph) /\ Im_sYlm l m s th ph = amp l m s th * sin (IZR m * ph).
Proof. intros H. unfold Re_sYlm, Im_sYlm, amp. rewrite !WT_dd by now apply modes_neg. auto. Qed.
Lemma rem2_even s : (Z.rem s 2 =? 0)%Z = Z.even s.
Proof.
  destruct (Z.even s) eqn:E.
  - apply Z.even_spec in E. destruct E as [z Hz]. apply Z.eqb_eq. apply Z.rem_divide; [lia|]. exists z. lia.
  - apply Z.eqb_neq. intros H. apply Z.rem_divide in H; [|lia]. destruct H as [z ->]. rewrite Z.even_mul in E. cbn in E. rewrite orb_true_r in E. discriminate.
Qed.
Lemma sylm_c_spec l s : sylm_c l s = (-1) ^ Z.abs_nat s * sqrt (IZR (2 * l + 1) / (4 * PI)).
Proof.
  unfold sylm_c. cbv zeta. replace (2.0 * IZR l + 1) with (IZR (2 * l + 1)) by (rewrite plus_IZR, mult_IZR; lra). rewrite m1_even_z, rem2_even. destruct (Z.even s); ring.
Qed.
Lemma amp_spec l m s th : modes l m s -> ylm_amp l m s th = amp l m s th.
Proof. intros H. unfold ylm_amp, amp. now rewrite sylm_c_spec, spec_dd by now apply modes_neg. Qed.
Lemma below l m s th ph : (0 <= l)%Z -> (- l <= m <= l)%Z -> (l < Z.abs s)%Z -> Re_sYlm l m s th ph = 0 /\ Im_sYlm l m s th ph = 0.
Proof.
  intros Hl Hm Hs. assert (E : Wigner_WT l m (- s) th = 0).
  { unfold Wigner_WT. cbv zeta. set (k1 := if (m <? - s)%Z then _ else _). set (k2 := if (m <? - - s)%Z then _ else _).
    assert (k2 < k1)%Z. { unfold k1, k2. destruct (Z.ltb_spec m (- s)), (Z.ltb_spec m (- - s)); lia. }
    unfold wig_loops. assert (N : forall k f a, (k2 < k)%Z -> by2 k k2 f a = a). { intros k f a Hk. unfold by2. replace (Z.to_nat (k2 - k + 1)) with 0%nat by lia. reflexivity. }
    destruct (Z.rem k1 2 =? 0)%Z; rewrite !N by lia; ring. }
  unfold Re_sYlm, Im_sYlm. rewrite E. split; ring.
Qed.
(** the integrand of mode (l,m) for the term (l',m',x,y) of the field *)
Definition mk (l m s : Z) (e : Z * Z * R * R) : term := let '(l', m', x, y) := e in
  {| tf := fun th => amp l m s th * amp l' m' s th; tn := m' - m; tp := x; tq := - y; ty := sylm_c l s * sylm_c l' s * (if Z.eq_dec l l' then 2 / IZR (2 * l + 1) else 0) |}.
Definition turn (e : Z * Z * R * R) : Z * Z * R * R := let '(l, m, x, y) := e in (l, m, y, - x).
Definition mks (l m s : Z) (D : list (Z * Z * R * R)) : list term := if (Z.abs s <=? l)%Z then map (mk l m s) D else [].
Lemma mk_good l m s L lmax N3 D e : modes l m s -> (l <= Z.of_nat lmax)%Z -> bandlimited D s L -> (lmax + L < N3)%nat -> In e D -> good N3 (lmax + L) (mk l m s e).
Proof.
  intros H Hl HB HN He. destruct e as [[[l' m'] x] y]. destruct (HB _ _ _ _ He) as [H' Hl']. destruct (H) as [M S], (H') as [M' S']. unfold good, mk. cbn [tn tf ty]. split; [lia|]. split.
  - intros th. unfold amp. rewrite !dd_antipode. replace (m' - m)%Z with ((m' - - s) - (m - - s))%Z by ring. rewrite <- (m1_sub (m - - s) (m' - - s)). ring.
  - intros E. assert (m' = m) by lia. subst m'. split.
    + apply (TPext _ (fun th => sylm_c l s * sylm_c l' s * (dd l m (- s) th * dd l' m (- s) th))). { apply TPscal. apply TP_dd; lia. } intros t. unfold amp. ring.
    + destruct (Z.eq_dec l l') as [<-|N].
      * refine (int_ext _ _ 0 PI _ _ _ eq_refl (int_scal _ 0 PI _ (sylm_c l s * sylm_c l s) (norm l m (- s) M ltac:(lia)))). intros t. unfold prd, amp. ring.
      * refine (int_ext _ _ 0 PI _ _ _ eq_refl (int_scal _ 0 PI _ (sylm_c l s * sylm_c l' s) (orth l l' m (- s) N ltac:(lia) ltac:(lia)))). intros t. unfold prd, amp. ring.
Qed.
Lemma mks_good l m s L lmax N3 D e : (- l <= m <= l)%Z -> (l <= Z.of_nat lmax)%Z -> bandlimited D s L -> (lmax + L < N3)%nat -> In e (mks l m s D) -> good N3 (lmax + L) e.
Proof. intros H Hl HB HN. unfold mks. destruct (Z.leb_spec (Z.abs s) l); [|intros []]. intros I. apply in_map_iff in I. destruct I as (d & <- & Id). apply (mk_good l m s L lmax N3 D); auto. unfold modes. lia. Qed.
Lemma turn_band D s L : bandlimited D s L -> bandlimited (map turn D) s L.
Proof. intros H l m x y I. apply in_map_iff in I. destruct I as ([[[l' m'] x'] y'] & E & I). unfold turn in E. injection E as -> -> <- <-. eapply H; eauto. Qed.
Lemma mks_picked l m s L D : (0 <= l)%Z -> (- l <= m <= l)%Z -> bandlimited D s L -> picked (mks l m s D) = coef_re D l m.
Proof.
  intros Hl Hm HB. assert (PP := PI_RGT_0). unfold mks, picked, coef_re. destruct (Z.leb_spec (Z.abs s) l).
  - rewrite total_map. apply total_ext. intros [[[l' m'] x] y] _. unfold mk, is_mode. cbn [tn tp ty]. destruct (Z.eqb_spec l l') as [<-|N]; cbn [andb].
    + destruct (Z.eqb_spec m m') as [E|N]; [|destruct (Z.eq_dec (m' - m) 0); [lia|reflexivity]]. subst m'. destruct (Z.eq_dec (m - m) 0); [|lia].
      destruct (Z.eq_dec l l); [|congruence]. rewrite sylm_c_sq by auto. field. split; [|lra]. apply not_0_IZR. lia.
    + destruct (Z.eq_dec l l'); [congruence|]. destruct (Z.eq_dec (m' - m) 0); ring.
  - cbn [total]. symmetry. apply total_zero. intros [[[l' m'] x] y] I. destruct (HB _ _ _ _ I) as [[A B] _]. unfold is_mode. destruct (Z.eqb_spec l l'); cbn [andb]; auto. lia.
Qed.
Lemma turn_coef D l m : coef_re (map turn D) l m = coef_im D l m.
Proof. unfold coef_re, coef_im. rewrite total_map. apply total_ext. intros [[[l' m'] x] y] _. reflexivity. Qed.
(** the two integrands *)
Lemma mks_re l m s L D th ph : (0 <= l)%Z -> (- l <= m <= l)%Z -> bandlimited D s L -> Re_sYlm l m s th ph * field_re D s th ph + Im_sYlm l m s th ph * field_im D s th ph = tval (mks l m s D) th ph.
Proof.
  intros Hl Hm HB. unfold mks. destruct (Z.leb_spec (Z.abs s) l).
  - assert (H0 : modes l m s) by (unfold modes; lia). destruct (Re_amp l m s th ph H0) as [-> ->]. unfold field_re, field_im, tval. rewrite total_map, <- !total_scal, <- total_plus. apply total_ext. intros [[[l' m'] x] y] I. unfold mk. cbn [tn tp tq tf].
    destruct (HB _ _ _ _ I) as [H' _]. unfold ylm_re, ylm_im. rewrite !amp_spec by auto. rewrite minus_IZR. replace ((IZR m' - IZR m) * ph) with (IZR m' * ph - IZR m * ph) by ring. rewrite cos_minus, sin_minus. ring.
  - destruct (below l m s th ph Hl Hm H) as [-> ->]. cbn. ring.
Qed.
Lemma turn_field D s th ph : field_re (map turn D) s th ph = field_im D s th ph /\ field_im (map turn D) s th ph = - field_re D s th ph.
Proof.
  unfold field_re, field_im. rewrite !total_map. split. { apply total_ext. intros [[[l m] x] y] _. unfold turn. cbv beta iota. ring. }
  replace (- total _ _) with (-1 * total (fun '(l, m, x, y) => x * ylm_re l m s th ph - y * ylm_im l m s th ph) D) by ring. rewrite <- total_scal. apply total_ext. intros [[[l m] x] y] _. unfold turn. cbv beta iota. ring.
Qed.
Lemma mks_im l m s L D th ph : (0 <= l)%Z -> (- l <= m <= l)%Z -> bandlimited D s L -> Re_sYlm l m s th ph * field_im D s th ph - Im_sYlm l m s th ph * field_re D s th ph = tval (mks l m s (map turn D)) th ph.
Proof. intros Hl Hm HB. rewrite <- (mks_re l m s L) by auto using turn_band. destruct (turn_field D s th ph) as [-> ->]. ring. Qed.

(** Polynomials on the sphere and products of Legendre functions and Fourier modes.  Proof library; no code is modelled here. *)
From Verif Require Import Rutil Rsum Trig Arrays Mat_spec Four_spec Four_proofs Lines_model Lines_spec Integ_spec Integ_props Leg_math Modes_math Yfil_spec Yfil_proofs2.
Local Open Scope R_scope.

Lemma SP_le L L' f : sphere_poly L f -> (L <= L')%nat -> sphere_poly L' f.
Proof.
  intros H. revert L'. induction H as [L c|L f H IH|L f H IH|L f H IH|L f g H1 IH1 H2 IH2|L f g H IH E]; intros L' Le; try (destruct L' as [|L']; [lia|]).
  - apply SPconst. - apply SPx. apply IH. lia. - apply SPy. apply IH. lia. - apply SPz. apply IH. lia. - apply SPplus; auto. - apply (SPext _ f); auto.
Qed.
Lemma SP_scal L f k : sphere_poly L f -> sphere_poly L (fun th ph => k * f th ph).
Proof.
  intros H. induction H as [L c|L f H IH|L f H IH|L f H IH|L f g H1 IH1 H2 IH2|L f g H IH E].
  - apply (SPconst L (k * c)).
  - apply (SPext _ (fun th ph => ux th ph * (k * f th ph))); [now apply SPx|]. intros; ring.
  - apply (SPext _ (fun th ph => uy th ph * (k * f th ph))); [now apply SPy|]. intros; ring.
  - apply (SPext _ (fun th ph => uz th ph * (k * f th ph))); [now apply SPz|]. intros; ring.
  - apply (SPext _ (fun th ph => k * f th ph + k * g th ph)); [now apply SPplus|]. intros; ring.
  - apply (SPext _ (fun th ph => k * f th ph)); auto. intros. now rewrite E.
Qed.
Lemma SP_Sig L n (f : nat -> R -> R -> R) : (forall i, (i < n)%nat -> sphere_poly L (f i)) -> sphere_poly L (fun th ph => Sig n (fun i => f i th ph)).
Proof. induction n as [|n IH]; intros H. { apply (SPconst L 0). } apply (SPext _ (fun th ph => Sig n (fun i => f i th ph) + f n th ph)); [|intros; now rewrite Sig_S]. apply SPplus; auto. Qed.
(** a point of the sphere has two pairs of angles *)
Lemma SP_cover L f : sphere_poly L f -> forall th ph, f (2 * PI - th) (ph + PI) = f th ph.
Proof.
  intros H th ph. assert (S1 : sin (2 * PI - th) = - sin th) by (replace (2 * PI - th) with (- th + 2 * PI) by ring; now rewrite sin_plus, cos_2PI, sin_2PI, sin_neg; ring). assert (C1 : cos (2 * PI - th) = cos th) by (replace (2 * PI - th) with (- th + 2 * PI) by ring; now rewrite cos_plus, cos_2PI, sin_2PI, cos_neg; ring).
  induction H as [L c|L f H IH|L f H IH|L f H IH|L f g H1 IH1 H2 IH2|L f g H IH E]; auto.
  - unfold ux. rewrite IH, S1, neg_cos. ring. - unfold uy. rewrite IH, S1, neg_sin. ring. - unfold uz. now rewrite IH, C1. - now rewrite IH1, IH2. - now rewrite <- !E.
Qed.
Lemma SP_period L f : sphere_poly L f -> forall th ph, f th (ph + 2 * PI) = f th ph.
Proof.
  intros H th ph. induction H as [L c|L f H IH|L f H IH|L f H IH|L f g H1 IH1 H2 IH2|L f g H IH E]; auto.
  - unfold ux. rewrite IH, cos_plus, cos_2PI, sin_2PI. ring. - unfold uy. rewrite IH, sin_plus, cos_2PI, sin_2PI. ring. - unfold uz. now rewrite IH. - now rewrite IH1, IH2. - now rewrite <- !E.
Qed.
(** ** monomials sin^m cos^k times modes *)
Inductive MF : nat -> (R -> R -> R) -> Prop :=
  | MFcos L m k : (m + k <= L)%nat -> MF L (fun th ph => sin th ^ m * cos th ^ k * cos (INR m * ph))
  | MFsin L m k : (m + k <= L)%nat -> MF L (fun th ph => sin th ^ m * cos th ^ k * sin (INR m * ph))
  | MFplus L f g : MF L f -> MF L g -> MF L (fun th ph => f th ph + g th ph)
  | MFscal L f c : MF L f -> MF L (fun th ph => c * f th ph)
  | MFext L f g : MF L f -> (forall th ph, f th ph = g th ph) -> MF L g.
Lemma sq_red th (A B : R) : sin th * (sin th * A) * B = A * B - cos th * (cos th * A) * B.
Proof. assert (T := sin2_cos2 th). unfold Rsqr in T. replace (sin th * (sin th * A) * B) with ((sin th * sin th) * A * B) by ring. replace (sin th * sin th) with (1 - cos th * cos th) by lra. ring. Qed.
Lemma MF_low L m k : (m + k <= L)%nat -> MF (S (S L)) (fun th ph => sin th ^ S (S m) * cos th ^ k * cos (INR m * ph)) /\ MF (S (S L)) (fun th ph => sin th ^ S (S m) * cos th ^ k * sin (INR m * ph)).
Proof.
  intros H. assert (T : forall th, sin th ^ S (S m) = sin th ^ m - cos th * cos th * sin th ^ m). { intros th. assert (Q := sin2_cos2 th). unfold Rsqr in Q. cbn [pow]. replace (sin th * (sin th * sin th ^ m)) with ((sin th * sin th) * sin th ^ m) by ring. replace (sin th * sin th) with (1 - cos th * cos th) by lra. ring. }
  split.
  - apply (MFext _ (fun th ph => sin th ^ m * cos th ^ k * cos (INR m * ph) + (-1) * (sin th ^ m * cos th ^ (S (S k)) * cos (INR m * ph)))); [apply MFplus; [|apply MFscal]; apply MFcos; lia|]. intros. rewrite T. cbn [pow]. ring.
  - apply (MFext _ (fun th ph => sin th ^ m * cos th ^ k * sin (INR m * ph) + (-1) * (sin th ^ m * cos th ^ (S (S k)) * sin (INR m * ph)))); [apply MFplus; [|apply MFscal]; apply MFsin; lia|]. intros. rewrite T. cbn [pow]. ring.
Qed.
Lemma ang m ph : cos (INR (S m) * ph) = cos ph * cos (INR m * ph) - sin ph * sin (INR m * ph) /\ sin (INR (S m) * ph) = sin ph * cos (INR m * ph) + cos ph * sin (INR m * ph).
Proof. rewrite S_INR. replace ((INR m + 1) * ph) with (ph + INR m * ph) by ring. rewrite cos_plus, sin_plus. split; ring. Qed.
Lemma ang' m ph : cos (INR m * ph) = cos ph * cos (INR (S m) * ph) + sin ph * sin (INR (S m) * ph) /\ sin (INR m * ph) = cos ph * sin (INR (S m) * ph) - sin ph * cos (INR (S m) * ph).
Proof. replace (INR m * ph) with (INR (S m) * ph - ph) by (rewrite S_INR; ring). rewrite cos_minus, sin_minus. split; ring. Qed.
Lemma MF_x L f : MF L f -> MF (S L) (fun th ph => ux th ph * f th ph).
Proof.
  intros H. induction H as [L m k H|L m k H|L f g H1 IH1 H2 IH2|L f c H IH|L f g H IH E].
  - destruct m as [|m].
    + apply (MFext _ (fun th ph => sin th ^ 1 * cos th ^ k * cos (INR 1 * ph))); [apply MFcos; lia|]. intros. unfold ux. change (INR 0) with 0. change (INR 1) with 1. rewrite Rmult_0_l, cos_0, Rmult_1_l. cbn [pow]. ring.
    + destruct L as [|L]; [lia|]. destruct (MF_low L m k ltac:(lia)) as [Lo _].
      apply (MFext _ (fun th ph => / 2 * (sin th ^ S (S m) * cos th ^ k * cos (INR (S (S m)) * ph)) + / 2 * (sin th ^ S (S m) * cos th ^ k * cos (INR m * ph)))); [apply MFplus; apply MFscal; auto; apply MFcos; lia|].
      intros. unfold ux. rewrite (proj1 (ang (S m) ph)), (proj1 (ang' m ph)). cbn [pow]. field.
  - destruct m as [|m].
    + apply (MFext _ (fun th ph => 0 * (sin th ^ 0 * cos th ^ 0 * cos (INR 0 * ph)))); [apply MFscal, MFcos; lia|]. intros th ph. change (INR 0) with 0. rewrite (Rmult_0_l ph), sin_0. ring.
    + destruct L as [|L]; [lia|]. destruct (MF_low L m k ltac:(lia)) as [_ Lo].
      apply (MFext _ (fun th ph => / 2 * (sin th ^ S (S m) * cos th ^ k * sin (INR (S (S m)) * ph)) + / 2 * (sin th ^ S (S m) * cos th ^ k * sin (INR m * ph)))); [apply MFplus; apply MFscal; auto; apply MFsin; lia|].
      intros. unfold ux. rewrite (proj2 (ang (S m) ph)), (proj2 (ang' m ph)). cbn [pow]. field.
  - apply (MFext _ (fun th ph => ux th ph * f th ph + ux th ph * g th ph)); [now apply MFplus|]. intros; ring.
  - apply (MFext _ (fun th ph => c * (ux th ph * f th ph))); [now apply MFscal|]. intros; ring.
  - apply (MFext _ (fun th ph => ux th ph * f th ph)); auto. intros; now rewrite E.
Qed.
Lemma MF_y L f : MF L f -> MF (S L) (fun th ph => uy th ph * f th ph).
Proof.
  intros H. induction H as [L m k H|L m k H|L f g H1 IH1 H2 IH2|L f c H IH|L f g H IH E].
  - destruct m as [|m].
    + apply (MFext _ (fun th ph => sin th ^ 1 * cos th ^ k * sin (INR 1 * ph))); [apply MFsin; lia|]. intros. unfold uy. change (INR 0) with 0. change (INR 1) with 1. rewrite Rmult_0_l, cos_0, Rmult_1_l. cbn [pow]. ring.
    + destruct L as [|L]; [lia|]. destruct (MF_low L m k ltac:(lia)) as [_ Lo].
      apply (MFext _ (fun th ph => / 2 * (sin th ^ S (S m) * cos th ^ k * sin (INR (S (S m)) * ph)) + - / 2 * (sin th ^ S (S m) * cos th ^ k * sin (INR m * ph)))); [apply MFplus; apply MFscal; auto; apply MFsin; lia|].
      intros. unfold uy. rewrite (proj2 (ang (S m) ph)), (proj2 (ang' m ph)). cbn [pow]. field.
  - destruct m as [|m].
    + apply (MFext _ (fun th ph => 0 * (sin th ^ 0 * cos th ^ 0 * cos (INR 0 * ph)))); [apply MFscal, MFcos; lia|]. intros th ph. change (INR 0) with 0. rewrite (Rmult_0_l ph), sin_0. ring.
    + destruct L as [|L]; [lia|]. destruct (MF_low L m k ltac:(lia)) as [Lo _].
      apply (MFext _ (fun th ph => - / 2 * (sin th ^ S (S m) * cos th ^ k * cos (INR (S (S m)) * ph)) + / 2 * (sin th ^ S (S m) * cos th ^ k * cos (INR m * ph)))); [apply MFplus; apply MFscal; auto; apply MFcos; lia|].
      intros. unfold uy. rewrite (proj1 (ang (S m) ph)), (proj1 (ang' m ph)). cbn [pow]. field.
  - apply (MFext _ (fun th ph => uy th ph * f th ph + uy th ph * g th ph)); [now apply MFplus|]. intros; ring.
  - apply (MFext _ (fun th ph => c * (uy th ph * f th ph))); [now apply MFscal|]. intros; ring.
  - apply (MFext _ (fun th ph => uy th ph * f th ph)); auto. intros; now rewrite E.
Qed.
Lemma MF_z L f : MF L f -> MF (S L) (fun th ph => uz th ph * f th ph).
Proof.
  intros H. induction H as [L m k H|L m k H|L f g H1 IH1 H2 IH2|L f c H IH|L f g H IH E].
  - apply (MFext _ (fun th ph => sin th ^ m * cos th ^ S k * cos (INR m * ph))); [apply MFcos; lia|]. intros. unfold uz. cbn [pow]. ring.
  - apply (MFext _ (fun th ph => sin th ^ m * cos th ^ S k * sin (INR m * ph))); [apply MFsin; lia|]. intros. unfold uz. cbn [pow]. ring.
  - apply (MFext _ (fun th ph => uz th ph * f th ph + uz th ph * g th ph)); [now apply MFplus|]. intros; ring.
  - apply (MFext _ (fun th ph => c * (uz th ph * f th ph))); [now apply MFscal|]. intros; ring.
  - apply (MFext _ (fun th ph => uz th ph * f th ph)); auto. intros; now rewrite E.
Qed.
Lemma SP_MF L f : sphere_poly L f -> MF L f.
Proof.
  intros H. induction H as [L c|L f H IH|L f H IH|L f H IH|L f g H1 IH1 H2 IH2|L f g H IH E].
  - apply (MFext _ (fun th ph => c * (sin th ^ 0 * cos th ^ 0 * cos (INR 0 * ph)))); [apply MFscal, MFcos; lia|]. intros. change (INR 0) with 0. rewrite Rmult_0_l, cos_0. cbn [pow]. ring.
  - now apply MF_x. - now apply MF_y. - now apply MF_z. - now apply MFplus. - now apply (MFext _ f).
Qed.
(** ** Legendre functions times modes *)
Section BF.
  Variable C : nat -> R.
  Hypothesis Cn : forall m, C m <> 0.
  Notation lg := (fun m => leg m (C m)).
  Inductive BF : nat -> (R -> R -> R) -> Prop :=
    | BFcos L m k : (m + k <= L)%nat -> BF L (fun th ph => leg m (C m) k th * cos (INR m * ph))
    | BFsin L m k : (m + k <= L)%nat -> BF L (fun th ph => leg m (C m) k th * sin (INR m * ph))
    | BFplus L f g : BF L f -> BF L g -> BF L (fun th ph => f th ph + g th ph)
    | BFscal L f c : BF L f -> BF L (fun th ph => c * f th ph)
    | BFext L f g : BF L f -> (forall th ph, f th ph = g th ph) -> BF L g.
  (** spans of Legendre functions of one m *)
  Inductive LS (m : nat) : nat -> (R -> R) -> Prop :=
    | LSleg K k : (k <= K)%nat -> LS m K (leg m (C m) k)
    | LSplus K f g : LS m K f -> LS m K g -> LS m K (fun th => f th + g th)
    | LSscal K f c : LS m K f -> LS m K (fun th => c * f th)
    | LSext K f g : LS m K f -> (forall th, f th = g th) -> LS m K g.
  Lemma LS_cos m K f : LS m K f -> LS m (S K) (fun th => cos th * f th).
  Proof.
    intros H. induction H as [K k H|K f g H1 IH1 H2 IH2|K f c H IH|K f g H IH E].
    - assert (R := fun th => leg_rec m (C m) k th). destruct k as [|k].
      + apply (LSext _ _ (fun th => eps m (S (m + 0)) * leg m (C m) 1 th)); [apply LSscal, LSleg; lia|]. intros th. rewrite R. unfold legm. cbn [lp fst]. ring.
      + apply (LSext _ _ (fun th => eps m (S (m + S k)) * leg m (C m) (S (S k)) th + eps m (m + S k) * leg m (C m) k th)); [apply LSplus; apply LSscal, LSleg; lia|]. intros th. rewrite R, leg_S. ring.
    - apply (LSext _ _ (fun th => cos th * f th + cos th * g th)); [now apply LSplus|]. intros; ring.
    - apply (LSext _ _ (fun th => c * (cos th * f th))); [now apply LSscal|]. intros; ring.
    - apply (LSext _ _ (fun th => cos th * f th)); auto. intros; now rewrite E.
  Qed.
  Lemma LS_mono m k : LS m k (fun th => sin th ^ m * cos th ^ k).
  Proof.
    induction k as [|k IH].
    - apply (LSext _ _ (fun th => / C m * leg m (C m) 0 th)); [apply LSscal, LSleg; lia|]. intros th. unfold leg. cbn [lp snd pow]. field. apply Cn.
    - apply (LSext _ _ (fun th => cos th * (sin th ^ m * cos th ^ k))); [now apply LS_cos|]. intros. cbn [pow]. ring.
  Qed.
  Lemma LS_BF m K f L : LS m K f -> (m + K <= L)%nat -> BF L (fun th ph => f th * cos (INR m * ph)) /\ BF L (fun th ph => f th * sin (INR m * ph)).
  Proof.
    intros H. induction H as [K k H|K f g H1 IH1 H2 IH2|K f c H IH|K f g H IH E]; intros Le.
    - split; [apply BFcos|apply BFsin]; lia.
    - destruct (IH1 Le) as [A B], (IH2 Le) as [A' B']. split; [apply (BFext _ _ _ (BFplus _ _ _ A A'))|apply (BFext _ _ _ (BFplus _ _ _ B B'))]; intros; ring.
    - destruct (IH Le) as [A B]. split; [apply (BFext _ _ _ (BFscal _ _ c A))|apply (BFext _ _ _ (BFscal _ _ c B))]; intros; ring.
    - destruct (IH Le) as [A B]. split; [apply (BFext _ _ _ A)|apply (BFext _ _ _ B)]; intros; cbv beta; now rewrite E.
  Qed.
  Lemma SP_BF L f : sphere_poly L f -> BF L f.
  Proof.
    intros H. apply SP_MF in H. induction H as [L m k H|L m k H|L f g H1 IH1 H2 IH2|L f c H IH|L f g H IH E].
    - apply (LS_BF m k (fun th => sin th ^ m * cos th ^ k) L (LS_mono m k) H). - apply (LS_BF m k (fun th => sin th ^ m * cos th ^ k) L (LS_mono m k) H). - now apply BFplus. - now apply BFscal. - now apply (BFext _ f).
  Qed.
End BF.
(** conversely, such products are polynomials on the sphere *)
Lemma SP_sect m : sphere_poly m (fun th ph => sin th ^ m * cos (INR m * ph)) /\ sphere_poly m (fun th ph => sin th ^ m * sin (INR m * ph)).
Proof.
  induction m as [|m [A B]].
  - split; [apply (SPext _ (fun _ _ => 1))|apply (SPext _ (fun _ _ => 0))]; try apply SPconst; intros; change (INR 0) with 0; rewrite Rmult_0_l, ?cos_0, ?sin_0; cbn [pow]; ring.
  - split.
    + apply (SPext _ (fun th ph => ux th ph * (sin th ^ m * cos (INR m * ph)) + (-1) * (uy th ph * (sin th ^ m * sin (INR m * ph))))). { apply SPplus; [now apply SPx|]. apply SP_scal. now apply SPy. } intros. rewrite (proj1 (ang m ph)). unfold ux, uy. cbn [pow]. ring.
    + apply (SPext _ (fun th ph => uy th ph * (sin th ^ m * cos (INR m * ph)) + ux th ph * (sin th ^ m * sin (INR m * ph)))). { apply SPplus; [now apply SPy|now apply SPx]. } intros. rewrite (proj2 (ang m ph)). unfold ux, uy. cbn [pow]. ring.
Qed.
Lemma SP_leg m C k : (sphere_poly (m + k) (fun th ph => leg m C k th * cos (INR m * ph)) /\ sphere_poly (m + k) (fun th ph => legm m C k th * cos (INR m * ph))) /\
  (sphere_poly (m + k) (fun th ph => leg m C k th * sin (INR m * ph)) /\ sphere_poly (m + k) (fun th ph => legm m C k th * sin (INR m * ph))).
Proof.
  assert (G : forall g, sphere_poly m (fun th ph => sin th ^ m * g (INR m * ph)) -> sphere_poly (m + k) (fun th ph => leg m C k th * g (INR m * ph)) /\ sphere_poly (m + k) (fun th ph => legm m C k th * g (INR m * ph))).
  { intros g Hg. induction k as [|k [A B]].
    - rewrite Nat.add_0_r. split. { apply (SPext _ (fun th ph => C * (sin th ^ m * g (INR m * ph)))); [now apply SP_scal|]. intros. unfold leg. cbn [lp snd]. ring. }
      apply (SPext _ (fun _ _ => 0)); [apply SPconst|]. intros. unfold legm. cbn [lp fst]. ring.
    - rewrite Nat.add_succ_r. split.
      + apply (SPext _ (fun th ph => / eps m (S (m + k)) * (uz th ph * (leg m C k th * g (INR m * ph)) + - eps m (m + k) * (legm m C k th * g (INR m * ph))))).
        { apply SP_scal, SPplus; [now apply SPz|]. apply SP_scal. apply (SP_le (m + k)); auto. }
        intros. unfold uz. assert (R := leg_rec m C k th). apply (Rmult_eq_reg_l (eps m (S (m + k)))); [|apply epsS]. rewrite <- Rmult_assoc, Rinv_r, Rmult_1_l by apply epsS. replace (eps m (S (m + k)) * (leg m C (S k) th * g (INR m * ph))) with ((eps m (S (m + k)) * leg m C (S k) th) * g (INR m * ph)) by ring. rewrite R. ring.
      + apply (SPext _ (fun th ph => leg m C k th * g (INR m * ph))). { apply (SP_le (m + k)); auto. } intros. now rewrite leg_S. }
  destruct (SP_sect m). split; auto.
Qed.
(** ** The projection *)
Lemma mode_m q ph : let m := ((q + 1) / 2)%nat in (mode q ph = cos (INR m * ph) /\ (Nat.odd q = true \/ q = 0%nat) \/ mode q ph = sin (INR m * ph) /\ Nat.odd q = false /\ q <> 0%nat).
Proof.
  intros m. unfold mode. rewrite <- Nat.negb_odd. destruct (Nat.odd q) eqn:O; cbn [negb]; auto.
  destruct (Nat.eqb_spec q 0) as [->|N]. { left. split; auto. unfold m. change (INR ((0 + 1) / 2)) with 0. now rewrite Rmult_0_l, cos_0. }
  right. split; auto. f_equal. f_equal. f_equal. unfold m.  assert (E : Nat.even q = true) by (rewrite <- Nat.negb_odd, O; auto). apply Nat.even_spec in E as [h ->]. rewrite (Nat.add_comm (2 * h) 1), (Nat.mul_comm 2 h), Nat.div_add, Nat.div_mul by lia. reflexivity.
Qed.
Section Proj.
  Variables (bw n3 cut : nat) (C : nat -> R).
  Hypothesis Hcut : (cut <= bw)%nat.
  Hypothesis HC : forall m, normC m (C m).
  Definition PT (m l j : nat) : R := leg m (C m) l (node bw j).
  Definition TT (u : nat -> nat -> R) (j k : nat) : R :=
    Sig n3 (fun q => weight n3 q * gk bw cut (wq bw) PT (fun j' => Sig n3 (fun r => mode q (phase n3 r) * u j' r)) q j * mode q (phase n3 k)).
  Lemma TT_ext u v j k : (forall j' r, (j' < 2 * bw)%nat -> (r < n3)%nat -> u j' r = v j' r) -> TT u j k = TT v j k.
  Proof. intros H. unfold TT. apply Sig_ext. intros q Hq. f_equal. f_equal. apply gk_ext. intros j' Hj. apply Sig_ext. intros r Hr. now rewrite H. Qed.
  Lemma gk_lin a c f g q j : gk bw cut (wq bw) PT (fun j' => a * f j' + c * g j') q j = a * gk bw cut (wq bw) PT f q j + c * gk bw cut (wq bw) PT g q j.
  Proof.
    unfold gk. cbv zeta. destruct (_ <? _)%nat; [|ring]. rewrite <- !Sig_scal, <- Sig_plus. apply Sig_ext. intros l _.
    rewrite (Sig_ext _ (fun j' => wq bw j' * (a * f j' + c * g j') * PT ((q + 1) / 2) l j') (fun j' => a * (wq bw j' * f j' * PT ((q + 1) / 2) l j') + c * (wq bw j' * g j' * PT ((q + 1) / 2) l j'))) by (intros; ring).
    rewrite Sig_plus, !Sig_scal. ring.
  Qed.
  Lemma TT_lin a c u v j k : TT (fun j' r => a * u j' r + c * v j' r) j k = a * TT u j k + c * TT v j k.
  Proof.
    unfold TT. rewrite <- !Sig_scal, <- Sig_plus. apply Sig_ext. intros q Hq.
    rewrite (gk_ext _ _ _ _ _ (fun j' => a * Sig n3 (fun r => mode q (phase n3 r) * u j' r) + c * Sig n3 (fun r => mode q (phase n3 r) * v j' r))).
    - rewrite gk_lin. ring.
    - intros j' _. rewrite <- !Sig_scal, <- Sig_plus. apply Sig_ext. intros r _. ring.
  Qed.
  Lemma TT_mode q0 l j k : (q0 < n3)%nat -> ((q0 + 1) / 2 + l < cut)%nat -> TT (fun j' r => PT ((q0 + 1) / 2) l j' * mode q0 (phase n3 r)) j k = PT ((q0 + 1) / 2) l j * mode q0 (phase n3 k).
  Proof.
    intros Hq Hl. set (m0 := ((q0 + 1) / 2)%nat) in *. unfold TT. rewrite (Sig_single n3 q0); auto.
    - assert (O := orth_k n3 q0 q0 Hq Hq). set (s := Sig n3 (fun k => mode q0 (phase n3 k) * mode q0 (phase n3 k))) in *.
      rewrite (gk_ext _ _ _ _ _ (fun j' => s * PT m0 l j' + 0 * 0)).
      2:{ intros j' _. unfold s. rewrite Rmult_0_l, Rplus_0_r, <- Sig_scal_r. apply Sig_ext. intros r _. ring. }
      rewrite (gk_lin s 0 (PT m0 l) (fun _ => 0)). replace (gk bw cut (wq bw) PT (PT m0 l) q0 j) with (PT m0 l j).
      + replace (weight n3 q0 * (s * PT m0 l j + 0 * gk bw cut (wq bw) PT (fun _ => 0) q0 j) * mode q0 (phase n3 k)) with ((weight n3 q0 * s) * PT m0 l j * mode q0 (phase n3 k)) by ring. rewrite O. unfold delta. rewrite Nat.eqb_refl. ring.
      + unfold gk. cbv zeta. fold m0. destruct (Nat.ltb_spec m0 cut); [|lia]. rewrite (Sig_single (cut - m0) l); [|lia|].
        * rewrite (Sig_ext _ _ (fun j' => wq bw j' * (leg m0 (C m0) l (node bw j') * leg m0 (C m0) l (node bw j')))) by (intros; unfold PT; ring). rewrite leg_discrete by (auto; lia). unfold delta. rewrite Nat.eqb_refl. ring.
        * intros l' Hl' Ne. rewrite (Sig_ext _ _ (fun j' => wq bw j' * (leg m0 (C m0) l (node bw j') * leg m0 (C m0) l' (node bw j')))) by (intros; unfold PT; ring). rewrite leg_discrete by (auto; lia). unfold delta. destruct (Nat.eqb_spec l l'); [congruence|ring].
    - intros q Hq' Ne. rewrite (gk_ext _ _ _ _ _ (fun j' => 0 * 0 + 0 * 0)). { rewrite (gk_lin 0 0 (fun _ => 0) (fun _ => 0)). ring. }
      intros j' _. rewrite (Sig_ext _ _ (fun r => (mode q (phase n3 r) * mode q0 (phase n3 r)) * PT m0 l j')) by (intros; ring). rewrite Sig_scal_r. assert (O := orth_k n3 q q0 Hq' Hq). unfold delta in O. destruct (Nat.eqb_spec q q0); [congruence|].
      assert (W := Modes_math.weight_nz n3 q0 Hq). apply Rmult_integral in O as [O|O]; [contradiction|]. rewrite O. ring.
  Qed.
  (** the Legendre functions times cos and sin as modes *)
  Lemma cos_mode m : exists q, (q <= 2 * m)%nat /\ ((q + 1) / 2 = m)%nat /\ forall ph, mode q ph = cos (INR m * ph).
  Proof.
    destruct m as [|m]. { exists 0%nat. repeat split; auto. intros x. change (INR 0) with 0. now rewrite Rmult_0_l, cos_0. }
    exists (2 * S m - 1)%nat. repeat split; [lia| |intros x; apply mode_odd; lia]. replace (2 * S m - 1 + 1)%nat with (S m * 2)%nat by lia. now apply Nat.div_mul.
  Qed.
  Lemma sin_mode m : (1 <= m)%nat -> ((2 * m + 1) / 2 = m)%nat /\ forall ph, mode (2 * m) ph = sin (INR m * ph).
  Proof. intros H. split; [|intros x; now apply mode_even]. rewrite (Nat.add_comm (2 * m) 1), (Nat.mul_comm 2 m), Nat.div_add by lia. reflexivity. Qed.
  Lemma BF_ind' L (Q : (R -> R -> R) -> Prop) : (2 * L < n3)%nat -> (forall q l, (q < n3)%nat -> ((q + 1) / 2 + l <= L)%nat -> Q (fun th ph => leg ((q + 1) / 2) (C ((q + 1) / 2)) l th * mode q ph)) ->
    (forall f g a c, Q f -> Q g -> Q (fun th ph => a * f th ph + c * g th ph)) -> (forall f g, Q f -> (forall th ph, f th ph = g th ph) -> Q g) -> forall f, BF C L f -> Q f.
  Proof.
    intros HL Hm Hl He f H. remember L as L' eqn:EL in H. induction H as [L' m k H|L' m k H|L' f g H1 IH1 H2 IH2|L' f c H IH|L' f g H IH E]; subst L'.
    - destruct (cos_mode m) as (q & Hq & Eq & V). apply (He (fun th ph => leg ((q + 1) / 2) (C ((q + 1) / 2)) k th * mode q ph)); [apply Hm; lia|]. intros. now rewrite Eq, V.
    - destruct (Nat.eq_dec m 0) as [->|N].
      + apply (He (fun th ph => 0 * (leg ((0 + 1) / 2) (C ((0 + 1) / 2)) 0 th * mode 0 ph) + 0 * (leg ((0 + 1) / 2) (C ((0 + 1) / 2)) 0 th * mode 0 ph))).
        { apply (Hl (fun th ph => leg ((0 + 1) / 2) (C ((0 + 1) / 2)) 0 th * mode 0 ph) (fun th ph => leg ((0 + 1) / 2) (C ((0 + 1) / 2)) 0 th * mode 0 ph)); apply Hm; cbn; lia. } intros th ph. change (INR 0) with 0. rewrite (Rmult_0_l ph), sin_0. ring.
      + destruct (sin_mode m ltac:(lia)) as [Eq V]. apply (He (fun th ph => leg ((2 * m + 1) / 2) (C ((2 * m + 1) / 2)) k th * mode (2 * m) ph)); [apply Hm; lia|]. intros. now rewrite Eq, V.
    - apply (He (fun th ph => 1 * f th ph + 1 * g th ph)); [apply Hl; auto|]. intros; ring.
    - apply (He (fun th ph => c * f th ph + 0 * f th ph)); [apply Hl; auto|]. intros; ring.
    - apply (He f); auto.
  Qed.
  Lemma TT_keeps L f : (L + 1 <= cut)%nat -> (2 * L < n3)%nat -> BF C L f -> forall j k, TT (fun j' r => f (node bw j') (phase n3 r)) j k = f (node bw j) (phase n3 k).
  Proof.
    intros HL HN. apply (BF_ind' L (fun f => forall j k, TT (fun j' r => f (node bw j') (phase n3 r)) j k = f (node bw j) (phase n3 k))); auto.
    - intros q l Hq Hl j k. apply (TT_mode q l j k Hq). lia.
    - intros g h a c Hg Hh j k. rewrite (TT_lin a c (fun j' r => g (node bw j') (phase n3 r)) (fun j' r => h (node bw j') (phase n3 r))). now rewrite Hg, Hh.
    - intros g h Hg E j k. rewrite <- E, <- Hg. apply TT_ext. intros. now rewrite E.
  Qed.
  (** the result is a polynomial on the sphere *)
  Definition cf (u : nat -> nat -> R) (q l : nat) : R := Sig (2 * bw) (fun j' => wq bw j' * Sig n3 (fun r => mode q (phase n3 r) * u j' r) * PT ((q + 1) / 2) l j').
  Definition gf (u : nat -> nat -> R) (th ph : R) : R := Sig n3 (fun q => weight n3 q * (let m := ((q + 1) / 2)%nat in if (m <? cut)%nat then Sig (cut - m) (fun l => cf u q l * leg m (C m) l th) else 0) * mode q ph).
  Lemma TT_gf u j k : TT u j k = gf u (node bw j) (phase n3 k).
  Proof. reflexivity. Qed.
  Lemma gf_SP u : (1 <= cut)%nat -> sphere_poly (cut - 1) (gf u).
  Proof.
    intros Hc. unfold gf. apply SP_Sig. intros q Hq. cbv zeta. set (m := ((q + 1) / 2)%nat). destruct (Nat.ltb_spec m cut) as [Lt|Ge].
    2:{ apply (SPext _ (fun _ _ => 0)); [apply SPconst|]. intros; ring. }
    apply (SPext _ (fun th ph => Sig (cut - m) (fun l => (weight n3 q * cf u q l) * (leg m (C m) l th * mode q ph)))).
    - apply SP_Sig. intros l Hl. apply SP_scal. apply (SP_le (m + l)); [|lia]. destruct (SP_leg m (C m) l) as [[A _] [B _]].
      destruct (Nat.odd q) eqn:O.
      + apply (SPext _ _ _ A). intros th ph. f_equal. destruct (mode_m q ph) as [[V _]|[_ [V _]]]; [|congruence]. symmetry. exact V.
      + destruct (Nat.eq_dec q 0) as [E|N].
        * apply (SPext _ _ _ A). intros th ph. f_equal. destruct (mode_m q ph) as [[V _]|[_ [_ V]]]; [|congruence]. symmetry. exact V.
        * apply (SPext _ _ _ B). intros th ph. f_equal. destruct (mode_m q ph) as [[_ [V|V]]|[V _]]; try congruence. symmetry. exact V.
    - intros th ph. rewrite (Rmult_assoc (weight n3 q)), (Rmult_comm _ (mode q ph)), <- Sig_scal, <- Sig_scal. apply Sig_ext. intros; ring.
  Qed.
  Lemma gf_zero u th ph : cut = 0%nat -> gf u th ph = 0.
  Proof. intros H. unfold gf. apply Sig_zero. intros q _. cbv zeta. rewrite H. cbn [Nat.ltb Nat.leb]. ring. Qed.
  (** the residual is orthogonal *)
  Definition dot (u v : nat -> nat -> R) : R := Sig (2 * bw) (fun j => wq bw j * Sig n3 (fun k => u j k * v j k)).
  Lemma TT_orth L h u : (L + 1 <= cut)%nat -> (2 * L < n3)%nat -> BF C L h -> dot (TT u) (fun j k => h (node bw j) (phase n3 k)) = dot u (fun j k => h (node bw j) (phase n3 k)).
  Proof.
    intros HL HN. apply (BF_ind' L (fun h => dot (TT u) (fun j k => h (node bw j) (phase n3 k)) = dot u (fun j k => h (node bw j) (phase n3 k)))); auto.
    - intros q0 l Hq Hl. set (m0 := ((q0 + 1) / 2)%nat) in *. unfold dot. fold (PT m0 l).
      rewrite (Sig_ext (2 * bw) (fun j => wq bw j * Sig n3 (fun k => TT u j k * (leg m0 (C m0) l (node bw j) * mode q0 (phase n3 k)))) (fun j => wq bw j * PT m0 l j * Sig (cut - m0) (fun l' => cf u q0 l' * PT m0 l' j))).
      + rewrite (Sig_ext _ _ (fun j => Sig (cut - m0) (fun l' => cf u q0 l' * (wq bw j * (leg m0 (C m0) l (node bw j) * leg m0 (C m0) l' (node bw j)))))).
        2:{ intros j _. rewrite <- Sig_scal. apply Sig_ext. intros l' _. unfold PT. ring. }
        rewrite Sig_swap. rewrite (Sig_single (cut - m0) l); [|lia|].
        * rewrite Sig_scal, leg_discrete by (auto; lia). unfold delta. rewrite Nat.eqb_refl, Rmult_1_r. unfold cf. fold m0. apply Sig_ext. intros j _. rewrite Rmult_assoc. f_equal. rewrite <- Sig_scal_r. apply Sig_ext. intros r _. unfold PT. ring.
        * intros l' Hl' Ne. rewrite Sig_scal, leg_discrete by (auto; lia). unfold delta. destruct (Nat.eqb_spec l l'); [congruence|ring].
      + intros j _. rewrite Rmult_assoc. f_equal. unfold TT.
        rewrite (Sig_ext n3 (fun k => Sig n3 (fun q => weight n3 q * gk bw cut (wq bw) PT (fun j' => Sig n3 (fun r => mode q (phase n3 r) * u j' r)) q j * mode q (phase n3 k)) * (leg m0 (C m0) l (node bw j) * mode q0 (phase n3 k)))
           (fun k => Sig n3 (fun q => (PT m0 l j * (weight n3 q * gk bw cut (wq bw) PT (fun j' => Sig n3 (fun r => mode q (phase n3 r) * u j' r)) q j)) * (mode q0 (phase n3 k) * mode q (phase n3 k))))).
        2:{ intros k _. rewrite <- Sig_scal_r. apply Sig_ext. intros q _. unfold PT at 2. ring. }
        rewrite Sig_swap. rewrite (Sig_single n3 q0); auto.
        * rewrite Sig_scal. assert (O := orth_k n3 q0 q0 Hq Hq). unfold delta in O. rewrite Nat.eqb_refl in O.
          match goal with |- PT m0 l j * (?a * ?g) * ?s = _ => replace (PT m0 l j * (a * g) * s) with ((a * s) * (PT m0 l j * g)) by ring end. rewrite O, Rmult_1_l. f_equal. unfold gk. cbv zeta. fold m0. destruct (Nat.ltb_spec m0 cut); [|lia]. reflexivity.
        * intros q Hq' Ne. rewrite Sig_scal. assert (O := orth_k n3 q0 q Hq Hq'). unfold delta in O. destruct (Nat.eqb_spec q0 q); [congruence|]. assert (W := Modes_math.weight_nz n3 q Hq'). apply Rmult_integral in O as [O|O]; [contradiction|]. rewrite O. ring.
    - intros f g a c Hf Hg. assert (D : forall v, dot v (fun j k => a * f (node bw j) (phase n3 k) + c * g (node bw j) (phase n3 k)) = a * dot v (fun j k => f (node bw j) (phase n3 k)) + c * dot v (fun j k => g (node bw j) (phase n3 k))).
      { intros v. unfold dot. rewrite <- !Sig_scal, <- Sig_plus. apply Sig_ext. intros j _. rewrite (Sig_ext _ _ (fun k => a * (v j k * f (node bw j) (phase n3 k)) + c * (v j k * g (node bw j) (phase n3 k)))) by (intros; ring). rewrite Sig_plus, !Sig_scal. ring. }
      now rewrite !D, Hf, Hg.
    - intros f g Hf E. assert (D : forall v, dot v (fun j k => g (node bw j) (phase n3 k)) = dot v (fun j k => f (node bw j) (phase n3 k))). { intros v. unfold dot. apply Sig_ext. intros j _. f_equal. apply Sig_ext. intros k _. now rewrite E. } now rewrite !D.
  Qed.
End Proj.

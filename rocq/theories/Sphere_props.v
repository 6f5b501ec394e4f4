(** C44: integrals over spheres with double Fourier grids. *)
From Verif Require Import Arrays Mat_model Mat_spec Mat_proofs Four_model Four_spec Four_proofs Four_props Dir_model Dir_spec Dir_props
  Lines_model Lines_spec Lines_proofs Lines_kernel Lines_props Integ_spec Integ_proofs Integ_props Sphere_model.
Local Open Scope R_scope.

(** ** integrals as a linear functional *)
Lemma integral_plus f g a b x y : integral f a b x -> integral g a b y -> integral (fun X => f X + g X) a b (x + y).
Proof. intros (F & DF & ->) (G & DG & ->). exists (fun X => F X + G X). split; [|ring]. intros X. now apply derivable_pt_lim_plus. Qed.
Lemma integral_scal f a b x k : integral f a b x -> integral (fun X => k * f X) a b (k * x).
Proof. intros (F & DF & ->). exists (fun X => k * F X). split; [|ring]. intros X. now apply derivable_pt_lim_scal. Qed.
Lemma integral_ext f g a b x y : (forall X, f X = g X) -> x = y -> integral f a b x -> integral g a b y.
Proof. intros H <- (F & DF & ->). exists F. split; auto. intros X. now rewrite <- H. Qed.
Lemma integral_Sig n (f : nat -> R -> R) a b x : (forall i, (i < n)%nat -> integral (f i) a b (x i)) -> integral (fun X => Sig n (fun i => f i X)) a b (Sig n x).
Proof.
  induction n as [|n IH]; intros H.
  - exists (fun _ => 0). split; [|simpl; ring]. intros X. apply derivable_pt_lim_const.
  - apply (integral_ext (fun X => Sig n (fun i => f i X) + f n X) _ a b (Sig n x + x n)); [intros; reflexivity|reflexivity|]. apply integral_plus; auto.
Qed.
Lemma aff_deriv k s t : derivable_pt_lim (fun z => k * z - s) t k.
Proof. cut (derivable_pt_lim (fun z => k * z - s) t (k - 0)). { now rewrite Rminus_0_r. } apply (derivable_pt_lim_minus (fun z => k * z) (fun _ => s)); [apply lin_deriv|apply derivable_pt_lim_const]. Qed.
Lemma cos_aff_deriv k s t : derivable_pt_lim (fun z => cos (k * z - s)) t (- sin (k * t - s) * k).
Proof. apply (derivable_pt_lim_comp (fun z => k * z - s) cos); [apply aff_deriv|apply derivable_pt_lim_cos]. Qed.
Lemma cos_kPI k s : cos (INR k * PI - s) = (-1) ^ k * cos s.
Proof.
  induction k as [|k IH]. { simpl. replace (0 * PI - s) with (- s) by ring. rewrite cos_neg. ring. }
  rewrite S_INR. replace ((INR k + 1) * PI - s) with (INR k * PI - s + PI) by ring. rewrite neg_cos, IH. simpl. ring.
Qed.
(** integral of cos(n theta - s) sin(theta) over [0,pi] *)
Lemma sphere_mode n s : (2 <= n)%nat -> integral (fun t => cos (INR n * t - s) * sin t) 0 PI (if Nat.even n then - (2 * cos s / INR (n * n - 1)) else 0).
Proof.
  intros Hn. assert (B : 2 <= INR n) by (change 2 with (INR 2); now apply le_INR).
  exists (fun t => - / (2 * INR (n + 1)) * cos (INR (n + 1) * t - s) + / (2 * INR (n - 1)) * cos (INR (n - 1) * t - s)).
  assert (N1 : INR (n + 1) = INR n + 1) by (rewrite plus_INR; simpl; ring). assert (N2 : INR (n - 1) = INR n - 1) by (rewrite minus_INR by lia; simpl; ring). split.
  - intros t. replace (cos (INR n * t - s) * sin t) with (- / (2 * INR (n + 1)) * (- sin (INR (n + 1) * t - s) * INR (n + 1)) + / (2 * INR (n - 1)) * (- sin (INR (n - 1) * t - s) * INR (n - 1))).
    + apply derivable_pt_lim_plus.
      * apply (derivable_pt_lim_scal (fun z => cos (INR (n + 1) * z - s))). apply cos_aff_deriv.
      * apply (derivable_pt_lim_scal (fun z => cos (INR (n - 1) * z - s))). apply cos_aff_deriv.
    + rewrite N1, N2. replace ((INR n + 1) * t - s) with ((INR n * t - s) + t) by ring. replace ((INR n - 1) * t - s) with ((INR n * t - s) - t) by ring. generalize (INR n * t - s) as z. intros z. rewrite sin_plus, sin_minus. field. split; nra.
  - rewrite !cos_kPI. replace (INR (n + 1) * 0 - s) with (- s) by ring. replace (INR (n - 1) * 0 - s) with (- s) by ring. rewrite cos_neg.
    assert (P : (-1) ^ (n + 1) = (-1) ^ (n - 1)). { replace (n + 1)%nat with (2 + (n - 1))%nat by lia. rewrite pow_add. simpl. ring. } rewrite P.
    rewrite N1, N2. rewrite minus_INR by nia. rewrite mult_INR. change (INR 1) with 1. destruct (Nat.even n) eqn:Ev.
    + assert (O : (-1) ^ (n - 1) = -1). { apply Nat.even_spec in Ev. destruct Ev as [h Eh]. replace (n - 1)%nat with (S (2 * (h - 1))) by lia. apply pow_1_odd. } rewrite O. field. repeat split; nra.
    + assert (O : (-1) ^ (n - 1) = 1). { assert (Od : Nat.odd n = true) by (unfold Nat.odd; now rewrite Ev). apply Nat.odd_spec in Od. destruct Od as [h Eh]. replace (n - 1)%nat with (2 * h)%nat by lia. apply pow_1_even. } rewrite O. field. split; nra.
Qed.
Lemma sphere_mode1 s : integral (fun t => cos (t - s) * sin t) 0 PI (PI / 2 * sin s).
Proof.
  exists (fun t => - / 4 * cos (2 * t - s) + sin s / 2 * t). split.
  - intros t. replace (cos (t - s) * sin t) with (- / 4 * (- sin (2 * t - s) * 2) + sin s / 2).
    + apply derivable_pt_lim_plus; [|apply lin_deriv]. apply (derivable_pt_lim_scal (fun z => cos (2 * z - s))). apply cos_aff_deriv.
    + replace (2 * t - s) with ((t - s) + t) by ring. replace (sin s) with (sin (t - (t - s))) by (f_equal; ring). generalize (t - s) as z. intros z. rewrite sin_plus, sin_minus. lra.
  - replace (2 * 0 - s) with (- s) by ring. rewrite cos_neg. assert (Q := cos_kPI 2 s). replace (INR 2) with 2 in Q by (simpl; lra). rewrite Q. simpl. lra.
Qed.
Lemma sphere_mode0 : integral (fun t => 1 * sin t) 0 PI 2.
Proof.
  exists (fun t => - cos t). split. { intros t. replace (1 * sin t) with (- - sin t) by ring. apply derivable_pt_lim_opp, derivable_pt_lim_cos. } rewrite cos_PI, cos_0. ring.
Qed.
(** integral of mode i, shifted by dl, times sin *)
Definition smode (dl : R) (i : nat) : R :=
  if (i =? 0)%nat then 2 else if (i =? 1)%nat then PI / 2 * sin dl else if (i =? 2)%nat then PI / 2 * cos dl else
  let n := ((i + 1) / 2)%nat in if Nat.even n then (if Nat.even i then 2 * sin (INR n * dl) / INR (n * n - 1) else - (2 * cos (INR n * dl) / INR (n * n - 1))) else 0.
Lemma smode_ok dl i : integral (fun t => mode i (t - dl) * sin t) 0 PI (smode dl i).
Proof.
  destruct (Nat.eq_dec i 0) as [->|N0]. { apply sphere_mode0. }
  destruct (Nat.even i) eqn:Ev.
  - apply Nat.even_spec in Ev. destruct Ev as [j ->]. assert (Hj : (1 <= j)%nat) by lia.
    apply (integral_ext (fun t => cos (INR j * t - (INR j * dl + PI / 2)) * sin t) _ 0 PI (smode dl (2 * j))); auto.
    { intros t. rewrite mode_even by auto. replace (INR j * t - (INR j * dl + PI / 2)) with (- (PI / 2 - INR j * (t - dl))) by ring. now rewrite cos_neg, cos_shift. }
    unfold smode. destruct (Nat.eqb_spec (2 * j) 0); [lia|]. destruct (Nat.eqb_spec (2 * j) 1); [lia|]. destruct (Nat.eqb_spec (2 * j) 2) as [E2|N2].
    + assert (j = 1%nat) by lia. subst j. apply (integral_ext (fun t => cos (t - (dl + PI / 2)) * sin t) _ 0 PI (PI / 2 * sin (dl + PI / 2))); [| |apply sphere_mode1].
      * intros t. simpl INR. do 2 f_equal. ring. * f_equal. rewrite sin_plus, sin_PI2, cos_PI2. ring.
    + replace ((2 * j + 1) / 2)%nat with j by (rewrite Nat.add_comm, Nat.mul_comm, Nat.div_add by lia; reflexivity). cbv zeta.
      replace (Nat.even (2 * j)) with true by (symmetry; apply Nat.even_spec; now exists j). assert (SM := sphere_mode j (INR j * dl + PI / 2) ltac:(lia)). revert SM. apply integral_ext; auto. destruct (Nat.even j); auto. rewrite cos_plus, cos_PI2, sin_PI2. unfold Rdiv. ring.
  - assert (O : Nat.odd i = true) by (unfold Nat.odd; now rewrite Ev). apply Nat.odd_spec in O. destruct O as [j' Ej]. assert (X : exists j, i = (2 * j - 1)%nat /\ (1 <= j)%nat) by (exists (j' + 1)%nat; lia). clear Ej. destruct X as (j & -> & Hj).
    apply (integral_ext (fun t => cos (INR j * t - INR j * dl) * sin t) _ 0 PI (smode dl (2 * j - 1))); auto. { intros t. rewrite mode_odd by auto. do 2 f_equal. ring. }
    unfold smode. destruct (Nat.eqb_spec (2 * j - 1) 0); [lia|]. destruct (Nat.eqb_spec (2 * j - 1) 1) as [E1|N1].
    + assert (j = 1%nat) by lia. subst j. apply (integral_ext (fun t => cos (t - dl) * sin t) _ 0 PI (PI / 2 * sin dl)); [|reflexivity|apply sphere_mode1]. intros t. simpl INR. do 2 f_equal. ring.
    + destruct (Nat.eqb_spec (2 * j - 1) 2); [lia|]. replace ((2 * j - 1 + 1) / 2)%nat with j by (replace (2 * j - 1 + 1)%nat with (j * 2)%nat by lia; now rewrite Nat.div_mul). cbv zeta.
      rewrite Ev. apply sphere_mode. lia.
Qed.
Theorem tpoly_sphere c N dl : integral (fun t => tpoly c N (t - dl) * sin t) 0 PI (Sig N (fun i => weight N i * c.[i] * smode dl i)).
Proof.
  apply (integral_ext (fun t => Sig N (fun i => weight N i * c.[i] * (mode i (t - dl) * sin t))) _ 0 PI (Sig N (fun i => weight N i * c.[i] * smode dl i))); auto.
  - intros t. unfold tpoly. rewrite <- Sig_scal_r. apply Sig_ext. intros. ring.
  - apply integral_Sig. intros i Hi. apply integral_scal, smode_ok.
Qed.

(** ** the code's sum *)
Definition csum (c : list R) (N : nat) (dl L : R) : R :=
  (1 / PI * c.[0] + / 2 * (sin dl * c.[1] + cos dl * c.[2]) +
   Sig ((N / 2 - 1) / 2) (fun h => let n := (2 + 2 * h)%nat in 2 * (cos (INR n * dl) / (- INR (n * n - 1) * PI) * c.[2 * n - 1] + sin (INR n * dl) / (INR (n * n - 1) * PI) * c.[2 * n])) +
   (if (N mod 4 =? 0)%nat then cos (INR (N / 2) * dl) / (- INR (N * N / 4 - 1) * PI) * c.[N - 1] else 0)) * (L / INR N).
Lemma Sig_pairs M (f : nat -> R) : Sig (2 * M + 1) f = f 0%nat + Sig M (fun j => f (2 * (j + 1) - 1)%nat + f (2 * (j + 1))%nat).
Proof.
  induction M as [|M IH]. { simpl. ring. } replace (2 * S M + 1)%nat with (S (S (2 * M + 1))) by lia. rewrite !Sig_S, IH.
  replace (2 * (M + 1) - 1)%nat with (2 * M + 1)%nat by lia. replace (2 * (M + 1))%nat with (S (2 * M + 1)) by lia. ring.
Qed.
(** the term that the loop misses when N = 1 mod 4 *)
Definition missed (c : list R) (N : nat) (dl : R) : R :=
  if (N mod 4 =? 1)%nat then let n := (N / 2)%nat in 4 / INR N * (- (cos (INR n * dl) / INR (n * n - 1)) * c.[2 * n - 1] + sin (INR n * dl) / INR (n * n - 1) * c.[2 * n]) else 0.
Lemma csum_ok c N dl : (3 <= N)%nat -> Sig N (fun i => weight N i * c.[i] * smode dl i) = csum c N dl (2 * PI) + missed c N dl.
Proof.
  intros HN. assert (PP := PI_RGT_0). assert (N0 : INR N <> 0) by (apply not_0_INR; lia).
  set (M := ((N - 1) / 2)%nat). assert (HM : (N = 2 * M + 1 \/ N = 2 * M + 2)%nat).
  { unfold M. assert (Q := Nat.div_mod (N - 1) 2 ltac:(lia)). assert (Q2 := Nat.mod_upper_bound (N - 1) 2 ltac:(lia)). lia. } clearbody M.
  assert (HM1 : (1 <= M)%nat) by lia.
  assert (W : forall i, (1 <= i <= 2 * M)%nat -> weight N i = 2 / INR N).
  { intros i Hi. unfold weight. destruct (Nat.eqb_spec i 0); [lia|]. destruct (Nat.even N) eqn:Ev; cbn [orb andb]; auto. destruct (Nat.eqb_spec (i + 1) N); auto. exfalso. destruct HM as [HM|HM]; [|lia]. rewrite HM, Nat.even_add in Ev. replace (Nat.even (2 * M)) with true in Ev by (symmetry; apply Nat.even_spec; now exists M). discriminate. }
  assert (W0 : weight N 0 = 1 / INR N) by reflexivity.
  set (g := fun n => 4 / INR N * (- (cos (INR n * dl) / INR (n * n - 1)) * c.[2 * n - 1] + sin (INR n * dl) / INR (n * n - 1) * c.[2 * n])).
  set (f := fun i => weight N i * c.[i] * smode dl i).
  assert (P : forall j, (j < M)%nat -> f (2 * (j + 1) - 1)%nat + f (2 * (j + 1))%nat = if (j =? 0)%nat then PI / INR N * (sin dl * c.[1] + cos dl * c.[2]) else if Nat.even (j + 1) then g (j + 1)%nat else 0).
  { intros j Hj. unfold f. rewrite !W by lia. destruct (Nat.eqb_spec j 0) as [->|Nj].
    - cbn [Nat.add Nat.mul Nat.sub smode]. unfold smode. cbn [Nat.eqb]. field. auto.
    - unfold smode. destruct (Nat.eqb_spec (2 * (j + 1) - 1) 0); [lia|]. destruct (Nat.eqb_spec (2 * (j + 1) - 1) 1); [lia|]. destruct (Nat.eqb_spec (2 * (j + 1) - 1) 2); [lia|].
      destruct (Nat.eqb_spec (2 * (j + 1)) 0); [lia|]. destruct (Nat.eqb_spec (2 * (j + 1)) 1); [lia|]. destruct (Nat.eqb_spec (2 * (j + 1)) 2); [lia|]. cbv zeta.
      replace ((2 * (j + 1) - 1 + 1) / 2)%nat with (j + 1)%nat by (replace (2 * (j + 1) - 1 + 1)%nat with ((j + 1) * 2)%nat by lia; now rewrite Nat.div_mul).
      replace ((2 * (j + 1) + 1) / 2)%nat with (j + 1)%nat by (replace (2 * (j + 1) + 1)%nat with (1 + (j + 1) * 2)%nat by lia; now rewrite Nat.div_add by lia).
      replace (Nat.even (2 * (j + 1))) with true by (symmetry; apply Nat.even_spec; now exists (j + 1)%nat).
      replace (Nat.even (2 * (j + 1) - 1)) with false. 2:{ symmetry. replace (2 * (j + 1) - 1)%nat with (1 + 2 * j)%nat by lia. rewrite Nat.even_add. replace (Nat.even (2 * j)) with true by (symmetry; apply Nat.even_spec; now exists j). reflexivity. }
      destruct (Nat.even (j + 1)); [|ring]. unfold g. assert (Q : INR ((j + 1) * (j + 1) - 1) <> 0) by (apply not_0_INR; nia). field. auto. }
  assert (E1 : Sig (2 * M + 1) f = 2 / INR N * c.[0] + PI / INR N * (sin dl * c.[1] + cos dl * c.[2]) + Sig (M / 2) (fun h => g (2 + 2 * h)%nat)).
  { rewrite Sig_pairs. rewrite (Sig_ext M _ (fun j => if (j =? 0)%nat then PI / INR N * (sin dl * c.[1] + cos dl * c.[2]) else if Nat.even (j + 1) then g (j + 1)%nat else 0) P).
    assert (F0 : f 0%nat = 2 / INR N * c.[0]). { unfold f. rewrite W0. unfold smode. cbn [Nat.eqb]. field. auto. } rewrite F0, Rplus_assoc. f_equal. rewrite <- (Sig_even M g).
    destruct M as [|M']; [lia|]. rewrite !Sig_S_l. cbn [Nat.eqb Nat.add Nat.even]. rewrite Rplus_0_l. f_equal. }
  assert (G : forall h, g (2 + 2 * h)%nat = 2 * (cos (INR (2 + 2 * h) * dl) / (- INR ((2 + 2 * h) * (2 + 2 * h) - 1) * PI) * c.[2 * (2 + 2 * h) - 1] + sin (INR (2 + 2 * h) * dl) / (INR ((2 + 2 * h) * (2 + 2 * h) - 1) * PI) * c.[2 * (2 + 2 * h)]) * (2 * PI / INR N)).
  { intros h. unfold g. assert (Q : INR ((2 + 2 * h) * (2 + 2 * h) - 1) <> 0) by (apply not_0_INR; nia). field. split; [lra|]. split; auto. lra. }
  unfold csum. cbv zeta. rewrite Rmult_plus_distr_r, (Rmult_plus_distr_r _ (Sig _ _)), <- Sig_scal_r.
  rewrite (Sig_ext ((N / 2 - 1) / 2) _ (fun h => g (2 + 2 * h)%nat)) by (intros h _; now rewrite G).
  replace ((1 / PI * c.[0] + / 2 * (sin dl * c.[1] + cos dl * c.[2])) * (2 * PI / INR N)) with (2 / INR N * c.[0] + PI / INR N * (sin dl * c.[1] + cos dl * c.[2])) by (field; split; lra).
  assert (Dv : (M = 2 * (M / 2) \/ M = 2 * (M / 2) + 1)%nat). { assert (Q := Nat.div_mod M 2 ltac:(lia)). assert (Q2 := Nat.mod_upper_bound M 2 ltac:(lia)). lia. } set (H := (M / 2)%nat) in *.
  destruct HM as [HM|HM].
  - (* odd *) replace (N / 2)%nat with M. 2:{ rewrite HM, Nat.add_comm, Nat.mul_comm, Nat.div_add by lia. reflexivity. }
    assert (M4 : (N mod 4 = if Nat.even M then 1 else 3)%nat).
    { destruct Dv as [Dv|Dv]; rewrite HM, Dv.
      - replace (Nat.even (2 * H)) with true by (symmetry; apply Nat.even_spec; now exists H). replace (2 * (2 * H) + 1)%nat with (1 + H * 4)%nat by lia. now rewrite Nat.mod_add by lia.
      - replace (Nat.even (2 * H + 1)) with false by (symmetry; rewrite Nat.even_add; replace (Nat.even (2 * H)) with true by (symmetry; apply Nat.even_spec; now exists H); reflexivity). replace (2 * (2 * H + 1) + 1)%nat with (3 + H * 4)%nat by lia. now rewrite Nat.mod_add by lia. }
    unfold missed. rewrite M4. rewrite HM at 1. change (Sig (2 * M + 1) (fun i => weight N i * c.[i] * smode dl i)) with (Sig (2 * M + 1) f). rewrite E1. fold H.
    replace (N / 2)%nat with M. 2:{ rewrite HM, Nat.add_comm, Nat.mul_comm, Nat.div_add by lia. reflexivity. }
    destruct Dv as [Dv|Dv].
    + replace (Nat.even M) with true by (symmetry; apply Nat.even_spec; now exists H). cbn [Nat.eqb]. change (4 / INR N * (- (cos (INR M * dl) / INR (M * M - 1)) * c.[2 * M - 1] + sin (INR M * dl) / INR (M * M - 1) * c.[2 * M])) with (g M).
      destruct H as [|H']; [lia|]. replace ((M - 1) / 2)%nat with H'. 2:{ replace (M - 1)%nat with (1 + H' * 2)%nat by lia. now rewrite Nat.div_add by lia. }
      rewrite Sig_S. replace (2 + 2 * H')%nat with M by lia. ring.
    + replace (Nat.even M) with false by (symmetry; rewrite Dv, Nat.even_add; replace (Nat.even (2 * H)) with true by (symmetry; apply Nat.even_spec; now exists H); reflexivity). cbn [Nat.eqb].
      replace ((M - 1) / 2)%nat with H. 2:{ rewrite Dv. replace (2 * H + 1 - 1)%nat with (H * 2)%nat by lia. now rewrite Nat.div_mul. } ring.
  - (* even *) assert (ND : (N / 2 = M + 1)%nat). { rewrite HM. replace (2 * M + 2)%nat with ((M + 1) * 2)%nat by lia. now rewrite Nat.div_mul. } rewrite ND. replace (M + 1 - 1)%nat with M by lia. fold H.
    assert (M4 : (N mod 4 = if Nat.even M then 2 else 0)%nat).
    { destruct Dv as [Dv|Dv]; rewrite HM, Dv.
      - replace (Nat.even (2 * H)) with true by (symmetry; apply Nat.even_spec; now exists H). replace (2 * (2 * H) + 2)%nat with (2 + H * 4)%nat by lia. now rewrite Nat.mod_add by lia.
      - replace (Nat.even (2 * H + 1)) with false by (symmetry; rewrite Nat.even_add; replace (Nat.even (2 * H)) with true by (symmetry; apply Nat.even_spec; now exists H); reflexivity). replace (2 * (2 * H + 1) + 2)%nat with (0 + (H + 1) * 4)%nat by lia. now rewrite Nat.mod_add by lia. }
    rewrite HM at 1. replace (2 * M + 2)%nat with (S (2 * M + 1)) by lia. rewrite Sig_S. change (Sig (2 * M + 1) (fun i => weight N i * c.[i] * smode dl i)) with (Sig (2 * M + 1) f). rewrite E1. fold H.
    assert (WL : weight N (2 * M + 1) = 1 / INR N). { unfold weight. replace (Nat.even N) with true by (symmetry; apply Nat.even_spec; exists (M + 1)%nat; lia). destruct (Nat.eqb_spec (2 * M + 1 + 1) N); [|lia]. cbn [andb]. now rewrite orb_true_r. } unfold f. rewrite WL.
    assert (SL : smode dl (2 * M + 1) = if Nat.even (M + 1) then - (2 * cos (INR (M + 1) * dl) / INR ((M + 1) * (M + 1) - 1)) else 0).
    { unfold smode. destruct (Nat.eqb_spec (2 * M + 1) 0); [lia|]. destruct (Nat.eqb_spec (2 * M + 1) 1); [lia|]. destruct (Nat.eqb_spec (2 * M + 1) 2); [lia|]. cbv zeta.
      replace ((2 * M + 1 + 1) / 2)%nat with (M + 1)%nat by (replace (2 * M + 1 + 1)%nat with ((M + 1) * 2)%nat by lia; now rewrite Nat.div_mul).
      replace (Nat.even (2 * M + 1)) with false; auto. symmetry. rewrite Nat.even_add. replace (Nat.even (2 * M)) with true by (symmetry; apply Nat.even_spec; now exists M). reflexivity. }
    rewrite SL. unfold missed. rewrite M4. replace (N * N / 4)%nat with ((M + 1) * (M + 1))%nat. 2:{ rewrite HM. replace ((2 * M + 2) * (2 * M + 2))%nat with ((M + 1) * (M + 1) * 4)%nat by lia. now rewrite Nat.div_mul. }
    replace (N - 1)%nat with (2 * M + 1)%nat by lia. rewrite Nat.even_add. destruct (Nat.even M); cbn [Bool.eqb Nat.even Nat.eqb]; [ring|].
    assert (Q : INR ((M + 1) * (M + 1) - 1) <> 0) by (apply not_0_INR; nia). field. split; [lra|]. split; auto. lra.
Qed.

(** ** the model's sum and the loop over lines *)
Lemma theta_sum_ok U at_ N L c : (3 <= N)%nat -> List.length c = N -> (forall j, (j < N)%nat -> rd U (at_ j) = Ok c.[j]) ->
  theta_sum U at_ N L = Ok (csum c N (PI / (INR (1 + N mod 2) * INR N)) L).
Proof.
  intros HN Lc H. assert (N0 : INR N <> 0) by (apply not_0_INR; lia). assert (M0 : INR (1 + N mod 2) <> 0) by (apply not_0_INR; lia).
  unfold theta_sum. cbv zeta. set (d := 1.0 / (2.0 * INR (1 + N mod 2) * INR N)). set (dl := PI / (INR (1 + N mod 2) * INR N)).
  assert (D : forall k, 2.0 * PI * k * d = k * dl). { intros k. unfold d, dl. replace 2.0 with 2 by lra. replace 1.0 with 1 by lra. field. split; auto. }
  assert (D1 : 2.0 * PI * d = dl). { unfold d, dl. replace 2.0 with 2 by lra. replace 1.0 with 1 by lra. field. split; auto. }
  rewrite !H by lia. cbn [rbind].
  rewrite (sum_loop 0 ((N / 2 - 1) / 2) _ (fun h => let n := (2 + 2 * h)%nat in 2 * (cos (INR n * dl) / (- INR (n * n - 1) * PI) * c.[2 * n - 1] + sin (INR n * dl) / (INR (n * n - 1) * PI) * c.[2 * n]))).
  - cbn [rbind]. rewrite Nat.sub_0_r. rewrite D1. unfold csum. cbv zeta. replace (0.5) with (/ 2) by lra. replace (1.0) with 1 by lra.
    rewrite (Sig_ext _ (fun i => 2 * (cos (INR (2 + 2 * (0 + i)) * dl) / _ * _ + _)) (fun h => 2 * (cos (INR (2 + 2 * h) * dl) / (- INR ((2 + 2 * h) * (2 + 2 * h) - 1) * PI) * c.[2 * (2 + 2 * h) - 1] + sin (INR (2 + 2 * h) * dl) / (INR ((2 + 2 * h) * (2 + 2 * h) - 1) * PI) * c.[2 * (2 + 2 * h)]))) by (intros; reflexivity).
    destruct (N mod 4 =? 0)%nat. + cbn [rbind]. rewrite D. reflexivity. + cbn [rbind]. now rewrite Rplus_0_r.
  - intros h sum Hh. assert (Q1 := Nat.mul_div_le N 2 ltac:(lia)). assert (Q2 := Nat.mul_div_le (N / 2 - 1) 2 ltac:(lia)).
    rewrite !H by lia. cbn [rbind]. rewrite !D. cbv zeta. replace (2.0) with 2 by lra. reflexivity.
Qed.
Definition shift (N : nat) : R := PI / (INR (1 + N mod 2) * INR N).
Lemma sphere_lines b s pX : List.length s = npoints b -> List.length pX = npoints b -> (3 <= nn b X2)%nat ->
  exists s', for_nat 0 (nn b X3) (fun k U => for_nat 0 (nn b X1) (fun i U =>
      do sum <- theta_sum U (fun j => Ix b i j k) (nn b X2) (b_hi (bd b X2) - b_lo (bd b X2));
      for_nat 0 (nn b X2) (fun j U => do x <- rd pX (Ix b i j k); wr U (Ix b i j k) (sum * x * x)) U) U) s = Ok s' /\ List.length s' = npoints b /\
    forall p, inbox b p -> val b s' p = csum (line b X2 s p) (nn b X2) (shift (nn b X2)) (b_hi (bd b X2) - b_lo (bd b X2)) * val b pX p * val b pX p.
Proof.
  intros Ls Lp HN. set (L := b_hi (bd b X2) - b_lo (bd b X2)).
  destruct (lines_fill b X2 (fun i k U => do sum <- theta_sum U (fun j => Ix b i j k) (nn b X2) L; for_nat 0 (nn b X2) (fun j U => do x <- rd pX (Ix b i j k); wr U (Ix b i j k) (sum * x * x)) U)
    (fun i k l => map (fun j => csum l (nn b X2) (shift (nn b X2)) L * val b pX (i, j, k) * val b pX (i, j, k)) (seq 0 (nn b X2))) s Ls) as (s' & E & L' & V).
  - intros i k t Hi Hk Lt. change (n_inner b X2) with (nn b X1) in *. change (n_outer b X2) with (nn b X3) in *.
    rewrite (theta_sum_ok t _ (nn b X2) L (ln b X2 t i k)) by (auto using ln_length; intros j Hj; rewrite (rd_ok _ _ 0) by (rewrite Lt; apply (Ixp_lt b (i, j, k)); intros []; cbn [comp]; auto); rewrite ln_nth by auto; now rewrite val_Ix). cbn [rbind]. fold (shift (nn b X2)).
    set (sum := csum _ _ _ _). destruct (put_memline_ok b t (map (fun j => sum * val b pX (i, j, k) * val b pX (i, j, k)) (seq 0 (nn b X2))) X2 i k Lt) as (t' & Et & Lt' & Vt); auto. { now rewrite map_length, seq_length. }
    exists t'. split; [|split; auto]. rewrite <- Et. unfold put_memline, for_nat. apply forl_ext. intros j t0 Hj. apply in_seq in Hj.
    assert (Ip : inbox b (i, j, k)) by (intros []; cbn [comp]; auto; lia).
    rewrite (rd_ok _ _ 0) by (rewrite Lp; now apply (Ixp_lt b (i, j, k))). rewrite (rd_ok (map _ _) _ 0) by (rewrite map_length, seq_length; lia). cbn [rbind]. rewrite map_seq_nth by lia.
    rewrite (cell_Ix b X2 j i k). cbn [pt]. rewrite !(val_Ix b pX). reflexivity.
  - exists s'. split; auto. split; auto. intros p Ip. rewrite <- (line_self b X2 s' p Ip), !line_ln. destruct (inbox_ranges b X2 p Ip) as [Q1 Q2]. rewrite V by auto. rewrite map_seq_nth by apply Ip.
    destruct p as [[i j] k]. reflexivity.
Qed.

(** ** What spec_sphericalDF2dIntegral computes: with a Fourier basis in direction 2 on [0,2pi], first the exact integrals over direction 3 (phi),
    giving a function f of the grid coordinate, and then r^2 times the integral of f(theta - shift) sin(theta) over 0..pi, where the grid
    coordinate is theta - shift with the shift of the comment in the code; minus a term that the code misses if N = 1 mod 4. *)
Theorem C44_sphere_partial bs3 b sc pX alias u old : (forall d, schedule b d (sc d)) -> built bs3 (bd b X3) -> built Fourier (bd b X2) -> b_lo (bd b X2) = 0 -> b_hi (bd b X2) = 2 * PI -> (3 <= nn b X2)%nat ->
  List.length u = npoints b -> List.length old = npoints b -> List.length pX = npoints b -> (alias = true -> old = u) -> let N := nn b X2 in let shift := PI / (INR (1 + N mod 2) * INR N) in
  exists W V, spec_sphericalDF2dIntegral b sc (fun d => match d with X2 => fourmeth | _ => imethod bs3 end) pX alias u old = Ok V /\ List.length V = npoints b /\
    (forall p, inbox b p -> line_integral bs3 (bd b X3) (line b X3 u p) (val b W p)) /\
    forall p, inbox b p -> exists c x, List.length c = N /\ let f := expansion Fourier 0 (2 * PI) N c in
      (forall m, (m < N)%nat -> f (coord Fourier 0 (2 * PI) N m) = val b W (setc X2 p m)) /\
      integral (fun theta => f (theta - shift) * sin theta) 0 PI x /\
      val b V p = (x - missed c N shift) * val b pX p * val b pX p.
Proof.
  intros Sc B3 B2 L0 L1 HN Lu Lo Lp Ha N sh.
  destruct (C43_Integral1 bs3 b X3 (sc X3) alias u old B3 (Sc X3) Lu Lo Ha) as (W & EW & LW & IW).
  destruct (built_ops Fourier (bd b X2) B2) as (A & B & E & HA & HB & HE & Inv & HAn & _). fold (nn b X2) in *. fold N in HA, HB, HE, Inv, HAn.
  destruct (analysis_ok b (sc X2) X2 true W W (apply N A) (Sc X2) HAn LW LW ltac:(auto)) as (c & Ec & Al).
  destruct (sphere_lines b c pX (proj1 Al) Lp HN) as (V & EV & LV & VV). exists W, V. split. { unfold spec_sphericalDF2dIntegral. rewrite EW. cbn [rbind]. rewrite Ec. cbn [rbind]. exact EV. }
  split; auto. split; auto. intros p Ip. rewrite VV by auto. rewrite (along_line b X2 (apply N A) W c p Ip Al) by apply apply_length. fold N. set (cl := apply N A (line b X2 W p)).
  exists cl, (Sig N (fun i => weight N i * cl.[i] * smode sh i)). split; [apply apply_length|]. cbv zeta. split.
  - intros m Hm. destruct B2 as (Hs & Hab & Hn & _). rewrite L0, L1 in *.
    destruct (eval_is_expansion Fourier 0 (2 * PI) N cl (line b X2 W p) Hs Hab Hn (apply_length _ _ _) (line_length _ _ _ _)) as (v & Ev & _ & Vv). rewrite <- Vv by auto. rewrite HE in Ev by (try apply apply_length; apply line_length). unfold cl in Ev. rewrite Inv in Ev by apply line_length. injection Ev as <-. now apply line_nth.
  - split.
    + apply (integral_ext (fun t => tpoly cl N (t - sh) * sin t) _ 0 PI (Sig N (fun i => weight N i * cl.[i] * smode sh i))); auto; [|apply tpoly_sphere]. intros t. cbn [expansion]. unfold phase_at. do 2 f_equal. assert (PP := PI_RGT_0). field. lra.
    + rewrite (csum_ok cl N sh HN), L0, L1. change (shift N) with sh. replace (2 * PI - 0) with (2 * PI) by ring. ring.
Qed.
(** so the result is exact unless N = 1 mod 4 *)
Theorem C44_exact_partial bs3 b sc pX alias u old : (forall d, schedule b d (sc d)) -> built bs3 (bd b X3) -> built Fourier (bd b X2) -> b_lo (bd b X2) = 0 -> b_hi (bd b X2) = 2 * PI -> (3 <= nn b X2)%nat -> (nn b X2 mod 4 <> 1)%nat ->
  List.length u = npoints b -> List.length old = npoints b -> List.length pX = npoints b -> (alias = true -> old = u) -> let N := nn b X2 in let shift := PI / (INR (1 + N mod 2) * INR N) in
  exists W V, spec_sphericalDF2dIntegral b sc (fun d => match d with X2 => fourmeth | _ => imethod bs3 end) pX alias u old = Ok V /\ List.length V = npoints b /\
    (forall p, inbox b p -> line_integral bs3 (bd b X3) (line b X3 u p) (val b W p)) /\
    forall p, inbox b p -> exists c x, List.length c = N /\ let f := expansion Fourier 0 (2 * PI) N c in
      (forall m, (m < N)%nat -> f (coord Fourier 0 (2 * PI) N m) = val b W (setc X2 p m)) /\
      integral (fun theta => f (theta - shift) * sin theta) 0 PI x /\ val b V p = x * val b pX p * val b pX p.
Proof.
  intros Sc B3 B2 L0 L1 HN N4 Lu Lo Lp Ha N sh. destruct (C44_sphere_partial bs3 b sc pX alias u old Sc B3 B2 L0 L1 HN Lu Lo Lp Ha) as (W & V & E & LV & HW & H). exists W, V. split; auto. split; auto. split; auto.
  intros p Ip. destruct (H p Ip) as (c & x & Lc & H1 & H2 & H3). exists c, x. split; auto. cbv zeta. split; auto. split; auto. rewrite H3. unfold missed. destruct (Nat.eqb_spec (nn b X2 mod 4) 1); [contradiction|]. ring.
Qed.
(** ** A box with N points in theta: r from Chebyshev extrema on [1,2] (2 points), phi Fourier on [0,2pi] (2 points) *)
Definition mkdir (bs : basis) (n : nat) (lo hi : R) (m : dirbox) : bdir := {| b_n := n; b_lo := lo; b_hi := hi; b_T := false; b_f := through_box (funs_from_pars bs lo hi); b_m := m |}.
Lemma mkdir_built bs n lo hi : spectral bs = true -> lo <> hi -> (2 <= n)%nat -> exists m, built bs (mkdir bs n lo hi m).
Proof.
  intros Hs Hl Hn. destruct (setup_kernels bs lo hi n 0 Hs Hn ltac:(lia)) as (m & _ & _ & _ & _ & _ & E & _). exists m. repeat split; auto. exists 0%Z. split; [cbn; lia|exact E].
Qed.
Lemma sphere_box N : (2 <= N)%nat -> exists b, nn b X1 = 2%nat /\ nn b X2 = N /\ nn b X3 = 2%nat /\ built Fourier (bd b X3) /\ built Fourier (bd b X2) /\ (b_lo (bd b X2) = 0 /\ b_hi (bd b X2) = 2 * PI) /\ (b_lo (bd b X3) = 0 /\ b_hi (bd b X3) = 2 * PI).
Proof.
  intros HN. assert (PP := PI_RGT_0). destruct (mkdir_built ChebExtrema 2 1 2 eq_refl ltac:(lra) ltac:(lia)) as (m1 & B1). destruct (mkdir_built Fourier N 0 (2 * PI) eq_refl ltac:(lra) HN) as (m2 & B2). destruct (mkdir_built Fourier 2 0 (2 * PI) eq_refl ltac:(lra) ltac:(lia)) as (m3 & B3).
  exists {| bd1 := mkdir ChebExtrema 2 1 2 m1; bd2 := mkdir Fourier N 0 (2 * PI) m2; bd3 := mkdir Fourier 2 0 (2 * PI) m3 |}. repeat (split; auto).
Qed.
Example C44_example : exists b, nn b X2 = 6%nat /\ exists V, spec_sphericalDF2dIntegral b (sequential b) (fun _ => fourmeth) (repeat 1 (npoints b)) false (repeat 1 (npoints b)) (repeat 0 (npoints b)) = Ok V /\ List.length V = 24%nat.
Proof.
  destruct (sphere_box 6 ltac:(lia)) as (b & N1 & N2 & N3 & B3 & B2 & (L0 & L1) & _). exists b. split; auto.
  destruct (C44_exact_partial Fourier b (sequential b) (repeat 1 (npoints b)) false (repeat 1 (npoints b)) (repeat 0 (npoints b))) as (W & V & E & LV & _); auto using repeat_length, sequential_schedule; try (rewrite N2; cbn; lia); try discriminate.
  exists V. split. { rewrite <- E. unfold spec_sphericalDF2dIntegral. reflexivity. } rewrite LV. unfold npoints. rewrite N1, N2, N3. reflexivity.
Qed.
(** ** With N = 5 the result is wrong: for the function cos(2 theta') of the grid coordinate *)
Theorem C44_refuted : exists b pX u V W c x p, let N := nn b X2 in let shift := PI / (INR (1 + N mod 2) * INR N) in let f := expansion Fourier 0 (2 * PI) N c in
  N = 5%nat /\ built Fourier (bd b X3) /\ built Fourier (bd b X2) /\ inbox b p /\ b_lo (bd b X2) = 0 /\ b_hi (bd b X2) = 2 * PI /\
  spec_sphericalDF2dIntegral b (sequential b) (fun _ => fourmeth) pX false u (repeat 0 (npoints b)) = Ok V /\
  (forall q, inbox b q -> line_integral Fourier (bd b X3) (line b X3 u q) (val b W q)) /\ List.length c = N /\ (forall m, (m < N)%nat -> f (coord Fourier 0 (2 * PI) N m) = val b W (setc X2 p m)) /\
  integral (fun theta => f (theta - shift) * sin theta) 0 PI x /\ val b pX p = 1 /\ val b V p <> x.
Proof.
  assert (PP := PI_RGT_0). destruct (sphere_box 5 ltac:(lia)) as (b & N1 & N2 & N3 & B3 & B2 & (L0 & L1) & (M0 & M1)).
  set (c0 := [0; 0; 0; 1; 0] : list R). set (f0 := expansion Fourier 0 (2 * PI) 5 c0). set (u := table b (fun p => f0 (coord Fourier 0 (2 * PI) 5 (comp X2 p)))).
  set (pX := repeat 1 (npoints b)). assert (Lp : List.length pX = npoints b) by apply repeat_length. assert (Lu : List.length u = npoints b) by apply table_length.
  assert (Ip : inbox b (0, 0, 0)%nat). { intros []; cbn [comp]; rewrite ?N1, ?N2, ?N3; lia. }
  destruct (C44_sphere_partial Fourier b (sequential b) pX false u (repeat 0 (npoints b))) as (W & V & E & LV & HW & H); auto using repeat_length, sequential_schedule; try (rewrite N2; cbn; lia); try discriminate.
  destruct (H _ Ip) as (c & x & Lc & Hc & Hx & HV). cbv zeta in Hc. rewrite N2 in *.
  assert (PX : val b pX (0, 0, 0)%nat = 1). { rewrite val_Ix. unfold pX. rewrite (nth_indep _ 0 1) by (rewrite repeat_length; now apply Ixp_lt). apply nth_repeat. }
  (* the phi integral is 2 pi f0 *)
  assert (WV : forall q, inbox b q -> val b W q = f0 (coord Fourier 0 (2 * PI) 5 (comp X2 q)) * (2 * PI)).
  { intros q Iq. assert (B3' := B3). destruct B3' as (Hs & Hab & Hn & _). apply (C43_spec_unique Fourier (bd b X3) (line b X3 u q)); auto.
    replace (line b X3 u q) with (repeat (f0 (coord Fourier 0 (2 * PI) 5 (comp X2 q))) (b_n (bd b X3))).
    - assert (Q := const_line_integral Fourier (bd b X3) (f0 (coord Fourier 0 (2 * PI) 5 (comp X2 q))) Hs Hn). rewrite M0, M1 in Q. now replace (2 * PI - 0) with (2 * PI) in Q by ring.
    - apply list_eq_R. { now rewrite repeat_length, line_length. } intros m Hm. rewrite repeat_length in Hm. rewrite line_nth by exact Hm. unfold u. rewrite table_val by (apply inbox_setc; auto). rewrite comp_setc_ne by discriminate.
      set (k := f0 _). rewrite (nth_indep _ 0 k) by (now rewrite repeat_length). apply nth_repeat. }
  assert (Cc : c = [0; 0; 0; 2 * PI; 0]).
  { apply (expansion_unique Fourier 0 (2 * PI) 5); auto; try lra. intros m Hm. rewrite Hc by auto. rewrite WV by (apply inbox_setc; auto; now rewrite N2). cbn [setc comp]. unfold f0, c0. cbn [expansion]. unfold tpoly. rewrite <- Sig_scal_r. apply Sig_ext. intros i Hi.
    destruct i as [|[|[|[|[|]]]]]; cbn [nth]; try lia; ring. }
  exists b, pX, u, V, W, c, x, (0, 0, 0)%nat. cbv zeta. rewrite N2. split; auto. split; auto. split; auto. split; auto. split; auto. split; auto. split. { rewrite <- E. unfold spec_sphericalDF2dIntegral. reflexivity. }
  split; auto. split; auto. split; auto. split; auto. split; auto. rewrite HV, PX, !Rmult_1_r. unfold missed. change (5 mod 4 =? 1)%nat with true. cbv iota zeta. change (5 / 2)%nat with 2%nat. cbn [Nat.mul Nat.sub Nat.add]. rewrite Cc. cbn [nth].
  assert (Cp : 0 < cos (INR 2 * (PI / (INR (1 + 5 mod 2) * INR 5)))). { apply cos_gt_0; simpl; lra. }
  set (k := cos _) in *. set (s := sin _). assert (I3 : INR 3 = 3) by (simpl; lra). assert (I5 : INR 5 = 5) by (simpl; lra). rewrite I3, I5. nra.
Qed.
Print Assumptions C44_sphere_partial.
Print Assumptions C44_exact_partial.
Print Assumptions C44_refuted.

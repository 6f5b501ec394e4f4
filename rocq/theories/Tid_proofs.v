(** The constraint code on data that depend on x alone and have a diagonal metric and a diagonal extrinsic curvature. *)
From Verif Require Import Rutil Coord_model Coord_spec Adm_model Adm_spec Adm_proofs Adm2_proofs Adm_props Adm3_proofs Bh_props Ks_proofs Tid_model.
From Coq Require Import Lia List.
Import ListNotations.
Local Open Scope R_scope.
Definition is1 (k : d3) : R := match k with D1 => 1 | _ => 0 end.
Lemma pd_x (f : R -> R) k X Y Z l : derivable_pt_lim f X l -> pd (fun x _ _ => f x) k X Y Z (is1 k * l).
Proof. intros D. destruct k; cbn [pd is1]; [now rewrite Rmult_1_l|rewrite Rmult_0_l; apply derivable_pt_lim_const|rewrite Rmult_0_l; apply derivable_pt_lim_const]. Qed.
(** functions that hold the data set by a test, as functions of (x,y,z) *)
Definition plane_fields (dat : R -> (nat -> R) * (nat -> R)) (F : geometry) : Prop :=
  (forall x y z, Fpsi F x y z = fst (dat x) 0%nat) /\ (forall i j x y z, Fg F i j x y z = snd (dat x) (s6 i j)) /\
  (forall i j x y z, FK F i j x y z = snd (dat x) (6 + s6 i j)%nat) /\ (forall x y z, Falpha F x y z = snd (dat x) 12%nat).
(** the constraint code is given the values set, exact derivatives of g, K and alpha, and no matter *)
Definition plane_given (dat : R -> (nat -> R) * (nat -> R)) (ad : adm_in) (X Y Z : R) (F : geometry) : Prop :=
  (forall n, (n < 10)%nat -> a_psi ad n = fst (dat X) n) /\ (forall n, (n < 16)%nat -> a_u ad n = snd (dat X) n) /\
  (forall k i j, a_dg ad (3 * s6 i j + n3 k) = dg F k i j X Y Z) /\ (forall k l i j, pd (dg F k i j) l X Y Z (a_ddg ad (6 * s6 i j + s6 k l))) /\
  (forall k i j, pd (FK F i j) k X Y Z (a_dK ad (3 * s6 i j + n3 k))) /\ (forall k, a_dalp ad (n3 k) = dalpha F k X Y Z) /\ (forall k l, pd (dalpha F k) l X Y Z (a_ddalp ad (s6 k l))) /\
  a_null ad 16 = true /\ a_null ad 17 = true /\ a_null ad 20 = true.
Section PLANE.
Variables (dat : R -> (nat -> R) * (nat -> R)) (g g1 g2 k k1 : d3 -> R -> R) (al al1 al2 : R -> R) (ad : adm_in) (X Y Z e : R) (F : geometry).
Hypothesis (He : 0 < e).
Hypothesis (Dp : forall x n, fst (dat x) n = psi_one n) (Dg : forall x i j, snd (dat x) (s6 i j) = delta i j * g i x) (Dk : forall x i j, snd (dat x) (6 + s6 i j)%nat = delta i j * k i x) (Da : forall x, snd (dat x) 12%nat = al x).
Hypothesis (G0 : forall i x, Rabs (x - X) < e -> g i x <> 0) (G1 : forall i x, Rabs (x - X) < e -> derivable_pt_lim (g i) x (g1 i x)) (G2 : forall i x, Rabs (x - X) < e -> derivable_pt_lim (g1 i) x (g2 i x))
  (K1 : forall i x, Rabs (x - X) < e -> derivable_pt_lim (k i) x (k1 i x)) (A1 : forall x, Rabs (x - X) < e -> derivable_pt_lim al x (al1 x)) (A2 : forall x, Rabs (x - X) < e -> derivable_pt_lim al1 x (al2 x)).
Definition phi (i j : d3) : fn3 := fun x _ _ => delta i j / g i x.
Definition pdh (m i j : d3) : fn3 := fun x _ _ => is1 m * (delta i j * g1 i x).
Lemma X0 : Rabs (X - X) < e. Proof. replace (X - X) with 0 by ring. now rewrite Rabs_R0. Qed.
Lemma pd_g i j m x y z : Rabs (x - X) < e -> pd (fun x _ _ => delta i j * g i x) m x y z (pdh m i j x y z).
Proof. intros N. apply pd_x. apply (derivable_pt_lim_scal (g i)). now apply G1. Qed.
Lemma pd_g1 i j m n x y z : Rabs (x - X) < e -> pd (pdh m i j) n x y z (is1 m * is1 n * (delta i j * g2 i x)).
Proof. intros N. unfold pdh. eapply pd_val; [|apply pd_scal, (pd_x (fun x => delta i j * g1 i x)), (derivable_pt_lim_scal (g1 i)), G2, N]. ring. Qed.
Section FIELDS.
Hypothesis (HF : plane_fields dat F) (HD : derivatives_near e X Y Z F) (HG : plane_given dat ad X Y Z F).
Lemma pl_metric i j x y z : metric F i j x y z = delta i j * g i x.
Proof. unfold metric. destruct HF as (E1 & E2 & _). rewrite E1, E2, Dp, Dg. change (psi_one 0) with 1. ring. Qed.
Lemma pl_dpsi m x y z : near e X Y Z x y z -> dpsi F m x y z = 0.
Proof.
  intros N. destruct HF as (E1 & _). eapply pd_unique; [apply (HD x y z N)|]. apply (pd_ext' (fun _ _ _ => 1)); [|apply pd_const]. intros. now rewrite E1, Dp.
Qed.
Lemma pl_dalpha m x y z : near e X Y Z x y z -> dalpha F m x y z = is1 m * al1 x.
Proof.
  intros N. destruct HF as (_ & _ & _ & E4). eapply pd_unique; [apply (HD x y z N)|]. apply (pd_ext' (fun x _ _ => al x)); [intros; now rewrite E4, Da|]. apply pd_x, A1, N.
Qed.
Lemma plane_setting : setting ad X Y Z e F phi pdh.
Proof.
  destruct HG as (J1 & J2 & J3 & J4 & J5 & J6 & J7 & _). pose proof HF as (F1 & F2 & F3 & F4). repeat apply conj; auto.
  - intros x y z N i j. rewrite !F2, !F3. replace (s6 j i) with (s6 i j) by (destruct i, j; reflexivity). auto.
  - rewrite J1, F1 by lia. reflexivity.
  - intros m. rewrite F1, J1, !Dp by (destruct m; cbn; lia). rewrite pl_dpsi by now apply near0. destruct m; cbn; ring.
  - intros m l. rewrite F1, J1, !Dp by apply n10. apply (pd_ext (fun _ _ _ => 0) _ _ _ _ _ _ e He); [intros x y z N; now rewrite pl_dpsi|]. eapply pd_val; [|apply pd_const]. destruct m, l; cbn; ring.
  - intros i j. rewrite F2, J2 by (pose proof (n16 i j); lia). reflexivity.
  - intros i j. rewrite F3, J2 by apply n16. reflexivity.
  - rewrite F4, J2 by lia. reflexivity.
  - intros x y z (N & _). split.
    + intros i j. unfold S3, phi. rewrite !pl_metric. pose proof (G0 i x N). destruct i, j; cbn [delta]; field; auto.
    + intros m i j. apply (pd_ext' (fun x _ _ => delta i j * g i x)); [intros; symmetry; apply pl_metric|]. now apply pd_g.
Qed.
Let h (i j : d3) := delta i j / g i X.
Let D (m i j : d3) := is1 m * (delta i j * g1 i X).
Let DD (m n i j : d3) := is1 m * is1 n * (delta i j * g2 i X).
Let Kx (i j : d3) := delta i j * k i X.
Let DK (m i j : d3) := is1 m * (delta i j * k1 i X).
Lemma pl_K i j x y z : FK F i j x y z = delta i j * k i x. Proof. destruct HF as (_ & _ & E3 & _). now rewrite E3, Dk. Qed.
Lemma pl_dK m i j : pd (FK F i j) m X Y Z (DK m i j).
Proof. apply (pd_ext' (fun x _ _ => delta i j * k i x)); [intros; symmetry; apply pl_K|]. apply pd_x, (derivable_pt_lim_scal (k i)), K1, X0. Qed.
Lemma pl_dda m n : pd (dalpha F m) n X Y Z (is1 m * is1 n * al2 X).
Proof.
  apply (pd_ext (fun x _ _ => is1 m * al1 x) _ _ _ _ _ _ e He); [intros x y z N; symmetry; now apply pl_dalpha|]. eapply pd_val; [|apply pd_scal, (pd_x al1), A2, X0]. ring.
Qed.
(** with p = g_11, q = g_22, s = g_33 *)
Let p := g D1 X. Let q := g D2 X. Let s := g D3 X. Let p' := g1 D1 X. Let q' := g1 D2 X. Let s' := g1 D3 X. Let q'' := g2 D2 X. Let s'' := g2 D3 X.
Let kp := k D1 X. Let kq := k D2 X. Let ks := k D3 X. Let kq' := k1 D2 X. Let ks' := k1 D3 X.
Lemma nz : p <> 0 /\ q <> 0 /\ s <> 0. Proof. repeat split; apply G0, X0. Qed.
Definition plane_R : R := (- q'' / q - s'' / s + (q' / q) ^ 2 / 2 + (s' / s) ^ 2 / 2 - q' * s' / (2 * q * s) + p' / (2 * p) * (q' / q + s' / s)) / p.
Lemma plane_ricci : trace h (ric_form h D DD) = plane_R.
Proof. unfold plane_R, trace, ric_form, christoffel, SS, S3, h, D, DD. cbn [delta is1]. fold p q s p' q' s' q'' s''. destruct nz as (P0 & Q0 & S0); clearbody p q s p' q' s' q'' s''. field. auto. Qed.
Lemma plane_ham : adm_ham ad = plane_R + 2 * (kp / p * (kq / q) + kp / p * (ks / s) + kq / q * (ks / s)).
Proof.
  pose proof plane_setting as ST. assert (N16 : a_null ad 16 = true) by apply HG.
  rewrite (ev_ham ad X Y Z e F phi pdh ST h D DD Kx); auto.
  - rewrite plane_ricci. generalize plane_R. intros r. unfold trace, square, SS, S3, h, Kx. cbn [delta]. fold p q s kp kq ks. destruct nz as (P0 & Q0 & S0); clearbody p q s kp kq ks. field. auto.
  - intros m n i j. apply pd_g1, X0.
  - intros; apply pl_K.
Qed.
Lemma plane_mom : v_mom ad D1 = - (kq' / q) - ks' / s + kq * q' / (2 * q ^ 2) + ks * s' / (2 * s ^ 2) + kp / (2 * p) * (q' / q + s' / s) /\ v_mom ad D2 = 0 /\ v_mom ad D3 = 0.
Proof.
  pose proof plane_setting as ST. assert (N17 : a_null ad 17 = true) by apply HG.
  assert (E : forall i, v_mom ad i = momentum h (cov (christoffel h D) Kx DK) i).
  { intros i. apply (ev_mom ad X Y Z e F phi pdh ST h D); auto. - intros; apply pl_K. - intros; apply pl_dK. }
  rewrite !E. unfold momentum, cov, christoffel, SS, S3, h, D, Kx, DK. cbn [delta is1]. fold p q s p' q' s' kp kq ks kq' ks'. generalize (k1 D1 X). destruct nz as (P0 & Q0 & S0); clearbody p q s p' q' s' kp kq ks kq' ks'. intros. repeat split; field; auto.
Qed.
Lemma plane_trK : adm_trK ad = kp / p + kq / q + ks / s.
Proof.
  pose proof plane_setting as ST. change (adm_trK ad) with (adm_K ad). rewrite (ev_K ad X Y Z e F phi pdh ST h Kx); auto; [|intros; apply pl_K]. unfold trace, SS, S3, h, Kx. cbn [delta]. fold p q s kp kq ks. destruct nz as (P0 & Q0 & S0); clearbody p q s kp kq ks. field. auto.
Qed.
Lemma plane_dtr : (forall i, a_u ad (13 + n3 i) = 0) -> adm_dtrKdt ad = - (al2 X / p - al1 X / (2 * p) * (p' / p - q' / q - s' / s)) + al X * (plane_R + (kp / p + kq / q + ks / s) ^ 2).
Proof.
  intros B. pose proof plane_setting as ST. assert (N20 : a_null ad 20 = true) by apply HG.
  rewrite (ev_dtr ad X Y Z e F phi pdh ST h D DD Kx DK (fun m => is1 m * al1 X) (fun m n => is1 m * is1 n * al2 X)); auto.
  - rewrite plane_ricci. replace (a_u ad 12) with (al X). 2: { destruct HG as (_ & J2 & _). rewrite J2 by lia. symmetry. apply Da. }
    generalize plane_R. intros r. unfold S3 at 1. rewrite !B. unfold hessian, trace, christoffel, SS, S3, h, D, Kx. cbn [delta is1]. fold p q s p' q' s' kp kq ks. destruct nz as (P0 & Q0 & S0); clearbody p q s p' q' s' kp kq ks. field. auto.
  - intros m n i j. apply pd_g1, X0.
  - intros; apply pl_K.
  - intros; apply pl_dK.
  - intros; now apply pl_dalpha, near0.
  - intros; apply pl_dda.
Qed.
End FIELDS.
(** such functions exist *)
Definition plane_geo : geometry := MkGeo (fun x _ _ => fst (dat x) 0%nat) (fun i j x _ _ => snd (dat x) (s6 i j)) (fun i j x _ _ => snd (dat x) (6 + s6 i j)%nat) (fun x _ _ => snd (dat x) 12%nat) (fun _ _ _ _ => 0) pdh (fun m x _ _ => is1 m * al1 x).
Definition plane_in : adm_in :=
  MkAdm (fst (dat X)) (snd (dat X)) (fun n => nth n [g1 D1 X; 0; 0; 0; 0; 0; 0; 0; 0; g1 D2 X; 0; 0; 0; 0; 0; g1 D3 X; 0; 0] 0)
    (fun n => nth n ([g2 D1 X; 0; 0; 0; 0; 0] ++ [0; 0; 0; 0; 0; 0] ++ [0; 0; 0; 0; 0; 0] ++ [g2 D2 X; 0; 0; 0; 0; 0] ++ [0; 0; 0; 0; 0; 0] ++ [g2 D3 X; 0; 0; 0; 0; 0]) 0)
    (fun n => nth n [k1 D1 X; 0; 0; 0; 0; 0; 0; 0; 0; k1 D2 X; 0; 0; 0; 0; 0; k1 D3 X; 0; 0] 0) (fun n => nth n [al1 X; 0; 0] 0) (fun n => nth n [al2 X; 0; 0; 0; 0; 0] 0) (fun _ => true) false false.
Lemma plane_deriv : derivatives_near e X Y Z plane_geo.
Proof.
  intros x y z (N & _). cbn [Fpsi Fg FK Falpha dpsi dg dalpha plane_geo]. repeat apply conj; intros.
  - apply (pd_ext' (fun _ _ _ => 1)); [intros; now rewrite Dp|apply pd_const].
  - apply (pd_ext' (fun x _ _ => delta i j * g i x)); [intros; now rewrite Dg|now apply pd_g].
  - apply (pd_ext' (fun x _ _ => al x)); [intros; now rewrite Da|now apply pd_x, A1].
Qed.
Lemma plane_ok : plane_given dat plane_in X Y Z plane_geo.
Proof.
  unfold plane_given. repeat apply conj; auto.
  - intros m i j. cbn [a_dg plane_in dg plane_geo]. unfold pdh. destruct i, j, m; cbn [s6 n3 Nat.mul Nat.add nth is1 delta]; ring.
  - intros m l i j. cbn [a_ddg plane_in dg plane_geo]. eapply pd_val; [|apply pd_g1, X0]. destruct i, j, m, l; cbn [s6 n3 Nat.mul Nat.add nth app is1 delta]; ring.
  - intros m i j. cbn [FK plane_geo a_dK plane_in]. apply (pd_ext' (fun x _ _ => delta i j * k i x)); [intros; now rewrite Dk|]. eapply pd_val; [|apply pd_x, (derivable_pt_lim_scal (k i)), K1, X0]. destruct i, j, m; cbn [s6 n3 Nat.mul Nat.add nth is1 delta]; ring.
  - intros m. destruct m; cbn; ring.
  - intros m l. cbn [dalpha plane_geo a_ddalp plane_in]. eapply pd_val; [|apply pd_scal, (pd_x al1), A2, X0]. destruct m, l; cbn [s6 nth is1]; ring.
Qed.
End PLANE.

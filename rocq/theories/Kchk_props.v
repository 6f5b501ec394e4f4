(** C126: what the start-up check of the Kerr tables accepts. *)
From Verif Require Import Rutil Loops Coord_model Coord_spec Adm_model Adm_spec Adm_proofs Adm2_proofs Ks_model Ks_spec Ks_proofs Ks_props Sok_model Sok_spec Sok_props Sok3_model Sok3_props Sokr_model Sokr_proofs Sokr_props Sokp_props Kchk_model.
From Coq Require Import Lia.
Local Open Scope R_scope.
Lemma RP2 u : 0 < u -> Rpower u (- 2) = / (u * u).
Proof. intros P. replace (- 2) with (- (1 + 1)) by lra. rewrite Rpower_Ropp, Rpower_plus, Rpower_1 by exact P. reflexivity. Qed.
Lemma RP32 u : 0 < u -> Rpower u (- (3 / 2)) = / (u * sqrt u).
Proof. intros P. replace (3 / 2) with (1 + / 2) by lra. rewrite Rpower_Ropp, Rpower_plus, Rpower_1, Rpower_sqrt by exact P. reflexivity. Qed.
Section ONE.
Variables (x y z : R).
Hypothesis P0 : 0 < x * x + y * y + z * z.
Notation r := (radius x y z).
Notation h := (/ r).
Let RP : 0 < r := rP x y z P0.
Let N1 := nn1 x y z P0.
Let HP1 : 0 < 1 + 2 * h. Proof. pose proof (Rinv_0_lt_compat _ RP). lra. Qed.
Definition nd (i : d3) : R := match i with D1 => x / r | D2 => y / r | D3 => z / r end.
Lemma H1 : sk_H 1 0 0 0 x y z = h. Proof. rewrite (H0' 1 x y z P0). field. lra. Qed.
Lemma l1 i : l_sk 1 0 0 0 x y z i = nd i. Proof. rewrite (l0' 1 x y z P0). destruct i; reflexivity. Qed.
Lemma dH1 i : dH_sk 1 0 0 0 x y z i = - h * h * nd i. Proof. rewrite (dH0' 1 x y z P0). destruct i; cbn [co nd]; field; lra. Qed.
Lemma dl1 i j : dl_sk 1 0 0 0 x y z i j = (delta i j - nd i * nd j) * h. Proof. rewrite (dl0' 1 x y z P0). destruct i, j; cbn [co nd delta]; field; lra. Qed.
Lemma nk i : kc_n x y z (n3 i) = nd i. Proof. destruct i; reflexivity. Qed.
Lemma dk i j : (if (n3 i =? n3 j)%nat then 1 else 0) = delta i j. Proof. destruct i, j; reflexivity. Qed.
Lemma Nk : kc_N x y z = 1 / sqrt (1 + 2 * h).
Proof.
  unfold kc_N, kc_M. change (kc_r x y z) with r. replace (r / (r + 2 * 1)) with (/ (1 + 2 * h)) by (field; split; lra). rewrite <- (Rmult_1_l (/ (1 + 2 * h))). change (1 * / (1 + 2 * h)) with (1 / (1 + 2 * h)). rewrite sqrt_div_alt by exact HP1. now rewrite sqrt_1.
Qed.
Lemma sq : sqrt (1 + 2 * h) * sqrt (1 + 2 * h) = 1 + 2 * h. Proof. apply sqrt_sqrt. lra. Qed.
Lemma sqP : 0 < sqrt (1 + 2 * h). Proof. now apply sqrt_lt_R0. Qed.
Lemma rh : r * (1 + 2 * h) = r + 2. Proof. field. lra. Qed.
Lemma al1 : k3_alpha 1 0 0 0 x y z = kc_N x y z. Proof. rewrite alpha_H, H1, Nk. reflexivity. Qed.
Lemma be1 i : k3_beta 1 0 0 0 x y z (n3 i) = kc_V x y z (n3 i).
Proof. rewrite beta_H, H1, l1. unfold kc_V, kc_Vr, kc_M. rewrite nk. change (kc_r x y z) with r. field. split; lra. Qed.
Let gup1 i j := gup_a 1 0 0 0 0 0 0 x y z ltac:(lra) (spm0 1) (od0 x y z P0) i j.
Lemma gu1 i j : k3_gup 1 0 0 0 x y z (s6 i j) = kc_gup x y z (n3 i) (n3 j).
Proof.
  rewrite gup1. unfold a_gi. rewrite H1, !l1. unfold kc_gup. rewrite dk, !nk. unfold kc_L. rewrite Nk. pose proof sq as S. pose proof sqP as SP. set (q := sqrt (1 + 2 * h)) in *.
  replace (1 / (1 / (1 / q) * (1 / (1 / q)))) with (1 / (q * q)) by (field; lra). rewrite S. field. split; lra.
Qed.
Lemma da1 i : k3_dalpha 1 0 0 0 x y z (n3 i) = kc_dNdr x y z * kc_n x y z (n3 i).
Proof.
  rewrite dalpha_H, H1, dH1, nk. unfold kc_dNdr, kc_M. rewrite Nk. change (kc_r x y z) with r. pose proof sq as S. pose proof sqP as SP. set (q := sqrt (1 + 2 * h)) in *.
  replace (r + 2 * 1) with (r * (q * q)) by (rewrite S; field; lra). replace (q + 2 * h * q) with (q * (q * q)) by (rewrite S; ring). field. split; lra.
Qed.
Lemma db1 i j : k3_dbeta 1 0 0 0 x y z (3 * n3 i + n3 j)%nat = kc_dV x y z (n3 i) (n3 j).
Proof.
  rewrite dbeta_H, H1, !dH1, !l1, dl1. unfold kc_dV, kc_dVrdr, kc_Vr, kc_dn, kc_M. rewrite dk, !nk. change (kc_r x y z) with r. replace (1 + 4 * (h + h ^ 2)) with ((1 + 2 * h) * (1 + 2 * h)) by ring. field. repeat split; lra.
Qed.
Let NU := null_sk 1 0 0 0 0 0 0 (spm0 1) x y z (disc_eq _ _ _ _ _ _ (od0 x y z P0)).
Let DN := dnull_sk 1 0 0 0 0 0 0 (spm0 1) x y z (disc_eq _ _ _ _ _ _ (od0 x y z P0)).
Lemma hl1 : a_hl (l_sk 1 0 0 0 x y z) (dH_sk 1 0 0 0 x y z) = - h * h.
Proof. unfold a_hl, S3. rewrite !l1, !dH1. cbn [nd]. transitivity (- h * h * (x / r * (x / r) + y / r * (y / r) + z / r * (z / r))); [ring|rewrite N1; ring]. Qed.
Lemma th1 : a_th (dl_sk 1 0 0 0 x y z) = 2 * h.
Proof. unfold a_th, S3. rewrite !dl1. cbn [nd delta]. transitivity (h * (3 - (x / r * (x / r) + y / r * (y / r) + z / r * (z / r)))); [ring|rewrite N1; ring]. Qed.
Lemma D1' i : a_D (l_sk 1 0 0 0 x y z) (dl_sk 1 0 0 0 x y z) i = 0.
Proof. unfold a_D, S3. rewrite !l1, !dl1. transitivity (h * nd i * (1 - (x / r * (x / r) + y / r * (y / r) + z / r * (z / r)))); [destruct i; cbn [nd delta]; ring|rewrite N1; ring]. Qed.
Let PN : 1 + 2 * sk_H 1 0 0 0 x y z <> 0. Proof. rewrite H1. lra. Qed.
Lemma G1 i : k3_G 1 0 0 0 x y z (n3 i) = h * h * (3 + 8 * h) / ((1 + 2 * h) * (1 + 2 * h)) * nd i.
Proof.
  rewrite (G3_a 1 0 0 0 0 0 0 x y z ltac:(lra) (spm0 1) (od0 x y z P0)).
  rewrite G3_v by assumption. rewrite hl1, th1, D1', H1, l1, dH1. field. split; lra.
Qed.
Lemma Gp1 i : k3_G 1 0 0 0 x y z (n3 i) = kc_Gp x y z (n3 i).
Proof.
  rewrite G1. unfold kc_Gp, kc_H, kc_M. rewrite nk. change (kc_r x y z) with r. replace (1 + 2 * 1 / r) with (1 + 2 * h) by (field; lra). rewrite RP2 by exact HP1. field. split; lra.
Qed.
Lemma TK1 : k3_TrK 1 0 0 0 x y z = 2 * h * h * (1 + 3 * h) / ((1 + 2 * h) * (1 + 2 * h)) * sqrt (1 + 2 * h).
Proof.
  rewrite (TrK_a 1 0 0 0 0 0 0 x y z ltac:(lra) (spm0 1) (od0 x y z P0)). rewrite trK; [|assumption|assumption|assumption|apply Rgt_not_eq, (al_pos 1 0 0 0 0 0 0 x y z ltac:(lra) (spm0 1) (od0 x y z P0))].
  rewrite hl1, th1, H1, al1, Nk. pose proof sqP. field. repeat split; lra.
Qed.
Lemma K1 : k3_TrK 1 0 0 0 x y z = kc_K x y z.
Proof. rewrite TK1. unfold kc_K, kc_M. rewrite Nk. change (kc_r x y z) with r. pose proof sqP. field. repeat split; lra. Qed.
Lemma Kp1 : k3_TrK 1 0 0 0 x y z = kc_Kp x y z.
Proof.
  rewrite TK1. unfold kc_Kp, kc_H, kc_M. change (kc_r x y z) with r. replace (1 + 2 * 1 / r) with (1 + 2 * h) by (field; lra). rewrite RP32 by exact HP1.
  pose proof sq as S. pose proof sqP as SP. set (q := sqrt (1 + 2 * h)) in *. replace (1 + 3 * 1 / r) with (1 + 3 * h) by (field; lra). replace (2 * 1 / r / r) with (2 * h * h) by (field; lra). rewrite <- S. field. lra.
Qed.
Lemma J1 i : kc_G3m (hole3 1 0 0 0 x y z) (n3 i) = kc_J x y z (n3 i).
Proof.
  transitivity (k3_G 1 0 0 0 x y z (n3 i) - S3 (fun j => a_gi (sk_H 1 0 0 0 x y z) (l_sk 1 0 0 0 x y z) i j * k3_dalpha 1 0 0 0 x y z (n3 j)) / k3_alpha 1 0 0 0 x y z).
  { unfold S3. rewrite <- !gup1. destruct i; reflexivity. }
  rewrite up_gen. unfold S3. rewrite G1, !dalpha_H, !H1, !l1, !dH1, al1, Nk. unfold kc_J, kc_M. rewrite nk. change (kc_r x y z) with r. pose proof sqP as SP. set (q := sqrt (1 + 2 * h)) in *. replace (q + 2 * h * q) with (q * (1 + 2 * h)) by ring.
  transitivity (h * h * (3 + 8 * h) / ((1 + 2 * h) * (1 + 2 * h)) * nd i - h * h / (1 + 2 * h) * (nd i - 2 * h / (1 + 2 * h) * nd i * (x / r * (x / r) + y / r * (y / r) + z / r * (z / r)))).
  { cbn [nd]. field. repeat split; lra. } rewrite N1. field. repeat split; lra.
Qed.
End ONE.
Lemma off_same a b : a = b -> kc_off a b = false.
Proof. intros ->. unfold kc_off. destruct (Rlt_dec _ _) as [Q|Q]; [|reflexivity]. rewrite Rminus_diag_eq, Rabs_R0 in Q by reflexivity. assert (0 < / 10 ^ 13) by (apply Rinv_0_lt_compat, pow_lt; lra). lra. Qed.
Lemma off_near a b : kc_off a b = false -> Rabs (a - b) <= / 10 ^ 13.
Proof. unfold kc_off. destruct (Rlt_dec _ _); [discriminate|]. intros _. lra. Qed.
(** The check accepts the tables of a hole of mass 1 without spin at all points but the centre *)
Theorem C126_accepts_partial points : (forall x y z, In (x, y, z) points -> 0 < x * x + y * y + z * z) -> KerrChecker (hole3 1 0 0 0) points = Ok tt.
Proof.
  unfold KerrChecker. induction points as [|[[x y] z] l IH]; intros H; [reflexivity|]. cbn [forl]. assert (P : 0 < x * x + y * y + z * z) by (apply H; now left).
  replace (kc_err (hole3 1 0 0 0 x y z) x y z) with false. { cbn [rbind]. apply IH. intros. apply H. now right. }
  symmetry. unfold kc_err. cbn [hole3 w_alpha w_beta w_gup w_TrK w_G w_dalpha w_dbeta].
  repeat (apply Bool.orb_false_iff; split); apply off_same.
  all: first [exact (gu1 x y z P D1 D1)|exact (gu1 x y z P D1 D2)|exact (gu1 x y z P D1 D3)|exact (gu1 x y z P D2 D2)|exact (gu1 x y z P D2 D3)|exact (gu1 x y z P D3 D3)|exact (al1 x y z P)
    |exact (be1 x y z P D1)|exact (be1 x y z P D2)|exact (be1 x y z P D3)|exact (J1 x y z P D1)|exact (J1 x y z P D2)|exact (J1 x y z P D3)|exact (Gp1 x y z P D1)|exact (Gp1 x y z P D2)|exact (Gp1 x y z P D3)|exact (K1 x y z P)|exact (Kp1 x y z P)
    |exact (da1 x y z P D1)|exact (da1 x y z P D2)|exact (da1 x y z P D3)|exact (db1 x y z P D1 D1)|exact (db1 x y z P D1 D2)|exact (db1 x y z P D1 D3)|exact (db1 x y z P D2 D1)|exact (db1 x y z P D2 D2)|exact (db1 x y z P D2 D3)|exact (db1 x y z P D3 D1)|exact (db1 x y z P D3 D2)|exact (db1 x y z P D3 D3)].
Qed.
Print Assumptions C126_accepts_partial.
(** Tables that the check accepts agree at every point, to within 1e-13, with those of a hole of mass 1 without spin *)
Theorem C126_near tab points : KerrChecker tab points = Ok tt -> forall x y z, In (x, y, z) points -> 0 < x * x + y * y + z * z ->
  let t := tab x y z in let s := hole3 1 0 0 0 x y z in let close a b := Rabs (a - b) <= / 10 ^ 13 in
  close (w_alpha t) (w_alpha s) /\ close (w_TrK t) (w_TrK s) /\ (forall i, close (w_beta t (n3 i)) (w_beta s (n3 i)) /\ close (w_G t (n3 i)) (w_G s (n3 i)) /\ close (w_dalpha t (n3 i)) (w_dalpha s (n3 i))) /\
  (forall i j, close (w_gup t (s6 i j)) (w_gup s (s6 i j)) /\ close (w_dbeta t (3 * n3 i + n3 j)%nat) (w_dbeta s (3 * n3 i + n3 j)%nat)).
Proof.
  unfold KerrChecker. induction points as [|[[x' y'] z'] l IH]; intros H x y z I P; [destruct I|]. cbn [forl] in H. destruct (kc_err (tab x' y' z') x' y' z') eqn:E; [discriminate|]. cbn [rbind] in H.
  destruct I as [I|I]; [|now apply IH]. injection I as -> -> ->. cbv zeta. unfold kc_err in E. repeat (apply Bool.orb_false_iff in E; let F := fresh "F" in destruct E as [E F]).
  repeat match goal with F : (_ || _)%bool = false |- _ => apply Bool.orb_false_iff in F; let F' := fresh "F" in destruct F as [F F'] end.
  repeat match goal with F : kc_off _ _ = false |- _ => apply off_near in F end. cbn [hole3 w_alpha w_beta w_gup w_TrK w_G w_dalpha w_dbeta].
  split; [rewrite (al1 x y z P); assumption|]. split; [rewrite (K1 x y z P); assumption|]. split.
  - intros i. rewrite (be1 x y z P i), (Gp1 x y z P i), (da1 x y z P i). destruct i; cbn [n3]; repeat split; assumption.
  - intros i j. rewrite (gu1 x y z P i j), (db1 x y z P i j). split; destruct i, j; cbn [n3 s6 Nat.mul Nat.add]; try assumption; unfold kc_gup in *; cbn [Nat.eqb] in *.
    all: match goal with F : Rabs (?u - _) <= _ |- Rabs (?u - _) <= _ => refine (Rle_trans _ _ _ (Req_le _ _ _) F); f_equal; ring end.
Qed.
Print Assumptions C126_near.
(** It does not accept the tables of every black hole, although they are right (C116, C117): with BHmass = 2 the start-up ends with an error *)
Theorem C126_every_hole_refuted : exists M Sx Sy Sz points, 0 < M /\ (forall x y z, In (x, y, z) points -> 2 * M < radius x y z) /\ KerrChecker (hole3 M Sx Sy Sz) points = Err.
Proof.
  exists 2, 0, 0, 0, [(3, 4, 0)]. assert (R5 : radius 3 4 0 = 5) by (unfold radius; replace (3 * 3 + 4 * 4 + 0 * 0) with (5 * 5) by ring; apply sqrt_square; lra).
  split; [lra|]. split. { intros x y z [E|[]]. injection E as <- <- <-. rewrite R5. lra. }
  assert (P : 0 < 3 * 3 + 4 * 4 + 0 * 0) by lra. unfold KerrChecker. cbn [forl]. replace (kc_err (hole3 2 0 0 0 3 4 0) 3 4 0) with true; [reflexivity|].
  symmetry. unfold kc_err. assert (O : kc_off (w_beta (hole3 2 0 0 0 3 4 0) 0) (kc_V 3 4 0 0) = true).
  { cbn [hole3 w_beta]. change (k3_beta 2 0 0 0 3 4 0 0%nat) with (k3_beta 2 0 0 0 3 4 0 (n3 D1)). rewrite beta_H, (H0' 2 3 4 0 P), (l0' 2 3 4 0 P), R5. cbn [co]. unfold kc_V, kc_Vr, kc_M, kc_n. change (kc_r 3 4 0) with (radius 3 4 0). rewrite R5.
    unfold kc_off. destruct (Rlt_dec _ _) as [Q|Q]; [reflexivity|]. exfalso. apply Q. replace (2 * (2 / 5) * (3 / 5) / (1 + 2 * (2 / 5)) - 2 * 1 / (5 + 2 * 1) * (3 / 5)) with (2 / 21) by field.
    rewrite Rabs_right by lra. apply Rlt_le_trans with (/ 20); [|lra]. apply Rinv_lt_contravar; [|]; [apply Rmult_lt_0_compat; [lra|apply pow_lt; lra]|]. replace (10 ^ 13) with 10000000000000 by ring. lra. }
  rewrite O. rewrite !Bool.orb_true_r, ?Bool.orb_true_l, ?Bool.orb_true_r. reflexivity.
Qed.
Print Assumptions C126_every_hole_refuted.
Example C126_ex : KerrChecker (hole3 1 0 0 0) [(3, 4, 0); (0, 0, 1)] = Ok tt.
Proof. apply C126_accepts_partial. intros x y z [E|[E|[]]]; injection E as <- <- <-; lra. Qed.

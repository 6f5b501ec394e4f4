From Verif Require Export Trig Arrays Cheb_model Cheb_spec.
Local Open Scope R_scope.

Lemma T_0 y : T 0 y = 1. Proof. reflexivity. Qed.
Lemma T_1 y : T 1 y = y. Proof. reflexivity. Qed.
Lemma T_SS k y : T (k + 2) y = 2 * y * T (k + 1) y - T k y.
Proof. unfold T. replace (k + 2)%nat with (S (S k)) by lia. replace (k + 1)%nat with (S k) by lia. cbn [cheb_pair fst snd]. ring. Qed.
Lemma nat_ind2 (P : nat -> Prop) : P 0%nat -> P 1%nat -> (forall k, P k -> P (k + 1)%nat -> P (k + 2)%nat) -> forall k, P k.
Proof.
  intros H0 H1 HS k. cut (P k /\ P (k + 1)%nat); [tauto|]. induction k as [|k [A B]]; [auto|].
  replace (S k) with (k + 1)%nat by lia. split; auto. replace (k + 1 + 1)%nat with (k + 2)%nat by lia. auto.
Qed.
Lemma T_cos k t : T k (cos t) = cos (INR k * t).
Proof.
  induction k as [| |k A B] using nat_ind2.
  - rewrite T_0. simpl. rewrite Rmult_0_l, cos_0. auto.
  - rewrite T_1. simpl. now rewrite Rmult_1_l.
  - rewrite T_SS, A, B. rewrite !plus_INR. simpl (INR 1). simpl (INR 2).
    replace ((INR k + 1) * t) with (INR k * t + t) by ring. replace ((INR k + (1 + 1)) * t) with (INR k * t + t + t) by ring.
    rewrite (cos_plus (INR k * t + t) t), (cos_plus (INR k * t) t), (sin_plus (INR k * t) t). pose proof (sin2_cos2 t) as E. unfold Rsqr in E.
    replace (cos (INR k * t)) with (cos (INR k * t) * (sin t * sin t + cos t * cos t)) at 2 by (rewrite E; ring). ring.
Qed.
Lemma T_at_1 k : T k 1 = 1.
Proof. rewrite <- cos_0, T_cos, Rmult_0_r. reflexivity. Qed.
Lemma T_at_m1 k : T k (-1) = (-1) ^ k.
Proof. rewrite <- cos_PI at 1. rewrite T_cos. apply cos_nPI. Qed.
Lemma T_acos k y : -1 <= y <= 1 -> cos (INR k * acos y) = T k y.
Proof. intros H. rewrite <- T_cos. now rewrite cos_acos. Qed.

(** derivative basis: U_{-1}=0, U_0=1, ... *)
Fixpoint U_pair (k : nat) (y : R) : R * R :=
  match k with O => (0, 1) | S m => let p := U_pair m y in (snd p, 2 * y * snd p - fst p) end.
Definition U' (k : nat) (y : R) : R := fst (U_pair k y).
Lemma U'_0 y : U' 0 y = 0. Proof. reflexivity. Qed.
Lemma U'_1 y : U' 1 y = 1. Proof. reflexivity. Qed.
Lemma U'_SS k y : U' (k + 2) y = 2 * y * U' (k + 1) y - U' k y.
Proof. unfold U'. replace (k + 2)%nat with (S (S k)) by lia. replace (k + 1)%nat with (S k) by lia. cbn [U_pair fst snd]. ring. Qed.
Lemma T_U k y : 2 * T (k + 1) y = U' (k + 2) y - U' k y.
Proof.
  induction k as [| |k A B] using nat_ind2.
  - rewrite U'_SS. simpl (0 + 1)%nat. rewrite T_1, U'_0, U'_1. ring.
  - replace (1 + 2)%nat with (1 + 0 + 2)%nat by lia. rewrite U'_SS. simpl (1 + 0 + 1)%nat. simpl (1 + 0)%nat. replace (1 + 1)%nat with (0 + 2)%nat by lia. rewrite T_SS, (U'_SS 0). simpl (0 + 1)%nat. rewrite T_0, T_1, U'_1, U'_0. ring.
  - replace (k + 2 + 1)%nat with (k + 1 + 2)%nat by lia. rewrite T_SS. replace (k + 1 + 1)%nat with (k + 2)%nat in * by lia. replace (k + 1 + 2)%nat with (k + 3)%nat in * by lia.
    replace (k + 2 + 2)%nat with (k + 4)%nat by lia. replace (k + 4)%nat with (k + 2 + 2)%nat by lia. rewrite (U'_SS (k + 2)). replace (k + 2 + 1)%nat with (k + 3)%nat by lia.
    rewrite Rmult_minus_distr_l. rewrite A. replace (2 * (2 * y * T (k + 2) y)) with (2 * y * (2 * T (k + 2) y)) by ring. rewrite B. rewrite (U'_SS k). ring.
Qed.
Lemma T_deriv k y : derivable_pt_lim (T k) y (INR k * U' k y).
Proof.
  induction k as [| |k A B] using nat_ind2.
  - simpl. rewrite Rmult_0_l. apply (derivable_pt_lim_ext (fun _ => 1)); [intros; reflexivity|]. apply derivable_pt_lim_const.
  - simpl. rewrite Rmult_1_l, U'_1. apply (derivable_pt_lim_ext id); [intros; reflexivity|]. apply derivable_pt_lim_id.
  - apply (derivable_pt_lim_ext (fun z => 2 * z * T (k + 1) z - T k z)). { intros. now rewrite T_SS. }
    replace (INR (k + 2) * U' (k + 2) y) with ((2 * 1 * T (k + 1) y + 2 * y * (INR (k + 1) * U' (k + 1) y)) - INR k * U' k y).
    2:{ pose proof (T_U k y) as E. rewrite (U'_SS k) in *. rewrite !plus_INR. simpl (INR 1). simpl (INR 2). lra. }
    apply derivable_pt_lim_minus; auto. apply (derivable_pt_lim_mult (fun z => 2 * z) (T (k + 1))); auto.
    apply (derivable_pt_lim_ext (mult_real_fct 2 id)); [intros; reflexivity|]. apply derivable_pt_lim_scal, derivable_pt_lim_id.
Qed.

Ltac half := try (replace 0.5 with (/ 2) by lra).

(** *** What each routine computes *)
Lemma fromExtrema_ok c u N : (N + 1 <= List.length c)%nat -> (N + 1 <= List.length u)%nat -> (1 <= N)%nat ->
  exists c', cheb_coeffs_fromExtrema c u N = Ok c' /\ List.length c' = List.length c /\
    (forall j, (j <= N)%nat -> c'.[j] = (if (j =? N)%nat then / 2 else 1) * (2 / INR N * Sig (N + 1) (fun k => wend N k * (cos (INR j * (PI / INR N) * INR k) * u.[k])))) /\
    (forall j, (N < j)%nat -> c'.[j] = c.[j]).
Proof.
  intros Lc Lu HN. assert (N0 : INR N <> 0) by (apply not_0_INR; lia). unfold cheb_coeffs_fromExtrema.
  match goal with |- context [for_nat 0 (N + 1) ?B c] =>
    destruct (fill_loop 0 (N + 1) B (fun j => 2 / INR N * Sig (N + 1) (fun k => wend N k * (cos (INR j * (PI / INR N) * INR k) * u.[k]))) c 0) as (c1 & E1 & L1 & V1) end; auto.
  - intros j s Hj Ls. rewrite (rd_ok u 0%nat 0) by lia. rewrite (rd_ok u N 0) by lia. cbn [rbind].
    rewrite (sum_loop 1 N _ (fun k => cos (INR j * (PI / INR N) * INR k) * u.[k])).
    2:{ intros k t Hk. rewrite (rd_ok u k 0) by lia. reflexivity. }
    cbn [rbind]. f_equal. rewrite (ends_split N (fun k => cos (INR j * (PI / INR N) * INR k) * u.[k])) by auto.
    replace (INR j * (PI / INR N) * INR N) with (INR j * PI) by (field; auto). simpl (INR 0). rewrite Rmult_0_r, cos_0.
    rewrite (Sig_ext (N - 1) (fun i => cos (INR j * (PI / INR N) * INR (1 + i)) * u.[1 + i]) (fun k => cos (INR j * (PI / INR N) * INR (k + 1)) * u.[k + 1])) by (intros i _; now rewrite (Nat.add_comm 1 i)).
    f_equal; lra.
  - rewrite E1. cbn [rbind]. rewrite (rd_ok c1 N 0) by lia. cbn [rbind]. rewrite wr_ok by lia. eexists. split; [reflexivity|]. rewrite upd_length. split; auto. split.
    + intros j Hj. destruct (Nat.eqb_spec j N) as [->|NE].
      * rewrite nth_upd_eq by lia. rewrite V1. destruct (Nat.leb_spec 0 N), (Nat.ltb_spec N (N + 1)); cbn [andb]; try lia. lra.
      * rewrite nth_upd_ne by auto. rewrite V1. destruct (Nat.leb_spec 0 j), (Nat.ltb_spec j (N + 1)); cbn [andb]; try lia. ring.
    + intros j Hj. rewrite nth_upd_ne by lia. rewrite V1. destruct (Nat.leb_spec 0 j), (Nat.ltb_spec j (N + 1)); cbn [andb]; try lia. auto.
Qed.
Lemma onExtrema_ok c u N : (N + 1 <= List.length c)%nat -> (N + 1 <= List.length u)%nat -> (1 <= N)%nat ->
  exists u', cheb_eval_onExtrema c u N = Ok u' /\ List.length u' = List.length u /\
    (forall j, (j <= N)%nat -> u'.[j] = Sig (N + 1) (fun k => whalf k * (c.[k] * cos (INR k * (PI / INR N) * INR j)))) /\
    (forall j, (N < j)%nat -> u'.[j] = u.[j]).
Proof.
  intros Lc Lu HN. assert (N0 : INR N <> 0) by (apply not_0_INR; lia). unfold cheb_eval_onExtrema.
  match goal with |- context [for_nat 0 (N + 1) ?B u] =>
    destruct (fill_loop 0 (N + 1) B (fun j => Sig (N + 1) (fun k => whalf k * (c.[k] * cos (INR k * (PI / INR N) * INR j)))) u 0) as (u1 & E1 & L1 & V1) end; auto.
  - intros j s Hj Ls. rewrite (rd_ok c 0%nat 0) by lia. cbn [rbind].
    rewrite (sum_loop 1 (N + 1) _ (fun k => c.[k] * cos (INR k * (PI / INR N) * INR j))).
    2:{ intros k t Hk. rewrite (rd_ok c k 0) by lia. reflexivity. }
    cbn [rbind]. f_equal. rewrite (half_split N (fun k => c.[k] * cos (INR k * (PI / INR N) * INR j))). simpl (INR 0). rewrite !Rmult_0_l, cos_0.
    replace (N + 1 - 1)%nat with N by lia.
    rewrite (Sig_ext N (fun i => c.[1 + i] * cos (INR (1 + i) * (PI / INR N) * INR j)) (fun k => c.[k + 1] * cos (INR (k + 1) * (PI / INR N) * INR j))) by (intros i _; now rewrite (Nat.add_comm 1 i)).
    lra.
  - exists u1. rewrite E1. repeat split; auto; intros j Hj; rewrite V1; destruct (Nat.leb_spec 0 j), (Nat.ltb_spec j (N + 1)); cbn [andb]; try lia; auto.
Qed.
Lemma fromZeros_ok c u n : (n + 1 <= List.length c)%nat -> (n + 1 <= List.length u)%nat ->
  exists c', cheb_coeffs_fromZeros c u n = Ok c' /\ List.length c' = List.length c /\
    (forall j, (j <= n)%nat -> c'.[j] = 2 / INR (n + 1) * Sig (n + 1) (fun k => cos (INR j * (PI / INR (n + 1)) * (INR k + / 2)) * u.[k])) /\
    (forall j, (n < j)%nat -> c'.[j] = c.[j]).
Proof.
  intros Lc Lu. unfold cheb_coeffs_fromZeros.
  match goal with |- context [for_nat 0 (n + 1) ?B c] =>
    destruct (fill_loop 0 (n + 1) B (fun j => 2 / INR (n + 1) * Sig (n + 1) (fun k => cos (INR j * (PI / INR (n + 1)) * (INR k + / 2)) * u.[k])) c 0) as (c1 & E1 & L1 & V1) end; auto.
  - intros j s Hj Ls.
    rewrite (sum_loop 0 (n + 1) _ (fun k => cos (INR j * (PI / INR (n + 1)) * (INR k + / 2)) * u.[k])).
    2:{ intros k t Hk. rewrite (rd_ok u k 0) by lia. cbn [rbind]. half. reflexivity. }
    cbn [rbind]. rewrite Rplus_0_l, Nat.sub_0_r. replace 2.0 with 2 by lra. reflexivity.
  - exists c1. rewrite E1. repeat split; auto; intros j Hj; rewrite V1; destruct (Nat.leb_spec 0 j), (Nat.ltb_spec j (n + 1)); cbn [andb]; try lia; auto.
Qed.
Lemma onZeros_ok c u n : (n + 1 <= List.length c)%nat -> (n + 1 <= List.length u)%nat ->
  exists u', cheb_eval_onZeros c u n = Ok u' /\ List.length u' = List.length u /\
    (forall j, (j <= n)%nat -> u'.[j] = Sig (n + 1) (fun k => whalf k * (c.[k] * cos (INR k * (PI / INR (n + 1)) * (INR j + / 2))))) /\
    (forall j, (n < j)%nat -> u'.[j] = u.[j]).
Proof.
  intros Lc Lu. unfold cheb_eval_onZeros.
  match goal with |- context [for_nat 0 (n + 1) ?B u] =>
    destruct (fill_loop 0 (n + 1) B (fun j => Sig (n + 1) (fun k => whalf k * (c.[k] * cos (INR k * (PI / INR (n + 1)) * (INR j + / 2))))) u 0) as (u1 & E1 & L1 & V1) end; auto.
  - intros j s Hj Ls. rewrite (rd_ok c 0%nat 0) by lia. cbn [rbind].
    rewrite (sum_loop 1 (n + 1) _ (fun k => c.[k] * cos (INR k * (PI / INR (n + 1)) * (INR j + / 2)))).
    2:{ intros k t Hk. rewrite (rd_ok c k 0) by lia. cbn [rbind]. half. reflexivity. }
    cbn [rbind]. f_equal. rewrite (half_split n (fun k => c.[k] * cos (INR k * (PI / INR (n + 1)) * (INR j + / 2)))). simpl (INR 0). rewrite !Rmult_0_l, cos_0.
    replace (n + 1 - 1)%nat with n by lia.
    rewrite (Sig_ext n (fun i => c.[1 + i] * cos (INR (1 + i) * (PI / INR (n + 1)) * (INR j + / 2))) (fun k => c.[k + 1] * cos (INR (k + 1) * (PI / INR (n + 1)) * (INR j + / 2)))) by (intros i _; now rewrite (Nat.add_comm 1 i)).
    lra.
  - exists u1. rewrite E1. repeat split; auto; intros j Hj; rewrite V1; destruct (Nat.leb_spec 0 j), (Nat.ltb_spec j (n + 1)); cbn [andb]; try lia; auto.
Qed.

(** sum of coefficients times cosines is the Chebyshev series *)
Lemma series_cos c n t : Sig (n + 1) (fun k => whalf k * (c.[k] * cos (INR k * t))) = series c n (cos t).
Proof.
  rewrite (half_split n (fun k => c.[k] * cos (INR k * t))). unfold series. simpl (INR 0). rewrite Rmult_0_l, cos_0. f_equal; [lra|].
  apply Sig_ext. intros i _. now rewrite T_cos.
Qed.
Lemma yof_Xof a b y : a <> b -> yof a b (Xof a b y) = y.
Proof. intros H. unfold yof, Xof. field. lra. Qed.

Lemma clenshaw c n y : (n < List.length c)%nat -> forall d dd,
  exists d' dd', forl (rev (seq 1 n)) (fun j s => do cj <- rd c j; Ok (2.0 * y * fst s - snd s + cj, fst s)) (d, dd) = Ok (d', dd') /\
    y * d' - dd' = d * T (n + 1) y - dd * T n y + Sig n (fun i => c.[i + 1] * T (i + 1) y).
Proof.
  induction n as [|n IH]; intros L d dd.
  - exists d, dd. split; auto. simpl (0 + 1)%nat. rewrite T_0, T_1. simpl. ring.
  - rewrite seq_S, rev_app_distr. cbn [rev app forl]. replace (1 + n)%nat with (n + 1)%nat by lia. rewrite (rd_ok c (n + 1)%nat 0) by lia. cbn [rbind fst snd].
    destruct (IH ltac:(lia) (2.0 * y * d - dd + c.[n + 1]) d) as (d' & dd' & E & V). exists d', dd'. split; [exact E|]. rewrite V, Sig_S.
    replace (S n + 1)%nat with (n + 2)%nat by lia. replace (S n) with (n + 1)%nat by lia. rewrite (T_SS n). lra.
Qed.
Lemma cheb_eval_ok a b c n X : (n < List.length c)%nat -> cheb_eval a b c n X = Ok (series c n (yof a b X)).
Proof.
  intros L. unfold cheb_eval. replace ((2.0 * X - a - b) / (a - b)) with (yof a b X) by (unfold yof; f_equal; lra).
  destruct (clenshaw c n (yof a b X) L 0 0) as (d & dd & E & V). rewrite E. cbn [rbind fst snd]. rewrite (rd_ok c 0%nat 0) by lia. cbn [rbind].
  rewrite V. unfold series. f_equal. lra.
Qed.

From Verif Require Import Cheb_proofs.
Local Open Scope R_scope.

(** ** C34: the transforms are inverse to each other *)
Theorem C34_extrema_values c u u0 N : (1 <= N)%nat -> (N + 1 <= List.length c)%nat -> (N + 1 <= List.length u)%nat -> (N + 1 <= List.length u0)%nat ->
  exists c' u', cheb_coeffs_fromExtrema c u N = Ok c' /\ cheb_eval_onExtrema c' u0 N = Ok u' /\ List.length u' = List.length u0 /\
    (forall j, (j <= N)%nat -> u'.[j] = u.[j]) /\ (forall j, (N < j)%nat -> u'.[j] = u0.[j]).
Proof.
  intros HN Lc Lu Lv. assert (N0 : INR N <> 0) by (apply not_0_INR; lia).
  destruct (fromExtrema_ok c u N) as (c' & E1 & L1 & V1 & W1); auto.
  destruct (onExtrema_ok c' u0 N) as (u' & E2 & L2 & V2 & W2); auto; [lia|]. exists c', u'. repeat split; auto.
  intros j Hj. rewrite V2 by auto.
  rewrite (Sig_ext _ _ (fun l => Sig (N + 1) (fun m => (wend N m * u.[m]) * (2 / INR N * (wend N l * (cos (INR j * (PI / INR N) * INR l) * cos (INR m * (PI / INR N) * INR l))))))).
  - rewrite Sig_swap. rewrite (Sig_ext _ _ (fun m => delta j m * u.[m])).
    + rewrite Sig_delta_l by lia. auto.
    + intros m Hm. rewrite !Sig_scal. rewrite <- (extrema_orth N j m) by lia. ring.
  - intros l Hl. rewrite V1 by lia. rewrite <- Sig_scal. rewrite <- Sig_scal. rewrite <- Sig_scal_r. rewrite <- Sig_scal. apply Sig_ext. intros m Hm.
    replace (INR l * (PI / INR N) * INR m) with (INR m * (PI / INR N) * INR l) by ring. replace (INR l * (PI / INR N) * INR j) with (INR j * (PI / INR N) * INR l) by ring.
    replace (wend N l) with (whalf l * (if (l =? N)%nat then / 2 else 1)). { ring. }
    unfold wend, whalf. destruct (Nat.eqb_spec l 0), (Nat.eqb_spec l N); cbn [orb]; try lia; try lra.
Qed.
Theorem C34_extrema_coeffs c u c0 N : (1 <= N)%nat -> (N + 1 <= List.length c)%nat -> (N + 1 <= List.length u)%nat -> (N + 1 <= List.length c0)%nat ->
  exists u' c', cheb_eval_onExtrema c u N = Ok u' /\ cheb_coeffs_fromExtrema c0 u' N = Ok c' /\ List.length c' = List.length c0 /\
    (forall j, (j <= N)%nat -> c'.[j] = c.[j]) /\ (forall j, (N < j)%nat -> c'.[j] = c0.[j]).
Proof.
  intros HN Lc Lu Lv. assert (N0 : INR N <> 0) by (apply not_0_INR; lia).
  destruct (onExtrema_ok c u N) as (u' & E1 & L1 & V1 & W1); auto.
  destruct (fromExtrema_ok c0 u' N) as (c' & E2 & L2 & V2 & W2); auto; [lia|]. exists u', c'. repeat split; auto.
  intros j Hj. rewrite V2 by auto. set (f := (if (j =? N)%nat then / 2 else 1)). rewrite <- Sig_scal, <- Sig_scal.
  rewrite (Sig_ext _ _ (fun k => Sig (N + 1) (fun l => (f * (whalf l * c.[l]) * (2 / INR N)) * (wend N k * (cos (INR j * (PI / INR N) * INR k) * cos (INR l * (PI / INR N) * INR k)))))).
  - rewrite Sig_swap. rewrite (Sig_ext _ _ (fun l => delta j l * c.[l])).
    + rewrite Sig_delta_l by lia. auto.
    + intros l Hl. rewrite Sig_scal. pose proof (extrema_orth N j l HN Hj ltac:(lia)) as E.
      destruct (Nat.eq_dec j l) as [->|NE].
      * rewrite delta_eq in *. replace (1 * c.[l]) with (wend N l * (2 / INR N * Sig (N + 1) (fun k => wend N k * (cos (INR l * (PI / INR N) * INR k) * cos (INR l * (PI / INR N) * INR k)))) * c.[l]) by (rewrite E; auto).
        replace (wend N l) with (f * whalf l); [ring|]. unfold f, wend, whalf. destruct (Nat.eqb_spec l 0), (Nat.eqb_spec l N); cbn [orb]; try lia; try lra.
      * rewrite delta_ne in * by auto. assert (W : wend N l <> 0) by (unfold wend; destruct ((l =? 0) || (l =? N))%nat; lra).
        apply Rmult_integral in E. destruct E as [E|E]; [contradiction|]. replace (f * (whalf l * c.[l]) * (2 / INR N) * Sig (N + 1) (fun k => wend N k * (cos (INR j * (PI / INR N) * INR k) * cos (INR l * (PI / INR N) * INR k)))) with (f * (whalf l * c.[l]) * (2 / INR N * Sig (N + 1) (fun k => wend N k * (cos (INR j * (PI / INR N) * INR k) * cos (INR l * (PI / INR N) * INR k))))) by ring. rewrite E. ring.
  - intros k Hk. rewrite V1 by lia. rewrite <- !Sig_scal. apply Sig_ext. intros l Hl. ring.
Qed.
Theorem C34_zeros_values c u u0 n : (n + 1 <= List.length c)%nat -> (n + 1 <= List.length u)%nat -> (n + 1 <= List.length u0)%nat ->
  exists c' u', cheb_coeffs_fromZeros c u n = Ok c' /\ cheb_eval_onZeros c' u0 n = Ok u' /\ List.length u' = List.length u0 /\
    (forall j, (j <= n)%nat -> u'.[j] = u.[j]) /\ (forall j, (n < j)%nat -> u'.[j] = u0.[j]).
Proof.
  intros Lc Lu Lv. destruct (fromZeros_ok c u n) as (c' & E1 & L1 & V1 & W1); auto.
  destruct (onZeros_ok c' u0 n) as (u' & E2 & L2 & V2 & W2); auto; [lia|]. exists c', u'. repeat split; auto.
  intros j Hj. rewrite V2 by auto. set (N := (n + 1)%nat) in *.
  rewrite (Sig_ext _ _ (fun l => Sig N (fun m => u.[m] * (2 / INR N * (whalf l * (cos (INR l * (PI / INR N) * (INR j + / 2)) * cos (INR l * (PI / INR N) * (INR m + / 2)))))))).
  - rewrite Sig_swap. rewrite (Sig_ext _ _ (fun m => delta j m * u.[m])).
    + rewrite Sig_delta_l by lia. auto.
    + intros m Hm. rewrite !Sig_scal. rewrite zeros_orth_l by lia. ring.
  - intros l Hl. rewrite V1 by lia. rewrite <- Sig_scal. rewrite <- Sig_scal_r. rewrite <- Sig_scal. apply Sig_ext. intros m Hm. ring.
Qed.
Theorem C34_zeros_coeffs c u c0 n : (n + 1 <= List.length c)%nat -> (n + 1 <= List.length u)%nat -> (n + 1 <= List.length c0)%nat ->
  exists u' c', cheb_eval_onZeros c u n = Ok u' /\ cheb_coeffs_fromZeros c0 u' n = Ok c' /\ List.length c' = List.length c0 /\
    (forall j, (j <= n)%nat -> c'.[j] = c.[j]) /\ (forall j, (n < j)%nat -> c'.[j] = c0.[j]).
Proof.
  intros Lc Lu Lv. destruct (onZeros_ok c u n) as (u' & E1 & L1 & V1 & W1); auto.
  destruct (fromZeros_ok c0 u' n) as (c' & E2 & L2 & V2 & W2); auto; [lia|]. exists u', c'. repeat split; auto.
  intros j Hj. rewrite V2 by auto. set (N := (n + 1)%nat) in *. rewrite <- Sig_scal.
  rewrite (Sig_ext _ _ (fun k => Sig N (fun l => c.[l] * (whalf l * (2 / INR N)) * (cos (INR j * (PI / INR N) * (INR k + / 2)) * cos (INR l * (PI / INR N) * (INR k + / 2)))))).
  - rewrite Sig_swap. rewrite (Sig_ext _ _ (fun l => delta j l * c.[l])).
    + rewrite Sig_delta_l by lia. auto.
    + intros l Hl. rewrite !Sig_scal. rewrite <- (zeros_orth_k N j l) by lia. ring.
  - intros k Hk. rewrite V1 by lia. rewrite <- !Sig_scal. apply Sig_ext. intros l Hl. ring.
Qed.

(** The values on the grids are those of the Chebyshev series at the collocation points, mapped to any interval [a,b]. *)
Theorem C34_onExtrema_points c u N a b : (1 <= N)%nat -> (N + 1 <= List.length c)%nat -> (N + 1 <= List.length u)%nat -> a <> b ->
  exists u', cheb_eval_onExtrema c u N = Ok u' /\ forall j, (j <= N)%nat ->
    u'.[j] = series c N (extremum N j) /\ cheb_eval a b c N (Xof a b (extremum N j)) = Ok u'.[j].
Proof.
  intros HN Lc Lu Hab. destruct (onExtrema_ok c u N) as (u' & E & _ & V & _); auto. exists u'. split; auto. intros j Hj.
  assert (S : u'.[j] = series c N (extremum N j)). { rewrite V by auto. unfold extremum. rewrite <- series_cos. apply Sig_ext. intros. do 3 f_equal. field. apply not_0_INR; lia. }
  split; auto. rewrite cheb_eval_ok by lia. now rewrite yof_Xof, S.
Qed.
Theorem C34_onZeros_points c u n a b : (n + 1 <= List.length c)%nat -> (n + 1 <= List.length u)%nat -> a <> b ->
  exists u', cheb_eval_onZeros c u n = Ok u' /\ forall j, (j <= n)%nat ->
    u'.[j] = series c n (zero_of_T (n + 1) j) /\ cheb_eval a b c n (Xof a b (zero_of_T (n + 1) j)) = Ok u'.[j].
Proof.
  intros Lc Lu Hab. destruct (onZeros_ok c u n) as (u' & E & _ & V & _); auto. exists u'. split; auto. intros j Hj.
  assert (S : u'.[j] = series c n (zero_of_T (n + 1) j)). { rewrite V by auto. unfold zero_of_T. rewrite <- series_cos. apply Sig_ext. intros. do 3 f_equal. field. apply not_0_INR; lia. }
  split; auto. rewrite cheb_eval_ok by lia. now rewrite yof_Xof, S.
Qed.
(** hence the computed coefficients interpolate: evaluating them anywhere returns the data at the grid points *)
Theorem C34_interpolates_extrema c u N a b : (1 <= N)%nat -> (N + 1 <= List.length c)%nat -> (N + 1 <= List.length u)%nat -> a <> b ->
  exists c', cheb_coeffs_fromExtrema c u N = Ok c' /\ forall j, (j <= N)%nat -> cheb_eval a b c' N (Xof a b (extremum N j)) = Ok u.[j].
Proof.
  intros HN Lc Lu Hab. destruct (C34_extrema_values c u u N) as (c' & u' & E1 & E2 & L & V & _); auto. exists c'. split; auto. intros j Hj.
  destruct (fromExtrema_ok c u N) as (c1 & E & L1 & _); auto. assert (c1 = c') by congruence. subst c1.
  destruct (C34_onExtrema_points c' u N a b) as (u1 & E3 & P); auto; [lia|]. assert (u1 = u') by congruence. subst u1. destruct (P j Hj) as [_ Q]. now rewrite Q, V.
Qed.
Theorem C34_interpolates_zeros c u n a b : (n + 1 <= List.length c)%nat -> (n + 1 <= List.length u)%nat -> a <> b ->
  exists c', cheb_coeffs_fromZeros c u n = Ok c' /\ forall j, (j <= n)%nat -> cheb_eval a b c' n (Xof a b (zero_of_T (n + 1) j)) = Ok u.[j].
Proof.
  intros Lc Lu Hab. destruct (C34_zeros_values c u u n) as (c' & u' & E1 & E2 & L & V & _); auto. exists c'. split; auto. intros j Hj.
  destruct (fromZeros_ok c u n) as (c1 & E & L1 & _); auto. assert (c1 = c') by congruence. subst c1.
  destruct (C34_onZeros_points c' u n a b) as (u1 & E3 & P); auto; [lia|]. assert (u1 = u') by congruence. subst u1. destruct (P j Hj) as [_ Q]. now rewrite Q, V.
Qed.

(** cheb_getcoeff: the samples are taken at the zeros, the result interpolates the function there and returns the
    coefficients of any function that is a Chebyshev series of this order *)
Lemma getcoeff_as_fromZeros a b c n func : cheb_getcoeff a b c n func =
  cheb_coeffs_fromZeros c (map (fun k => func (Xof a b (zero_of_T (n + 1) k))) (seq 0 (n + 1))) n.
Proof.
  unfold cheb_getcoeff.
  match goal with |- context [for_nat 0 (n + 1) ?B (repeat 0 (n + 1))] =>
    destruct (fill_loop 0 (n + 1) B (fun k => func (Xof a b (zero_of_T (n + 1) k))) (repeat 0 (n + 1)) 0) as (f & E & L & V) end.
  - now rewrite repeat_length.
  - intros j s _ _. f_equal. f_equal. unfold Xof, zero_of_T. replace (INR j + 0.5) with (INR j + / 2) by lra. lra.
  - rewrite E. cbn [rbind]. rewrite repeat_length in L.
    replace (map (fun k => func (Xof a b (zero_of_T (n + 1) k))) (seq 0 (n + 1))) with f.
    + unfold cheb_coeffs_fromZeros, for_nat. apply forl_ext. intros j s Hj.
      match goal with |- rbind ?A _ = rbind ?B _ => replace A with B end; auto.
      apply forl_ext. intros k t Hk. destruct (rd f k); cbn [rbind]; auto. f_equal. f_equal. rewrite Rmult_comm. f_equal. f_equal. field. apply not_0_INR. lia.
    + apply list_eq_R. { now rewrite map_length, seq_length. } intros i Hi. rewrite V. rewrite L in Hi.
      destruct (Nat.leb_spec 0 i), (Nat.ltb_spec i (n + 1)); cbn [andb]; try lia.
      rewrite (nth_indep _ 0 (func (Xof a b (zero_of_T (n + 1) 0)))) by (rewrite map_length, seq_length; auto).
      rewrite (map_nth (fun k => func (Xof a b (zero_of_T (n + 1) k)))). rewrite seq_nth by auto. reflexivity.
Qed.
Theorem C34_getcoeff_interpolates a b c n func : (n + 1 <= List.length c)%nat -> a <> b ->
  exists c', cheb_getcoeff a b c n func = Ok c' /\ forall j, (j <= n)%nat ->
    let X := Xof a b (zero_of_T (n + 1) j) in cheb_eval a b c' n X = Ok (func X).
Proof.
  intros Lc Hab. rewrite getcoeff_as_fromZeros. set (u := map _ _). assert (Lu : List.length u = (n + 1)%nat) by (unfold u; now rewrite map_length, seq_length).
  destruct (C34_interpolates_zeros c u n a b) as (c' & E & V); auto; [lia|]. exists c'. split; auto. intros j Hj X. unfold X. rewrite V by auto. f_equal.
  unfold u. rewrite (nth_indep _ 0 (func (Xof a b (zero_of_T (n + 1) 0)))) by (rewrite map_length, seq_length; lia).
  rewrite (map_nth (fun k => func (Xof a b (zero_of_T (n + 1) k)))). rewrite seq_nth by lia. reflexivity.
Qed.
Theorem C34_getcoeff_exact a b c n p : (n + 1 <= List.length c)%nat -> (n + 1 <= List.length p)%nat -> a <> b ->
  exists c', cheb_getcoeff a b c n (fun X => series p n (yof a b X)) = Ok c' /\ forall j, (j <= n)%nat -> c'.[j] = p.[j].
Proof.
  intros Lc Lp Hab. rewrite getcoeff_as_fromZeros. set (u := map _ _). assert (Lu : List.length u = (n + 1)%nat) by (unfold u; now rewrite map_length, seq_length).
  destruct (C34_onZeros_points p u n a b) as (u1 & E1 & P1); auto; [lia|].
  destruct (C34_zeros_coeffs p u c n) as (u2 & c' & E2 & E3 & _ & V & _); auto; [lia|]. assert (u2 = u1) by congruence. subst u2.
  destruct (onZeros_ok p u n) as (u3 & E4 & L4 & _); auto; [lia|]. assert (u3 = u1) by congruence. subst u3.
  assert (u = u1). { apply list_eq_R; auto. intros i Hi. rewrite Lu in Hi. destruct (P1 i ltac:(lia)) as [P _]. rewrite P. unfold u.
    rewrite (nth_indep _ 0 (series p n (yof a b (Xof a b (zero_of_T (n + 1) 0))))) by (rewrite map_length, seq_length; lia).
    rewrite (map_nth (fun k => series p n (yof a b (Xof a b (zero_of_T (n + 1) k))))). rewrite seq_nth by lia. now rewrite yof_Xof. }
  exists c'. rewrite H. auto.
Qed.
Example C34_example : (1 <= 2)%nat /\ (2 + 1 <= List.length [1; 2; 4])%nat. Proof. simpl; lia. Qed.

(** ** C35: evaluation *)
Theorem C35_eval a b c n X : (n < List.length c)%nat -> cheb_eval a b c n X = Ok (series c n (yof a b X)).
Proof. apply cheb_eval_ok. Qed.
Theorem C35_T_cos k t : T k (cos t) = cos (INR k * t). Proof. apply T_cos. Qed.
(** degree and leading behaviour that fix T_k independently of the recursion *)
Theorem C35_T_ends k : T k 1 = 1 /\ T k (-1) = (-1) ^ k /\ forall y, -1 <= y <= 1 -> -1 <= T k y <= 1.
Proof. split; [apply T_at_1|]. split; [apply T_at_m1|]. intros y Hy. rewrite <- T_acos by auto. pose proof (COS_bound (INR k * acos y)). lra. Qed.

Lemma fromsum_loop y l : forall d dd, y * fst (fold_left (fun (s : R * R) (_ : nat) => (2.0 * y * fst s - snd s, fst s)) l (d, dd)) - snd (fold_left (fun (s : R * R) (_ : nat) => (2.0 * y * fst s - snd s, fst s)) l (d, dd)) =
  d * T (List.length l + 1) y - dd * T (List.length l) y.
Proof.
  induction l as [|x l IH]; intros d dd; cbn [fold_left fst snd List.length].
  - simpl (0 + 1)%nat. rewrite T_0, T_1. ring.
  - rewrite IH. replace (S (List.length l) + 1)%nat with (List.length l + 2)%nat by lia. replace (S (List.length l)) with (List.length l + 1)%nat by lia. rewrite T_SS. lra.
Qed.
Theorem C35_basis_fromsum a b n X : cheb_basisfunc_FromSum a b n X = if (n =? 0)%nat then / 2 else T n (yof a b X).
Proof.
  unfold cheb_basisfunc_FromSum. destruct (Nat.eqb_spec n 0) as [->|N0]; [lra|].
  replace ((2.0 * X - a - b) / (a - b)) with (yof a b X) by (unfold yof; f_equal; lra). cbv zeta. rewrite fromsum_loop, rev_length, seq_length. replace (n - 1 + 1)%nat with n by lia. lra.
Qed.
(** cheb_basisfunc agrees except within the tolerance next to the ends of the interval *)
Lemma dequal_true x y : dequal x y = true <-> Rabs (x - y) <= dequaleps.
Proof.
  unfold dequal, dless. destruct (Rlt_dec x (y - dequaleps)), (Rlt_dec y (x - dequaleps)); cbn [orb negb]; split; intros H; try discriminate; auto; unfold Rabs in *; destruct (Rcase_abs (x - y)); lra.
Qed.
Lemma eps_pos : 0 < dequaleps. Proof. unfold dequaleps. lra. Qed.
Theorem C35_basis a b n X : a <> b -> (yof a b X = 1 \/ yof a b X = -1 \/ Rabs (yof a b X) < 1 - dequaleps) ->
  cheb_basisfunc a b n X = if (n =? 0)%nat then / 2 else T n (yof a b X).
Proof.
  intros Hab H. unfold cheb_basisfunc. destruct (Nat.eqb_spec n 0) as [->|N0]; [lra|]. pose proof eps_pos as E0.
  replace ((X - a + (X - b)) / (a - b)) with (yof a b X) by (unfold yof; f_equal; lra). set (y := yof a b X) in *. cbv zeta.
  destruct (dequal y 1) eqn:E1; [|destruct (dequal y (-1)) eqn:E2].
  - apply dequal_true in E1. destruct H as [-> | [-> | H]].
    + now rewrite T_at_1.
    + exfalso. replace (-1 - 1) with (-2) in E1 by ring. unfold dequaleps in E1. rewrite Rabs_left in E1; lra.
    + exfalso. unfold Rabs in *. destruct (Rcase_abs y), (Rcase_abs (y - 1)); lra.
  - apply dequal_true in E2. destruct H as [H | [-> | H]].
    + exfalso. rewrite H in E2. replace (1 - -1) with 2 in E2 by ring. unfold dequaleps in E2. rewrite Rabs_right in E2; lra.
    + rewrite T_at_m1. destruct (Nat.eqb_spec (n mod 2) 0) as [M|M].
      * rewrite (Nat.div_mod n 2) by lia. rewrite M, Nat.add_0_r, pow_m1_double. reflexivity.
      * rewrite (Nat.div_mod n 2) by lia. assert (n mod 2 = 1)%nat as -> by (pose proof (Nat.mod_upper_bound n 2); lia). rewrite pow_add, pow_m1_double. simpl. ring.
    + exfalso. replace (y - -1) with (1 + y) in E2 by ring. unfold Rabs in *. destruct (Rcase_abs y), (Rcase_abs (1 + y)); lra.
  - apply T_acos. destruct H as [-> | [-> | H]]; [lra|lra|]. unfold Rabs in H. destruct (Rcase_abs y); lra.
Qed.
(** inside the tolerance it does not: T_1 just below y = 1 *)
Theorem C35_basis_near_end_refuted : exists a b n X, a < b /\ a <= X <= b /\ cheb_basisfunc a b n X <> T n (yof a b X).
Proof.
  exists 0, 2, 1%nat, (dequaleps / 2). unfold cheb_basisfunc. cbn [Nat.eqb]. cbv zeta. pose proof eps_pos as E0. unfold dequaleps in *.
  replace ((1 / 10000000000 / 2 - 0 + (1 / 10000000000 / 2 - 2)) / (0 - 2)) with (1 - / 20000000000) by field.
  replace (dequal (1 - / 20000000000) 1) with true.
  2:{ symmetry. apply dequal_true. unfold dequaleps. replace (1 - / 20000000000 - 1) with (- / 20000000000) by ring. rewrite Rabs_Ropp, Rabs_right; lra. }
  unfold yof. rewrite T_1. split; [lra|]. split; lra.
Qed.
Theorem C35_eval_basis a b c n X : (n < List.length c)%nat ->
  cheb_eval a b c n X = Ok (Sig (n + 1) (fun k => c.[k] * cheb_basisfunc_FromSum a b k X)).
Proof.
  intros L. rewrite C35_eval by auto. f_equal. unfold series. rewrite Nat.add_1_r, Sig_S_l, C35_basis_fromsum. simpl (0 =? 0)%nat. cbv iota. f_equal.
  apply Sig_ext. intros i _. rewrite C35_basis_fromsum. replace (S i) with (i + 1)%nat by lia. destruct (Nat.eqb_spec (i + 1) 0); [lia|auto].
Qed.
(** ** C39 for Chebyshev boxes: coefficients times basis functions reproduce the data at every grid point, on every interval,
    as long as no interior point lies within the tolerance 1e-10 of an end (true for fewer than about 200000 points) *)
Lemma extremum_range N j : (1 <= j)%nat -> (j < N)%nat -> Rabs (extremum N j) <= cos (PI / INR N).
Proof.
  intros H1 H2. assert (N0 : 0 < INR N) by (apply lt_0_INR; lia). pose proof PI_RGT_0 as P0. unfold extremum.
  assert (J1 : 1 <= INR j) by (apply (le_INR 1); lia). assert (J2 : INR j <= INR N - 1) by (replace (INR N - 1) with (INR (N - 1)) by (rewrite minus_INR by lia; simpl; lra); apply le_INR; lia).
  assert (B : PI / INR N <= INR j * PI / INR N <= PI - PI / INR N).
  { split; apply (Rmult_le_reg_r (INR N)); auto.
    - replace (PI / INR N * INR N) with PI by (field; lra). replace (INR j * PI / INR N * INR N) with (INR j * PI) by (field; lra). nra.
    - replace ((PI - PI / INR N) * INR N) with ((INR N - 1) * PI) by (field; lra). replace (INR j * PI / INR N * INR N) with (INR j * PI) by (field; lra). nra. }
  assert (Q : 0 <= PI / INR N) by (apply Rlt_le, Rdiv_lt_0_compat; lra). apply Rabs_le. split.
  - replace (- cos (PI / INR N)) with (cos (PI - PI / INR N)). 2:{ unfold Rminus. rewrite Rplus_comm, neg_cos, cos_neg. auto. } apply cos_decr_1; lra.
  - apply cos_decr_1; lra.
Qed.
Theorem C39_cheb c u N a b : (1 <= N)%nat -> (N + 1 <= List.length c)%nat -> (N + 1 <= List.length u)%nat -> a <> b -> cos (PI / INR N) < 1 - dequaleps ->
  exists c', cheb_coeffs_fromExtrema c u N = Ok c' /\ forall j, (j <= N)%nat ->
    Sig (N + 1) (fun k => c'.[k] * cheb_basisfunc a b k (Xof a b (extremum N j))) = u.[j].
Proof.
  intros HN Lc Lu Hab Hc. destruct (C34_interpolates_extrema c u N a b) as (c' & E & V); auto. exists c'. split; auto. intros j Hj.
  destruct (fromExtrema_ok c u N) as (c1 & E1 & L1 & _); auto. assert (c1 = c') by congruence. subst c1. specialize (V j Hj). rewrite C35_eval_basis in V by lia.
  assert (A : forall x y : R, Ok x = Ok y -> x = y) by congruence. apply A in V. rewrite <- V. apply Sig_ext. intros k _. f_equal. rewrite C35_basis_fromsum. apply C35_basis; auto. rewrite yof_Xof by auto.
  assert (N0 : INR N <> 0) by (apply not_0_INR; lia).
  destruct (Nat.eq_dec j 0) as [->|J0]. { left. unfold extremum. simpl (INR 0). replace (0 * PI / INR N) with 0 by (field; auto). apply cos_0. }
  destruct (Nat.eq_dec j N) as [->|JN]. { right. left. unfold extremum. replace (INR N * PI / INR N) with PI by (field; auto). apply cos_PI. }
  right. right. pose proof (extremum_range N j ltac:(lia) ltac:(lia)). lra.
Qed.
Example C39_example : cos (PI / INR 2) < 1 - dequaleps. Proof. replace (INR 2) with 2 by (simpl; lra). rewrite cos_PI2. unfold dequaleps. lra. Qed.
Example C35_example : yof 0 2 (1 / 2) = / 2 /\ Rabs (yof 0 2 (1 / 2)) < 1 - dequaleps.
Proof. unfold yof, dequaleps. split; [field|]. replace ((2 * (1 / 2) - 0 - 2) / (0 - 2)) with (/ 2) by field. rewrite Rabs_right; lra. Qed.

(** ** C36: derivative and integral coefficients *)
Lemma derivable_pt_lim_Sig n (f : nat -> R -> R) (f' : nat -> R) y : (forall i, (i < n)%nat -> derivable_pt_lim (f i) y (f' i)) ->
  derivable_pt_lim (fun z => Sig n (fun i => f i z)) y (Sig n f').
Proof.
  induction n as [|n IH]; intros H.
  - simpl. apply derivable_pt_lim_const.
  - rewrite Sig_S. apply (derivable_pt_lim_ext (fun z => Sig n (fun i => f i z) + f n z)); [reflexivity|]. apply derivable_pt_lim_plus; auto.
Qed.
Lemma series_deriv c n y : derivable_pt_lim (series c n) y (Sig n (fun i => c.[i + 1] * (INR (i + 1) * U' (i + 1) y))).
Proof.
  unfold series. rewrite <- (Rplus_0_l (Sig n _)). apply derivable_pt_lim_plus. { apply derivable_pt_lim_const. }
  apply derivable_pt_lim_Sig. intros i _. apply derivable_pt_lim_scal. apply T_deriv.
Qed.
Lemma yof_deriv a b X : derivable_pt_lim (yof a b) X (2 / (a - b)).
Proof.
  apply (derivable_pt_lim_ext (fun z => (2 / (a - b)) * z + (- (a + b) / (a - b)))). { intros z. unfold yof, Rdiv. ring. }
  cut (derivable_pt_lim (fun z => 2 / (a - b) * z + - (a + b) / (a - b)) X (2 / (a - b) * 1 + 0)). { now rewrite Rplus_0_r, Rmult_1_r. }
  apply derivable_pt_lim_plus; [|apply derivable_pt_lim_const].
  apply (derivable_pt_lim_ext (mult_real_fct (2 / (a - b)) id)); [reflexivity|]. apply derivable_pt_lim_scal, derivable_pt_lim_id.
Qed.
(** series in terms of the derivative basis *)
Lemma series_U c n y : (forall j, (n < j)%nat -> c.[j] = 0) -> series c n y = / 2 * Sig (n + 1) (fun k => (c.[k] - c.[k + 2]) * U' (k + 1) y).
Proof.
  intros Z.
  (* telescoping with an extra boundary term, by induction on the number of terms *)
  assert (G : forall m, nth 0 c 0 / 2 + Sig m (fun i => c.[i + 1] * T (i + 1) y) =
             / 2 * Sig (m + 1) (fun k => (c.[k] - c.[k + 2]) * U' (k + 1) y) + / 2 * (c.[m + 1] * U' m y + c.[m + 2] * U' (m + 1) y)).
  { induction m as [|m IH].
    - simpl (0 + 1)%nat. simpl (0 + 2)%nat. cbn [Sig]. simpl (0 + 1)%nat. simpl (0 + 2)%nat. rewrite U'_0, U'_1. lra.
    - rewrite Sig_S. rewrite <- Rplus_assoc, IH. replace (S m + 1)%nat with (S (m + 1)) by lia. rewrite Sig_S. pose proof (T_U m y) as E.
      replace (S m + 2)%nat with (m + 3)%nat by lia. replace (S (m + 1)) with (m + 2)%nat by lia. replace (S m) with (m + 1)%nat by lia. replace (m + 1 + 2)%nat with (m + 3)%nat by lia. replace (m + 1 + 1)%nat with (m + 2)%nat by lia.
      replace (T (m + 1) y) with ((U' (m + 2) y - U' m y) / 2) by lra. lra. }
  unfold series. rewrite G. rewrite (Z (n + 1)%nat), (Z (n + 2)%nat) by lia. ring.
Qed.
Lemma series_cut c n y : series (firstn (n + 1) c) n y = series c n y.
Proof.
  assert (H : forall j, (j <= n)%nat -> (firstn (n + 1) c).[j] = c.[j]).
  { intros j Hj. rewrite <- (firstn_skipn (n + 1) c) at 2. destruct (le_lt_dec (List.length c) j) as [G|G].
    - rewrite !nth_overflow; auto. + rewrite firstn_skipn. auto. + rewrite firstn_length. lia.
    - rewrite app_nth1; auto. rewrite firstn_length. lia. }
  unfold series. rewrite H by lia. f_equal. apply Sig_ext. intros i Hi. rewrite H by lia. auto.
Qed.
Lemma firstn_out (c : list R) m j : (m <= j)%nat -> (firstn m c).[j] = 0.
Proof. intros. apply nth_overflow. rewrite firstn_length. lia. Qed.
Lemma firstn_in (c : list R) m j : (j < m)%nat -> (firstn m c).[j] = c.[j].
Proof.
  intros. revert c j H. induction m as [|m IH]; intros c j H; [lia|]. destruct c as [|x c]; [destruct j; auto|]. destruct j; cbn [firstn nth]; auto. apply IH. lia.
Qed.

(** value of the recursion cder[j] = cder[j+2] + 2(j+1) c[j+1], before scaling *)
Lemma deriv_loop c d n : (n < List.length c)%nat -> (n < List.length d)%nat -> forall m, (m <= n - 1)%nat ->
  exists d', forl (rev (seq 0 m)) (fun j d => do x <- rd d (j + 2); do y <- rd c (j + 1); wr d j (x + 2 * (INR j + 1) * y)) d = Ok d' /\
    List.length d' = List.length d /\ (forall j, (m <= j)%nat -> d'.[j] = d.[j]) /\ (forall j, (j < m)%nat -> d'.[j] = d'.[j + 2] + 2 * (INR j + 1) * c.[j + 1]).
Proof.
  intros Lc Ld m. revert d Ld. induction m as [|m IH]; intros d Ld Hm.
  - exists d. repeat split; auto. intros; lia.
  - rewrite seq_S, rev_app_distr. cbn [rev app forl]. simpl (0 + m)%nat. rewrite (rd_ok d (m + 2)%nat 0) by lia. cbn [rbind]. rewrite (rd_ok c (m + 1)%nat 0) by lia. cbn [rbind].
    rewrite wr_ok by lia. cbn [rbind]. destruct (IH (upd d m (d.[m + 2] + 2 * (INR m + 1) * c.[m + 1]))) as (d' & E & L & V & W). { now rewrite upd_length. } { lia. }
    rewrite upd_length in L. exists d'. repeat split; auto.
    + intros j Hj. rewrite V by lia. rewrite nth_upd_ne by lia. auto.
    + intros j Hj. destruct (Nat.eq_dec j m) as [->|NE]; [|apply W; lia].
      rewrite (V m) by lia. rewrite nth_upd_eq by lia. rewrite (V (m + 2)%nat) by lia. rewrite nth_upd_ne by lia. auto.
Qed.
Lemma cheb_deriv_ok a b c cder n : (n < List.length c)%nat -> (n < List.length cder)%nat ->
  exists d e, cheb_deriv a b c cder n = Ok d /\ List.length d = List.length cder /\ (forall j, (n < j)%nat -> d.[j] = cder.[j]) /\
    (forall j, (j <= n)%nat -> d.[j] = 2 / (a - b) * e j) /\ (forall j, (n <= j)%nat -> e j = 0) /\ (forall j, (j < n)%nat -> e j - e (j + 2)%nat = 2 * (INR j + 1) * c.[j + 1]).
Proof.
  intros Lc Ld. unfold cheb_deriv. rewrite wr_ok by lia. cbn [rbind].
  set (d0 := upd cder n 0). assert (L0 : List.length d0 = List.length cder) by (unfold d0; now rewrite upd_length).
  assert (S1 : exists d1, (if (1 <=? n)%nat then do cn <- rd c n; wr d0 (n - 1) (2 * INR n * cn) else Ok d0) = Ok d1 /\ List.length d1 = List.length cder /\
             (forall j, (n < j)%nat -> d1.[j] = cder.[j]) /\ d1.[n] = 0 /\ ((1 <= n)%nat -> d1.[n - 1] = 2 * INR n * c.[n])).
  { destruct (Nat.leb_spec 1 n).
    - rewrite (rd_ok c n 0) by lia. cbn [rbind]. rewrite wr_ok by lia. eexists. split; [reflexivity|]. rewrite upd_length. split; auto. repeat split.
      + intros. rewrite nth_upd_ne by lia. unfold d0. now rewrite nth_upd_ne by lia.
      + rewrite nth_upd_ne by lia. unfold d0. now rewrite nth_upd_eq by lia.
      + intros. now rewrite nth_upd_eq by lia.
    - exists d0. repeat split; auto; try lia. + intros. unfold d0. now rewrite nth_upd_ne by lia. + unfold d0. now rewrite nth_upd_eq by lia. }
  destruct S1 as (d1 & E1 & L1 & O1 & Z1 & T1). rewrite E1. cbn [rbind].
  destruct (deriv_loop c d1 n Lc ltac:(lia) (n - 1) ltac:(lia)) as (d2 & E2 & L2 & V2 & W2). rewrite E2. cbn [rbind].
  destruct (for_nat_inv (fun i s => List.length s = List.length d2 /\ forall j, s.[j] = if (j <? i)%nat then d2.[j] * (2.0 / (a - b)) else d2.[j])
     (fun j d => do x <- rd d j; wr d j (x * (2.0 / (a - b)))) 0 n d2) as (d3 & E3 & L3 & V3).
  { lia. } { split; auto. }
  { intros i s Hi [P1 P2]. rewrite (rd_ok s i 0) by lia. cbn [rbind]. rewrite wr_ok by lia. eexists. split; [reflexivity|]. rewrite upd_length. split; auto. intros j.
    destruct (Nat.eq_dec j i) as [->|NE].
    - rewrite nth_upd_eq by lia. rewrite P2. destruct (Nat.ltb_spec i i), (Nat.ltb_spec i (i + 1)); try lia. auto.
    - rewrite nth_upd_ne by auto. rewrite P2. destruct (Nat.ltb_spec j i), (Nat.ltb_spec j (i + 1)); try lia; auto. }
  exists d3, (fun j => if (j <? n)%nat then d2.[j] else 0). rewrite E3. split; auto. split; [lia|]. repeat split.
  - intros j Hj. rewrite V3. destruct (Nat.ltb_spec j n); [lia|]. rewrite V2 by lia. auto.
  - intros j Hj. rewrite V3. destruct (Nat.ltb_spec j n). { replace 2.0 with 2 by lra. ring. } rewrite V2 by lia. replace j with n by lia. rewrite Z1. ring.
  - intros j Hj. destruct (Nat.ltb_spec j n); [lia|auto].
  - intros j Hj. destruct (Nat.ltb_spec j n); [|lia]. destruct (Nat.eq_dec j (n - 1)) as [J|J].
    + destruct (Nat.ltb_spec (j + 2) n); [lia|]. subst j. rewrite V2 by lia. rewrite T1 by lia. replace (n - 1 + 1)%nat with n by lia. rewrite minus_INR by lia. simpl. ring.
    + rewrite (W2 j) by lia. destruct (Nat.ltb_spec (j + 2) n); [ring|]. rewrite (V2 (j + 2)%nat) by lia. replace (j + 2)%nat with n by lia. rewrite Z1. ring.
Qed.
(** the evaluated derivative coefficients are the derivative of the evaluated function, at every X *)
Theorem C36_deriv a b c cder n : (n < List.length c)%nat -> (n < List.length cder)%nat -> a <> b ->
  exists d, cheb_deriv a b c cder n = Ok d /\ List.length d = List.length cder /\ (forall j, (n < j)%nat -> d.[j] = cder.[j]) /\
    forall f X, (forall Z, cheb_eval a b c n Z = Ok (f Z)) -> exists v, cheb_eval a b d n X = Ok v /\ derivable_pt_lim f X v.
Proof.
  intros Lc Ld Hab. destruct (cheb_deriv_ok a b c cder n Lc Ld) as (d & e & E & L & O & V & Z & W). exists d. repeat split; auto.
  intros f X Hf. exists (series d n (yof a b X)). rewrite cheb_eval_ok by lia. split; auto.
  apply (derivable_pt_lim_ext (comp (series c n) (yof a b))). { intros z. specialize (Hf z). rewrite cheb_eval_ok in Hf by lia. unfold comp. congruence. }
  replace (series d n (yof a b X)) with (Sig n (fun i => c.[i + 1] * (INR (i + 1) * U' (i + 1) (yof a b X))) * (2 / (a - b))).
  - apply derivable_pt_lim_comp; [apply yof_deriv|apply series_deriv].
  - rewrite <- series_cut. rewrite series_U. 2:{ intros. apply firstn_out. lia. } set (y := yof a b X).
    rewrite <- Sig_scal_r, <- Sig_scal. rewrite Nat.add_1_r, Sig_S. rewrite <- (Rplus_0_r (Sig n _)). f_equal.
    + apply Sig_ext. intros i Hi. rewrite firstn_in by lia. rewrite V by lia.
      assert (D : (firstn (S n) d).[i + 2] = 2 / (a - b) * e (i + 2)%nat).
      { destruct (le_lt_dec (i + 2) n). - rewrite firstn_in by lia. rewrite V; auto. - rewrite firstn_out by lia. rewrite Z by lia. ring. }
      rewrite D. replace (2 / (a - b) * e i - 2 / (a - b) * e (i + 2)%nat) with (2 / (a - b) * (e i - e (i + 2)%nat)) by ring. rewrite W by auto. rewrite plus_INR. simpl (INR 1). field. lra.
    + rewrite firstn_in by lia. rewrite V by lia. rewrite Z by lia. rewrite firstn_out by lia. ring.
Qed.

Lemma cheb_int_ok a b c cint n : (1 <= n)%nat -> (n < List.length c)%nat -> (n < List.length cint)%nat ->
  exists d, cheb_int a b c cint n = Ok d /\ List.length d = List.length cint /\ (forall j, (n < j)%nat -> d.[j] = cint.[j]) /\
    (forall j, (1 <= j < n)%nat -> d.[j] = (a - b) / 4 * (c.[j - 1] - c.[j + 1]) / INR j) /\ d.[n] = (a - b) / 4 * c.[n - 1] / INR n /\
    d.[0] = - 2 * Sig n (fun i => d.[i + 1] * (-1) ^ (i + 1)).
Proof.
  intros Hn Lc Ld. unfold cheb_int.
  set (v := fun j => 0.25 * (a - b) * (c.[j - 1] - c.[j + 1]) / INR j).
  destruct (for_nat_inv (fun i (s : list R * R * R) => List.length (fst (fst s)) = List.length cint /\ (forall j, (fst (fst s)).[j] = if ((1 <=? j) && (j <? i))%nat then v j else cint.[j]) /\
     snd (fst s) = - Sig (i - 1) (fun j => v (j + 1)%nat * (-1) ^ (j + 1)) /\ snd s = (-1) ^ (i - 1))
     (fun j s => let '(ci, sum, fac) := s in
            do x <- rd c (j - 1); do y <- rd c (j + 1);
            let v := 0.25 * (a - b) * (x - y) / INR j in
            do ci <- wr ci j v;
            Ok (ci, sum + fac * v, - fac)) 1 n (cint, 0, 1)) as (s & E & P1 & P2 & P3 & P4).
  { lia. }
  { cbn [fst snd]. repeat split; auto.
    - intros j. destruct (Nat.leb_spec 1 j), (Nat.ltb_spec j 1); cbn [andb]; auto; lia.
    - simpl. ring. }
  { intros i [[ci sum] fac] Hi (P1 & P2 & P3 & P4). cbn [fst snd] in *. rewrite (rd_ok c (i - 1)%nat 0) by lia. cbn [rbind]. rewrite (rd_ok c (i + 1)%nat 0) by lia. cbn [rbind].
    cbv zeta. rewrite wr_ok by lia. cbn [rbind]. eexists. split; [reflexivity|]. cbn [fst snd]. rewrite upd_length. repeat split; auto.
    - intros j. destruct (Nat.eq_dec j i) as [->|NE].
      + rewrite nth_upd_eq by lia. destruct (Nat.leb_spec 1 i), (Nat.ltb_spec i (i + 1)); cbn [andb]; try lia. reflexivity.
      + rewrite nth_upd_ne by auto. rewrite P2. destruct (Nat.leb_spec 1 j), (Nat.ltb_spec j i), (Nat.ltb_spec j (i + 1)); cbn [andb]; try lia; auto.
    - rewrite P3, P4. replace (i + 1 - 1)%nat with (S (i - 1)) by lia. rewrite Sig_S. replace (i - 1 + 1)%nat with i by lia.
      replace ((-1) ^ i) with (- (-1) ^ (i - 1)). 2:{ replace i with (S (i - 1)) at 2 by lia. simpl. ring. } unfold v. ring.
    - rewrite P4. replace (i + 1 - 1)%nat with (S (i - 1)) by lia. simpl. ring. }
  cbv zeta in E |- *. rewrite E. cbn [rbind]. destruct s as [[ci sum] fac]. cbn [fst snd] in *. destruct n as [|m]; [lia|].
  rewrite (rd_ok c m 0) by lia. cbn [rbind]. cbv zeta. rewrite wr_ok by lia. cbn [rbind]. rewrite wr_ok by (rewrite upd_length; lia).
  eexists. split; [reflexivity|]. rewrite !upd_length. split; auto. set (n := S m) in *.
  assert (Dn : forall x y, (upd (upd ci n x) 0 y).[n] = x). { intros. rewrite nth_upd_ne by lia. now rewrite nth_upd_eq by lia. }
  assert (Dj : forall x y j, (1 <= j < n)%nat -> (upd (upd ci n x) 0 y).[j] = v j).
  { intros. rewrite nth_upd_ne by lia. rewrite nth_upd_ne by lia. rewrite P2. destruct (Nat.leb_spec 1 j), (Nat.ltb_spec j n); cbn [andb]; try lia. auto. }
  repeat split.
  - intros j Hj. rewrite nth_upd_ne by lia. rewrite nth_upd_ne by lia. rewrite P2. destruct (Nat.leb_spec 1 j), (Nat.ltb_spec j n); cbn [andb]; try lia. auto.
  - intros j Hj. rewrite Dj by auto. unfold v. unfold Rdiv. lra.
  - rewrite Dn. replace (n - 1)%nat with m by (unfold n; lia). unfold Rdiv. lra.
  - rewrite nth_upd_eq by (rewrite upd_length; lia). rewrite P3, P4. match goal with |- _ = - 2 * Sig n ?f => change (Sig n f) with (Sig m f + f m) end. cbv beta. replace (m + 1)%nat with n by (unfold n; lia). rewrite Dn.
    rewrite (Sig_ext m (fun i => (upd _ _ _).[i + 1] * (-1) ^ (i + 1)) (fun j => v (j + 1)%nat * (-1) ^ (j + 1))) by (intros i Hi; rewrite Dj by (unfold n; lia); auto).
    replace (n - 1)%nat with m by (unfold n; lia). replace ((-1) ^ n) with (- (-1) ^ m) by (unfold n; simpl; ring). lra.
Qed.
(** derivative of the evaluated integral: the function itself minus the contribution of the highest coefficient *)
Lemma int_deriv a b c cint n : (1 <= n)%nat -> (n < List.length c)%nat -> (n < List.length cint)%nat -> a <> b ->
  exists d, cheb_int a b c cint n = Ok d /\ forall X, derivable_pt_lim (fun Z => series d n (yof a b Z)) X (series c n (yof a b X) - c.[n] / 2 * U' (n + 1) (yof a b X)).
Proof.
  intros Hn Lc Ld Hab. destruct (cheb_int_ok a b c cint n Hn Lc Ld) as (d & E & L & O & V & Vn & V0). exists d. split; auto. intros X.
  apply (derivable_pt_lim_ext (comp (series d n) (yof a b))); [reflexivity|].
  replace (series c n (yof a b X) - c.[n] / 2 * U' (n + 1) (yof a b X)) with (Sig n (fun i => d.[i + 1] * (INR (i + 1) * U' (i + 1) (yof a b X))) * (2 / (a - b))).
  - apply derivable_pt_lim_comp; [apply yof_deriv|apply series_deriv].
  - rewrite <- (series_cut c). rewrite series_U. 2:{ intros. apply firstn_out. lia. } set (y := yof a b X).
    rewrite Nat.add_1_r, Sig_S. rewrite (firstn_in c (S n) n) by lia. rewrite (firstn_out c (S n) (n + 2)) by lia. rewrite Nat.add_1_r.
    replace (/ 2 * (Sig n (fun k => ((firstn (S n) c).[k] - (firstn (S n) c).[k + 2]) * U' (k + 1) y) + (c.[n] - 0) * U' (S n) y) - c.[n] / 2 * U' (S n) y) with (/ 2 * Sig n (fun k => ((firstn (S n) c).[k] - (firstn (S n) c).[k + 2]) * U' (k + 1) y)) by lra.
    rewrite <- Sig_scal_r, <- Sig_scal. apply Sig_ext. intros i Hi. rewrite firstn_in by lia. assert (N0 : INR (i + 1) <> 0) by (apply not_0_INR; lia).
    destruct (Nat.eq_dec (i + 1) n) as [En|NE].
    + rewrite firstn_out by lia. rewrite En, Vn. rewrite <- En. replace (i + 1 - 1)%nat with i by lia. rewrite En in *. field. split; [lra|auto].
    + rewrite firstn_in by lia. rewrite V by lia. replace (i + 1 - 1)%nat with i by lia. replace (i + 1 + 1)%nat with (i + 2)%nat by lia. field. split; [lra|auto].
Qed.
(** if the highest coefficient vanishes, the evaluated integral coefficients are the antiderivative that vanishes at X = b *)
Theorem C36_int a b c cint n : (1 <= n)%nat -> (n < List.length c)%nat -> (n < List.length cint)%nat -> a <> b -> c.[n] = 0 ->
  exists d, cheb_int a b c cint n = Ok d /\ List.length d = List.length cint /\ (forall j, (n < j)%nat -> d.[j] = cint.[j]) /\
    exists F, (forall X, cheb_eval a b d n X = Ok (F X)) /\ F b = 0 /\
      forall X, exists v, cheb_eval a b c n X = Ok v /\ derivable_pt_lim F X v.
Proof.
  intros Hn Lc Ld Hab Z. destruct (cheb_int_ok a b c cint n Hn Lc Ld) as (d & E & L & O & V & Vn & V0).
  destruct (int_deriv a b c cint n Hn Lc Ld Hab) as (d' & E' & D). assert (d' = d) by congruence. subst d'.
  exists d. repeat split; auto. exists (fun X => series d n (yof a b X)). split; [|split].
  - intros X. apply cheb_eval_ok. lia.
  - replace (yof a b b) with (-1) by (unfold yof; field; lra). unfold series. rewrite V0. rewrite (Sig_ext n (fun i => d.[i + 1] * T (i + 1) (-1)) (fun i => d.[i + 1] * (-1) ^ (i + 1))) by (intros; now rewrite T_at_m1). field.
  - intros X. exists (series c n (yof a b X)). split. { apply cheb_eval_ok. lia. } specialize (D X). rewrite Z in D. replace (series c n (yof a b X) - 0 / 2 * U' (n + 1) (yof a b X)) with (series c n (yof a b X)) in D by lra. exact D.
Qed.
(** With a nonzero highest coefficient the derivative of the result differs from the function. *)
Theorem C36_int_full_refuted : exists a b c cint n d X v w, a <> b /\ cheb_int a b c cint n = Ok d /\
  cheb_eval a b c n X = Ok v /\ derivable_pt_lim (fun Z => series d n (yof a b Z)) X w /\ v <> w.
Proof.
  destruct (int_deriv (-1) 1 [0; 1] [0; 0] 1) as (d & E & D); simpl; try lia; try lra.
  exists (-1), 1, [0; 1], [0; 0], 1%nat, d, 1, (series [0; 1] 1 (yof (-1) 1 1)). eexists. split; [lra|]. split; [exact E|]. split; [apply cheb_eval_ok; simpl; lia|]. split; [apply D|].
  simpl nth. replace (1 + 1)%nat with (0 + 2)%nat by lia. rewrite U'_SS. simpl (0 + 1)%nat. rewrite U'_0, U'_1. unfold yof. lra.
Qed.
Theorem C36_int_order0 a b c cint : cheb_int a b c cint 0 = UB.
Proof. reflexivity. Qed.
Example C36_example : [1; 2; 0].[2] = 0 /\ (2 < List.length [1; 2; 0])%nat. Proof. simpl. split; auto. Qed.

(** filter: exactly the coefficients k..n are zeroed *)
Theorem C36_filter c k n : (n < List.length c)%nat ->
  exists c', cheb_filter c k n = Ok c' /\ List.length c' = List.length c /\ forall j, c'.[j] = if ((k <=? j) && (j <=? n))%nat then 0 else c.[j].
Proof.
  intros L. destruct (fill_loop k (n + 1) (fun j c => wr c j 0) (fun _ => 0) c 0) as (c' & E & L' & V); auto; [lia|].
  exists c'. repeat split; auto. intros j. rewrite V. destruct (Nat.leb_spec k j), (Nat.ltb_spec j (n + 1)), (Nat.leb_spec j n); cbn [andb]; auto; lia.
Qed.

Print Assumptions C34_extrema_values.
Print Assumptions C34_extrema_coeffs.
Print Assumptions C34_zeros_values.
Print Assumptions C34_zeros_coeffs.
Print Assumptions C34_interpolates_extrema.
Print Assumptions C34_getcoeff_exact.
Print Assumptions C35_eval.
Print Assumptions C35_basis.
Print Assumptions C39_cheb.
Print Assumptions C35_basis_near_end_refuted.
Print Assumptions C36_deriv.
Print Assumptions C36_int.
Print Assumptions C36_int_full_refuted.

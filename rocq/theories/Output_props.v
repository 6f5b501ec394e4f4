(** C24, C48: output schedule and closest grid index. *)
From Verif Require Import Rutil Output_model.
Local Open Scope R_scope.

Ltac zr := rewrite ?mult_IZR, ?plus_IZR, ?minus_IZR.
(** Output every di iterations: exactly the multiples of di, with numbers 1, 2, 3, ... *)
Theorem C24_iterations it time gdt di dt : (0 <= it)%Z -> (0 < di)%Z -> dt <= 0 ->
  (forall k, it = (k * di)%Z -> timeforoutput_di_dt it time gdt di dt = (k + 1)%Z) /\
  ((forall k, it <> (k * di)%Z) -> timeforoutput_di_dt it time gdt di dt = 0%Z).
Proof.
  intros Hi Hd Ht. unfold timeforoutput_di_dt. replace (0 <? di)%Z with true by (symmetry; now apply Z.ltb_lt). cbn [andb].
  rewrite Z.rem_mod_nonneg, Z.quot_div_nonneg by lia. split.
  - intros k ->. rewrite Z.mod_mul by lia. cbn [Z.eqb]. rewrite Z.div_mul by lia. reflexivity.
  - intros N. destruct (Z.eqb_spec (it mod di) 0) as [E|E].
    + exfalso. apply (N (it / di)%Z). pose proof (Z.div_mod it di ltac:(lia)). lia.
    + destruct (Rlt_dec 0 dt); [lra|reflexivity].
Qed.
Print Assumptions C24_iterations.

Lemma tfo_dt it time gdt dt k : 0 < dt -> gdt <> 0 -> Rabs gdt <= dt ->
  (forall m n : Z, Rabs time = IZR m * Rabs gdt -> Rabs gdt = dt -> Rabs time - IZR n * dt <> 0.5 * Rabs gdt) ->
  timeforoutput_di_dt it time gdt 0 dt = (k + 1)%Z /\ (k + 1 <> 0)%Z <->
  (0 <= k)%Z /\ - 0.5 * Rabs gdt < Rabs time - IZR k * dt <= 0.5 * Rabs gdt /\ (Rabs time - IZR k * dt < 0.5 * dt).
Proof.
  intros Hdt Hg Hle HN. unfold timeforoutput_di_dt. cbn [andb Z.ltb Z.compare]. destruct (Rlt_dec 0 dt); [|lra].
  assert (P : 0 <= Rabs time) by apply Rabs_pos. assert (G : 0 < Rabs gdt) by now apply Rabs_pos_lt.
  assert (Q : 0 <= 0.5 + Rabs time / dt). { assert (0 <= Rabs time / dt) by (apply Rmult_le_pos; [lra|]; left; now apply Rinv_0_lt_compat). lra. }
  set (T := Rabs time) in *. set (dT := Rabs gdt) in *.
  assert (TR : forall j, Rtrunc (0.5 + T / dt) = j <-> - 0.5 * dt <= T - IZR j * dt < 0.5 * dt).
  { intros j. rewrite Rtrunc_nonneg by auto. assert (E : T / dt * dt = T) by (field; lra). split; intros [A B].
    - split; nra.
    - split; [apply Rmult_le_reg_r with dt|apply Rmult_lt_reg_r with dt]; nra. }
  split.
  - intros (E & NZ). pose proof (proj1 (TR _) eq_refl) as [A B]. set (i := Rtrunc (0.5 + T / dt)) in *.
    destruct (Rlt_dec (-0.5 * dT) (T - IZR i * dt)); [|lia]. destruct (Rle_dec (T - IZR i * dt) (0.5 * dT)); [|lia].
    assert (i = k) by lia. subst k. split; [|split; [split|]; lra].
    assert (-1 < i)%Z; [|lia]. apply lt_IZR. nra.
  - intros (Hk & [A B] & C). assert (E : Rtrunc (0.5 + T / dt) = k) by (apply TR; split; lra). rewrite E.
    destruct (Rlt_dec (-0.5 * dT) (T - IZR k * dt)); [|lra]. destruct (Rle_dec (T - IZR k * dt) (0.5 * dT)); [|lra]. split; [reflexivity|lia].
Qed.
(** Output every dt, when the time step is not larger than dt and iteration n is at time n*gdt:
    for each k there is exactly one iteration with output number k+1, it is a closest one to the time k*dt,
    and no output number appears at any other iteration. *)
Theorem C24_times gdt dt : gdt <> 0 -> 0 < dt -> Rabs gdt <= dt ->
  forall k, (0 <= k)%Z -> exists n, (0 <= n)%Z /\
    timeforoutput_di_dt n (IZR n * gdt) gdt 0 dt = (k + 1)%Z /\
    (forall m, (0 <= m)%Z -> timeforoutput_di_dt m (IZR m * gdt) gdt 0 dt = (k + 1)%Z -> m = n) /\
    (forall m, (0 <= m)%Z -> Rabs (IZR n * Rabs gdt - IZR k * dt) <= Rabs (IZR m * Rabs gdt - IZR k * dt)).
Proof.
  intros Hg Hdt Hle k Hk. assert (G : 0 < Rabs gdt) by now apply Rabs_pos_lt. set (dT := Rabs gdt) in *.
  assert (AT : forall n, (0 <= n)%Z -> Rabs (IZR n * gdt) = IZR n * dT). { intros n Hn. rewrite Rabs_mult. f_equal. apply Rabs_pos_eq. now apply IZR_le. }
  (* the closest step: n = ceil(k dt / dT - 1/2) taken as  - floor(1/2 - k dt/dT) ... *)
  set (y := IZR k * dt / dT). assert (Ey : y * dT = IZR k * dt) by (unfold y; field; lra).
  assert (Hk0 : 0 <= IZR k) by now apply IZR_le.
  set (n := Int_part (y + 0.5)). destruct (proj1 (Int_part_spec (y + 0.5) n) eq_refl) as [N1 N2].
  assert (Hy : 0 <= y) by (unfold y; apply Rmult_le_pos; [nra|]; left; now apply Rinv_0_lt_compat).
  assert (Hn : (0 <= n)%Z). { assert (-1 < n)%Z; [|lia]. apply lt_IZR. lra. }
  assert (IN : - 0.5 * dT < IZR n * dT - IZR k * dt <= 0.5 * dT) by (rewrite <- Ey; clearbody y n; split; nra).
  assert (HALF : forall m j, (dT = dt) -> IZR m * dT - IZR j * dt <> 0.5 * dT).
  { intros m j E Q. rewrite <- E in Q. assert (IZR m - IZR j = 0.5) by nra. assert (IZR (2 * (m - j)) = IZR 1) by (zr; lra). apply eq_IZR in H0. lia. }
  assert (TFO : forall m j, (0 <= m)%Z -> timeforoutput_di_dt m (IZR m * gdt) gdt 0 dt = (j + 1)%Z /\ (j + 1 <> 0)%Z <->
    (0 <= j)%Z /\ - 0.5 * dT < IZR m * dT - IZR j * dt <= 0.5 * dT).
  { intros m j Hm. rewrite tfo_dt; auto.
    - fold dT. rewrite AT by auto. split; [tauto|]. intros (A & [B C]). split; auto. split; [split; auto|].
      destruct (Req_dec dT dt) as [E|NE]; [|lra]. specialize (HALF m j E). lra.
    - intros m' j' E1 E2. fold dT. rewrite E1. now apply HALF. }
  exists n. split; auto. split; [|split].
  - apply (TFO n k Hn). auto.
  - intros m Hm E. assert (Q : timeforoutput_di_dt m (IZR m * gdt) gdt 0 dt = (k + 1)%Z /\ (k + 1 <> 0)%Z) by (split; [auto|lia]).
    apply TFO in Q; auto. destruct Q as (_ & [A B]).
    assert (IZR m - IZR n < 1) by nra. assert (IZR n - IZR m < 1) by nra. rewrite <- minus_IZR in H, H0. apply lt_IZR in H, H0. lia.
  - intros m Hm. destruct (Z.eq_dec m n) as [->|NE]; [lra|].
    assert (C : IZR m <= IZR n - 1 \/ IZR n + 1 <= IZR m).
    { destruct (Z_lt_le_dec m n); [left|right]; rewrite <- ?minus_IZR, <- ?plus_IZR; apply IZR_le; lia. }
    unfold Rabs. destruct (Rcase_abs (IZR n * dT - IZR k * dt)), (Rcase_abs (IZR m * dT - IZR k * dt)); destruct C; nra.
Qed.
Print Assumptions C24_times.
(** every iteration with output belongs to such an output time *)
Theorem C24_only_output_times gdt dt m : gdt <> 0 -> 0 < dt -> Rabs gdt <= dt -> (0 <= m)%Z ->
  timeforoutput_di_dt m (IZR m * gdt) gdt 0 dt <> 0%Z ->
  exists k, (0 <= k)%Z /\ timeforoutput_di_dt m (IZR m * gdt) gdt 0 dt = (k + 1)%Z /\ Rabs (IZR m * Rabs gdt - IZR k * dt) <= Rabs gdt / 2.
Proof.
  intros Hg Hdt Hle Hm NZ. assert (G : 0 < Rabs gdt) by now apply Rabs_pos_lt. set (dT := Rabs gdt) in *.
  assert (AT : Rabs (IZR m * gdt) = IZR m * dT). { rewrite Rabs_mult. f_equal. apply Rabs_pos_eq. now apply IZR_le. }
  set (k := (timeforoutput_di_dt m (IZR m * gdt) gdt 0 dt - 1)%Z). exists k.
  assert (E : timeforoutput_di_dt m (IZR m * gdt) gdt 0 dt = (k + 1)%Z /\ (k + 1 <> 0)%Z) by (unfold k; split; lia).
  apply tfo_dt in E; auto.
  2:{ intros m' j' E1 E2 Q. fold dT in Q, E1, E2. rewrite E1 in Q. rewrite <- E2 in Q. assert (H9 : IZR m' - IZR j' = 0.5) by nra.
      assert (H0 : IZR (2 * (m' - j')) = IZR 1) by (zr; lra). apply eq_IZR in H0. lia. }
  fold dT in E. rewrite AT in E. destruct E as (A & [B C] & D). split; auto. split; [unfold k; lia|].
  unfold Rabs. destruct (Rcase_abs _); lra.
Qed.
Print Assumptions C24_only_output_times.
(** time step 1, output every 2.5: iteration 5 has output number 3 *)
Example C24_example : (1 <> 0 /\ 0 < 2.5 /\ Rabs 1 <= 2.5) /\ timeforoutput_di_dt 5 (IZR 5 * 1) 1 0 2.5 = 3%Z.
Proof.
  split; [rewrite Rabs_R1; lra|]. unfold timeforoutput_di_dt. cbn [andb Z.ltb Z.compare]. rewrite Rabs_R1, Rmult_1_r, Rmult_1_r, Rmult_1_r, Rabs_pos_eq by lra.
  replace (Rtrunc (0.5 + 5 / 2.5)) with 2%Z by (symmetry; apply Rtrunc_nonneg; lra).
  repeat (destruct (Rlt_dec _ _); [|lra]). destruct (Rle_dec _ _); [reflexivity|lra].
Qed.

(** ** C48 *)
Definition nondecreasing (X : Z -> R) (n : Z) : Prop := forall i j, (0 <= i <= j)%Z -> (j < n)%Z -> X i <= X j.
Lemma find_loop_ok X X0 n : nondecreasing X n -> forall fuel i k, (0 <= i < k)%Z -> (k < n)%Z -> (k - i <= Z.of_nat fuel + 1)%Z ->
  X i < X0 <= X k -> exists i', find_loop fuel X X0 i k = Some (i', (i' + 1)%Z) /\ (0 <= i')%Z /\ (i' + 1 < n)%Z /\ X i' < X0 <= X (i' + 1)%Z.
Proof.
  intros ND. induction fuel as [|f IH]; intros i k Hi Hk HF HX; cbn [find_loop].
  - replace (1 <? k - i)%Z with false by (symmetry; apply Z.ltb_ge; lia). exists i. assert (k = i + 1)%Z by lia. subst k. repeat split; auto; try lia; lra.
  - destruct (Z.ltb_spec 1 (k - i)).
    + assert (J : (i < Z.quot (i + k) 2 < k)%Z). { rewrite Z.quot_div_nonneg by lia. pose proof (Z.div_mod (i + k) 2 ltac:(lia)). pose proof (Z.mod_pos_bound (i + k) 2 ltac:(lia)). lia. }
      set (j := Z.quot (i + k) 2) in *. destruct (Rle_dec ((X i - X0) * (X j - X0)) 0) as [L|L].
      * apply IH; try lia. split; [lra|]. nra.
      * apply IH; try lia. split; [|lra]. nra.
    + exists i. assert (k = i + 1)%Z by lia. subst k. repeat split; auto; try lia; lra.
Qed.
(** On every non-decreasing coordinate line with at least one point the search ends with an index of the line
    whose coordinate is closest to X0. *)
Theorem C48_closest X n X0 : (1 <= n)%Z -> nondecreasing X n ->
  exists r, find_ind X n X0 = Some r /\ (0 <= r < n)%Z /\ forall j, (0 <= j < n)%Z -> Rabs (X r - X0) <= Rabs (X j - X0).
Proof.
  intros Hn ND. unfold find_ind. destruct (Rle_dec (X (n - 1)%Z) X0) as [L|L].
  - exists (n - 1)%Z. split; auto. split; [lia|]. intros j Hj. assert (X j <= X (n - 1)%Z) by (apply ND; lia). unfold Rabs. destruct (Rcase_abs _), (Rcase_abs _); lra.
  - destruct (Rle_dec X0 (X 0%Z)) as [L0|L0].
    + exists 0%Z. split; auto. split; [lia|]. intros j Hj. assert (X 0%Z <= X j) by (apply ND; lia). unfold Rabs. destruct (Rcase_abs _), (Rcase_abs _); lra.
    + assert (n <> 1)%Z. { intros ->. cbn in L. lra. }
      destruct (find_loop_ok X X0 n ND (Z.to_nat n) 0%Z (n - 1)%Z) as (i & E & Hi & Hi1 & HX); try lia; [lra|]. rewrite E.
      assert (LE : forall j, (0 <= j < n)%Z -> X j <= X i \/ X (i + 1)%Z <= X j). { intros j Hj. destruct (Z_le_gt_dec j i); [left|right]; apply ND; lia. }
      destruct (Rlt_dec (Rabs (X i - X0)) (Rabs (X (i + 1)%Z - X0))) as [Q|Q].
      * exists i. split; auto. split; [lia|]. intros j Hj. specialize (LE j Hj). unfold Rabs in *. repeat destruct (Rcase_abs _); lra.
      * exists (i + 1)%Z. split; auto. split; [lia|]. intros j Hj. specialize (LE j Hj). unfold Rabs in *. repeat destruct (Rcase_abs _); lra.
Qed.
Print Assumptions C48_closest.
(** The three functions read the coordinate line through the corner point and nothing else. *)
Theorem C48_three_directions n1 n2 n3 v x : (1 <= n1)%Z -> (1 <= n2)%Z -> (1 <= n3)%Z ->
  (nondecreasing (fun i => v (i + n1 * (0 + n2 * 0))%Z) n1 -> exists r, find_ind_closest_to_X0 n1 n2 v x = Some r /\ (0 <= r < n1)%Z /\
    forall j, (0 <= j < n1)%Z -> Rabs (v (r + n1 * (0 + n2 * 0))%Z - x) <= Rabs (v (j + n1 * (0 + n2 * 0))%Z - x)) /\
  (nondecreasing (fun i => v (0 + n1 * (i + n2 * 0))%Z) n2 -> exists r, find_ind_closest_to_Y0 n1 n2 v x = Some r /\ (0 <= r < n2)%Z /\
    forall j, (0 <= j < n2)%Z -> Rabs (v (0 + n1 * (r + n2 * 0))%Z - x) <= Rabs (v (0 + n1 * (j + n2 * 0))%Z - x)) /\
  (nondecreasing (fun i => v (0 + n1 * (0 + n2 * i))%Z) n3 -> exists r, find_ind_closest_to_Z0 n1 n2 n3 v x = Some r /\ (0 <= r < n3)%Z /\
    forall j, (0 <= j < n3)%Z -> Rabs (v (0 + n1 * (0 + n2 * r))%Z - x) <= Rabs (v (0 + n1 * (0 + n2 * j))%Z - x)).
Proof. intros H1 H2 H3. split; [|split]; intros ND; (edestruct C48_closest as (r & E & Q); [|exact ND|exists r; split; [exact E|exact Q]]); auto. Qed.
Print Assumptions C48_three_directions.
(** On a descending line the result can be the worst possible index. *)
Theorem C48_descending_refuted : exists X n X0 r j, (1 <= n)%Z /\ (0 <= j < n)%Z /\ find_ind X n X0 = Some r /\ Rabs (X j - X0) < Rabs (X r - X0).
Proof.
  exists (fun i => - IZR i), 2%Z, 0, 1%Z, 0%Z. split; [lia|]. split; [lia|]. split.
  - unfold find_ind. destruct (Rle_dec (- IZR (2 - 1)) 0) as [L|L]; [reflexivity|]. exfalso. apply L. cbn. lra.
  - rewrite Ropp_0, Rminus_0_r, Rabs_R0. unfold Rabs. destruct (Rcase_abs _); lra.
Qed.
Print Assumptions C48_descending_refuted.
Example C48_example : nondecreasing (fun i => IZR i) 5.
Proof. intros i j H1 H2. apply IZR_le. lia. Qed.

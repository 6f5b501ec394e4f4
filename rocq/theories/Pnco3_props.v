(** C127, third part: the cut-off with tanh, and Kepler's law for the radius. *)
From Verif Require Import Rutil Pnco_model Pnco_props Pnco2_props.
From Coq Require Import Lia.
From Coquelicot Require Import Coquelicot.
Local Open Scope R_scope.
Lemma den x : 0 < exp x + exp (- x). Proof. pose proof (exp_pos x). pose proof (exp_pos (- x)). lra. Qed.
Lemma tanh_der x : is_derive tanh' x (1 - tanh' x * tanh' x).
Proof. pose proof (den x). unfold tanh'. auto_derive; [lra|]. field. lra. Qed.
Lemma tanh_0 : tanh' 0 = 0. Proof. unfold tanh'. rewrite Ropp_0. field. pose proof (exp_pos 0). lra. Qed.
Lemma tanh_opp x : tanh' (- x) = - tanh' x. Proof. unfold tanh'. rewrite Ropp_involutive. pose proof (den x). field. lra. Qed.
Lemma grow (f df : R -> R) : (forall t, is_derive f t (df t)) -> f 0 = 0 -> forall x, 0 <= x -> (forall t, 0 <= t <= x -> 0 <= df t) -> 0 <= f x.
Proof.
  intros D Z x Hx P. destruct (MVT_gen f 0 x df) as (c & C & E).
  - intros t _. apply D.
  - intros t _. apply continuity_pt_filterlim. apply (ex_derive_continuous f t). now exists (df t).
  - rewrite Rmin_left, Rmax_right in C by lra. specialize (P c C). rewrite Z in E. nra.
Qed.
Lemma tanh_pos x : 0 <= x -> 0 <= tanh' x <= x.
Proof.
  intros Hx. split.
  - unfold tanh'. apply Rmult_le_pos; [|apply Rlt_le, Rinv_0_lt_compat, den]. assert (exp (- x) <= exp x) by (destruct (Req_dec x 0) as [->|]; [rewrite Ropp_0; lra|apply Rlt_le, exp_increasing; lra]). lra.
  - apply Rminus_le_0. apply (grow (fun t => t - tanh' t) (fun t => tanh' t * tanh' t)); [|rewrite tanh_0; ring|exact Hx|intros; nra].
    intros t. evar_last. apply (is_derive_minus (fun t => t) tanh' t); [apply is_derive_id|apply tanh_der]. unfold minus, plus, opp, one; cbn. ring.
Qed.
Lemma tanh_lo x : 0 <= x -> x - x ^ 3 / 3 <= tanh' x.
Proof.
  intros Hx. apply Rminus_le_0. apply (grow (fun t => tanh' t - (t - t ^ 3 / 3)) (fun t => t * t - tanh' t * tanh' t)); [|rewrite tanh_0; field|exact Hx|].
  - intros t. evar_last. apply (is_derive_minus tanh' (fun t => t - t ^ 3 / 3) t (1 - tanh' t * tanh' t) (1 - t * t)); [apply tanh_der|auto_derive; [auto|field]]. unfold minus, plus, opp; cbn. ring.
  - intros t T. pose proof (tanh_pos t ltac:(lra)). nra.
Qed.
Lemma tanh_hi x : 0 <= x -> tanh' x <= x - x ^ 3 / 3 + x ^ 5.
Proof.
  intros Hx. apply Rminus_le_0. apply (grow (fun t => t - t ^ 3 / 3 + t ^ 5 - tanh' t) (fun t => tanh' t * tanh' t - t * t + 5 * t ^ 4)); [|rewrite tanh_0; field|exact Hx|].
  - intros t. evar_last. apply (is_derive_minus (fun t => t - t ^ 3 / 3 + t ^ 5) tanh' t (1 - t * t + 5 * t ^ 4) (1 - tanh' t * tanh' t)); [auto_derive; [auto|field]|apply tanh_der]. unfold minus, plus, opp; cbn. ring.
  - intros t T. pose proof (tanh_pos t ltac:(lra)) as [A B]. pose proof (tanh_lo t ltac:(lra)) as C. set (h := tanh' t) in *. assert (D : (t - h) * (t + h) <= t ^ 3 / 3 * (2 * t)) by (apply Rmult_le_compat; lra). assert (0 <= t ^ 4) by (apply pow_le; lra). replace (t ^ 3 / 3 * (2 * t)) with (2 / 3 * t ^ 4) in D by field. nra.
Qed.
Lemma tanh_series x : Rabs (tanh' x - (x - x ^ 3 / 3)) <= Rabs x ^ 5.
Proof.
  destruct (Rle_dec 0 x) as [H|H].
  - pose proof (tanh_lo x H). pose proof (tanh_hi x H). rewrite (Rabs_right x) by lra. rewrite Rabs_right; lra.
  - pose proof (tanh_lo (- x) ltac:(lra)) as A. pose proof (tanh_hi (- x) ltac:(lra)) as B. rewrite tanh_opp in A, B. rewrite (Rabs_left x) by lra. replace ((- x) ^ 3) with (- x ^ 3) in * by ring. rewrite Rabs_left1; lra.
Qed.
Lemma ab_plus a b A B : Rabs a <= A -> Rabs b <= B -> Rabs (a + b) <= A + B. Proof. intros. eapply Rle_trans; [apply Rabs_triang|lra]. Qed.
Lemma ab_mult a b A B : Rabs a <= A -> Rabs b <= B -> Rabs (a * b) <= A * B. Proof. intros. rewrite Rabs_mult. apply Rmult_le_compat; auto using Rabs_pos. Qed.
Lemma ab_v a v : 0 <= v <= 1 -> Rabs (a * v) <= Rabs a. Proof. intros [A B]. rewrite Rabs_mult, (Rabs_right v) by lra. pose proof (Rabs_pos a). nra. Qed.
(** Also the variant with tanh changes the equation only beyond the order to which it is known, by at most v^8 times a power of the logarithm *)
Theorem C127_tanh_order m1 m2 P y : all_on P -> exists K, forall w, 0 < (m1 + m2) * w <= 1 -> let v := Rpower ((m1 + m2) * w) (1 / 3) in
    Rabs (omfac m1 m2 (with_eom P Buonanno_v2cut) (setw y w) - omfac m1 m2 (with_eom P Buonanno2003) (setw y w)) <= K * v ^ 8 * (1 + Rabs (ln (16 * (v * v)))) ^ 5.
Proof.
  intros (O2 & O3 & O4 & O5 & O6 & O7).
  set (a3 := - (c3 m1 m2 * LS1 y + c4 m1 m2 * LS2 y - c5)). set (s4 := - c7 m1 m2 * SS y + c8 m1 m2 * LS1 y * LS2 y). set (B2 := 1 / (v2cut P * v2cut P)). set (BB := 1 / (v2trans P * v2trans P)). set (CC := BB * BB * BB * BB * BB).
  set (a2 := - c2 m1 m2 + B2). set (a4 := c6 m1 m2 + s4 + a2 * B2). set (a5 := - c9 m1 m2 + a3 * B2). set (a6' := c10 + c11 m1 m2 + c12 m1 m2 + a4 * B2). set (a7 := c14 m1 m2 + a5 * B2).
  set (e6' := a6' + a2 * a2 * a2 / 3). set (e7 := a7 + a2 * a2 * a3).
  set (M := 1 + Rabs a2 + Rabs a3 + Rabs a4 + Rabs a5 + Rabs a6' + Rabs e6' + Rabs c13 + Rabs a7 + Rabs e7). set (b := 1 + Rabs B2). set (c := Rabs (cutoffP P) * ((1 + Rabs BB) * (1 + Rabs BB)) * Rabs CC).
  exists (b * M ^ 5 + b * c + 2 * Rabs B2 * M ^ 5 + 3 * b * M ^ 5). intros w [Q Q1] v. assert (Q' : 0 < om m1 m2 (setw y w)) by exact Q. pose proof (v1_cube m1 m2 (setw y w) Q') as V3. pose proof (vP m1 m2 (setw y w)) as VP. change v with (v1 m1 m2 (setw y w)). clear v.
  assert (S : LS1 (setw y w) = LS1 y /\ LS2 (setw y w) = LS2 y /\ SS (setw y w) = SS y) by (repeat split).
  assert (V1 : v1 m1 m2 (setw y w) <= 1). { apply Rnot_lt_le. intros L. change (om m1 m2 (setw y w)) with ((m1 + m2) * w) in V3. assert (1 < v1 m1 m2 (setw y w) * v1 m1 m2 (setw y w)) by nra. nra. }
  unfold omfac, with_eom. cbv zeta. cbn [eomtype f2 f3 f4 f5 f6 f7 v2cut v6cut v2trans cutoffP]. rewrite O2, O3, O4, O5, O6, O7. destruct S as (-> & -> & ->). fold s4. fold B2. fold BB. fold a3. fold a2. fold CC. fold a4. fold a5. fold a7. fold e7. unfold v7, v6, v5, v4, v3, v2. set (l := ln (16 * (v1 m1 m2 (setw y w) * v1 m1 m2 (setw y w)))). rewrite <- V3. set (v := v1 m1 m2 (setw y w)) in *. clearbody v l. clear V3 Q Q1 Q'.
  set (a6 := a6' - c13 * l). set (e6 := e6' - c13 * l). set (Z := a4 + a5 * v + e6 * (v * v) + e7 * (v * v * v)). set (Y := a3 + Z * v). set (X := a2 + Y * v). set (T := 3 * (a2 * a2) * Z + 3 * a2 * (Y * Y) + Y * (Y * Y) * v).
  set (x := X * (v * v)). set (cut := cutoffP P * ((1 - BB * (v * v)) * (1 - BB * (v * v))) * CC * (v * v)).
  match goal with |- Rabs ?e <= _ => replace e with (v ^ 8 * ((1 - B2 * (v * v)) * cut - B2 * (a6 + a7 * v) - (1 - B2 * (v * v)) * T / 3) + (1 - B2 * (v * v)) * (tanh' x - (x - x ^ 3 / 3))) end.
  2: { match goal with |- context [1 + tanh' ?u + _] => replace u with x by (unfold x, X, Y, Z, e6, e6', a6'; field) end. generalize (tanh' x). intros th. unfold cut, T, x, X, Y, Z, e6, e6', a6, e7, a7, a6', a5, a4, a2, a3, s4. field. }
  set (L := 1 + Rabs l). assert (L1 : 1 <= L) by (unfold L; pose proof (Rabs_pos l); lra). set (N := M * L).
  assert (PA := Rabs_pos a2). assert (PB := Rabs_pos a3). assert (PC := Rabs_pos a4). assert (PD := Rabs_pos a5). assert (PE := Rabs_pos a6'). assert (PF := Rabs_pos e6'). assert (PG := Rabs_pos c13). assert (PH := Rabs_pos a7). assert (PI' := Rabs_pos e7). assert (PJ := Rabs_pos B2). assert (PK := Rabs_pos l).
  assert (M1 : 1 <= M) by (unfold M; lra). assert (MN : M <= N) by (unfold N; nra). assert (N1 : 1 <= N) by lra.
  assert (vv : 0 <= v * v <= 1) by nra. assert (vvv : 0 <= v * v * v <= 1) by nra.
  assert (E6 : Rabs e6 <= Rabs e6' + Rabs c13 * Rabs l) by (unfold e6, Rminus; eapply Rle_trans; [apply Rabs_triang|]; rewrite Rabs_Ropp, Rabs_mult; lra).
  assert (A6 : Rabs a6 <= Rabs a6' + Rabs c13 * Rabs l) by (unfold a6, Rminus; eapply Rle_trans; [apply Rabs_triang|]; rewrite Rabs_Ropp, Rabs_mult; lra).
  assert (NE : N = M + M * Rabs l) by (unfold N, L; ring). assert (CM : Rabs c13 * Rabs l <= M * Rabs l) by (apply Rmult_le_compat_r; [lra|unfold M; lra]).
  assert (BZ : Rabs Z <= Rabs a4 + Rabs a5 + Rabs e6 + Rabs e7). { unfold Z. repeat apply ab_plus; [lra|apply ab_v; lra|apply ab_v; lra|apply ab_v; lra]. }
  assert (BY : Rabs Y <= Rabs a3 + Rabs Z) by (unfold Y; apply ab_plus; [lra|apply ab_v; lra]).
  assert (BX : Rabs X <= Rabs a2 + Rabs Y) by (unfold X; apply ab_plus; [lra|apply ab_v; lra]).
  assert (ML : 0 <= M * Rabs l) by (apply Rmult_le_pos; lra). assert (NX : Rabs X <= N) by (unfold M in NE at 1; lra). assert (NY : Rabs Y <= N) by (unfold M in NE at 1; lra). assert (NZ : Rabs Z <= N) by (unfold M in NE at 1; lra). assert (N2 : Rabs a2 <= N) by (unfold M in NE at 1; lra). assert (N6 : Rabs a6 <= N) by (unfold M in NE at 1; lra). assert (N7 : Rabs a7 <= N) by (unfold M in NE at 1; lra).
  assert (N3 : N * N * N <= N ^ 5). { replace (N ^ 5) with (N * N * N * (N * N)) by ring. assert (0 < N * N * N) by (repeat apply Rmult_lt_0_compat; lra). assert (1 <= N * N) by nra. nra. }
  assert (N5 : N <= N ^ 5). { assert (1 <= N * N) by nra. assert (N <= N * N * N) by nra. lra. }
  assert (BT : Rabs T <= 7 * (N * N * N)).
  { unfold T. replace (7 * (N * N * N)) with (3 * (N * N) * N + 3 * N * (N * N) + N * (N * N)) by ring. assert (R3 : Rabs 3 <= 3) by (rewrite Rabs_right; lra). repeat apply ab_plus; [repeat apply ab_mult; auto|repeat apply ab_mult; auto|]. eapply Rle_trans; [apply ab_v; lra|]. repeat apply ab_mult; auto. }
  assert (Bb : Rabs (1 - B2 * (v * v)) <= b). { unfold b, Rminus. apply ab_plus; [rewrite Rabs_R1; lra|]. rewrite Rabs_Ropp. apply ab_v. lra. }
  assert (BBb : Rabs (1 - BB * (v * v)) <= 1 + Rabs BB). { unfold Rminus. apply ab_plus; [rewrite Rabs_R1; lra|]. rewrite Rabs_Ropp. apply ab_v. lra. }
  assert (Bc : Rabs cut <= c). { unfold cut, c. eapply Rle_trans; [apply ab_v; lra|]. repeat apply ab_mult; auto; lra. }
  assert (V8 : 0 < v ^ 8) by (now apply pow_lt). assert (b1 : 1 <= b) by (unfold b; lra). assert (c0 : 0 <= c) by (eapply Rle_trans; [apply Rabs_pos|exact Bc]).
  assert (TR : Rabs (tanh' x - (x - x ^ 3 / 3)) <= v ^ 8 * N ^ 5).
  { eapply Rle_trans; [apply tanh_series|]. unfold x. rewrite Rabs_mult, (Rabs_right (v * v)) by lra. replace ((Rabs X * (v * v)) ^ 5) with (v ^ 8 * (v * v) * Rabs X ^ 5) by ring. apply Rmult_le_compat; [nra|apply pow_le, Rabs_pos|nra|apply pow_incr; split; [apply Rabs_pos|exact NX]]. }
  assert (IN : Rabs ((1 - B2 * (v * v)) * cut - B2 * (a6 + a7 * v) - (1 - B2 * (v * v)) * T / 3) <= b * c + Rabs B2 * (N + N) + b * (7 * (N * N * N)) * / 3).
  { unfold Rminus at 1. apply ab_plus; [unfold Rminus at 1; apply ab_plus|]; [now apply ab_mult|rewrite Rabs_Ropp; apply ab_mult; [lra|apply ab_plus; [exact N6|eapply Rle_trans; [apply ab_v; lra|exact N7]]]|]. rewrite Rabs_Ropp. unfold Rdiv. apply ab_mult; [now apply ab_mult|]. rewrite Rabs_right; lra. }
  eapply Rle_trans; [apply ab_plus; [apply ab_mult; [rewrite Rabs_right by lra; apply Rle_refl|exact IN]|apply ab_mult; [exact Bb|exact TR]]|].
  assert (LN : N ^ 5 = M ^ 5 * L ^ 5) by (unfold N; apply Rpow_mult_distr). assert (L5 : 1 <= L ^ 5) by (apply pow_R1_Rle; exact L1).
  replace ((b * M ^ 5 + b * c + 2 * Rabs B2 * M ^ 5 + 3 * b * M ^ 5) * v ^ 8 * L ^ 5) with (v ^ 8 * (b * c * L ^ 5 + 2 * Rabs B2 * N ^ 5 + 4 * b * N ^ 5)) by (rewrite LN; ring).
  replace (v ^ 8 * (b * c + Rabs B2 * (N + N) + b * (7 * (N * N * N)) * / 3) + b * (v ^ 8 * N ^ 5)) with (v ^ 8 * (b * c + Rabs B2 * (N + N) + b * (7 * (N * N * N)) * / 3 + b * N ^ 5)) by ring.
  apply Rmult_le_compat_l; [lra|]. assert (bc : 0 <= b * c) by nra. assert (T1 : b * c <= b * c * L ^ 5) by nra. assert (T2 : Rabs B2 * (N + N) <= 2 * Rabs B2 * N ^ 5) by nra. assert (T3 : b * (7 * (N * N * N)) * / 3 <= 3 * (b * N ^ 5)). { assert (b * (N * N * N) <= b * N ^ 5) by (apply Rmult_le_compat_l; lra). assert (0 <= b * N ^ 5) by (apply Rmult_le_pos; [lra|apply pow_le; lra]). lra. }
  lra.
Qed.
Print Assumptions C127_tanh_order.
(** Without spins the radius obeys Kepler's third law with its first and second post-Newtonian correction, up to higher orders in m/r *)
Theorem C127_kepler m1 m2 P y : f2 P = 1 -> f4 P = 1 -> (forall i, (2 <= i <= 7)%nat -> y i = 0) -> exists K, forall w, 0 < (m1 + m2) * w <= 1 ->
  let r := compute_r m1 m2 P (setw y w) in let g := (m1 + m2) / r in let nu := m1 * m2 / (m1 + m2) / (m1 + m2) in r <> 0 ->
  Rabs (((m1 + m2) * w) ^ 2 - g ^ 3 * (1 - (3 - nu) * g + (6 + 41 / 4 * nu + nu ^ 2) * g ^ 2)) <= K * Rabs g ^ 6.
Proof.
  intros F2 F4 Z0. set (nu := m1 * m2 / (m1 + m2) / (m1 + m2)). set (al := (3 - nu) / 3). set (be := nu * (19 / 4 + nu / 9)).
  set (q := Rabs al + Rabs be). exists ((1 + q) * (15 * (Rabs al * Rabs be) + 9 * (Rabs be * Rabs be) + 10 * q ^ 3 + 5 * q ^ 4 + q ^ 5)). intros w [Q Q1] r g nu' Hr. subst nu'. fold nu.
  set (u := Rpower ((m1 + m2) * w) (2 / 3)). assert (UP : 0 < u) by apply exp_pos.
  assert (U3 : u * u * u = ((m1 + m2) * w) ^ 2). { unfold u. rewrite <- !Rpower_plus. replace (2 / 3 + 2 / 3 + 2 / 3) with (INR 2) by (simpl; field). now apply Rpower_pow. }
  assert (U1 : u <= 1). { apply Rnot_lt_le. intros L. assert (1 < u * u) by nra. assert (((m1 + m2) * w) ^ 2 <= 1) by nra. nra. }
  set (k := - al + be * u). set (D := 1 + k * u).
  assert (ER : r = (m1 + m2) / u * D).
  { unfold r, compute_r. cbv zeta. rewrite F2, F4. change (Rpower (om m1 m2 (setw y w)) (2 / 3)) with u. change (pnu m1 m2) with nu. change (pm m1 m2) with (m1 + m2).
    assert (L1 : LS1 (setw y w) = 0) by (unfold LS1, dot; cbn [Nat.add setw Nat.eqb]; rewrite !(Z0 2%nat), !(Z0 3%nat), !(Z0 4%nat) by lia; ring).
    assert (L2 : LS2 (setw y w) = 0) by (unfold LS2, dot; cbn [Nat.add setw Nat.eqb]; rewrite !(Z0 5%nat), !(Z0 6%nat), !(Z0 7%nat) by lia; ring).
    assert (L3 : SS (setw y w) = 0) by (unfold SS, dot; cbn [Nat.add setw Nat.eqb]; rewrite !(Z0 2%nat), !(Z0 3%nat), !(Z0 4%nat) by lia; ring).
    rewrite L1, L2, L3. replace (0 - 3 * 0 * 0) with 0 by ring. unfold D, k, al, be, Rdiv. ring. }
  assert (M0 : m1 + m2 <> 0) by (intros E; rewrite E in Q; lra). assert (D0 : D <> 0) by (intros E; apply Hr; rewrite ER, E; ring).
  assert (EG : g = u / D) by (unfold g; rewrite ER; field; repeat split; auto; lra).
  set (E := - 15 * (al * be) + 9 * (be * be) * u + 10 * k ^ 3 + 5 * k ^ 4 * u + k ^ 5 * (u * u)).
  replace (((m1 + m2) * w) ^ 2 - g ^ 3 * (1 - (3 - nu) * g + (6 + 41 / 4 * nu + nu ^ 2) * g ^ 2)) with (g ^ 6 * (D * E)).
  2: { rewrite <- U3, EG. replace (3 - nu) with (3 * al) by (unfold al; field). replace (6 + 41 / 4 * nu + nu ^ 2) with (3 * be + 6 * (al * al)) by (unfold al, be; field).
    assert (EE : D ^ 5 - D ^ 2 + 3 * al * u * D - (3 * be + 6 * (al * al)) * u ^ 2 = u ^ 3 * E) by (unfold D, E, k; ring).
    transitivity (u ^ 3 * (u ^ 3 * E) / D ^ 5); [field; exact D0|]. rewrite <- EE. field. exact D0. }
  rewrite Rabs_mult, <- RPow_abs, Rmult_comm. apply Rmult_le_compat_r; [apply pow_le, Rabs_pos|].
  assert (BK : Rabs k <= q) by (unfold k, q; apply ab_plus; [rewrite Rabs_Ropp; lra|apply ab_v; lra]). assert (KP : forall n, Rabs (k ^ n) <= q ^ n) by (intros n; rewrite <- RPow_abs; apply pow_incr; split; [apply Rabs_pos|exact BK]).
  apply ab_mult. { unfold D. apply ab_plus; [rewrite Rabs_R1; lra|eapply Rle_trans; [apply ab_v; lra|exact BK]]. }
  unfold E. assert (CN : forall n a b, 0 <= n -> Rabs a <= b -> Rabs (n * a) <= n * b) by (intros; apply ab_mult; [rewrite Rabs_right; lra|assumption]).
  repeat apply ab_plus.
  - replace (- 15 * (al * be)) with (- (15 * (al * be))) by ring. rewrite Rabs_Ropp. apply CN; [lra|]. rewrite Rabs_mult. lra.
  - eapply Rle_trans; [apply ab_v; lra|]. apply CN; [lra|]. rewrite Rabs_mult. lra.
  - apply CN; [lra|apply KP].
  - eapply Rle_trans; [apply ab_v; lra|]. apply CN; [lra|apply KP].
  - eapply Rle_trans; [apply ab_v; nra|apply KP].
Qed.
Print Assumptions C127_kepler.
(** the hypotheses are met: two equal masses without spin have a radius that is not zero *)
Definition ex_z (i : nat) : R := match i with 10%nat => 1 | _ => 0 end.
Example C127_ex2 : all_on ex_par /\ (forall i, (2 <= i <= 7)%nat -> ex_z i = 0) /\ 0 < (1 / 2 + 1 / 2) * (1 / 8) <= 1 /\ 0 < compute_r (1 / 2) (1 / 2) ex_par (setw ex_z (1 / 8)).
Proof.
  split; [repeat split|]. split. { intros i I. do 8 (destruct i as [|i]; [reflexivity|]). lia. } split; [lra|].
  unfold compute_r. cbv zeta. assert (E0 : LS1 (setw ex_z (1 / 8)) = 0 /\ LS2 (setw ex_z (1 / 8)) = 0 /\ SS (setw ex_z (1 / 8)) = 0) by (unfold LS1, LS2, SS, dot; cbn [Nat.add setw Nat.eqb ex_z]; repeat split; ring). destruct E0 as (-> & -> & ->).
  assert (UP : 0 < Rpower (om (1 / 2) (1 / 2) (setw ex_z (1 / 8))) (2 / 3)) by apply exp_pos.
  assert (U1 : Rpower (om (1 / 2) (1 / 2) (setw ex_z (1 / 8))) (2 / 3) <= 1).
  { unfold om, pm. cbn [setw Nat.eqb]. apply Rle_trans with (Rpower ((1 / 2 + 1 / 2) * (1 / 8)) 0); [|rewrite Rpower_O by lra; apply Rle_refl]. unfold Rpower. apply Rlt_le, exp_increasing. rewrite Rmult_0_l. assert (ln ((1 / 2 + 1 / 2) * (1 / 8)) < 0) by (rewrite <- ln_1; apply ln_increasing; lra). lra. }
  set (u := Rpower _ _) in *. replace (pm (1 / 2) (1 / 2)) with 1 by (unfold pm; field). replace (pnu (1 / 2) (1 / 2)) with (/ 4) by (unfold pnu, pm; field). cbn [ex_par f2 f3 f4].
  match goal with |- 0 < 1 * (1 / u) * ?e => replace e with (1 - 11 / 12 * u + 43 / 36 * (u * u)) by (replace 0.5 with (/ 2) by lra; field) end. apply Rmult_lt_0_compat; [|nra]. rewrite Rmult_1_l. apply Rdiv_lt_0_compat; lra.
Qed.

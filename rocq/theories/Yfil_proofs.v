(** Proofs about the Ylm filter: the tables, the one-dimensional transforms, the loops over the box. *)
From Verif Require Import Base Rutil Rsum Trig Arrays Loops Mat_model Mat_spec Mat_proofs Four_model Four_spec Four_proofs Four_props Dir_model Dir_spec Dir_props
  Lines_model Lines_spec Lines_proofs Lines_kernel Lines_props Integ_proofs Integ_props Filt_model Swsh_spec Swsh_proofs Modes_math Modes_proofs Leg_math Yfil_model.
Local Open Scope R_scope.

(** ** unrolled loops *)
Lemma unroll4_eq {T} n (body : nat -> T -> res T) s : unroll4 n body s = for_nat 0 n body s.
Proof.
  unfold unroll4, for_nat. rewrite !Nat.sub_0_r. set (r := (n mod 4)%nat).
  assert (G : forall Q, (do s <- forl (seq 0 r) body s; forl (seq 0 Q) (fun q s => let k := (r + 4 * q)%nat in do s <- body k s; do s <- body (k + 1)%nat s; do s <- body (k + 2)%nat s; body (k + 3)%nat s) s) = forl (seq 0 (r + 4 * Q)) body s).
  { induction Q as [|Q IH]. { rewrite Nat.mul_0_r, Nat.add_0_r. cbn [seq forl]. now destruct (forl (seq 0 r) body s). }
    replace (r + 4 * S Q)%nat with (r + 4 * Q + 4)%nat by lia. rewrite seq_app, forl_app, <- IH. rewrite (seq_S Q 0). change (seq (0 + (r + 4 * Q)) 4) with [r + 4 * Q; S (r + 4 * Q); S (S (r + 4 * Q)); S (S (S (r + 4 * Q)))]%nat.
    destruct (forl (seq 0 r) body s) as [t| |]; cbn [rbind]; auto. rewrite forl_app. destruct (forl (seq 0 Q) _ t) as [t'| |]; cbn [rbind]; auto. cbv zeta. cbn [forl plus].
    replace (r + 4 * Q + 1)%nat with (S (r + 4 * Q)) by lia. replace (r + 4 * Q + 2)%nat with (S (S (r + 4 * Q))) by lia. replace (r + 4 * Q + 3)%nat with (S (S (S (r + 4 * Q)))) by lia.
    destruct (body (r + 4 * Q)%nat t') as [x| |]; cbn [rbind]; auto. destruct (body (S (r + 4 * Q)) x) as [y| |]; cbn [rbind]; auto. destruct (body (S (S (r + 4 * Q))) y) as [z| |]; cbn [rbind]; auto. }
  rewrite G. f_equal. f_equal. unfold r. assert (D := Nat.div_mod n 4 ltac:(lia)). lia.
Qed.
Lemma fill0 n (body : nat -> list R -> res (list R)) (v : nat -> R) c : (n <= List.length c)%nat -> (forall j s, (j < n)%nat -> List.length s = List.length c -> body j s = wr s j (v j)) ->
  exists c', for_nat 0 n body c = Ok c' /\ List.length c' = List.length c /\ (forall j, (j < n)%nat -> c'.[j] = v j) /\ forall j, (n <= j)%nat -> c'.[j] = c.[j].
Proof.
  intros L H. destruct (fill_loop 0 n body v c 0 L) as (c' & E & L' & V). { intros j s Hj Ls. apply H; auto; lia. }
  exists c'. split; auto. split; auto. split; intros j Hj; rewrite V; cbn [Nat.leb andb]; destruct (Nat.ltb_spec j n); auto; lia.
Qed.
Lemma vec_add_ok d1 d2 r n : List.length d1 = n -> List.length d2 = n -> List.length r = n -> exists r', vec_add d1 d2 r n = Ok r' /\ List.length r' = n /\ forall j, (j < n)%nat -> r'.[j] = d1.[j] + d2.[j].
Proof.
  intros L1 L2 L. unfold vec_add. rewrite unroll4_eq. edestruct (fill0 n) as (r' & E & L' & V & _). 3:{ exists r'. split; [exact E|]. split; [lia|exact V]. } lia. intros j s Hj Ls. cbv beta. rewrite !(rd_ok _ j 0) by lia. reflexivity.
Qed.
Lemma vec_mul_ok a d1 r n : List.length d1 = n -> List.length r = n -> exists r', vec_mul a d1 r n = Ok r' /\ List.length r' = n /\ forall j, (j < n)%nat -> r'.[j] = a * d1.[j].
Proof.
  intros L1 L. unfold vec_mul. rewrite unroll4_eq. edestruct (fill0 n) as (r' & E & L' & V & _). 3:{ exists r'. split; [exact E|]. split; [lia|exact V]. } lia. intros j s Hj Ls. cbv beta. rewrite !(rd_ok _ j 0) by lia. reflexivity.
Qed.
Lemma vec_pt_mul_ok d1 d2 r n : List.length d1 = n -> List.length d2 = n -> List.length r = n -> exists r', vec_pt_mul d1 d2 r n = Ok r' /\ List.length r' = n /\ forall j, (j < n)%nat -> r'.[j] = d1.[j] * d2.[j].
Proof.
  intros L1 L2 L. unfold vec_pt_mul. rewrite unroll4_eq. edestruct (fill0 n) as (r' & E & L' & V & _). 3:{ exists r'. split; [exact E|]. split; [lia|exact V]. } lia. intros j s Hj Ls. cbv beta. rewrite !(rd_ok _ j 0) by lia. reflexivity.
Qed.
Lemma memcpy_ok st off src n : (off + n <= List.length st)%nat -> List.length src = n ->
  exists st', memcpy st off src n = Ok st' /\ List.length st' = List.length st /\ forall x, st'.[x] = if ((off <=? x) && (x <? off + n))%nat then src.[x - off] else st.[x].
Proof.
  intros L Ls. unfold memcpy. edestruct (for_nat_inv (fun i s => List.length s = List.length st /\ forall x, s.[x] = if ((off <=? x) && (x <? off + i))%nat then src.[x - off] else st.[x])) as (st' & E & L' & V).
  4:{ exists st'. split; [exact E|]. split; auto. } lia.
  - split; auto. intros x. destruct (Nat.leb_spec off x), (Nat.ltb_spec x (off + 0)); cbn [andb]; auto; lia.
  - intros i s Hi (L1 & V1). cbv beta. rewrite (rd_ok _ i 0) by lia. cbn [rbind]. rewrite wr_ok by lia. eexists. split; [reflexivity|]. split; [now rewrite upd_length|]. intros x.
    destruct (Nat.eq_dec x (off + i)) as [->|N].
    + rewrite nth_upd_eq by lia. destruct (Nat.leb_spec off (off + i)); [|lia]. destruct (Nat.ltb_spec (off + i) (off + (i + 1))); [|lia]. cbn [andb]. f_equal. lia.
    + rewrite nth_upd_ne by auto. rewrite V1. destruct (Nat.leb_spec off x), (Nat.ltb_spec x (off + i)), (Nat.ltb_spec x (off + (i + 1))); cbn [andb]; auto; lia.
Qed.
Lemma memcpy0_ok d src n : List.length d = n -> List.length src = n -> exists d', memcpy d 0 src n = Ok d' /\ List.length d' = n /\ forall j, (j < n)%nat -> d'.[j] = src.[j].
Proof.
  intros L Ls. destruct (memcpy_ok d 0 src n) as (d' & E & L' & V); [lia|lia|]. exists d'. split; auto. split; [lia|]. intros j Hj. rewrite V. cbn [Nat.leb]. destruct (Nat.ltb_spec j (0 + n)); [|lia]. cbn [andb]. f_equal. lia.
Qed.

(** ** recurrence coefficients *)
Lemma eps2 m l : (m < l)%nat -> eps m l = sqrt ((INR l * INR l - INR m * INR m) / (4 * INR l * INR l - 1)). Proof. reflexivity. Qed.
Lemma sqrt_eq x y : 0 <= y -> x = y * y -> sqrt x = y. Proof. intros H ->. now apply sqrt_square. Qed.
Lemma an_eps m l : (m <= l)%nat -> L2_an m l = / eps m (S l).
Proof.
  intros H. assert (Pe := eps_pos m (S l) ltac:(lia)). assert (E := eps_sq m (S l) ltac:(lia)). rewrite S_INR in E. apply (Rmult_eq_reg_r (eps m (S l))); [|lra]. rewrite Rinv_l by lra.
  assert (Hl : INR m <= INR l) by (apply le_INR; auto). assert (Pm := pos_INR m). unfold L2_an. rewrite !plus_INR, minus_INR, !mult_INR by auto. change (INR 1) with 1. replace (INR 2) with 2 by (simpl; ring). replace (INR 3) with 3 by (simpl; ring).
  set (L := INR l) in *. set (M := INR m) in *. set (e := eps m (S l)) in *.
  rewrite (sqrt_eq _ ((L - M + 1) / ((2 * L + 1) * e))).
  - field. repeat split; lra.
  - apply Rmult_le_pos; [lra|]. left. apply Rinv_0_lt_compat. apply Rmult_lt_0_compat; lra.
  - replace ((L - M + 1) / ((2 * L + 1) * e) * ((L - M + 1) / ((2 * L + 1) * e))) with ((L - M + 1) * (L - M + 1) / ((2 * L + 1) * (2 * L + 1) * (e * e))) by (field; split; lra).
    replace (e * e) with (((L + 1) * (L + 1) - M * M) / (4 * (L + 1) * (L + 1) - 1)). { field. repeat split; try lra; nra. } rewrite <- E. field. nra.
Qed.
Lemma cn_eps m l : (m <= l)%nat -> L2_cn m l = - eps m l / eps m (S l).
Proof.
  intros H. unfold L2_cn. destruct (Nat.eqb_spec l 0) as [->|N]. { assert (m = 0)%nat by lia. subst m. rewrite eps_m. unfold Rdiv. ring. }
  assert (Pe := eps_pos m (S l) ltac:(lia)). assert (E := eps_sq m (S l) ltac:(lia)). rewrite S_INR in E. assert (E0 := eps_sq m l H). assert (P0 : 0 <= eps m l) by apply sqrt_pos.
  assert (Hl : INR m <= INR l) by (apply le_INR; auto). assert (Pm := pos_INR m). assert (L1 : 1 <= INR l) by (apply (le_INR 1); lia).
  rewrite !plus_INR, !minus_INR, !mult_INR by lia. change (INR 1) with 1. replace (INR 2) with 2 by (simpl; ring). replace (INR 3) with 3 by (simpl; ring).
  set (L := INR l) in *. set (M := INR m) in *. set (e := eps m (S l)) in *. set (d := eps m l) in *.
  assert (Ee : e * e = ((L + 1) * (L + 1) - M * M) / (4 * (L + 1) * (L + 1) - 1)) by (rewrite <- E; field; nra).
  assert (Ed : d * d = (L * L - M * M) / (4 * L * L - 1)) by (rewrite <- E0; field; nra).
  rewrite (sqrt_eq _ (d * (L - M + 1) / ((L + M) * e))).
  - field. repeat split; lra.
  - apply Rmult_le_pos; [apply Rmult_le_pos; lra|]. left. apply Rinv_0_lt_compat. apply Rmult_lt_0_compat; lra.
  - replace (d * (L - M + 1) / ((L + M) * e) * (d * (L - M + 1) / ((L + M) * e))) with ((d * d) * (L - M + 1) * (L - M + 1) / ((L + M) * (L + M) * (e * e))) by (field; split; lra).
    rewrite Ee, Ed. field. repeat split; try lra; nra.
Qed.

(** ** the first function of a table *)
Definition mcons (m : nat) : R :=
  (if (m mod 2 =? 0)%nat then 1 else -1) * (sqrt (INR m + / 2) * fold_right Rmult 1 (map (fun i => sqrt ((INR m - INR i / 2) / (INR m - INR i))) (seq 0 m)) * (if (m =? 0)%nat then 1 else Rpower 2 (- INR m / 2))).
Lemma prod_snoc f n : fold_right Rmult 1 (map f (seq 0 (S n))) = fold_right Rmult 1 (map f (seq 0 n)) * f n.
Proof.
  rewrite seq_S, map_app, fold_right_app. cbn [map fold_right plus]. rewrite Rmult_1_r. generalize (f n). intros y. induction (map f (seq 0 n)) as [|x l IH]; cbn [fold_right]; [ring|]. rewrite IH. ring.
Qed.
Lemma Pmm_ok m e n r : List.length e = n -> List.length r = n -> exists r', Pmm_L2 m e n r = Ok r' /\ List.length r' = n /\ forall j, (j < n)%nat -> r'.[j] = mcons m * sin e.[j] ^ m.
Proof.
  intros Le Lr. unfold Pmm_L2.
  assert (E : for_nat 0 m (fun (i : nat) (r : R * R) => let '(mcons, id) := r in Ok (mcons * sqrt ((INR m - id / 2) / (INR m - id)), id + 1)) (sqrt (INR m + / 2), 0) =
    Ok (sqrt (INR m + / 2) * fold_right Rmult 1 (map (fun i => sqrt ((INR m - INR i / 2) / (INR m - INR i))) (seq 0 m)), INR m)).
  { edestruct (for_nat_inv (fun i (s : R * R) => s = (sqrt (INR m + / 2) * fold_right Rmult 1 (map (fun i => sqrt ((INR m - INR i / 2) / (INR m - INR i))) (seq 0 i)), INR i))) as (s & E & V). 4:{ rewrite E, V. reflexivity. } lia.
    - cbn [seq map fold_right]. f_equal. ring.
    - intros i s Hi ->. eexists. split; [reflexivity|]. rewrite Nat.add_1_r, prod_snoc, S_INR. f_equal. ring. }
  rewrite E. cbn [rbind fst]. cbv zeta. set (Q := if (m mod 2 =? 0)%nat then _ else _).
  assert (EQ : Q = mcons m). { unfold Q, mcons. destruct (m =? 0)%nat, (m mod 2 =? 0)%nat; ring. } rewrite EQ.
  edestruct (fill0 n) as (r' & E' & L' & V & _). 3:{ exists r'. split; [exact E'|]. split; [lia|exact V]. } lia. intros j s Hj Ls. cbv beta. rewrite !(rd_ok _ j 0) by lia. reflexivity.
Qed.
Lemma prod_sq m : forall n, (n <= m)%nat -> let p := fold_right Rmult 1 (map (fun i => sqrt ((INR m - INR i / 2) / (INR m - INR i))) (seq 0 n)) in
  p * p = INR (fact (2 * m)) * INR (fact (m - n)) / (INR (fact (2 * m - n)) * INR (fact m) * 2 ^ n).
Proof.
  induction n as [|n IH]; intros H p.
  - unfold p. cbn [seq map fold_right pow]. rewrite !Nat.sub_0_r. field. split; apply INR_fact_neq_0.
  - unfold p. rewrite prod_snoc. specialize (IH ltac:(lia)). cbv zeta in IH. set (q := fold_right Rmult 1 _) in *.
    assert (Hn : INR (S n) <= INR m) by (apply le_INR; lia). rewrite S_INR in Hn. assert (Pn := pos_INR n).
    assert (Sq : forall x y, 0 <= y -> x * sqrt y * (x * sqrt y) = x * x * y) by (intros x y Hy; replace (x * sqrt y * (x * sqrt y)) with (x * x * (sqrt y * sqrt y)) by ring; now rewrite sqrt_sqrt).
    rewrite Sq. 2:{ apply Rmult_le_pos; [lra|]. left. apply Rinv_0_lt_compat. lra. }
    rewrite IH. replace (m - n)%nat with (S (m - S n)) by lia. replace (2 * m - n)%nat with (S (2 * m - S n)) by lia. rewrite !fact_simpl, !mult_INR.
    replace (INR (S (m - S n))) with (INR m - INR n) by (rewrite <- minus_INR by lia; f_equal; lia). replace (INR (S (2 * m - S n))) with (2 * INR m - INR n) by (replace 2 with (INR 2) by (simpl; ring); rewrite <- mult_INR, <- minus_INR by lia; f_equal; lia).
    cbn [pow]. field. repeat split; try apply INR_fact_neq_0; try lra. apply pow_nonzero; lra.
Qed.
Lemma Rpower_sq m : Rpower 2 (- INR m / 2) * Rpower 2 (- INR m / 2) = / 2 ^ m.
Proof. rewrite <- Rpower_plus. replace (- INR m / 2 + - INR m / 2) with (- INR m) by field. rewrite Rpower_Ropp, Rpower_pow by lra. reflexivity. Qed.
Lemma mcons_norm m : normC m (mcons m).
Proof.
  unfold normC, mcons. assert (Q := prod_sq m m ltac:(lia)). cbv zeta in Q. set (p := fold_right Rmult 1 _) in *. set (s := if (m mod 2 =? 0)%nat then 1 else -1). set (t := if (m =? 0)%nat then 1 else Rpower 2 (- INR m / 2)).
  assert (Es : s * s = 1) by (unfold s; destruct (m mod 2 =? 0)%nat; ring). assert (Et : t * t = / 2 ^ m). { unfold t. destruct (Nat.eqb_spec m 0) as [->|]; [cbn [pow]; field|apply Rpower_sq]. }
  assert (Pm := pos_INR m). replace (s * (sqrt (INR m + / 2) * p * t) * (s * (sqrt (INR m + / 2) * p * t))) with ((s * s) * (sqrt (INR m + / 2) * sqrt (INR m + / 2)) * (p * p) * (t * t)) by ring.
  rewrite Es, sqrt_sqrt, Q, Et by lra. rewrite Nat.sub_diag. replace (2 * m - m)%nat with m by lia. replace (2 * m + 1)%nat with (S (2 * m)) by lia. rewrite fact_simpl, mult_INR, S_INR, mult_INR. replace (INR 2) with 2 by (simpl; ring). change (INR (fact 0)) with 1.
  replace (4 ^ m) with (2 ^ m * 2 ^ m) by (rewrite <- Rpow_mult_distr; f_equal; ring). field. split; [apply INR_fact_neq_0|apply pow_nonzero; lra].
Qed.

(** ** the tables *)
Definition firstC (c : literals) (m : nat) : R := if (m =? 0)%nat then c_half c else mcons m.
Definition pnode (c : literals) (bw j : nat) : R := (2 * INR j + 1) * c_pi c / INR (2 * (2 * bw)).
Definition wok (bw : nat) (w : wsp) : Prop :=
  List.length (w_pp w) = (2 * bw)%nat /\ List.length (w_p w) = (2 * bw)%nat /\ List.length (w_t1 w) = (2 * bw)%nat /\ List.length (w_t2 w) = (2 * bw)%nat /\
  List.length (w_t3 w) = (2 * bw)%nat /\ List.length (w_t4 w) = (2 * bw)%nat /\ List.length (w_x w) = (2 * bw)%nat /\ List.length (w_e w) = (2 * bw)%nat.
Lemma table_ok c bw m st w : (m < bw)%nat -> wok bw w -> List.length st = (2 * bw * bw)%nat ->
  exists st' w', PmlTableGen c bw m st w = Ok (st', w') /\ wok bw w' /\ List.length st' = (2 * bw * bw)%nat /\
    forall i j, (m + i < bw)%nat -> (j < 2 * bw)%nat -> st'.[i * (2 * bw) + j] = leg m (firstC c m) i (pnode c bw j).
Proof.
  intros Hm (W1 & W2 & W3 & W4 & W5 & W6 & W7 & W8) Lst. unfold PmlTableGen. cbv zeta. set (n := (2 * bw)%nat) in *. set (P := leg m (firstC c m)). set (Q := legm m (firstC c m)). set (th := pnode c bw).
  destruct (fill0 n (fun i e => wr e i (cos ((2 * INR i + 1) * c_pi c / INR (2 * n)))) (fun i => cos (th i)) (w_x w)) as (x & Ex & Lx & Vx & _); [lia|reflexivity|]. unfold EvalPts. rewrite Ex. cbn [rbind]. clear Ex.
  destruct (fill0 n (fun i e => wr e i ((2 * INR i + 1) * c_pi c / INR (2 * n))) th (w_e w)) as (e & Ee & Le & Ve & _); [lia|reflexivity|]. unfold ArcCosEvalPts. rewrite Ee. cbn [rbind]. clear Ee.
  destruct (fill0 n (fun i l => wr l i 0) (fun _ => 0) (w_pp w)) as (pp & Ep & Lp & Vp & _); [lia|reflexivity|]. rewrite Ep. cbn [rbind]. clear Ep.
  assert (First : exists p, (if (m =? 0)%nat then for_nat 0 n (fun i l => wr l i (c_half c)) (w_p w) else Pmm_L2 m e n (w_p w)) = Ok p /\ List.length p = n /\ forall j, (j < n)%nat -> p.[j] = P 0%nat (th j)).
  { unfold P, leg, firstC. cbn [lp snd]. destruct (Nat.eqb_spec m 0) as [->|N].
    - destruct (fill0 n (fun i l => wr l i (c_half c)) (fun _ => c_half c) (w_p w)) as (p & E & L & V & _); [lia|reflexivity|]. exists p. split; auto. split; [lia|]. intros j Hj. rewrite V by auto. cbn [pow]. ring.
    - destruct (Pmm_ok m e n (w_p w)) as (p & E & L & V); [lia|lia|]. exists p. split; auto. split; auto. intros j Hj. rewrite V, Ve by auto. reflexivity. }
  destruct First as (p & E1 & L1 & V1). rewrite E1. cbn [rbind]. clear E1.
  destruct (memcpy_ok st 0 p n) as (st0 & E2 & L2 & V2); [nia|auto|]. rewrite E2. cbn [rbind]. clear E2.
  assert (Nb : bw <> 0%nat) by lia.
  match goal with |- context [for_nat 0 (bw - m - 1) ?B ?s] => edestruct (for_nat_inv (fun i (r : list R * wsp) => List.length (fst r) = (n * bw)%nat /\ wok bw (snd r) /\
     (forall i' j, (i' <= i)%nat -> (j < n)%nat -> (fst r).[i' * n + j] = P i' (th j)) /\ (forall j, (j < n)%nat -> (w_pp (snd r)).[j] = Q i (th j)) /\ (forall j, (j < n)%nat -> (w_p (snd r)).[j] = P i (th j))) B 0 (bw - m - 1) s) as ([st' w'] & E & I1 & I2 & I3 & _ & _) end.
  - lia.
  - cbn [fst snd w_pp w_p]. split; [lia|]. split. { unfold wok. cbn. fold n. repeat split; lia. } split; [|split; auto].
    + intros i' j Hi Hj. assert (i' = 0)%nat by lia. subst i'. rewrite Nat.mul_0_l, Nat.add_0_l, V2. cbn [Nat.leb]. destruct (Nat.ltb_spec j (0 + n)); [|lia]. cbn [andb]. rewrite Nat.sub_0_r. now apply V1.
  - intros i [s v] Hi (I1 & (U1 & U2 & U3 & U4 & U5 & U6 & U7 & U8) & I3 & I4 & I5). cbn [fst snd] in I1, I3, I4, I5. fold n in U1, U2, U3, U4, U5, U6, U7, U8. cbv beta iota.
    destruct (vec_mul_ok (L2_cn m (m + i)) (w_pp v) (w_t1 v) n) as (t1 & F1 & M1 & T1); auto. cbn [snd] in *. rewrite F1. cbn [rbind].
    destruct (vec_pt_mul_ok (w_p v) x (w_t2 v) n) as (t2 & F2 & M2 & T2); [auto|lia|auto|]. rewrite F2. cbn [rbind].
    destruct (vec_mul_ok (L2_an m (m + i)) t2 (w_t3 v) n) as (t3 & F3 & M3 & T3); auto. rewrite F3. cbn [rbind].
    destruct (vec_add_ok t3 t1 (w_t4 v) n) as (t4 & F4 & M4 & T4); auto. rewrite F4. cbn [rbind].
    assert (V4 : forall j, (j < n)%nat -> t4.[j] = P (i + 1)%nat (th j)).
    { intros j Hj. rewrite T4, T3, T2, T1, I4, I5, Vx by auto. rewrite an_eps, cn_eps by lia. rewrite Nat.add_1_r. unfold P. assert (G := leg_rec m (firstC c m) i (th j)). assert (Ne := epsS m i).
      apply (Rmult_eq_reg_l (eps m (S (m + i)))); auto. rewrite G. fold P Q. field. exact Ne. }
    destruct (memcpy_ok s ((i + 1) * n) t4 n) as (s' & F5 & M5 & T5); [nia|auto|]. rewrite F5. cbn [rbind].
    destruct (memcpy0_ok (w_pp v) (w_p v) n) as (pp' & F6 & M6 & T6); auto. rewrite F6. cbn [rbind].
    destruct (memcpy0_ok (w_p v) t4 n) as (p' & F7 & M7 & T7); auto. rewrite F7. cbn [rbind].
    eexists. split; [reflexivity|]. cbn [fst snd w_pp w_p]. split; [lia|]. split. { unfold wok. cbn. fold n. repeat split; lia. } split; [|split].
    + intros i' j Hi' Hj. rewrite T5. destruct (Nat.eq_dec i' (i + 1)) as [->|Ni].
      * destruct (Nat.leb_spec ((i + 1) * n) ((i + 1) * n + j)); [|lia]. destruct (Nat.ltb_spec ((i + 1) * n + j) ((i + 1) * n + n)); [|lia]. cbn [andb]. replace ((i + 1) * n + j - (i + 1) * n)%nat with j by lia. now apply V4.
      * destruct (Nat.leb_spec ((i + 1) * n) (i' * n + j)); [exfalso; nia|]. cbn [andb]. apply I3; lia.
    + intros j Hj. rewrite T6, I5 by auto. unfold Q. now rewrite Nat.add_1_r, leg_S.
    + intros j Hj. rewrite T7, V4 by auto. reflexivity.
  - rewrite E. cbn [rbind]. exists st', w'. cbn [fst snd] in *. split; auto. split; auto. split; auto. intros i j Hi Hj. apply I3; lia.
Qed.
Definition pok (c : literals) (bw : nat) (plm : nat -> list R) : Prop := forall m i j, (m < bw)%nat -> (m + i < bw)%nat -> (j < 2 * bw)%nat ->
  (i * (2 * bw) + j < List.length (plm m))%nat /\ (plm m).[i * (2 * bw) + j] = leg m (firstC c m) i (pnode c bw j).
Lemma all_tables_ok c bw plm w : wok bw w -> (forall m, (m < bw)%nat -> List.length (plm m) = (2 * bw * bw)%nat) -> exists plm', all_tables c bw plm w = Ok plm' /\ pok c bw plm'.
Proof.
  intros Hw Hp. unfold all_tables.
  match goal with |- context [for_nat 0 bw ?B ?s] => destruct (for_nat_inv (fun k (r : (nat -> list R) * wsp) => wok bw (snd r) /\ (forall m, (m < bw)%nat -> List.length (fst r m) = (2 * bw * bw)%nat) /\
    forall m i j, (m < k)%nat -> (m + i < bw)%nat -> (j < 2 * bw)%nat -> (fst r m).[i * (2 * bw) + j] = leg m (firstC c m) i (pnode c bw j)) B 0 bw s) as ([p' w'] & E & I1 & I2 & I3) end.
  - lia.
  - cbn [fst snd]. split; auto. split; auto. intros; lia.
  - intros k [p v] Hk (I1 & I2 & I3). cbn [fst snd] in *. destruct (table_ok c bw k (p k) v) as (st & v' & E & Wv & L & V); auto; [lia|apply I2; lia|]. rewrite E. cbn [rbind fst snd]. eexists. split; [reflexivity|]. cbn [fst snd]. split; auto. split.
    + intros m Hm. unfold setv. destruct (Nat.eqb_spec m k); auto.
    + intros m i j Hm Hi Hj. unfold setv. destruct (Nat.eqb_spec m k) as [->|]; [now apply V|]. apply I3; auto; lia.
  - rewrite E. cbn [rbind fst snd] in *. exists p'. split; auto. intros m i j Hm Hi Hj. split; [rewrite I2 by auto; nia|apply I3; auto].
Qed.
(** ** the weights *)
Lemma makeweights_ok bw w : List.length w = (4 * bw)%nat -> exists w', makeweights bw w = Ok w' /\ List.length w' = (4 * bw)%nat /\
  forall j, (j < 2 * bw)%nat -> w'.[j] = wq bw j /\ w'.[j + 2 * bw] = wq bw j * sin (node bw j).
Proof.
  intros L. unfold makeweights. cbv zeta.
  match goal with |- context [for_nat 0 (2 * bw) ?B ?s] => destruct (for_nat_inv (fun k (r : list R) => List.length r = (4 * bw)%nat /\ forall j, (j < k)%nat -> r.[j] = wq bw j /\ r.[j + 2 * bw] = wq bw j * sin (node bw j)) B 0 (2 * bw)%nat s) as (w' & E & I1 & I2) end.
  - lia.
  - split; auto. intros; lia.
  - intros j r Hj (I1 & I2). cbv beta. rewrite (sum_loop 0 bw _ (fun k => 1 / INR (2 * k + 1) * sin (INR (2 * k + 1) * node bw j))).
    2:{ intros k s _. f_equal. f_equal. f_equal. f_equal. unfold node. rewrite mult_INR. ring. }
    cbn [rbind]. rewrite wr_ok by lia. cbn [rbind]. rewrite wr_ok by (rewrite upd_length; lia). eexists. split; [reflexivity|]. split; [now rewrite !upd_length|].
    set (s := (0 + Sig (bw - 0) _) * sin (INR (2 * j + 1) * (PI / INR (4 * bw))) * (2 / INR bw)). assert (Es : s = wq bw j). { unfold s, wq. fold (node bw j). rewrite Nat.sub_0_r. cbn [plus]. ring. }
    intros i Hi. destruct (Nat.eq_dec i j) as [->|N].
    + rewrite nth_upd_ne by lia. rewrite nth_upd_eq by lia. rewrite nth_upd_eq by (rewrite upd_length; lia). rewrite Es. split; reflexivity.
    + rewrite !nth_upd_ne by lia. apply I2. lia.
  - exists w'. auto.
Qed.

(** ** the transforms of one line *)
Lemma analysis1_ok data bw m weights result plm wd (P : nat -> nat -> R) (w : nat -> R) : (m <= bw)%nat -> (2 * bw <= List.length data)%nat -> (2 * bw <= List.length weights)%nat -> (bw <= List.length result)%nat -> (2 * bw <= List.length wd)%nat ->
  (forall i j, (m + i < bw)%nat -> (j < 2 * bw)%nat -> (i * (2 * bw) + j < List.length plm)%nat /\ plm.[i * (2 * bw) + j] = P i j) -> (forall j, (j < 2 * bw)%nat -> weights.[j] = w j) ->
  exists r, Naive_AnalysisX data bw m weights result plm wd = Ok r /\ List.length r = List.length result /\ forall i, (m + i < bw)%nat -> r.[i] = Sig (2 * bw) (fun j => w j * data.[j] * P i j).
Proof.
  intros Hm Ld Lw Lr Lwd HP Hw. unfold Naive_AnalysisX. cbv zeta. set (n := (2 * bw)%nat) in *.
  destruct (fill0 (bw - m) (fun i r => wr r i 0) (fun _ => 0) result) as (r0 & E0 & L0 & _ & _); [lia|reflexivity|]. rewrite E0. cbn [rbind].
  destruct (fill0 n (fun i w => do x <- rd data i; do y <- rd weights i; wr w i (x * y)) (fun j => w j * data.[j]) wd) as (d & E1 & L1 & V1 & _); [lia| |].
  { intros j s Hj Ls. rewrite (rd_ok data j 0), (rd_ok weights j 0) by lia. cbn [rbind]. f_equal. rewrite Hw by auto. ring. } rewrite E1. cbn [rbind].
  match goal with |- context [for_nat 0 (bw - m) ?B r0] => destruct (fill0 (bw - m) B (fun i => Sig n (fun j => w j * data.[j] * P i j)) r0) as (r & E & L & V & _); [lia| |] end.
  2:{ exists r. split; auto. split; [lia|]. intros i Hi. apply V. lia. }
  intros i s Hi Ls. cbv beta. set (g := fun j => w j * data.[j] * P i j).
  assert (T : forall j, (j < n)%nat -> (do x <- rd d j; do y <- rd plm (i * n + j); Ok (x * y)) = Ok (g j)).
  { intros j Hj. destruct (HP i j ltac:(lia) Hj) as [B V']. rewrite (rd_ok d j 0), (rd_ok plm (i * n + j) 0) by lia. cbn [rbind]. rewrite V1, V' by auto. reflexivity. }
  assert (Dn := Nat.div_mod n 4 ltac:(lia)). assert (Hr := Nat.mod_upper_bound n 4 ltac:(lia)). set (q := (n / 4)%nat) in *. set (k := (n mod 4)%nat) in *.
  match goal with |- context [for_nat 0 k ?B (0, 0, 0, 0)] => destruct (for_nat_inv (fun j (s : R * R * R * R) => let '(a0, a1, a2, a3) := s in a0 + a1 + a2 + a3 = Sig j g) B 0 k (0, 0, 0, 0)) as (s1 & F1 & I1) end.
  - lia. - rewrite !Rplus_0_r. reflexivity.
  - intros j [[[a0 a1] a2] a3] Hj I. rewrite T by lia. cbn [rbind]. eexists. split; [reflexivity|]. rewrite Nat.add_1_r, Sig_S, <- I. ring.
  - rewrite F1. cbn [rbind].
    match goal with |- context [for_nat 0 q ?B s1] => destruct (for_nat_inv (fun j (s : R * R * R * R) => let '(a0, a1, a2, a3) := s in a0 + a1 + a2 + a3 = Sig (k + 4 * j) g) B 0 q s1) as (s2 & F2 & I2) end.
    + lia. + rewrite Nat.mul_0_r, Nat.add_0_r. exact I1.
    + intros j [[[a0 a1] a2] a3] Hj I. rewrite !T by lia. cbn [rbind]. eexists. split; [reflexivity|]. replace (k + 4 * (j + 1))%nat with (S (S (S (S (k + 4 * j))))) by lia. rewrite !Sig_S, <- I.
      replace (k + 4 * j + 1)%nat with (S (k + 4 * j)) by lia. replace (k + 4 * j + 2)%nat with (S (S (k + 4 * j))) by lia. replace (k + 4 * j + 3)%nat with (S (S (S (k + 4 * j)))) by lia. ring.
    + rewrite F2. cbn [rbind]. destruct s2 as [[[a0 a1] a2] a3]. rewrite I2. replace (k + 4 * q)%nat with n by lia. reflexivity.
Qed.
Lemma synth1_ok coeffs bw m result plm (P : nat -> nat -> R) : (m <= bw)%nat -> (bw - m <= List.length coeffs)%nat -> (2 * bw <= List.length result)%nat ->
  (forall i j, (m + i < bw)%nat -> (j < 2 * bw)%nat -> (i * (2 * bw) + j < List.length plm)%nat /\ plm.[i * (2 * bw) + j] = P i j) ->
  exists r, Naive_SynthesizeX coeffs bw m result plm = Ok r /\ List.length r = List.length result /\
    (forall j, (j < 2 * bw)%nat -> r.[j] = Sig (bw - m) (fun i => coeffs.[i] * P i j)) /\ forall j, (2 * bw <= j)%nat -> r.[j] = result.[j].
Proof.
  intros Hm Lc Lr HP. unfold Naive_SynthesizeX. cbv zeta. set (n := (2 * bw)%nat) in *.
  destruct (fill0 n (fun i r => wr r i 0) (fun _ => 0) result) as (r0 & E0 & L0 & V0 & K0); [lia|reflexivity|]. rewrite E0. cbn [rbind].
  match goal with |- context [for_nat 0 (bw - m) ?B r0] => destruct (for_nat_inv (fun k r => List.length r = List.length result /\ (forall j, (j < n)%nat -> r.[j] = Sig k (fun i => coeffs.[i] * P i j)) /\ forall j, (n <= j)%nat -> r.[j] = result.[j]) B 0 (bw - m)%nat r0) as (r & E & L & V & K) end.
  - lia. - split; [lia|]. split; [|exact K0]. intros j Hj. now rewrite V0.
  - intros i s Hi (Ls & Vs & Ks). cbv beta. rewrite (rd_ok coeffs i 0) by lia. cbn [rbind]. destruct (Req_EM_T coeffs.[i] 0) as [Z|N].
    + exists s. split; auto. split; auto. split; auto. intros j Hj. rewrite Nat.add_1_r, Sig_S, <- Vs by auto. rewrite Z. ring.
    + match goal with |- context [for_nat 0 n ?B s] => destruct (for_nat_inv (fun k r => List.length r = List.length result /\ (forall j, r.[j] = if (j <? k)%nat then s.[j] + coeffs.[i] * P i j else s.[j])) B 0 n s) as (r & E & L & V) end.
      * lia. * split; auto.
      * intros j t Hj (Lt & Vt). cbv beta. rewrite (rd_ok t j 0) by lia. cbn [rbind]. destruct (HP i j ltac:(lia) ltac:(lia)) as [B V']. rewrite (rd_ok plm (i * n + j) 0) by lia. cbn [rbind]. rewrite wr_ok by lia. eexists. split; [reflexivity|]. split; [now rewrite upd_length|].
        intros x. destruct (Nat.eq_dec x j) as [->|Nx].
        -- rewrite nth_upd_eq by lia. rewrite Vt, V'. destruct (Nat.ltb_spec j j); [lia|]. destruct (Nat.ltb_spec j (j + 1)); [reflexivity|lia].
        -- rewrite nth_upd_ne by auto. rewrite Vt. destruct (Nat.ltb_spec x j), (Nat.ltb_spec x (j + 1)); auto; lia.
      * exists r. split; auto. split; auto. split.
        -- intros j Hj. rewrite V, Nat.add_1_r, Sig_S, Vs by auto. destruct (Nat.ltb_spec j n); [reflexivity|lia].
        -- intros j Hj. rewrite V. destruct (Nat.ltb_spec j n); [lia|]. auto.
  - exists r. auto.
Qed.

(** C18: the loop over blocks and the tiling of boxes by subboxes. *)
From Coq Require Import Logic.FinFun.
From Verif Require Import Base Index_model Index_props Blocks_model.
Local Open Scope Z_scope.

Lemma block_eq g A n1 n2 n3 vi abi i j k : activeboxes g = A -> 0 <= vi -> 0 <= abi < A -> 0 <= i < n1 -> 0 <= j < n2 -> 0 <= k < n3 ->
  block_indices g n1 n2 n3 (i + n1 * (j + n2 * (k + n3 * (abi + A * vi)))) = (vi, IndexOf_ith_ActiveBox g abi, i, j, k).
Proof.
  intros HA Hv Ha Hi Hj Hk. unfold block_indices. rewrite HA.
  assert (R1 : 0 <= i + n1 * j < n1 * n2) by nia.
  assert (R2 : 0 <= i + n1 * j + n1 * n2 * k < n1 * n2 * n3) by nia.
  assert (R3 : 0 <= i + n1 * j + n1 * n2 * k + n1 * n2 * n3 * abi < n1 * n2 * n3 * A) by nia.
  assert (V : Z.quot (i + n1 * (j + n2 * (k + n3 * (abi + A * vi)))) (n1 * n2 * n3 * A) = vi).
  { symmetry. apply Z.quot_unique with (r := i + n1 * j + n1 * n2 * k + n1 * n2 * n3 * abi); nia. }
  rewrite V. replace (i + n1 * (j + n2 * (k + n3 * (abi + A * vi))) - n1 * n2 * n3 * A * vi) with (i + n1 * j + n1 * n2 * k + n1 * n2 * n3 * abi) by ring.
  assert (B : Z.quot (i + n1 * j + n1 * n2 * k + n1 * n2 * n3 * abi) (n1 * n2 * n3) = abi).
  { symmetry. apply Z.quot_unique with (r := i + n1 * j + n1 * n2 * k); nia. }
  rewrite B. replace (i + n1 * j + n1 * n2 * k + n1 * n2 * n3 * abi - n1 * n2 * n3 * abi) with (i + n1 * j + n1 * n2 * k) by ring.
  assert (K : Z.quot (i + n1 * j + n1 * n2 * k) (n1 * n2) = k).
  { symmetry. apply Z.quot_unique with (r := i + n1 * j); nia. }
  rewrite K. replace (i + n1 * j + n1 * n2 * k - n1 * n2 * k) with (i + n1 * j) by ring.
  assert (J : Z.quot (i + n1 * j) n1 = j).
  { symmetry. apply Z.quot_unique with (r := i); nia. }
  rewrite J. repeat f_equal. ring.
Qed.
Lemma block_dec A n1 n2 n3 n x : 0 < n1 -> 0 < n2 -> 0 < n3 -> 0 <= A -> 0 <= x < n1 * n2 * n3 * A * n ->
  exists vi abi i j k, x = i + n1 * (j + n2 * (k + n3 * (abi + A * vi))) /\ 0 <= vi < n /\ 0 <= abi < A /\ 0 <= i < n1 /\ 0 <= j < n2 /\ 0 <= k < n3.
Proof.
  intros P1 P2 P3 PA H.
  assert (HA : 0 < A). { assert (A <> 0); [|lia]. intros ->. lia. }
  pose proof (Z.div_mod x n1 ltac:(lia)) as E1. pose proof (Z.mod_pos_bound x n1 P1) as M1. set (y := x / n1) in *. set (i := x mod n1) in *.
  pose proof (Z.div_mod y n2 ltac:(lia)) as E2. pose proof (Z.mod_pos_bound y n2 P2) as M2. set (z := y / n2) in *. set (j := y mod n2) in *.
  pose proof (Z.div_mod z n3 ltac:(lia)) as E3. pose proof (Z.mod_pos_bound z n3 P3) as M3. set (u := z / n3) in *. set (k := z mod n3) in *.
  pose proof (Z.div_mod u A ltac:(lia)) as E4. pose proof (Z.mod_pos_bound u A HA) as M4. set (v := u / A) in *. set (a := u mod A) in *.
  assert (Hy : 0 <= y < n2 * n3 * A * n) by nia. assert (Hz : 0 <= z < n3 * A * n) by nia. assert (Hu : 0 <= u < A * n) by nia.
  exists v, a, i, j, k. repeat split; try lia; try nia.
Qed.
Lemma map_NoDup_inj {A B} (f : A -> B) l : NoDup l -> (forall x y, In x l -> In y l -> f x = f y -> x = y) -> NoDup (map f l).
Proof.
  induction l as [|x l IH]; intros N Inj; cbn [map]; constructor.
  + intros Hin. apply in_map_iff in Hin. destruct Hin as (y & Ey & Hy). inversion N; subst. assert (y = x) as -> by (apply Inj; simpl; auto). contradiction.
  + inversion N; subst. apply IH; [assumption|]. intros y z Hy Hz. apply Inj; now right.
Qed.
Lemma active_NoDup fs : NoDup (active_boxes fs).
Proof. unfold active_boxes. apply NoDup_filter, zseq_NoDup. Qed.
Lemma active_In fs b : In b (active_boxes fs) <-> 0 <= b < Z.of_nat (List.length fs) /\ nth (Z.to_nat b) fs true = false.
Proof. unfold active_boxes. rewrite filter_In, zseq_In, negb_true_iff. rewrite Z.add_0_l. tauto. Qed.

(** After any history of activating and deactivating boxes, for any number of variables and any
    positive numbers of subboxes, the loop terminates and visits every combination of variable,
    active box and subbox exactly once, and nothing else. *)
Theorem C18_blocks nb os n nsb1 nsb2 nsb3 : Forall (valid_op nb) os -> 0 <= n -> 0 < nsb1 -> 0 < nsb2 -> 0 < nsb3 ->
  exists g t, arun (alloc_agrid nb) os = Ok g /\ forallVarsBoxesAndSubboxes g n nsb1 nsb2 nsb3 t /\
    (forall t', forallVarsBoxesAndSubboxes g n nsb1 nsb2 nsb3 t' -> t' = t) /\ NoDup t /\
    forall vi bi sbi sbj sbk, In (vi, bi, sbi, sbj, sbk) t <->
      0 <= vi < n /\ (0 <= bi < Z.of_nat nb /\ flag_after os bi false = false) /\ 0 <= sbi < nsb1 /\ 0 <= sbj < nsb2 /\ 0 <= sbk < nsb3.
Proof.
  intros V Hn P1 P2 P3. destruct (C15_active_boxes nb os V) as (g & E & L & F & C & I). set (fs := inactive g) in *.
  assert (A : activeboxes g = Z.of_nat (List.length (active_boxes fs))). { unfold activeboxes. fold fs. rewrite C, L. lia. }
  set (T := nsb1 * nsb2 * nsb3 * activeboxes g * n).
  assert (LP : forall t, forallVarsBoxesAndSubboxes g n nsb1 nsb2 nsb3 t <-> t = map (block_indices g nsb1 nsb2 nsb3) (zseq 0 (Z.to_nat (T - 0)))).
  { intros t. rewrite <- flat_map_single. apply cloop_ltb. intros. apply visit_iff. }
  exists g. eexists. split; [exact E|]. split; [apply LP; reflexivity|]. split; [intros t' Ht; now apply LP in Ht|].
  assert (IA : forall a, 0 <= a < activeboxes g -> IndexOf_ith_ActiveBox g a = nth (Z.to_nat a) (active_boxes fs) (-1)).
  { intros a Ha. rewrite I. replace (0 <=? a) with true; auto. symmetry. apply Z.leb_le. lia. }
  assert (PA : 0 <= activeboxes g) by lia.
  split.
  - assert (Inj : forall x y, In x (zseq 0 (Z.to_nat (T - 0))) -> In y (zseq 0 (Z.to_nat (T - 0))) -> block_indices g nsb1 nsb2 nsb3 x = block_indices g nsb1 nsb2 nsb3 y -> x = y).
    { intros x y Hx Hy. apply zseq_In in Hx, Hy.
      destruct (block_dec (activeboxes g) nsb1 nsb2 nsb3 n x) as (v & a & i & j & k & -> & Hv & Ha & Hi & Hj & Hk); auto. { unfold T in *. lia. }
      destruct (block_dec (activeboxes g) nsb1 nsb2 nsb3 n y) as (v' & a' & i' & j' & k' & -> & Hv' & Ha' & Hi' & Hj' & Hk'); auto. { unfold T in *. lia. }
      rewrite !(block_eq g (activeboxes g)) by (auto; lia). intros Q. injection Q as -> Q -> -> ->. rewrite !IA in Q by auto.
      assert (Z.to_nat a = Z.to_nat a'); [|assert (a = a') by lia; congruence].
      apply (proj1 (NoDup_nth (active_boxes fs) (-1)) (active_NoDup fs)); auto; lia. }
    now apply map_NoDup_inj; [apply zseq_NoDup|].
  - intros vi bi sbi sbj sbk. rewrite in_map_iff. split.
    + intros (x & Ex & Hx). apply zseq_In in Hx.
      destruct (block_dec (activeboxes g) nsb1 nsb2 nsb3 n x) as (v & a & i & j & k & -> & Hv & Ha & Hi & Hj & Hk); auto. { unfold T in *. lia. }
      rewrite (block_eq g (activeboxes g)) in Ex by (auto; lia). injection Ex as <- <- <- <- <-. rewrite IA by auto.
      assert (Hin : In (nth (Z.to_nat a) (active_boxes fs) (-1)) (active_boxes fs)) by (apply nth_In; lia).
      apply active_In in Hin. rewrite L in Hin. destruct Hin as [H1 H2]. rewrite F in H2 by auto. repeat split; tauto.
    + intros (Hv & (Hb & Hf) & Hi & Hj & Hk).
      assert (Hin : In bi (active_boxes fs)). { apply active_In. rewrite L. split; auto. now rewrite F. }
      destruct (In_nth _ _ (-1) Hin) as (a & La & Ea).
      assert (Ha : 0 <= Z.of_nat a < activeboxes g) by lia.
      exists (sbi + nsb1 * (sbj + nsb2 * (sbk + nsb3 * (Z.of_nat a + activeboxes g * vi)))). split.
      * rewrite (block_eq g (activeboxes g)) by (auto; lia). rewrite IA, Nat2Z.id, Ea by auto. reflexivity.
      * apply zseq_In. unfold T. set (AB := activeboxes g) in *.
        assert (0 <= Z.of_nat a + AB * vi <= AB * n - 1) by nia.
        set (q := Z.of_nat a + AB * vi) in *. assert (0 <= sbk + nsb3 * q <= nsb3 * (AB * n) - 1) by nia.
        set (q1 := sbk + nsb3 * q) in *. assert (0 <= sbj + nsb2 * q1 <= nsb2 * (nsb3 * (AB * n)) - 1) by nia.
        set (q2 := sbj + nsb2 * q1) in *. assert (0 <= sbi + nsb1 * q2 <= nsb1 * (nsb2 * (nsb3 * (AB * n))) - 1) by nia.
        replace (nsb1 * nsb2 * nsb3 * AB * n) with (nsb1 * (nsb2 * (nsb3 * (AB * n)))) by ring. lia.
Qed.
Print Assumptions C18_blocks.

Lemma range_tile n nsb i : 0 < nsb -> 0 <= i < n ->
  exists sb, 0 <= sb < nsb /\ sb_lo n nsb sb <= i < sb_hi n nsb sb /\ forall sb', 0 <= sb' < nsb -> sb_lo n nsb sb' <= i < sb_hi n nsb sb' -> sb' = sb.
Proof.
  intros P H. unfold sb_lo, sb_hi.
  assert (LO : forall s, 0 <= s -> (Z.quot (s * n) nsb <= i <-> s * n < (i + 1) * nsb)).
  { intros s Hs. rewrite Z.quot_div_nonneg by nia. split; intros Q.
    - assert (s * n / nsb < i + 1) by lia. pose proof (Z.mul_succ_div_gt (s * n) nsb P). nia.
    - assert (s * n / nsb < i + 1); [|lia]. apply Z.div_lt_upper_bound; lia. }
  assert (HI : forall s, 0 <= s -> (i < Z.quot ((s + 1) * n) nsb <-> (i + 1) * nsb <= (s + 1) * n)).
  { intros s Hs. rewrite Z.quot_div_nonneg by nia. split; intros Q.
    - pose proof (Z.mul_div_le ((s + 1) * n) nsb P). nia.
    - assert (i + 1 <= (s + 1) * n / nsb); [|lia]. apply Z.div_le_lower_bound; lia. }
  (* sb is the number with sb*n < (i+1)*nsb <= (sb+1)*n *)
  set (m := (i + 1) * nsb - 1). assert (Hm : 0 <= m) by (unfold m; nia).
  pose proof (Z.div_mod m n ltac:(lia)) as E. pose proof (Z.mod_pos_bound m n ltac:(lia)) as M.
  set (sb := m / n) in *. assert (Hsb : 0 <= sb < nsb). { split; [apply Z.div_pos; lia|]. apply Z.div_lt_upper_bound; [lia|]. unfold m. nia. }
  exists sb. split; auto. split.
  - split; [apply LO|apply HI]; unfold m in *; lia.
  - intros s Hs [Q1 Q2]. apply LO in Q1; [|lia]. apply HI in Q2; [|lia]. unfold m in *. nia.
Qed.
Lemma range_in n nsb sb i : 0 < nsb -> 0 <= n -> 0 <= sb < nsb -> sb_lo n nsb sb <= i < sb_hi n nsb sb -> 0 <= i < n.
Proof.
  intros P Hn Hs [Q1 Q2]. unfold sb_lo, sb_hi in *. rewrite Z.quot_div_nonneg in Q1, Q2 by nia.
  assert (0 <= sb * n / nsb) by (apply Z.div_pos; nia). assert ((sb + 1) * n / nsb <= n) by (apply Z.div_le_upper_bound; nia). lia.
Qed.
(** Every point of a box lies in exactly one subbox, and subboxes contain only points of the box. *)
Theorem C18_subboxes_tile n1 n2 n3 nsb1 nsb2 nsb3 : 0 <= n1 -> 0 <= n2 -> 0 <= n3 -> 0 < nsb1 -> 0 < nsb2 -> 0 < nsb3 ->
  (forall i j k, in_box n1 n2 n3 i j k -> exists sbi sbj sbk,
     (0 <= sbi < nsb1 /\ 0 <= sbj < nsb2 /\ 0 <= sbk < nsb3) /\ in_subbox n1 n2 n3 nsb1 nsb2 nsb3 sbi sbj sbk i j k /\
     forall sbi' sbj' sbk', 0 <= sbi' < nsb1 -> 0 <= sbj' < nsb2 -> 0 <= sbk' < nsb3 ->
       in_subbox n1 n2 n3 nsb1 nsb2 nsb3 sbi' sbj' sbk' i j k -> sbi' = sbi /\ sbj' = sbj /\ sbk' = sbk) /\
  (forall sbi sbj sbk i j k, 0 <= sbi < nsb1 -> 0 <= sbj < nsb2 -> 0 <= sbk < nsb3 ->
     in_subbox n1 n2 n3 nsb1 nsb2 nsb3 sbi sbj sbk i j k -> in_box n1 n2 n3 i j k).
Proof.
  intros H1 H2 H3 P1 P2 P3. unfold in_box, in_subbox. split.
  - intros i j k (Hi & Hj & Hk). destruct (range_tile n1 nsb1 i P1 Hi) as (a & A1 & A2 & A3).
    destruct (range_tile n2 nsb2 j P2 Hj) as (b & B1 & B2 & B3). destruct (range_tile n3 nsb3 k P3 Hk) as (c & C1 & C2 & C3).
    exists a, b, c. split; [tauto|]. split; [tauto|]. intros a' b' c' Ha Hb Hc (Q1 & Q2 & Q3). auto.
  - intros a b c i j k Ha Hb Hc (Q1 & Q2 & Q3). split; [|split]; [apply (range_in n1 nsb1 a)|apply (range_in n2 nsb2 b)|apply (range_in n3 nsb3 c)]; auto.
Qed.
Print Assumptions C18_subboxes_tile.

(** 7 points in 3 subboxes: 0..1, 2..3, 4..6; also more subboxes than points *)
Example C18_example : sb_lo 7 3 0 = 0 /\ sb_hi 7 3 0 = 2 /\ sb_lo 7 3 1 = 2 /\ sb_hi 7 3 1 = 4 /\ sb_lo 7 3 2 = 4 /\ sb_hi 7 3 2 = 7 /\
  sb_lo 2 5 0 = sb_hi 2 5 0 /\ Forall (valid_op 4) [Deact [0; 2]; Act [2]].
Proof. repeat split; try reflexivity. constructor; [|constructor; [|constructor]]; simpl; intros; intuition lia. Qed.

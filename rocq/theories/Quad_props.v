(** C103: numerical integration. *)
From Coq Require Import Psatz FunctionalExtensionality.
From Verif Require Import Rutil Base Rsum Sparse_model Integ_spec Quad_model Quad_spec.
Local Open Scope R_scope.

(** ** the trapezoidal rule *)
Lemma Trap_alt f a b N : (1 <= N)%nat -> Trap f a b N = (b - a) / INR N * (Sig N (fun i => f (a + INR i * ((b - a) / INR N))) + (f b - f a) / 2).
Proof.
  intros H. unfold Trap. destruct N as [|N]; [lia|]. rewrite Sig_S_l. replace (S N - 1)%nat with N by lia. replace (a + INR 0 * ((b - a) / INR (S N))) with a by (cbn [INR]; ring).
  replace (Sig N (fun i => f (a + INR (S i) * ((b - a) / INR (S N))))) with (Sig N (fun i => f (a + INR (i + 1) * ((b - a) / INR (S N))))) by (apply Sig_ext; intros; do 3 f_equal; f_equal; lia). field. apply not_0_INR. lia.
Qed.
Lemma iterS {A} n (f : A -> A) x : Nat.iter (S n) f x = f (Nat.iter n f x). Proof. reflexivity. Qed.
Lemma iter_sum f h : forall n x0, Nat.iter n (fun sx : R * R => let '(sum, x) := sx in (sum + f x, x + h)) (0, x0) = (Sig n (fun i => f (x0 + INR i * h)), x0 + INR n * h).
Proof. induction n as [|n IH]; intros x0. { cbn. f_equal. ring. } rewrite iterS, IH, Sig_S, S_INR. f_equal. ring. Qed.
Lemma iter_two n : Nat.iter n (fun i => 2 * i)%nat 1%nat = (2 ^ n)%nat.
Proof. induction n as [|n IH]; [reflexivity|]. now rewrite iterS, IH. Qed.
Lemma pow2_pos n : (1 <= 2 ^ n)%nat. Proof. induction n; cbn [Nat.pow]; lia. Qed.
Lemma trapezit_first f a b s : trapezit f a b 1 s = Trap f a b 1.
Proof. unfold trapezit, Trap. cbn. field. Qed.
Lemma trapezit_next f a b n : trapezit f a b (S (S n)) (Trap f a b (2 ^ n)) = Trap f a b (2 ^ S n).
Proof.
  unfold trapezit. replace (S (S n) =? 1)%nat with false by reflexivity. replace (S (S n) - 2)%nat with n by lia. rewrite iter_two, iter_sum. pose proof (pow2_pos n) as P. set (N := (2 ^ n)%nat) in *.
  assert (HN : INR N <> 0) by (apply not_0_INR; lia). change (2 ^ S n)%nat with (2 * N)%nat. rewrite !Trap_alt by lia. replace (2 * N)%nat with (N * 2)%nat by lia. rewrite Sig_prod. cbn [Sig].
  rewrite (Sig_ext N (fun i => 0 + _ + _) (fun i => f (a + INR i * ((b - a) / INR N)) + f (a + / 2 * ((b - a) / INR N) + INR i * ((b - a) / INR N)))).
  - rewrite Sig_plus. rewrite mult_INR. cbn [INR]. field. auto.
  - intros i _. rewrite Rplus_0_l, !plus_INR, !mult_INR. cbn [INR]. f_equal; f_equal; field; auto.
Qed.
Lemma int_loop_val f a b s : forall k j, (1 <= j)%nat -> exists J, (j <= J <= j + k)%nat /\ integral_loop f a b s k (S j) (Trap f a b (2 ^ (j - 1))) (Trap f a b (2 ^ (j - 1))) = Trap f a b (2 ^ (J - 1)) /\
  (forall i, (j < i < J)%nat -> ~ Rabs (Trap f a b (2 ^ (i - 1)) - Trap f a b (2 ^ (i - 2))) < s * Rabs (Trap f a b (2 ^ (i - 2)))) /\
  ((J < j + k)%nat -> (j < J)%nat /\ Rabs (Trap f a b (2 ^ (J - 1)) - Trap f a b (2 ^ (J - 2))) < s * Rabs (Trap f a b (2 ^ (J - 2)))).
Proof.
  induction k as [|k IH]; intros j Hj; cbn [integral_loop].
  - exists j. split; [lia|]. split; [reflexivity|]. split; intros; lia.
  - assert (E : trapezit f a b (S j) (Trap f a b (2 ^ (j - 1))) = Trap f a b (2 ^ j)). { destruct j as [|j]; [lia|]. replace (S j - 1)%nat with j by lia. apply trapezit_next. } rewrite E.
    destruct (Rlt_dec _ _) as [L|L].
    + exists (S j). replace (S j - 1)%nat with j by lia. replace (S j - 2)%nat with (j - 1)%nat by lia. split; [lia|]. split; [reflexivity|]. split; [intros; lia|]. intros _. split; [lia|exact L].
    + destruct (IH (S j) ltac:(lia)) as (J & HJ & EJ & Hn & Hc). replace (S j - 1)%nat with j in EJ by lia. exists J. split; [lia|]. split; [exact EJ|]. split.
      * intros i Hi. destruct (Nat.eq_dec i (S j)) as [-> |N]; [|apply Hn; lia]. replace (S j - 1)%nat with j by lia. replace (S j - 2)%nat with (j - 1)%nat by lia. exact L.
      * intros H. destruct Hc as [Hc1 Hc2]; [lia|]. split; [lia|exact Hc2].
Qed.
(** integral() returns the value of the trapezoidal rule with 2^(J-1) intervals, where J is the first step at which the value changed by
    less than the fraction s, or max if there is none. *)
Theorem C103_trapezoid f a b s max : (1 <= max)%nat -> let T := fun j => Trap f a b (2 ^ (j - 1)) in
  exists J, (1 <= J <= max)%nat /\ integral_trap f a b s max = T J /\ (forall i, (2 <= i < J)%nat -> ~ Rabs (T i - T (i - 1)%nat) < s * Rabs (T (i - 1)%nat)) /\
  ((J < max)%nat -> (2 <= J)%nat /\ Rabs (T J - T (J - 1)%nat) < s * Rabs (T (J - 1)%nat)).
Proof.
  intros Hm T. unfold integral_trap. cbv zeta. rewrite trapezit_first. destruct (int_loop_val f a b s (max - 1) 1 ltac:(lia)) as (J & HJ & E & Hn & Hc). exists J.
  split; [lia|]. split; [exact E|]. unfold T. split.
  - intros i Hi. replace (i - 1 - 1)%nat with (i - 2)%nat by lia. apply Hn. lia.
  - intros H. destruct Hc as [Hc1 Hc2]; [lia|]. split; [lia|]. replace (J - 1 - 1)%nat with (J - 2)%nat by lia. exact Hc2.
Qed.

(** ** polynomials *)
Lemma poly_ext n g h : (forall x, g x = h x) -> is_poly n g -> is_poly n h. Proof. intros E (c & H). exists c. intros x. now rewrite <- E. Qed.
Lemma poly_add n g h : is_poly n g -> is_poly n h -> is_poly n (fun x => g x + h x).
Proof. intros (c & H) (d & H'). exists (fun i => c i + d i). intros x. rewrite H, H', <- Sig_plus. apply Sig_ext. intros. ring. Qed.
Lemma poly_scal n r g : is_poly n g -> is_poly n (fun x => r * g x).
Proof. intros (c & H). exists (fun i => r * c i). intros x. rewrite H, <- Sig_scal. apply Sig_ext. intros. ring. Qed.
Lemma poly_x n g : is_poly n g -> is_poly (S n) (fun x => x * g x).
Proof. intros (c & H). exists (fun i => match i with O => 0 | S i => c i end). intros x. rewrite H, Sig_S_l, <- Sig_scal. rewrite Rmult_0_l, Rplus_0_l. apply Sig_ext. intros. cbn [pow]. ring. Qed.
Lemma poly_S n g : is_poly n g -> is_poly (S n) g.
Proof. intros (c & H). exists (fun i => if (i <? n)%nat then c i else 0). intros x. rewrite H, Sig_S, Nat.ltb_irrefl, Rmult_0_l, Rplus_0_r. apply Sig_ext. intros i Hi. now rewrite (proj2 (Nat.ltb_lt i n) Hi). Qed.
Lemma poly_le n m g : (n <= m)%nat -> is_poly n g -> is_poly m g. Proof. intros H Hg. induction H; auto using poly_S. Qed.
Lemma poly_const n r : is_poly (S n) (fun _ => r).
Proof. apply (poly_le 1); [lia|]. exists (fun _ => r). intros x. cbn. ring. Qed.
Lemma poly_factor r : forall n g, is_poly (S n) g -> exists q, is_poly n q /\ forall x, g x = g r + (x - r) * q x.
Proof.
  induction n as [|n IH]; intros g (c & H).
  - exists (fun _ => 0). split; [exists (fun _ => 0); reflexivity|]. intros x. rewrite !H. cbn. ring.
  - set (p := fun x => Sig (S n) (fun i => c (S i) * x ^ i)). assert (E : forall x, g x = c 0%nat + x * p x). { intros x. rewrite H, Sig_S_l. cbn [pow]. unfold p. rewrite <- Sig_scal. rewrite Rmult_1_r. f_equal. apply Sig_ext. intros. ring. }
    destruct (IH p) as (q & Hq & Eq). { exists (fun i => c (S i)). reflexivity. }
    exists (fun x => p r + x * q x). split. { apply poly_add; [apply poly_const|]. now apply poly_x. } intros x. rewrite !E, (Eq x). ring.
Qed.
Lemma poly_roots : forall n (z : nat -> R) g, is_poly n g -> (forall i j, (i < n)%nat -> (j < n)%nat -> i <> j -> z i <> z j) -> (forall i, (i < n)%nat -> g (z i) = 0) -> forall x, g x = 0.
Proof.
  induction n as [|n IH]; intros z g Hg Hd Hz x. { destruct Hg as (c & H). now rewrite H. }
  destruct (poly_factor (z n) n g Hg) as (q & Hq & E). rewrite E, Hz by lia. rewrite (IH z q Hq); [ring| |].
  - intros i j Hi Hj. apply Hd; lia.
  - intros i Hi. specialize (E (z i)). rewrite !Hz in E by lia. assert (N : z i - z n <> 0) by (apply Rminus_eq_contra, Hd; lia). apply (Rmult_eq_reg_l (z i - z n)); [lra|exact N].
Qed.
(** two polynomials of degree less than n that agree at n points are equal *)
Lemma poly_unique n z g h : is_poly n g -> is_poly n h -> (forall i j, (i < n)%nat -> (j < n)%nat -> i <> j -> z i <> z j) -> (forall i, (i < n)%nat -> g (z i) = h (z i)) -> forall x, g x = h x.
Proof.
  intros Hg Hh Hd E x. assert (A : g x + -1 * h x = 0). { apply (poly_roots n z (fun x => g x + -1 * h x)); auto. - apply poly_add; auto. now apply poly_scal. - intros i Hi. rewrite E by auto. ring. } lra.
Qed.
(** ** Neville's scheme *)
Section Nev.
Variable xa ya : nat -> R.
Variable n : nat.
Hypothesis Hd : forall i j, (1 <= i <= n)%nat -> (1 <= j <= n)%nat -> i <> j -> xa i <> xa j.
Fixpoint Nev (m i : nat) (x : R) : R :=
  match m with O => ya i | S m => ((x - xa (i + S m)%nat) * Nev m i x + (xa i - x) * Nev m (S i) x) / (xa i - xa (i + S m)%nat) end.
Lemma Nev_poly : forall m i, is_poly (S m) (Nev m i).
Proof.
  induction m as [|m IH]; intros i; cbn [Nev]; [apply poly_const|].
  pose (A := Nev m i). pose (B := Nev m (S i)). pose (u := xa (i + S m)%nat). pose (v := xa i).
  apply (poly_ext _ (fun x => / (v - u) * (x * (A x + -1 * B x) + (- u * A x + v * B x)))). { intros x. unfold A, B, u, v, Rdiv. ring. }
  apply poly_scal. apply poly_add. - apply poly_x. apply poly_add; [apply IH|]. apply poly_scal, IH. - apply poly_S. apply poly_add; apply poly_scal, IH.
Qed.
Lemma Nev_node : forall m i k, (1 <= i)%nat -> (i + m <= n)%nat -> (i <= k <= i + m)%nat -> Nev m i (xa k) = ya k.
Proof.
  induction m as [|m IH]; intros i k Hi Hn Hk; cbn [Nev]. { f_equal. lia. }
  assert (N : xa i - xa (i + S m)%nat <> 0) by (apply Rminus_eq_contra, Hd; lia).
  destruct (Nat.eq_dec k i) as [-> |Ni]. { rewrite (IH i i) by lia. field. exact N. }
  destruct (Nat.eq_dec k (i + S m)%nat) as [-> |Nj]. { rewrite (IH (S i)) by lia. field. exact N. }
  rewrite (IH i k), (IH (S i) k) by lia. field. exact N.
Qed.
Variable x : R.
Lemma tab_val m : (1 <= m)%nat -> forall k i c d, (1 <= i)%nat -> (i + k + m = n + 1)%nat -> (forall j, (i <= j)%nat -> (j + m <= n + 1)%nat -> c j = (if (m =? 1)%nat then ya j else Nev (m - 1) j x - Nev (m - 2) j x)) ->
  (forall j, (i <= j)%nat -> (j + m <= n + 1)%nat -> d j = (if (m =? 1)%nat then ya j else Nev (m - 1) j x - Nev (m - 2) (S j) x)) ->
  exists c' d', tableau x xa m i k (c, d) = Ok (c', d') /\ (forall j, (j < i)%nat -> c' j = c j /\ d' j = d j) /\
  (forall j, (i <= j < i + k)%nat -> c' j = Nev m j x - Nev (m - 1) j x /\ d' j = Nev m j x - Nev (m - 1) (S j) x).
Proof.
  intros Hm. induction k as [|k IH]; intros i c d Hi Hk Hc Hdd; cbn [tableau].
  - exists c, d. split; [reflexivity|]. split; intros; [auto|lia].
  - assert (N : xa i - xa (i + m)%nat <> 0) by (apply Rminus_eq_contra, Hd; lia). replace (xa i - x - (xa (i + m)%nat - x)) with (xa i - xa (i + m)%nat) by ring.
    destruct (Req_EM_T _ 0) as [E|_]; [contradiction|]. set (den := (c (i + 1)%nat - d i) / (xa i - xa (i + m)%nat)).
    destruct (IH (S i) (updf c i ((xa i - x) * den)) (updf d i ((xa (i + m)%nat - x) * den))) as (c' & d' & E & Hlo & Hhi).
    + lia.
    + lia.
    + intros j Hj Hj'. unfold updf. replace (j =? i)%nat with false by (symmetry; apply Nat.eqb_neq; lia). apply Hc; lia.
    + intros j Hj Hj'. unfold updf. replace (j =? i)%nat with false by (symmetry; apply Nat.eqb_neq; lia). apply Hdd; lia.
    + exists c', d'. split; [exact E|]. split.
      * intros j Hj. destruct (Hlo j ltac:(lia)) as [-> ->]. unfold updf. replace (j =? i)%nat with false by (symmetry; apply Nat.eqb_neq; lia). auto.
      * intros j Hj. destruct (Nat.eq_dec j i) as [-> |Nj]; [|apply Hhi; lia]. destruct (Hlo i ltac:(lia)) as [-> ->]. unfold updf. rewrite !Nat.eqb_refl.
        assert (W : c (i + 1)%nat - d i = Nev (m - 1) (S i) x - Nev (m - 1) i x).
        { rewrite Hc, Hdd by lia. destruct (m =? 1)%nat eqn:Em. - apply Nat.eqb_eq in Em. subst m. cbn. now rewrite Nat.add_1_r. - rewrite Nat.add_1_r. ring. }
        unfold den. rewrite W. destruct m as [|m]; [lia|]. replace (S m - 1)%nat with m by lia. cbn [Nev]. split; field; exact N.
Qed.
Lemma geta_ok v i : (1 <= i <= n)%nat -> geta n v (Z.of_nat i) = Ok (v i).
Proof. intros H. unfold geta. replace ((1 <=? Z.of_nat i)%Z && (Z.of_nat i <=? Z.of_nat n)%Z) with true; [now rewrite Nat2Z.id|]. symmetry. apply andb_true_iff. split; apply Z.leb_le; lia. Qed.
Lemma loop_val : forall k m c d i dy, (1 <= m)%nat -> (k + m = n)%nat -> (1 <= i)%nat -> (i + (m - 1) <= n)%nat -> 
  (forall j, (1 <= j)%nat -> (j + m <= n + 1)%nat -> c j = (if (m =? 1)%nat then ya j else Nev (m - 1) j x - Nev (m - 2) j x)) ->
  (forall j, (1 <= j)%nat -> (j + m <= n + 1)%nat -> d j = (if (m =? 1)%nat then ya j else Nev (m - 1) j x - Nev (m - 2) (S j) x)) ->
  exists dy', pol_loop n x xa k m (c, d) (Z.of_nat i - 1) (Nev (m - 1) i x) dy = Ok (Nev (n - 1) 1 x, dy') /\ ((1 <= k)%nat -> dy' <> None).
Proof.
  induction k as [|k IH]; intros m c d i dy Hm Hk Hi Hn Hc Hdd; cbn [pol_loop].
  - exists dy. split; [|lia]. assert (m = n) by lia. subst m. assert (i = 1%nat) by lia. now subst i.
  - destruct (tab_val m Hm (n - m) 1 c d) as (c' & d' & E & _ & Hv); auto; [lia|]. rewrite E. cbn [rbind fst snd].
    assert (HC : forall j, (1 <= j)%nat -> (j + S m <= n + 1)%nat -> c' j = (if (S m =? 1)%nat then ya j else Nev (S m - 1) j x - Nev (S m - 2) j x)).
    { intros j Hj Hj'. replace (S m =? 1)%nat with false by (symmetry; apply Nat.eqb_neq; lia). replace (S m - 1)%nat with m by lia. replace (S m - 2)%nat with (m - 1)%nat by lia. apply Hv. lia. }
    assert (HD : forall j, (1 <= j)%nat -> (j + S m <= n + 1)%nat -> d' j = (if (S m =? 1)%nat then ya j else Nev (S m - 1) j x - Nev (S m - 2) (S j) x)).
    { intros j Hj Hj'. replace (S m =? 1)%nat with false by (symmetry; apply Nat.eqb_neq; lia). replace (S m - 1)%nat with m by lia. replace (S m - 2)%nat with (m - 1)%nat by lia. apply Hv. lia. }
    destruct (2 * (Z.of_nat i - 1) <? Z.of_nat n - Z.of_nat m)%Z eqn:El.
    + apply Z.ltb_lt in El. replace (Z.of_nat i - 1 + 1)%Z with (Z.of_nat i) by lia. rewrite geta_ok by lia. cbn [rbind]. destruct (Hv i ltac:(lia)) as [Ec _]. rewrite Ec.
      destruct (IH (S m) c' d' i (Some (Nev m i x - Nev (m - 1) i x))) as (dy' & E' & Hdy); auto; try lia. replace (S m - 1)%nat with m in E' by lia. replace (Nev (m - 1) i x + (Nev m i x - Nev (m - 1) i x)) with (Nev m i x) by ring. exists dy'. split; [exact E'|]. intros _. destruct k; [|apply Hdy; lia].
      cbn [pol_loop] in E'. injection E' as _ <-. discriminate.
    + apply Z.ltb_ge in El. replace (Z.of_nat i - 1)%Z with (Z.of_nat (i - 1)) by lia. rewrite geta_ok by lia. cbn [rbind]. destruct (Hv (i - 1)%nat ltac:(lia)) as [_ Ed]. rewrite Ed. replace (S (i - 1)) with i by lia.
      destruct (IH (S m) c' d' (i - 1)%nat (Some (Nev m (i - 1) x - Nev (m - 1) i x))) as (dy' & E' & Hdy); auto; try lia. replace (S m - 1)%nat with m in E' by lia. replace (Nev (m - 1) i x + (Nev m (i - 1) x - Nev (m - 1) i x)) with (Nev m (i - 1)%nat x) by ring. exists dy'. split; [exact E'|]. intros _. destruct k; [|apply Hdy; lia].
      cbn [pol_loop] in E'. injection E' as _ <-. discriminate.
Qed.
End Nev.
Lemma nearest_range x xa n : forall k i ns dif, (1 <= ns <= n)%nat -> (1 <= i)%nat -> (i + k <= n + 1)%nat -> (1 <= nearest x xa i k ns dif <= n)%nat.
Proof. induction k as [|k IH]; intros i ns dif H Hi Hk; cbn [nearest]; [exact H|]. destruct (Rlt_dec _ _); apply IH; lia. Qed.
(** polint: for n points with different abscissae the result is, at x, the polynomial of degree less than n through the points; it never
    reads outside of its arrays, wherever x is. *)
Theorem C103_polint xa ya n x g : (1 <= n)%nat -> (forall i j, (1 <= i <= n)%nat -> (1 <= j <= n)%nat -> i <> j -> xa i <> xa j) -> is_poly n g -> (forall i, (1 <= i <= n)%nat -> g (xa i) = ya i) ->
  exists dy, polint xa ya n x = Ok (g x, dy) /\ ((2 <= n)%nat -> dy <> None).
Proof.
  intros Hn Hd Hg E. unfold polint. pose proof (nearest_range x xa n n 1 1 (Rabs (x - xa 1%nat)) ltac:(lia) ltac:(lia) ltac:(lia)) as R. set (ns := nearest x xa 1 n 1 _) in *. clearbody ns. cbv zeta.
  destruct (loop_val xa ya n Hd x (n - 1) 1 ya ya ns None) as (dy & L & Hdy); auto; try lia. cbn [Nat.sub Nev] in L. exists dy. split; [|intros; apply Hdy; lia].
  rewrite L. do 2 f_equal. apply (poly_unique n (fun i => xa (S i))); auto.
  - pose proof (Nev_poly xa ya (n - 1) 1) as P. replace (S (n - 1)) with n in P by lia. exact P.
  - intros i j Hi Hj Hij. apply Hd; lia.
  - intros i Hi. rewrite (Nev_node xa ya n Hd) by lia. symmetry. apply E. lia.
Qed.

(** ... and two equal abscissae are always noticed *)
Lemma tab_err x xa m : forall k i cd, (exists j, (i <= j < i + k)%nat /\ xa j = xa (j + m)%nat) -> tableau x xa m i k cd = Err.
Proof.
  induction k as [|k IH]; intros i [c d] (j & Hj & E); [lia|]. cbn [tableau]. destruct (Req_EM_T _ 0) as [_|N]; [reflexivity|]. apply IH. exists j. split; [|exact E].
  destruct (Nat.eq_dec j i) as [-> |]; [|lia]. exfalso. apply N. rewrite E. ring.
Qed.
Lemma tab_cases x xa m : forall k i cd, tableau x xa m i k cd = Err \/ exists cd', tableau x xa m i k cd = Ok cd'.
Proof. induction k as [|k IH]; intros i [c d]; cbn [tableau]; [right; eauto|]. destruct (Req_EM_T _ 0); [left; reflexivity|apply IH]. Qed.
Lemma geta_in n v i : (1 <= i <= Z.of_nat n)%Z -> geta n v i = Ok (v (Z.to_nat i)).
Proof. intros H. unfold geta. replace ((1 <=? i)%Z && (i <=? Z.of_nat n)%Z) with true; [reflexivity|]. symmetry. apply andb_true_iff. split; apply Z.leb_le; lia. Qed.
Lemma loop_err n x xa : forall k m cd ns y dy, (1 <= m)%nat -> (k + m = n)%nat -> (0 <= ns)%Z -> (ns + Z.of_nat m <= Z.of_nat n)%Z -> (exists m' j, (m <= m' < n)%nat /\ (1 <= j)%nat /\ (j + m' <= n)%nat /\ xa j = xa (j + m')%nat) -> pol_loop n x xa k m cd ns y dy = Err.
Proof.
  induction k as [|k IH]; intros m cd ns y dy Hm Hk H0 H1 (m' & j & Hm' & Hj & Hjn & E); [lia|]. cbn [pol_loop]. destruct (Nat.eq_dec m' m) as [-> |Nm].
  - rewrite tab_err; [reflexivity|]. exists j. split; [lia|exact E].
  - destruct (tab_cases x xa m (n - m) 1 cd) as [-> |(cd' & ->)]; [reflexivity|]. cbn [rbind].
    assert (X : exists m'' j', (S m <= m'' < n)%nat /\ (1 <= j')%nat /\ (j' + m'' <= n)%nat /\ xa j' = xa (j' + m'')%nat) by (exists m', j; repeat split; try lia; exact E).
    destruct (2 * ns <? Z.of_nat n - Z.of_nat m)%Z eqn:El; [apply Z.ltb_lt in El|apply Z.ltb_ge in El]; rewrite geta_in by lia; cbn [rbind]; apply IH; auto; lia.
Qed.
Theorem C103_polint_equal xa ya n x : (exists i j, (1 <= i < j)%nat /\ (j <= n)%nat /\ xa i = xa j) -> polint xa ya n x = Err.
Proof.
  intros (i & j & Hij & Hj & E). unfold polint. cbv zeta. pose proof (nearest_range x xa n n 1 1 (Rabs (x - xa 1%nat)) ltac:(lia) ltac:(lia) ltac:(lia)) as Rg. set (ns := nearest x xa 1 n 1 _) in *. clearbody ns.
  apply loop_err; try lia. exists (j - i)%nat, i. repeat split; try lia. rewrite E. f_equal. lia.
Qed.

(** ** Romberg integration *)
(** the Euler-Maclaurin sum of the monomials of degree less than 10 *)
Fixpoint ffall (k r : nat) : R := match r with O => 1 | S r => ffall k r * (INR k - INR r) end.
Definition EM (k : nat) (x H : R) : R :=
  x ^ (k + 1) / INR (k + 1) + H ^ 2 / 12 * (ffall k 1 * x ^ (k - 1)) - H ^ 4 / 720 * (ffall k 3 * x ^ (k - 3)) + H ^ 6 / 30240 * (ffall k 5 * x ^ (k - 5)) - H ^ 8 / 1209600 * (ffall k 7 * x ^ (k - 7)).
Lemma EM_step k x H : (k < 10)%nat -> H / 2 * (x ^ k + (x + H) ^ k) = EM k (x + H) H - EM k x H.
Proof. intros Hk. unfold EM. do 10 (destruct k as [|k]; [cbn [ffall INR Nat.sub Nat.add pow]; field|]). lia. Qed.
Lemma INR_S1 n : INR (n + 1) = INR n + 1. Proof. rewrite Nat.add_1_r. apply S_INR. Qed.
Lemma Trap_tele f a b N (M : R -> R) : (1 <= N)%nat -> (forall x, (b - a) / INR N / 2 * (f x + f (x + (b - a) / INR N)) = M (x + (b - a) / INR N) - M x) -> Trap f a b N = M b - M a.
Proof.
  intros HN Hs. assert (N0 : INR N <> 0) by (apply not_0_INR; lia). set (H := (b - a) / INR N) in *.
  assert (Eb : b = a + INR N * H) by (unfold H; field; exact N0).
  assert (A : forall n, Sig n (fun i => H / 2 * (f (a + INR i * H) + f (a + INR i * H + H))) = M (a + INR n * H) - M a).
  { induction n as [|n IH]; [cbn; rewrite Rmult_0_l, Rplus_0_r; ring|]. rewrite Sig_S, IH, Hs, S_INR. replace (a + (INR n + 1) * H) with (a + INR n * H + H) by ring. ring. }
  specialize (A N). rewrite <- Eb in A. rewrite <- A. rewrite Trap_alt by exact HN. fold H.
  rewrite Sig_scal, Sig_plus.
  assert (B : forall n, Sig n (fun i => f (a + INR i * H + H)) = Sig n (fun i => f (a + INR i * H)) + f (a + INR n * H) - f a).
  { induction n as [|n IH]; [cbn; rewrite Rmult_0_l, Rplus_0_r; ring|]. rewrite !Sig_S, IH, S_INR. replace (a + (INR n + 1) * H) with (a + INR n * H + H) by ring. ring. }
  rewrite B, <- Eb. field.
Qed.
Lemma poly_prim n g c : (forall x, g x = Sig n (fun i => c i * x ^ i)) -> forall x, derivable_pt_lim (fun x => Sig n (fun i => c i * (x ^ (i + 1) / INR (i + 1)))) x (g x).
Proof.
  intros E x. rewrite E. clear E. induction n as [|n IH]; cbn [Sig]. { apply derivable_pt_lim_const. }
  apply (derivable_pt_lim_plus (fun x => Sig n (fun i => c i * (x ^ (i + 1) / INR (i + 1)))) (fun x => c n * (x ^ (n + 1) / INR (n + 1)))); [exact IH|].
  assert (N0 : INR (n + 1) <> 0) by (apply not_0_INR; lia).
  replace (c n * x ^ n) with (c n * (/ INR (n + 1) * (INR (n + 1) * x ^ pred (n + 1)))) by (rewrite Nat.add_1_r in *; cbn [pred]; field; exact N0).
  apply (derivable_pt_lim_scal (fun x => x ^ (n + 1) / INR (n + 1))). 
  replace (fun x0 => x0 ^ (n + 1) / INR (n + 1)) with (mult_real_fct (/ INR (n + 1)) (fun y => y ^ (n + 1))). { apply derivable_pt_lim_scal. apply derivable_pt_lim_pow. }
  apply functional_extensionality. intros y. unfold mult_real_fct. unfold Rdiv. ring.
Qed.
(** the trapezoidal values of a polynomial of degree at most 9 are a polynomial of degree at most 4 in the square of the step, and the
    value of that at 0 is the integral *)
Lemma Trap_poly f a b : is_poly 10 f -> exists p, is_poly 5 p /\ integral f a b (p 0) /\ forall N, (1 <= N)%nat -> Trap f a b N = p ((/ INR N) ^ 2).
Proof.
  intros (c & E). pose (Q := fun r (x : R) => Sig 10 (fun k => c k * (ffall k r * x ^ (k - r)))). pose (G := fun x => Sig 10 (fun i => c i * (x ^ (i + 1) / INR (i + 1)))).
  pose (L := b - a). exists (fun u => (G b - G a) + u * (L ^ 2 / 12 * (Q 1%nat b - Q 1%nat a) + u * (- (L ^ 4 / 720 * (Q 3%nat b - Q 3%nat a)) + u * (L ^ 6 / 30240 * (Q 5%nat b - Q 5%nat a) + u * - (L ^ 8 / 1209600 * (Q 7%nat b - Q 7%nat a)))))).
  split; [|split].
  - apply (poly_add 5 (fun _ => G b - G a)); [apply poly_const|]. apply poly_x.
    apply (poly_add 4 (fun _ => _)); [apply poly_const|]. apply poly_x. apply (poly_add 3 (fun _ => _)); [apply poly_const|]. apply poly_x. apply (poly_add 2 (fun _ => _)); [apply poly_const|]. apply poly_x. apply poly_const.
  - exists G. split; [exact (poly_prim 10 f c E)|]. ring.
  - intros N HN. assert (N0 : INR N <> 0) by (apply not_0_INR; lia).
    pose (M := fun x => Sig 10 (fun k => c k * EM k x ((b - a) / INR N))).
    rewrite (Trap_tele f a b N M HN).
    + assert (EMx : forall x, M x = G x + (L / INR N) ^ 2 / 12 * Q 1%nat x - (L / INR N) ^ 4 / 720 * Q 3%nat x + (L / INR N) ^ 6 / 30240 * Q 5%nat x - (L / INR N) ^ 8 / 1209600 * Q 7%nat x).
      { intros x. unfold M, G, Q, EM. fold L. set (H := L / INR N). clearbody H. rewrite <- !Sig_scal. unfold Rminus. rewrite <- !Sig_opp. rewrite <- !Sig_plus. apply Sig_ext. intros k _. unfold Rdiv. ring. }
      rewrite !EMx. field. exact N0.
    + intros x. rewrite !E. unfold M. rewrite <- Sig_minus, <- Sig_plus, <- Sig_scal. apply Sig_ext. intros k Hk. pose proof (EM_step k x ((b - a) / INR N) Hk) as W. 
      replace ((b - a) / INR N / 2 * (c k * x ^ k + c k * (x + (b - a) / INR N) ^ k)) with (c k * ((b - a) / INR N / 2 * (x ^ k + (x + (b - a) / INR N) ^ k))) by ring. rewrite W. ring.
Qed.

(** the values the loop has to use: the trapezoidal values with 2^(j-1) intervals at the abscissae 4^-(j-1) *)
Definition hs (j : nat) : R := (/ 4) ^ (j - 1).
Lemma hs_inj i j : (1 <= i)%nat -> (1 <= j)%nat -> i <> j -> hs i <> hs j.
Proof.
  assert (W : forall i j, (1 <= i < j)%nat -> hs j < hs i). { intros i' j' H. unfold hs. rewrite !pow_inv. apply Rinv_lt_contravar. { apply Rmult_lt_0_compat; apply pow_lt; lra. } apply Rlt_pow; [lra|lia]. }
  intros Hi Hj N E. destruct (Nat.lt_gt_cases i j) as [[L|L] _]; auto; [specialize (W i j)|specialize (W j i)]; rewrite E in W; specialize (W ltac:(lia)); lra.
Qed.
Lemma hs_N j : (1 <= j)%nat -> (/ INR (2 ^ (j - 1))) ^ 2 = hs j.
Proof. intros H. unfold hs. rewrite pow_INR. cbn [INR]. rewrite <- pow_inv, <- pow_mult, Nat.mul_comm, pow_mult. f_equal. field. Qed.
Lemma romb_val f a b eps : forall k j s h ss, (1 <= j)%nat -> (j = 1%nat \/ forall i, (1 <= i < j)%nat -> s i = Trap f a b (2 ^ (i - 1))) -> (forall i, (1 <= i <= j)%nat -> h i = hs i) ->
  (ss = None -> (j <= 5)%nat) ->
  (forall v, ss = Some v -> (6 <= j)%nat /\ forall g, is_poly 5 g -> (forall i, (j - 6 < i < j)%nat -> g (hs i) = Trap f a b (2 ^ (i - 1))) -> v = g 0) ->
  (((j + k <= 5)%nat -> romb_loop f a b eps k j s h ss = UB)) /\
  ((6 <= j + k)%nat -> exists v J, (5 <= J < j + k)%nat /\ romb_loop f a b eps k j s h ss = Ok v /\ forall g, is_poly 5 g -> (forall i, (J - 5 < i <= J)%nat -> g (hs i) = Trap f a b (2 ^ (i - 1))) -> v = g 0).
Proof.
  induction k as [|k IH]; intros j s h ss Hj Hs Hh Hn Hss; cbn [romb_loop].
  - split. + intros H. destruct ss as [v|]; [|reflexivity]. destruct (Hss v eq_refl). lia.
    + intros H. destruct ss as [v|]; [|specialize (Hn eq_refl); lia]. destruct (Hss v eq_refl) as [_ Hv]. exists v, (j - 1)%nat. split; [lia|]. split; [reflexivity|]. intros g Hg E. apply Hv; auto. intros i Hi. apply E. lia.
  - assert (E : trapezit f a b j (s (j - 1)%nat) = Trap f a b (2 ^ (j - 1))).
    { destruct j as [|[|j]]; [lia|apply trapezit_first|]. destruct Hs as [Hs|Hs]; [lia|]. rewrite Hs by lia. replace (S (S j) - 1 - 1)%nat with j by lia. replace (S (S j) - 1)%nat with (S j) by lia. apply trapezit_next. }
    rewrite E. set (s' := updf s j (Trap f a b (2 ^ (j - 1)))).
    assert (Hs' : forall i, (1 <= i < S j)%nat -> s' i = Trap f a b (2 ^ (i - 1))). { intros i Hi. unfold s', updf. destruct (i =? j)%nat eqn:Eq; [apply Nat.eqb_eq in Eq; now subst|]. apply Nat.eqb_neq in Eq. destruct Hs as [Hs|Hs]; [lia|]. apply Hs. lia. }
    assert (Hh' : forall i, (1 <= i <= S j)%nat -> updf h (j + 1) (/ 4 * h j) i = hs i). { intros i Hi. unfold updf. destruct (i =? j + 1)%nat eqn:Eq. - apply Nat.eqb_eq in Eq. subst i. rewrite Hh by lia. unfold hs. replace (j + 1 - 1)%nat with (S (j - 1)) by lia. reflexivity. - apply Nat.eqb_neq in Eq. apply Hh. lia. }
    destruct (5 <=? j)%nat eqn:E5.
    + apply Nat.leb_le in E5. 
      pose proof (fun g Hg X => C103_polint (fun i => h (j - 5 + i)%nat) (fun i => s' (j - 5 + i)%nat) 5 0 g ltac:(lia)
         (fun i i' Hi Hi' N => eq_ind_r (fun z => z <> h (j - 5 + i')%nat) (eq_ind_r (fun z => hs (j - 5 + i) <> z) (hs_inj (j - 5 + i) (j - 5 + i') ltac:(lia) ltac:(lia) ltac:(lia)) (Hh (j - 5 + i')%nat ltac:(lia))) (Hh (j - 5 + i)%nat ltac:(lia))) Hg X) as P.
      (* the polynomial through the points *)
      pose (g0 := Nev (fun i => hs (j - 5 + i)) (fun i => s' (j - 5 + i)%nat) 4 1).
      assert (G0 : is_poly 5 g0) by apply Nev_poly.
      assert (E0 : forall i, (1 <= i <= 5)%nat -> g0 (h (j - 5 + i)%nat) = s' (j - 5 + i)%nat).
      { intros i Hi. rewrite Hh by lia. unfold g0. apply (Nev_node (fun i => hs (j - 5 + i)) (fun i => s' (j - 5 + i)%nat) 5); try lia. intros p q Hp Hq N. apply hs_inj; lia. }
      destruct (P g0 G0 E0) as (dy & Ep & Hdy). rewrite Ep. cbn [rbind]. destruct dy as [dy|]; [|specialize (Hdy ltac:(lia)); congruence].
      assert (U : forall g, is_poly 5 g -> (forall i, (j - 5 < i <= j)%nat -> g (hs i) = Trap f a b (2 ^ (i - 1))) -> g0 0 = g 0).
      { intros g Hg Eg. destruct (P g Hg) as (dy' & Ep' & _). { intros i Hi. rewrite Hh by lia. rewrite Hs' by lia. apply Eg. lia. } rewrite Ep in Ep'. now injection Ep'. }
      destruct (Rle_dec _ _) as [L|L].
      * split; [intros; lia|]. intros H. exists (g0 0), j. split; [lia|]. split; [reflexivity|exact U].
      * destruct (IH (S j) s' (updf h (j + 1) (/ 4 * h j)) (Some (g0 0))) as [_ B]; auto; try discriminate. { intros v [= <-]. split; [lia|]. intros g Hg Eg. apply U; auto. intros i Hi. apply Eg. lia. }
        split; [intros; lia|]. intros H. destruct B as (v & J & HJ & B); [lia|]. exists v, J. split; [lia|exact B].
    + apply Nat.leb_gt in E5. assert (ss = None) as ->. { destruct ss as [v|]; [destruct (Hss v eq_refl); lia|reflexivity]. }
      destruct (IH (S j) s' (updf h (j + 1) (/ 4 * h j)) None) as [A B]; auto; try (intros; lia); try discriminate. split; [intros; apply A; lia|]. intros H. destruct B as (v & J & HJ & B); [lia|]. exists v, J. split; [lia|exact B].
Qed.
(** rombintegral with max >= 5: the result is the value at 0 of the polynomial of degree at most 4, in the square of the step, through the
    last five trapezoidal values, whatever the work arrays contained. *)
Theorem C103_romberg f a b eps max s0 h0 : (5 <= max)%nat -> exists v J, (5 <= J <= max)%nat /\ rombintegral f a b eps max s0 h0 = Ok v /\
  forall g, is_poly 5 g -> (forall i, (J - 5 < i <= J)%nat -> g ((/ 4) ^ (i - 1)) = Trap f a b (2 ^ (i - 1))) -> v = g 0.
Proof.
  intros H. unfold rombintegral. destruct (romb_val f a b eps max 1 s0 (updf h0 1 1) None) as [_ B]; auto; try discriminate. { intros i Hi. replace i with 1%nat by lia. reflexivity. }
  destruct B as (v & J & HJ & B); [lia|]. exists v, J. split; [lia|exact B].
Qed.
(** ... so that polynomials of degree at most 9 are integrated exactly *)
Theorem C103_romberg_exact f a b eps max s0 h0 : (5 <= max)%nat -> is_poly 10 f -> exists v, rombintegral f a b eps max s0 h0 = Ok v /\ integral f a b v.
Proof.
  intros H Hf. destruct (C103_romberg f a b eps max s0 h0 H) as (v & J & HJ & E & U). exists v. split; [exact E|]. destruct (Trap_poly f a b Hf) as (p & Hp & I & T). rewrite (U p Hp); [exact I|].
  intros i Hi. rewrite T by (pose proof (pow2_pos (i - 1)); lia). now rewrite hs_N by lia.
Qed.
(** with max < 5 nothing has been stored in the variable that is returned *)
Theorem C103_romberg_few f a b eps max s0 h0 : (max < 5)%nat -> rombintegral f a b eps max s0 h0 = UB.
Proof. intros H. unfold rombintegral. destruct (romb_val f a b eps max 1 s0 (updf h0 1 1) None) as [A _]; auto; try discriminate. { intros i Hi. replace i with 1%nat by lia. reflexivity. } Qed.

(** ** functions on a uniform grid *)
Lemma rd_grid g x0 dx f i : on_grid g x0 dx f -> (i < List.length f)%nat -> rd f i = Ok (g (x0 + INR i * dx)).
Proof. intros Hg Hi. unfold rd. rewrite <- (Hg i Hi). destruct (nth_error f i) eqn:E; [now rewrite (nth_error_nth f i 0 E)|]. apply nth_error_None in E. lia. Qed.
Lemma trapez_val f dx (F : nat -> R) (M : nat -> R) : (forall i, (i < List.length f)%nat -> rd f i = Ok (F i)) -> (forall i, dx / 2 * (F i + F (i + 1)%nat) = M (i + 1)%nat - M i) ->
  forall k i sum, (i + k < List.length f)%nat -> trapez_loop f dx k i sum = Ok (sum + (M (i + k)%nat - M i)).
Proof.
  intros HF HM. induction k as [|k IH]; intros i sum H; cbn [trapez_loop]. { rewrite Nat.add_0_r. f_equal. ring. }
  rewrite !HF by lia. cbn [rbind]. rewrite IH by lia. rewrite HM. replace (S i + k)%nat with (i + S k)%nat by lia. replace (i + 1)%nat with (S i) by lia. f_equal. ring.
Qed.
(** the trapezoidal sum is exact for linear functions; it reads f[i1], ..., f[i2] only *)
Theorem C103_grid_trapez g x0 dx f i1 i2 : is_poly 2 g -> on_grid g x0 dx f -> (i1 <= i2)%nat -> (i2 < List.length f)%nat ->
  exists v, integrate_trapez_1Dgrid f dx i1 i2 = Ok v /\ integral g (x0 + INR i1 * dx) (x0 + INR i2 * dx) v.
Proof.
  intros (c & E) Hg H1 H2. pose (G := fun x => Sig 2 (fun i => c i * (x ^ (i + 1) / INR (i + 1)))).
  unfold integrate_trapez_1Dgrid. eexists. split.
  - apply (trapez_val f dx (fun i => g (x0 + INR i * dx)) (fun i => G (x0 + INR i * dx))); [intros i Hi; now apply rd_grid| |lia].
    intros i. rewrite !E, INR_S1. unfold G. cbn [Sig pow Nat.add INR]. field.
  - exists G. split; [exact (poly_prim 2 g c E)|]. replace (i1 + (i2 - i1))%nat with i2 by lia. ring.
Qed.
Lemma simp_val f dx (F : nat -> R) (M : nat -> R) : (forall i, (i < List.length f)%nat -> rd f i = Ok (F i)) -> (forall i, dx / 3 * (F i + 4 * F (i + 1)%nat + F (i + 2)%nat) = M (i + 2)%nat - M i) ->
  forall n k i sum, (n < k)%nat -> (i + 2 * n < List.length f)%nat -> simpson_loop f dx k i (i + 2 * n - 1) sum = Ok (sum + (M (i + 2 * n)%nat - M i)).
Proof.
  intros HF HM. induction n as [|n IH]; intros k i sum Hk H; destruct k as [|k]; try lia; cbn [simpson_loop].
  - rewrite Nat.mul_0_r, Nat.add_0_r. replace (i <? i - 1)%nat with false by (symmetry; apply Nat.ltb_ge; lia). f_equal. ring.
  - replace (i <? i + 2 * S n - 1)%nat with true by (symmetry; apply Nat.ltb_lt; lia). rewrite !HF by lia. cbn [rbind]. rewrite HM. replace (i + 2 * S n)%nat with (i + 2 + 2 * n)%nat by lia. rewrite IH by lia. f_equal. ring.
Qed.
Section Simp.
Variable (c : nat -> R) (g : R -> R) (x0 dx : R) (f : list R).
Hypothesis E : forall x, g x = Sig 4 (fun i => c i * x ^ i).
Hypothesis Hg : on_grid g x0 dx f.
Let G := fun x => Sig 4 (fun i => c i * (x ^ (i + 1) / INR (i + 1))).
Lemma simp_g n k i sum : (n < k)%nat -> (i + 2 * n < List.length f)%nat -> simpson_loop f dx k i (i + 2 * n - 1) sum = Ok (sum + (G (x0 + INR (i + 2 * n) * dx) - G (x0 + INR i * dx))).
Proof.
  intros Hk Hn. apply (simp_val f dx (fun i => g (x0 + INR i * dx)) (fun i => G (x0 + INR i * dx))); auto. { intros j Hj. now apply rd_grid. }
  intros j. rewrite !E, !plus_INR. unfold G. cbn [Sig pow Nat.add INR]. field.
Qed.
Lemma te_g i : (i + 3 < List.length f)%nat -> three_eighth f dx i = Ok (G (x0 + INR (i + 3) * dx) - G (x0 + INR i * dx)).
Proof.
  intros H. unfold three_eighth. rewrite !(rd_grid g x0 dx f) by (auto; lia). cbn [rbind]. f_equal. rewrite !E, !plus_INR. unfold G. cbn [Sig pow Nat.add INR]. field.
Qed.
Lemma prim_g x y : integral g x y (G y - G x). Proof. exists G. split; [exact (poly_prim 4 g c E)|reflexivity]. Qed.
Lemma simpson_g i1 i2 : (i1 + 3 <= i2)%nat -> (i2 < List.length f)%nat -> integrate_simpson_1Dgrid f dx i1 i2 = Ok (G (x0 + INR i2 * dx) - G (x0 + INR i1 * dx)).
Proof.
  intros H1 H2. unfold integrate_simpson_1Dgrid. replace (i2 - i1 <? 3)%nat with false by (symmetry; apply Nat.ltb_ge; lia). cbv zeta.
  pose proof (Nat.div_mod (i2 - i1 + 1) 2 ltac:(lia)) as D. pose proof (Nat.mod_upper_bound (i2 - i1 + 1) 2 ltac:(lia)) as Mb. set (q := ((i2 - i1 + 1) / 2)%nat) in *. destruct ((i2 - i1 + 1) mod 2 =? 0)%nat eqn:Ev.
  - apply Nat.eqb_eq in Ev. rewrite Ev in D. assert (Ei : i2 = (i1 + 2 * (q - 2) + 3)%nat) by lia. replace (i2 - 3 - 1)%nat with (i1 + 2 * (q - 2) - 1)%nat by lia. rewrite simp_g by lia. cbn [rbind]. rewrite te_g by lia. cbn [rbind].
    replace (i2 - 3 + 3)%nat with i2 by lia. replace (i2 - 3)%nat with (i1 + 2 * (q - 2))%nat by lia. f_equal. ring.
  - apply Nat.eqb_neq in Ev. assert (Ei : i2 = (i1 + 2 * q)%nat) by lia. replace (i2 - 0 - 1)%nat with (i1 + 2 * q - 1)%nat by lia. rewrite simp_g by lia. cbn [rbind]. rewrite <- Ei. f_equal. ring.
Qed.
Lemma simpson_old_g i1 i2 : (i1 <= i2)%nat -> i2 <> (i1 + 1)%nat -> (i2 < List.length f)%nat -> integrate_simpson_old_1Dgrid f dx i1 i2 = Ok (G (x0 + INR i2 * dx) - G (x0 + INR i1 * dx)).
Proof.
  intros H1 N1 H2. unfold integrate_simpson_old_1Dgrid. cbv zeta.
  pose proof (Nat.div_mod (i2 - i1 + 1) 2 ltac:(lia)) as D. pose proof (Nat.mod_upper_bound (i2 - i1 + 1) 2 ltac:(lia)) as Mb. set (q := ((i2 - i1 + 1) / 2)%nat) in *. destruct ((i2 - i1 + 1) mod 2 =? 0)%nat eqn:Ev.
  - apply Nat.eqb_eq in Ev. rewrite Ev in D. assert (Ei : i2 = (i1 + 3 + 2 * (q - 2))%nat) by lia. rewrite te_g by lia. cbn [rbind]. replace (i2 - 1)%nat with (i1 + 3 + 2 * (q - 2) - 1)%nat by lia. rewrite simp_g by lia. rewrite <- Ei. f_equal. ring.
  - apply Nat.eqb_neq in Ev. assert (Ei : i2 = (i1 + 0 + 2 * q)%nat) by lia. cbn [rbind]. replace (i2 - 1)%nat with (i1 + 0 + 2 * q - 1)%nat by lia. rewrite simp_g by lia. rewrite <- Ei. rewrite Nat.add_0_r. f_equal. ring.
Qed.
End Simp.
(** Simpson's rule is exact for polynomials of degree at most 3 when there are at least four points; with fewer points it is the
    trapezoidal sum *)
Theorem C103_grid_simpson g x0 dx f i1 i2 : is_poly 4 g -> on_grid g x0 dx f -> (i1 + 3 <= i2)%nat -> (i2 < List.length f)%nat ->
  exists v, integrate_simpson_1Dgrid f dx i1 i2 = Ok v /\ integral g (x0 + INR i1 * dx) (x0 + INR i2 * dx) v.
Proof. intros (c & E) Hg H1 H2. eexists. split; [apply (simpson_g c g x0 dx f E Hg i1 i2 H1 H2)|]. now apply prim_g. Qed.
Theorem C103_grid_simpson_few g x0 dx f i1 i2 : is_poly 2 g -> on_grid g x0 dx f -> (i1 <= i2 < i1 + 3)%nat -> (i2 < List.length f)%nat ->
  exists v, integrate_simpson_1Dgrid f dx i1 i2 = Ok v /\ integral g (x0 + INR i1 * dx) (x0 + INR i2 * dx) v.
Proof. intros Hp Hg H1 H2. unfold integrate_simpson_1Dgrid. replace (i2 - i1 <? 3)%nat with true by (symmetry; apply Nat.ltb_lt; lia). apply C103_grid_trapez; auto; lia. Qed.
(** three points are enough for Simpson's rule, but they are not used that way: the result for x^2 on -1, 0, 1 is 1 *)
Theorem C103_grid_simpson_three_refuted : exists g f, is_poly 3 g /\ on_grid g (-1) 1 f /\ List.length f = 3%nat /\ exists v, integrate_simpson_1Dgrid f 1 0 2 = Ok v /\ ~ integral g (-1) 1 v.
Proof.
  exists (fun x => x ^ 2), [1; 0; 1]. split; [|split; [|split]].
  - exists (fun i => if (i =? 2)%nat then 1 else 0). intros x. cbn. ring.
  - intros i Hi. cbn in Hi. do 3 (destruct i as [|i]; [cbn; ring|]). lia.
  - reflexivity.
  - exists 1. split. { cbn. f_equal. field. } intros (G & HG & E).
    assert (P : forall x, derivable_pt_lim (fun x => / 3 * x ^ 3) x (x ^ 2)). { intros x. replace (x ^ 2) with (/ 3 * (INR 3 * x ^ 2)) by (cbn; field). apply (derivable_pt_lim_scal (fun x => x ^ 3)). apply (derivable_pt_lim_pow x 3). }
    destruct (MVT_cor2 (fun x => G x - / 3 * x ^ 3) (fun _ => 0) (-1) 1) as (z & Ez & _); [lra| |]. { intros x _. replace 0 with (x ^ 2 - x ^ 2) by ring. apply (derivable_pt_lim_minus G (fun x => / 3 * x ^ 3)); auto. } lra.
Qed.
(** the old version is exact for three points too, but for two points it reads f[i1+2] and f[i1+3] *)
Theorem C103_grid_simpson_old_partial g x0 dx f i1 i2 : is_poly 4 g -> on_grid g x0 dx f -> (i1 <= i2)%nat -> i2 <> (i1 + 1)%nat -> (i2 < List.length f)%nat ->
  exists v, integrate_simpson_old_1Dgrid f dx i1 i2 = Ok v /\ integral g (x0 + INR i1 * dx) (x0 + INR i2 * dx) v.
Proof. intros (c & E) Hg H1 N1 H2. eexists. split; [apply (simpson_old_g c g x0 dx f E Hg i1 i2 H1 N1 H2)|]. now apply prim_g. Qed.
Theorem C103_grid_simpson_old_refuted dx f : (2 <= List.length f <= 3)%nat -> integrate_simpson_old_1Dgrid f dx 0 1 = UB.
Proof. intros H. destruct f as [|u [|v [|w [|]]]]; cbn in H; try lia; reflexivity. Qed.

(** ** integrals over three variables *)
(** f uses the state in a way that does not matter: its value is that of a pure function g as long as the part P of the state is as wanted *)
Definition pure_on (P : st -> Prop) (f : fst_fun) (g : R -> R) : Prop := forall x s, P s -> fst (f x s) = g x /\ P (snd (f x s)).
Lemma iter_st P f g h : pure_on P f g -> forall n x s, P s -> 
  let '(u, s') := (let '(sum, x, s) := Nat.iter n (fun sx : R * R * st => let '(sum, x, s) := sx in let '(v, s) := f x s in (sum + v, x + h, s)) (0, x, s) in ((sum, x), s)) in
  u = Nat.iter n (fun sx : R * R => let '(sum, x) := sx in (sum + g x, x + h)) (0, x) /\ P s'.
Proof.
  intros Hp. induction n as [|n IH]; intros x s Hs. { cbn. auto. } rewrite !iterS. specialize (IH x s Hs). destruct (Nat.iter n _ (0, x, s)) as [[sum y] s1]. destruct IH as [<- P1]. destruct (Hp y s1 P1) as [E1 P2]. destruct (f y s1) as [v s2]. cbn [fst snd] in *. subst v. auto.
Qed.
Lemma trapezit_st_val P f g a b n so s : pure_on P f g -> P s -> fst (trapezit_st f a b n so s) = trapezit g a b n so /\ P (snd (trapezit_st f a b n so s)).
Proof.
  intros Hp Hs. unfold trapezit_st, trapezit. destruct (n =? 1)%nat.
  - destruct (Hp a s Hs) as [E1 P1]. destruct (f a s) as [v1 s1]. cbn [fst snd] in *. destruct (Hp b s1 P1) as [E2 P2]. destruct (f b s1) as [v2 s2]. cbn [fst snd] in *. subst. auto.
  - cbv zeta. pose proof (iter_st P f g ((b - a) / INR (Nat.iter (n - 2) (fun i => 2 * i)%nat 1%nat)) Hp (Nat.iter (n - 2) (fun i => 2 * i)%nat 1%nat) (a + / 2 * ((b - a) / INR (Nat.iter (n - 2) (fun i => 2 * i)%nat 1%nat))) s Hs) as I.
    destruct (Nat.iter _ _ (0, _, s)) as [[sum y] s1]. destruct I as [<- P1]. auto.
Qed.
Lemma integral_st_val P f g a b eps max s : pure_on P f g -> P s -> fst (integral_st f a b eps max s) = integral_trap g a b eps max /\ P (snd (integral_st f a b eps max s)).
Proof.
  intros Hp Hs. unfold integral_st, integral_trap. cbv zeta. destruct (trapezit_st_val P f g a b 1 0 s Hp Hs) as [<- P1]. destruct (trapezit_st f a b 1 0 s) as [v s1]. cbn [fst snd] in *.
  assert (L : forall k j u w s, P s -> fst (integral_loop_st f a b eps k j u w s) = integral_loop g a b eps k j u w /\ P (snd (integral_loop_st f a b eps k j u w s))).
  { induction k as [|k IH]; intros j u w s2 H2; cbn [integral_loop_st integral_loop]; [auto|]. destruct (trapezit_st_val P f g a b j u s2 Hp H2) as [E P3]. destruct (trapezit_st f a b j u s2) as [w' s3]. cbn [fst snd] in *. rewrite <- E. destruct (Rlt_dec _ _); auto. }
  apply L. exact P1.
Qed.
(** integral3D: the two static variables do not disturb each other; the result is the iterated integral, whatever they contained before *)
Theorem C103_integral3D func yl1 yl2 zl1 zl2 sx sy sz mx my mz x1 x2 s :
  integral3D integral_st func yl1 yl2 zl1 zl2 sx sy sz mx my mz x1 x2 s =
  integral_trap (fun x => integral_trap (fun y => integral_trap (fun z => func x y z) (zl1 x y) (zl2 x y) sz mz) (yl1 x) (yl2 x) sy my) x1 x2 sx mx.
Proof.
  unfold integral3D. apply (integral_st_val (fun _ => True)); auto. intros x s1 _. split; auto. unfold f1. cbv zeta.
  apply (integral_st_val (fun s => fst s = x)); auto. intros y s2 E2. unfold f2. cbv zeta. cbn [fst]. rewrite E2.
  destruct (integral_st_val (fun s => s = (x, y)) (f3 func) (fun z => func x y z) (zl1 x y) (zl2 x y) sz mz (x, y)) as [Ea Eb]; auto. { intros z s3 ->. auto. } split; [exact Ea|]. now rewrite Eb.
Qed.
Example C103_nontrivial : is_poly 10 (fun x => x ^ 9) /\ on_grid (fun x => x) 0 1 [0; 1; 2; 3] /\ (forall i j, (1 <= i <= 3)%nat -> (1 <= j <= 3)%nat -> i <> j -> INR i <> INR j).
Proof.
  split; [|split].
  - exists (fun i => if (i =? 9)%nat then 1 else 0). intros x. cbn. ring.
  - intros i Hi. cbn in Hi. do 4 (destruct i as [|i]; [cbn; ring|]). lia.
  - intros i j _ _ N. now apply not_INR.
Qed.
Print Assumptions C103_trapezoid. Print Assumptions C103_polint. Print Assumptions C103_polint_equal. Print Assumptions C103_romberg. Print Assumptions C103_romberg_exact. Print Assumptions C103_romberg_few.
Print Assumptions C103_grid_trapez. Print Assumptions C103_grid_simpson. Print Assumptions C103_grid_simpson_few. Print Assumptions C103_grid_simpson_three_refuted. Print Assumptions C103_grid_simpson_old_partial. Print Assumptions C103_grid_simpson_old_refuted. Print Assumptions C103_integral3D.

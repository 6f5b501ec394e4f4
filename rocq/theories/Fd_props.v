(** C40: finite differences. *)
From Verif Require Import Arrays Cheb_model Fd_model Fd_spec.
Local Open Scope R_scope.

Lemma rdm_ok (l : list R) n k : (k <= n)%nat -> (n - k < List.length l)%nat -> rdm l n k = Ok l.[n - k].
Proof. intros H1 H2. unfold rdm. destruct (Nat.ltb_spec n k); [lia|]. apply rd_ok. auto. Qed.
Lemma inner_ok c cder n f : (n + 1 <= List.length c)%nat -> (n + 1 <= List.length cder)%nat ->
  exists d, inner c cder n f = Ok d /\ List.length d = List.length cder /\
    forall j, d.[j] = if ((1 <=? j) && (j <? n))%nat then f c.[j + 1] c.[j] c.[j - 1] else cder.[j].
Proof.
  intros Lc Ld. unfold inner. apply fill_loop; [lia|]. intros j s Hj Ls.
  rewrite (rd_ok _ (j + 1) 0) by lia. cbn [rbind]. rewrite (rd_ok _ j 0) by lia. cbn [rbind]. rewrite (rd_ok _ (j - 1) 0) by lia. reflexivity.
Qed.
(** the two end points written after the loop *)
Lemma ends_ok (d : list R) n v0 vn : (n < List.length d)%nat -> (1 <= n)%nat ->
  exists d', (do e <- wr d 0 v0; wr e n vn) = Ok d' /\ List.length d' = List.length d /\ d'.[0] = v0 /\ d'.[n] = vn /\ forall j, j <> 0%nat -> j <> n -> d'.[j] = d.[j].
Proof.
  intros L H. rewrite wr_ok by lia. cbn [rbind]. rewrite wr_ok by (rewrite upd_length; lia). eexists. split; [reflexivity|]. rewrite !upd_length. split; auto.
  split; [rewrite nth_upd_ne by lia; apply nth_upd_eq; lia|]. split; [apply nth_upd_eq; rewrite upd_length; lia|].
  intros j J0 Jn. rewrite !nth_upd_ne by auto. auto.
Qed.

Ltac reads := repeat (first [rewrite (rd_ok _ _ 0) by lia | rewrite rdm_ok by lia]; cbn [rbind]).
Lemma quad_deriv c0 c1 c2 p x : (forall x, p x = c0 + c1 * x + c2 * x ^ 2) -> derivable_pt_lim p x (c1 + 2 * c2 * x).
Proof.
  intros H. eapply (derivable_pt_lim_ext (fun x => c0 + c1 * x + c2 * x ^ 2)); [intros; symmetry; apply H|].
  replace (c1 + 2 * c2 * x) with (0 + c1 * 1 + c2 * (INR 2 * x ^ pred 2)) by (simpl; ring).
  apply (derivable_pt_lim_plus (fun x => c0 + c1 * x) (fun x => c2 * x ^ 2)).
  - apply (derivable_pt_lim_plus (fun _ => c0) (fun x => c1 * x)); [apply derivable_pt_lim_const|]. apply (derivable_pt_lim_scal id c1 x 1). apply derivable_pt_lim_id.
  - apply (derivable_pt_lim_scal (fun x => x ^ 2) c2 x). apply derivable_pt_lim_pow.
Qed.
Lemma cub_deriv c0 c1 c2 c3 p x : (forall x, p x = c0 + c1 * x + c2 * x ^ 2 + c3 * x ^ 3) -> derivable_pt_lim p x (c1 + 2 * c2 * x + 3 * c3 * x ^ 2).
Proof.
  intros H. eapply (derivable_pt_lim_ext (fun x => (c0 + c1 * x + c2 * x ^ 2) + c3 * x ^ 3)); [intros; symmetry; apply H|].
  apply (derivable_pt_lim_plus (fun x => c0 + c1 * x + c2 * x ^ 2) (fun x => c3 * x ^ 3)).
  - apply (quad_deriv c0 c1 c2). auto.
  - replace (3 * c3 * x ^ 2) with (c3 * (INR 3 * x ^ pred 3)) by (simpl; ring). apply (derivable_pt_lim_scal (fun x => x ^ 3) c3 x). apply derivable_pt_lim_pow.
Qed.

(** ** First derivative, non-periodic: exact for quadratics at every point; reads only the n+1 entries of the line *)
Theorem C40_onesided a b c cder n p : a <> b -> (2 <= n)%nat -> List.length c = (n + 1)%nat -> List.length cder = (n + 1)%nat ->
  quadratic p -> (forall j, (j <= n)%nat -> c.[j] = p (ugrid a b n j)) ->
  exists d, fd2_deriv_onesidedBC a b c cder n = Ok d /\ List.length d = (n + 1)%nat /\ forall j, (j <= n)%nat -> derivable_pt_lim p (ugrid a b n j) d.[j].
Proof.
  intros Hab Hn Lc Ld (c0 & c1 & c2 & Hp) Hc. unfold fd2_deriv_onesidedBC. cbv zeta.
  destruct (inner_ok c cder n (fun p q m => (p - m) * (0.5 * INR n / (b - a)))) as (d & E & L & V); [lia|lia|]. rewrite E. cbn [rbind].
  assert (N0 : INR n <> 0) by (apply not_0_INR; lia). assert (B0 : b - a <> 0) by lra.
  rewrite !(rd_ok c _ 0) by lia. cbn [rbind]. rewrite !rdm_ok by lia. cbn [rbind].
  destruct (ends_ok d n ((-3.0 * c.[0] + 4.0 * c.[1] - c.[2]) * (0.5 * INR n / (b - a))) ((3.0 * c.[n] - 4.0 * c.[n - 1] + c.[n - 2]) * (0.5 * INR n / (b - a)))) as (d' & E' & L' & V0 & Vn & Vj); [lia|lia|].
  exists d'. split; [exact E'|]. split; [lia|]. intros j Hj.
  assert (G : d'.[j] = c1 + 2 * c2 * ugrid a b n j).
  { destruct (Nat.eq_dec j 0) as [->|J0]; [|destruct (Nat.eq_dec j n) as [->|Jn]].
    - rewrite V0, !Hc, !Hp by lia. unfold ugrid. simpl (INR 0). simpl (INR 1). replace (INR 2) with 2 by (simpl; lra). field_simplify_eq; [|auto]. lra.
    - rewrite Vn, !Hc, !Hp by lia. unfold ugrid. rewrite !minus_INR by lia. simpl (INR 1). replace (INR 2) with 2 by (simpl; lra). field_simplify_eq; [|auto]. lra.
    - rewrite Vj, V by auto. destruct (Nat.leb_spec 1 j), (Nat.ltb_spec j n); try lia. cbn [andb]. rewrite !Hc, !Hp by lia. unfold ugrid. rewrite plus_INR, minus_INR by lia. simpl (INR 1). field_simplify_eq; [|auto]. lra. }
  rewrite G. apply (quad_deriv c0). auto.
Qed.

(** ** Second derivative, non-periodic: exact for cubics at every point *)
Theorem C40_onesided2 a b c cder n p p' : a <> b -> (3 <= n)%nat -> List.length c = (n + 1)%nat -> List.length cder = (n + 1)%nat ->
  cubic p -> (forall x, derivable_pt_lim p x (p' x)) -> (forall j, (j <= n)%nat -> c.[j] = p (ugrid a b n j)) ->
  exists d, fd2_2ndderiv_onesidedBC a b c cder n = Ok d /\ List.length d = (n + 1)%nat /\ forall j, (j <= n)%nat -> derivable_pt_lim p' (ugrid a b n j) d.[j].
Proof.
  intros Hab Hn Lc Ld (c0 & c1 & c2 & c3 & Hp) Hp' Hc. unfold fd2_2ndderiv_onesidedBC. cbv zeta.
  destruct (inner_ok c cder n (fun p q m => (p - 2.0 * q + m) * (INR n / (b - a) * (INR n / (b - a))))) as (d & E & L & V); [lia|lia|]. rewrite E. cbn [rbind].
  assert (N0 : INR n <> 0) by (apply not_0_INR; lia). assert (B0 : b - a <> 0) by lra.
  rewrite !(rd_ok c _ 0) by lia. cbn [rbind]. rewrite !rdm_ok by lia. cbn [rbind].
  match goal with |- context [wr d 0 ?v0] => match goal with |- context [wr _ n ?vn] => destruct (ends_ok d n v0 vn) as (d' & E' & L' & V0 & Vn & Vj); [lia|lia|] end end.
  exists d'. split; [exact E'|]. split; [lia|]. intros j Hj.
  assert (G : d'.[j] = 2 * c2 + 2 * (3 * c3) * ugrid a b n j).
  { destruct (Nat.eq_dec j 0) as [->|J0]; [|destruct (Nat.eq_dec j n) as [->|Jn]].
    - rewrite V0, !Hc, !Hp by lia. unfold ugrid. simpl (INR 0). simpl (INR 1). replace (INR 2) with 2 by (simpl; lra). replace (INR 3) with 3 by (simpl; lra). field_simplify_eq; [|auto]. lra.
    - rewrite Vn, !Hc, !Hp by lia. unfold ugrid. rewrite !minus_INR by lia. simpl (INR 1). replace (INR 2) with 2 by (simpl; lra). replace (INR 3) with 3 by (simpl; lra). field_simplify_eq; [|auto]. lra.
    - rewrite Vj, V by auto. destruct (Nat.leb_spec 1 j), (Nat.ltb_spec j n); try lia. cbn [andb]. rewrite !Hc, !Hp by lia. unfold ugrid. rewrite plus_INR, minus_INR by lia. simpl (INR 1). field_simplify_eq; [|auto]. lra. }
  rewrite G. apply (quad_deriv c1 (2 * c2) (3 * c3)). intros x.
  apply (uniqueness_limite p x); auto. replace (c1 + 2 * c2 * x + 3 * c3 * x ^ 2) with (c1 + 2 * c2 * x + 3 * c3 * x ^ 2) by ring. apply (cub_deriv c0). auto.
Qed.

(** ** Periodic versions: centred differences with neighbours taken modulo the number of points *)
Theorem C40_periodic a b c cder n : a <> b -> (1 <= n)%nat -> List.length c = (n + 1)%nat -> List.length cder = (n + 1)%nat ->
  let N := (n + 1)%nat in let h := (b - a) / INR N in
  (exists d, fd2_deriv_periodic a b c cder n = Ok d /\ List.length d = N /\
    forall j, (j < N)%nat -> d.[j] = (c.[(j + 1) mod N] - c.[(j + N - 1) mod N]) / (2 * h)) /\
  (exists d, fd2_2ndderiv_periodic a b c cder n = Ok d /\ List.length d = N /\
    forall j, (j < N)%nat -> d.[j] = (c.[(j + 1) mod N] - 2 * c.[j] + c.[(j + N - 1) mod N]) / (h * h)).
Proof.
  intros Hab Hn Lc Ld N h. assert (HN : N = (n + 1)%nat) by reflexivity. assert (N0 : INR N <> 0) by (apply not_0_INR; lia). assert (B0 : b - a <> 0) by lra.
  assert (M : forall j, (j < N)%nat -> ((j + 1) mod N = if (j =? n)%nat then 0%nat else (j + 1)%nat) /\ ((j + N - 1) mod N = if (j =? 0)%nat then n else (j - 1)%nat)).
  { intros j Hj. split.
    - destruct (Nat.eqb_spec j n) as [->|]. { apply Nat.mod_same. lia. } apply Nat.mod_small. lia.
    - destruct (Nat.eqb_spec j 0) as [->|]. { rewrite Nat.mod_small; lia. } replace (j + N - 1)%nat with (j - 1 + 1 * N)%nat by lia. rewrite Nat.mod_add by lia. apply Nat.mod_small. lia. }
  split.
  - unfold fd2_deriv_periodic. cbv zeta. fold N.
    destruct (inner_ok c cder n (fun p q m => (p - m) * (0.5 * INR N / (b - a)))) as (d & E & L & V); [lia|lia|]. rewrite E. cbn [rbind].
    rewrite !(rd_ok c _ 0) by lia. cbn [rbind]. rewrite !rdm_ok by lia. cbn [rbind].
    match goal with |- context [wr d 0 ?v0] => match goal with |- context [wr _ n ?vn] => destruct (ends_ok d n v0 vn) as (d' & E' & L' & V0 & Vn & Vj); [lia|lia|] end end.
    exists d'. split; [exact E'|]. split; [lia|]. intros j Hj. destruct (M j Hj) as [-> ->].
    destruct (Nat.eqb_spec j n) as [->|Jn]; [|destruct (Nat.eqb_spec j 0) as [->|J0]].
    + rewrite Vn. destruct (Nat.eqb_spec n 0); [lia|]. unfold h. field_simplify_eq; [lra|auto].
    + rewrite V0. change (0 + 1)%nat with 1%nat. unfold h. field_simplify_eq; [lra|auto].
    + rewrite Vj, V by auto. destruct (Nat.leb_spec 1 j), (Nat.ltb_spec j n); try lia. cbn [andb]. unfold h. field_simplify_eq; [lra|auto].
  - unfold fd2_2ndderiv_periodic. cbv zeta. fold N.
    destruct (inner_ok c cder n (fun p q m => (p - 2.0 * q + m) * (INR N / (b - a) * (INR N / (b - a))))) as (d & E & L & V); [lia|lia|]. rewrite E. cbn [rbind].
    rewrite !(rd_ok c _ 0) by lia. cbn [rbind]. rewrite !rdm_ok by lia. cbn [rbind].
    match goal with |- context [wr d 0 ?v0] => match goal with |- context [wr _ n ?vn] => destruct (ends_ok d n v0 vn) as (d' & E' & L' & V0 & Vn & Vj); [lia|lia|] end end.
    exists d'. split; [exact E'|]. split; [lia|]. intros j Hj. destruct (M j Hj) as [-> ->].
    destruct (Nat.eqb_spec j n) as [->|Jn]; [|destruct (Nat.eqb_spec j 0) as [->|J0]].
    + rewrite Vn. destruct (Nat.eqb_spec n 0); [lia|]. unfold h. field_simplify_eq; [lra|auto].
    + rewrite V0. change (0 + 1)%nat with 1%nat. unfold h. field_simplify_eq; [lra|auto].
    + rewrite Vj, V by auto. destruct (Nat.leb_spec 1 j), (Nat.ltb_spec j n); try lia. cbn [andb]. unfold h. field_simplify_eq; [lra|auto].
Qed.

(** ** With fewer points the one-sided closures do read outside the line *)
Theorem C40_short_refuted : (forall a b, fd2_deriv_onesidedBC a b [0; 0] [0; 0] 1 = UB) /\ (forall a b, fd2_2ndderiv_onesidedBC a b [0; 0; 0] [0; 0; 0] 2 = UB) /\
  (forall a b, fd2_deriv_periodic a b [0] [0] 0 = UB).
Proof. repeat split; reflexivity. Qed.

(** ** Arbitrary spacing: exact for linear functions; for quadratics exact at the middle of the two points used *)
Lemma diff_quad c0 c1 c2 p x y : (forall x, p x = c0 + c1 * x + c2 * x ^ 2) -> x <> y -> derivable_pt_lim p ((x + y) / 2) ((p x - p y) / (x - y)).
Proof. intros H NE. replace ((p x - p y) / (x - y)) with (c1 + 2 * c2 * ((x + y) / 2)). 2:{ rewrite !H. field. lra. } apply (quad_deriv c0). auto. Qed.
Theorem C40_nonuniform x c cder n p : (1 <= n)%nat -> List.length x = (n + 1)%nat -> List.length c = (n + 1)%nat -> List.length cder = (n + 1)%nat ->
  (forall i j, (i < j <= n)%nat -> x.[i] <> x.[j]) -> quadratic p -> (forall j, (j <= n)%nat -> c.[j] = p x.[j]) ->
  let at_mid d lo hi := exists r, d = Ok r /\ List.length r = (n + 1)%nat /\ forall j, (j <= n)%nat -> derivable_pt_lim p ((x.[hi j] + x.[lo j]) / 2) r.[j] in
  at_mid (fdcentered_deriv_onesidedBC x c cder n) (fun j => if (j =? 0)%nat then 0%nat else (j - 1)%nat) (fun j => if (j =? n)%nat then n else (j + 1)%nat) /\
  at_mid (fdDp_deriv_onesidedBC x c cder n) (fun j => if (j =? n)%nat then (n - 1)%nat else j) (fun j => if (j =? n)%nat then n else (j + 1)%nat) /\
  at_mid (fdDm_deriv_onesidedBC x c cder n) (fun j => if (j =? 0)%nat then 0%nat else (j - 1)%nat) (fun j => if (j =? 0)%nat then 1%nat else j).
Proof.
  intros Hn Lx Lc Ld Hx (c0 & c1 & c2 & Hp) Hc at_mid. repeat split; unfold at_mid.
  - unfold fdcentered_deriv_onesidedBC. match goal with |- context [for_nat 1 n ?B cder] => destruct (fill_loop 1 n B (fun j => (c.[j + 1] - c.[j - 1]) / (x.[j + 1] - x.[j - 1])) cder 0) as (d & E & L & V); [lia| |] end.
    { intros j s Hj Ls. reads. reflexivity. }
    rewrite E. cbn [rbind]. reads.
    match goal with |- context [wr d 0 ?v0] => match goal with |- context [wr _ n ?vn] => destruct (ends_ok d n v0 vn) as (d' & E' & L' & V0 & Vn & Vj); [lia|lia|] end end.
    exists d'. split; [exact E'|]. split; [lia|]. intros j Hj.
    destruct (Nat.eqb_spec j 0) as [->|J0]; [|destruct (Nat.eqb_spec j n) as [->|Jn]].
    + destruct (Nat.eqb_spec 0 n); [lia|]. rewrite V0, !Hc by lia. apply (diff_quad c0 c1 c2); auto. apply not_eq_sym, Hx. lia.
    + rewrite Vn, !Hc by lia. apply (diff_quad c0 c1 c2); auto. apply not_eq_sym, Hx. lia.
    + rewrite Vj, V by auto. destruct (Nat.leb_spec 1 j), (Nat.ltb_spec j n); try lia. cbn [andb]. rewrite !Hc by lia. apply (diff_quad c0 c1 c2); auto. apply not_eq_sym, Hx. lia.
  - unfold fdDp_deriv_onesidedBC. match goal with |- context [for_nat 0 n ?B cder] => destruct (fill_loop 0 n B (fun j => (c.[j + 1] - c.[j]) / (x.[j + 1] - x.[j])) cder 0) as (d & E & L & V); [lia| |] end.
    { intros j s Hj Ls. reads. reflexivity. }
    rewrite E. cbn [rbind]. reads.
    rewrite wr_ok by lia. eexists. split; [reflexivity|]. rewrite upd_length. split; [lia|]. intros j Hj.
    destruct (Nat.eqb_spec j n) as [->|Jn].
    + rewrite nth_upd_eq by lia. rewrite !Hc by lia. apply (diff_quad c0 c1 c2); auto. apply not_eq_sym, Hx. lia.
    + rewrite nth_upd_ne, V by auto. destruct (Nat.leb_spec 0 j), (Nat.ltb_spec j n); try lia. cbn [andb]. rewrite !Hc by lia. apply (diff_quad c0 c1 c2); auto. apply not_eq_sym, Hx. lia.
  - unfold fdDm_deriv_onesidedBC. match goal with |- context [for_nat 1 (n + 1) ?B cder] => destruct (fill_loop 1 (n + 1) B (fun j => (c.[j] - c.[j - 1]) / (x.[j] - x.[j - 1])) cder 0) as (d & E & L & V); [lia| |] end.
    { intros j s Hj Ls. reads. reflexivity. }
    rewrite E. cbn [rbind]. reads. 
    rewrite wr_ok by lia. eexists. split; [reflexivity|]. rewrite upd_length. split; [lia|]. intros j Hj.
    destruct (Nat.eqb_spec j 0) as [->|J0].
    + rewrite nth_upd_eq by lia. rewrite !Hc by lia. apply (diff_quad c0 c1 c2); auto. apply not_eq_sym, Hx. lia.
    + rewrite nth_upd_ne, V by auto. destruct (Nat.leb_spec 1 j), (Nat.ltb_spec j (n + 1)); try lia. cbn [andb]. rewrite !Hc by lia. apply (diff_quad c0 c1 c2); auto. apply not_eq_sym, Hx. lia.
Qed.
(** hence all three are exact for linear functions at the points themselves *)
Theorem C40_nonuniform_linear x c cder n p : (1 <= n)%nat -> List.length x = (n + 1)%nat -> List.length c = (n + 1)%nat -> List.length cder = (n + 1)%nat ->
  (forall i j, (i < j <= n)%nat -> x.[i] <> x.[j]) -> linear p -> (forall j, (j <= n)%nat -> c.[j] = p x.[j]) ->
  Forall (fun d => exists r, d = Ok r /\ List.length r = (n + 1)%nat /\ forall j, (j <= n)%nat -> derivable_pt_lim p x.[j] r.[j])
    [fdcentered_deriv_onesidedBC x c cder n; fdDp_deriv_onesidedBC x c cder n; fdDm_deriv_onesidedBC x c cder n].
Proof.
  intros Hn Lx Lc Ld Hx (c0 & c1 & Hp) Hc. destruct (C40_nonuniform x c cder n p) as (A & B & C); auto.
  { exists c0, c1, 0. intros t. rewrite Hp. ring. }
  assert (K : forall t l, derivable_pt_lim p t l -> l = c1).
  { intros t l D. apply (uniqueness_limite p t); auto. replace c1 with (c1 + 2 * 0 * t) by ring. apply (quad_deriv c0). intros y. rewrite Hp. ring. }
  assert (K2 : forall t l, l = c1 -> derivable_pt_lim p t l).
  { intros t l ->. replace c1 with (c1 + 2 * 0 * t) by ring. apply (quad_deriv c0). intros y. rewrite Hp. ring. }
  repeat constructor; [destruct A as (r & E & L & V)|destruct B as (r & E & L & V)|destruct C as (r & E & L & V)]; exists r; split; auto; split; auto; intros j Hj; eapply K2, K, V; auto.
Qed.

(** ** Coefficients are the values *)
Lemma copy_ok (c u : list R) n : (n + 1 <= List.length c)%nat -> (n + 1 <= List.length u)%nat ->
  exists c', for_nat 0 (n + 1) (fun k c => do x <- rd u k; wr c k x) c = Ok c' /\ List.length c' = List.length c /\ forall j, c'.[j] = if (j <=? n)%nat then u.[j] else c.[j].
Proof.
  intros Lc Lu. destruct (fill_loop 0 (n + 1) (fun k c => do x <- rd u k; wr c k x) (fun j => u.[j]) c 0) as (c' & E & L & V); [lia| |].
  { intros j s Hj Ls. rewrite (rd_ok _ _ 0) by lia. reflexivity. }
  exists c'. split; auto. split; auto. intros j. rewrite V. destruct (Nat.leb_spec 0 j), (Nat.ltb_spec j (n + 1)), (Nat.leb_spec j n); cbn [andb]; auto; lia.
Qed.
Theorem C40_coeffs c u n : List.length c = (n + 1)%nat -> List.length u = (n + 1)%nat -> fd2_coeffs c u n = Ok u /\ fd2_eval u c n = Ok u.
Proof.
  intros Lc Lu. destruct (copy_ok c u n) as (c' & E & L & V); [lia|lia|]. assert (c' = u) as ->.
  { apply list_eq_R; [lia|]. intros i Hi. rewrite V. destruct (Nat.leb_spec i n); auto; lia. } split; exact E.
Qed.

(** ** The Kronecker basis: basis function k is 1 at point k and 0 at the other points *)
Lemma b2r_z k i : b2r (Z.of_nat k =? Z.of_nat i)%Z = b2r (k =? i)%nat.
Proof. f_equal. destruct (Nat.eqb_spec k i) as [->|]. apply Z.eqb_refl. apply Z.eqb_neq. lia. Qed.
Theorem C40_basis_box x k N i : (1 <= N)%nat -> (N <= List.length x)%nat -> (i < N)%nat -> (forall j, (j + 1 < N)%nat -> x.[j] < x.[j + 1]) ->
  fd_basis_box (rd x) k N x.[i] = Ok (if (k =? i)%nat then 1 else 0).
Proof.
  intros HN Lx Hi Hx. assert (Mono : forall d j, (j + d < N)%nat -> x.[j] <= x.[j + d]).
  { induction d as [|d IH]; intros j Hj. { rewrite Nat.add_0_r. lra. } replace (j + S d)%nat with (j + d + 1)%nat by lia. apply Rle_trans with (x.[j + d]); [apply IH; lia|]. apply Rlt_le, Hx. lia. }
  unfold fd_basis_box. assert (G : forall todo s, (s <= i)%nat -> (s + todo = N - 1)%nat -> fd_basis_search (rd x) k x.[i] s todo = Ok (if (i =? N - 1)%nat then None else Some (b2r (k =? i)%nat))).
  { induction todo as [|t IH]; intros s Hs Ht; cbn [fd_basis_search].
    - destruct (Nat.eqb_spec i (N - 1)); auto. lia.
    - rewrite !(rd_ok x _ 0) by lia. cbn [rbind]. pose proof (Hx s ltac:(lia)) as X1. destruct (Rlt_dec x.[i] ((x.[s] + x.[s + 1]) * 0.5)) as [X2|X2].
      + assert (s = i). { destruct (Nat.eq_dec s i); auto. pose proof (Mono (i - (s + 1))%nat (s + 1)%nat ltac:(lia)) as X3. replace (s + 1 + (i - (s + 1)))%nat with i in X3 by lia. lra. }
        subst s. destruct (Nat.eqb_spec i (N - 1)); [lia|]. auto.
      + destruct (Nat.eq_dec s i) as [->|]; [lra|]. apply IH; lia. }
  rewrite G by lia. cbn [rbind]. f_equal. destruct (Nat.eqb_spec i (N - 1)) as [->|].
  - replace (Z.of_nat N - 1)%Z with (Z.of_nat (N - 1)) by lia. rewrite b2r_z. reflexivity.
  - reflexivity.
Qed.
(** without a box, on the periodic grid *)
Theorem C40_basis_nobox a b k N i : (i < N)%nat -> dequaleps < (b - a) / INR N -> fd_basis_nobox a b k N (pgrid a b N i) = if (k =? i)%nat then 1 else 0.
Proof.
  intros Hi Hh. unfold fd_basis_nobox, pgrid. assert (E0 : 0 < dequaleps) by (unfold dequaleps; lra). assert (N0 : 0 < INR N) by (apply lt_0_INR; lia).
  assert (Q : INR i * (b - a) / INR N = INR i * ((b - a) / INR N)) by (field; lra). set (h := (b - a) / INR N) in *.
  assert (Hb : b - a = INR N * h) by (unfold h; field; lra). rewrite Q.
  destruct (Rle_dec (INR i * h + a) (a + dequaleps)) as [X|X].
  - assert (i = 0)%nat as ->. { destruct i; auto. assert (1 <= INR (S i)) by (apply (le_INR 1); lia). nra. } reflexivity.
  - assert (I1 : INR i <= INR N - 1). { replace (INR N - 1) with (INR (N - 1)) by (rewrite minus_INR by lia; simpl; lra). apply le_INR. lia. }
    destruct (Rle_dec (b - dequaleps) (INR i * h + a)) as [Y|Y]; [nra|].
    replace (INR N * (INR i * h + a - a) / (b - a)) with (INR i). 2:{ rewrite Hb. field. split; nra. }
    rewrite INR_IZR_INZ, Rtrunc_IZR, b2r_z. reflexivity.
Qed.

Example C40_example : quadratic (fun x => 1 + 2 * x + 3 * x ^ 2) /\ [0; 1; 3].[0] < [0; 1; 3].[1].
Proof. split; [exists 1, 2, 3; auto|simpl; lra]. Qed.
Print Assumptions C40_onesided.
Print Assumptions C40_onesided2.
Print Assumptions C40_periodic.
Print Assumptions C40_short_refuted.
Print Assumptions C40_nonuniform.
Print Assumptions C40_nonuniform_linear.
Print Assumptions C40_coeffs.
Print Assumptions C40_basis_box.
Print Assumptions C40_basis_nobox.

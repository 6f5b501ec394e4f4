From Verif Require Import Rutil Loops Sparse_model Rsum Trig Four_model Four_spec Four_proofs Four_props Cheb_model Cheb_spec Cheb_proofs Cheb_props Fft_model Fft_cos2.
Local Open Scope R_scope.

(** ** C98: the fast transforms agree with the defining sums *)
Lemma tfill L f lo hi (body : nat -> list R -> res (list R)) h : (lo <= hi)%nat -> (hi <= L)%nat -> (forall j s, (lo <= j < hi)%nat -> body j s = wr s j (h j)) ->
  for_nat lo hi body (tabl L f) = Ok (tabl L (fun x => if ((lo <=? x) && (x <? hi))%nat then h x else f x)).
Proof.
  intros H1 H2 Hb. set (F := fun j => tabl L (fun x => if ((lo <=? x) && (x <? j))%nat then h x else f x)).
  assert (F0 : tabl L f = F lo). { apply tabl_ext. intros x Hx. destruct (Nat.leb_spec lo x), (Nat.ltb_spec x lo); cbn [andb]; auto; lia. }
  rewrite F0. apply (for_nat_eq F); auto. intros j Hj. rewrite Hb by auto. unfold F. rewrite wr_tabl by lia. f_equal. apply tabl_ext. intros x Hx. unfold fset. destruct (Nat.eqb_spec x j) as [->|N].
  - destruct (Nat.leb_spec lo j), (Nat.ltb_spec j (j + 1)); cbn [andb]; auto; lia.
  - destruct (Nat.leb_spec lo x), (Nat.ltb_spec x j), (Nat.ltb_spec x (j + 1)); cbn [andb]; auto; lia.
Qed.
Lemma self_tabl c : c = tabl (List.length c) (fun i => c.[i]).
Proof. apply list_tabl. Qed.
Lemma is_tabl c L f : List.length c = L -> (forall i, (i < L)%nat -> c.[i] = f i) -> c = tabl L f.
Proof. intros H1 H2. rewrite (self_tabl c), H1. now apply tabl_ext. Qed.

(** the place of the coefficients in the packed transform *)
Lemma packed_modes M v x : (0 < M)%nat -> let N := (2 * M)%nat in (x < N)%nat ->
  flat (packed N v) x = Sig N (fun k => mode (if (x =? 0)%nat then 0 else if (x =? 1)%nat then N - 1 else x - 1)%nat (phase N k) * v k).
Proof.
  intros HM N Hx. assert (N2 : (N / 2 = M)%nat) by (unfold N; apply half_even). destruct (nat_cases x) as [[i ->]|[i ->]]; [rewrite flat_even|rewrite flat_odd]; unfold packed; rewrite N2.
  - destruct (Nat.eqb_spec i 0) as [->|Ni].
    + change (2 * 0)%nat with 0%nat. cbn [fst Nat.eqb]. rewrite rdft_fst. apply Sig_ext. intros k Hk. rewrite mode_0. simpl INR. replace (2 * PI * INR k * 0 / INR N) with 0 by (unfold Rdiv; ring). rewrite cos_0. ring.
    + destruct (Nat.ltb_spec i M); [|unfold N in *; lia]. rewrite rdft_fst. destruct (Nat.eqb_spec (2 * i) 0); [lia|]. destruct (Nat.eqb_spec (2 * i) 1); [lia|]. apply Sig_ext. intros k Hk. rewrite mode_odd by lia.
      unfold phase. replace (2 * PI * INR k * INR i / INR N) with (INR i * (2 * PI * INR k / INR N)) by (unfold Rdiv; ring). ring.
  - destruct (Nat.eqb_spec i 0) as [->|Ni].
    + change (2 * 0 + 1)%nat with 1%nat. cbn [snd Nat.eqb]. rewrite rdft_fst. apply Sig_ext. intros k Hk. change (N - 1)%nat with (2 * M - 1)%nat. rewrite mode_odd by lia. unfold phase. replace (2 * PI * INR k * INR M / INR N) with (INR M * (2 * PI * INR k / INR N)) by (unfold Rdiv; ring). ring.
    + destruct (Nat.ltb_spec i M); [|unfold N in *; lia]. rewrite rdft_snd. destruct (Nat.eqb_spec (2 * i + 1) 0); [lia|]. destruct (Nat.eqb_spec (2 * i + 1) 1); [lia|]. apply Sig_ext. intros k Hk. rewrite Nat.add_sub, mode_even by lia.
      unfold phase. replace (2 * PI * INR k * INR i / INR N) with (INR i * (2 * PI * INR k / INR N)) by (unfold Rdiv; ring). ring.
Qed.
Lemma packed_outside M v x : (2 * M <= x)%nat -> (0 < M)%nat -> flat (packed (2 * M) v) x = v x.
Proof.
  intros Hx HM. destruct (nat_cases x) as [[i ->]|[i ->]]; [rewrite flat_even|rewrite flat_odd]; unfold packed; rewrite half_even; (destruct (Nat.eqb_spec i 0); [lia|]); (destruct (Nat.ltb_spec i M); [lia|]); reflexivity.
Qed.

Theorem C98_four_coeffs c u n p : (n + 1 = 2 * 2 ^ p)%nat -> (n < List.length c)%nat -> (n < List.length u)%nat ->
  four_coeffs_numrecFFT c u n = four_coeffs c u n.
Proof.
  intros Hn Lc Lu. destruct (four_coeffs_ok c u n Lc Lu) as (c' & E & L' & V & O). rewrite E. unfold four_coeffs_numrecFFT. pose proof (pow2_pos p) as M0. set (M := (2 ^ p)%nat) in *. set (N := (n + 1)%nat) in *. set (L := List.length c) in *.
  rewrite (self_tabl c) at 1. fold L. rewrite (tfill L _ 0 N _ (fun j => u.[j])) by (try lia; intros; rewrite (rd_ok u j 0) by lia; reflexivity). cbn [rbind].
  set (y := fun x => if ((0 <=? x) && (x <? N))%nat then u.[x] else c.[x]).
  assert (ER : numrec_realft (tabl L y) N true = Ok (tabl L (flat (packed N y)))) by (rewrite Hn; apply realft_fwd; fold M; lia). rewrite ER. cbn [rbind]. set (d := flat (packed N y)).
  rewrite rd_tabl by lia. cbn [rbind].
  set (F := fun j => tabl L (fun x => if ((1 <=? x) && (x <? j - 1))%nat then d (x + 1)%nat else d x)).
  assert (F0 : tabl L d = F 2%nat). { apply tabl_ext. intros x Hx. destruct (Nat.leb_spec 1 x), (Nat.ltb_spec x (2 - 1)); cbn [andb]; auto; lia. }
  rewrite F0, (for_nat_eq F); [|lia|].
  2:{ intros j Hj. unfold F. rewrite rd_tabl by lia. cbn [rbind]. rewrite wr_tabl by lia. f_equal. apply tabl_ext. intros x Hx. unfold fset. destruct (Nat.eqb_spec x (j - 1)) as [->|Nx].
      - destruct (Nat.ltb_spec j (j - 1)); [lia|]. rewrite andb_false_r. destruct (Nat.leb_spec 1 (j - 1)), (Nat.ltb_spec (j - 1) (j + 1 - 1)); cbn [andb]; try lia. f_equal. lia.
      - destruct (Nat.leb_spec 1 x), (Nat.ltb_spec x (j - 1)), (Nat.ltb_spec x (j + 1 - 1)); cbn [andb]; auto; lia. }
  cbn [rbind]. unfold F. rewrite wr_tabl by lia. f_equal. symmetry. apply is_tabl; [auto|]. intros i Hi. unfold fset.
  assert (Yk : forall g, Sig N (fun k => g k * y k) = Sig N (fun k => g k * u.[k])). { intros g. apply Sig_ext. intros k Hk. unfold y. destruct (Nat.ltb_spec k N); [reflexivity|lia]. }
  destruct (Nat.eqb_spec i (N - 1)) as [->|Ni].
  - rewrite V by lia. unfold d. rewrite Hn, packed_modes by lia. cbn [Nat.eqb]. rewrite <- Hn. fold N. now rewrite Yk.
  - destruct (Nat.le_gt_cases N i) as [Ge|Lt].
    + rewrite O by lia. destruct (Nat.ltb_spec i (N - 1)); [lia|]. rewrite andb_false_r. unfold d. rewrite Hn, packed_outside by lia. unfold y. destruct (Nat.ltb_spec i N); [lia|]. now rewrite andb_false_r.
    + rewrite V by lia. destruct (Nat.leb_spec 1 i), (Nat.ltb_spec i (N - 1)); try lia; cbn [andb]; unfold d; rewrite Hn, packed_modes by lia; rewrite <- Hn; fold N; rewrite Yk.
      * destruct (Nat.eqb_spec (i + 1) 0); [lia|]. destruct (Nat.eqb_spec (i + 1) 1); [lia|]. now rewrite Nat.add_sub.
      * assert (i = 0)%nat by lia. subst i. reflexivity.
Qed.
Theorem C98_four_eval c u n p : (n + 1 = 2 * 2 ^ p)%nat -> (n < List.length c)%nat -> (n < List.length u)%nat ->
  four_eval_numrecFFT c u n = four_eval c u n.
Proof.
  intros Hn Lc Lu. destruct (C37_coeffs c u c n Lc Lu Lc) as (v & c' & E & E' & _ & V & _). destruct (four_eval_ok c u n Lc Lu) as (v1 & E1 & L1 & _ & O1). assert (v1 = v) by congruence. subst v1.
  destruct (four_coeffs_ok c v n Lc ltac:(lia)) as (c2 & E2 & _ & W & _). assert (c2 = c') by congruence. subst c2.
  rewrite E. unfold four_eval_numrecFFT. pose proof (pow2_pos p) as M0. set (M := (2 ^ p)%nat) in *. set (N := (n + 1)%nat) in *. set (L := List.length u) in *. assert (NZ : INR N <> 0) by (apply not_0_INR; lia).
  rewrite (rd_ok c 0 0) by lia. cbn [rbind]. rewrite (self_tabl u) at 1. fold L. rewrite wr_tabl by lia. cbn [rbind]. rewrite (rd_ok c (N - 1) 0) by lia. cbn [rbind]. rewrite wr_tabl by lia. cbn [rbind].
  rewrite (tfill L _ 2 N _ (fun j => 2.0 / INR N * c.[j - 1])) by (try lia; intros; rewrite (rd_ok c (j - 1) 0) by lia; reflexivity). cbn [rbind].
  rewrite (tabl_ext L _ (fun i => if (i <? N)%nat then 2.0 / INR N * flat (packed N (fun k => v.[k])) i else u.[i])).
  2:{ intros x Hx. unfold fset. destruct (Nat.ltb_spec x N).
      - rewrite Hn, packed_modes by lia. rewrite <- Hn. fold N. rewrite <- W by (destruct (Nat.eqb_spec x 0); [lia|]; destruct (Nat.eqb_spec x 1); lia). rewrite V by (destruct (Nat.eqb_spec x 0); [lia|]; destruct (Nat.eqb_spec x 1); lia).
        destruct (Nat.leb_spec 2 x); cbn [andb]; destruct (Nat.eqb_spec x 0), (Nat.eqb_spec x 1); subst; auto; try lia.
      - rewrite andb_false_r. destruct (Nat.eqb_spec x 1); [lia|]. destruct (Nat.eqb_spec x 0); [lia|]. reflexivity. }
  assert (ER : numrec_realft (tabl L (fun i => if (i <? N)%nat then 2.0 / INR N * flat (packed N (fun k => v.[k])) i else u.[i])) N false
     = Ok (tabl L (fun i => if (i <? N)%nat then 2.0 / INR N * INR M * v.[i] else u.[i]))) by (rewrite Hn; apply (realft_inv L p); fold M; lia).
  rewrite ER. f_equal. symmetry. apply is_tabl; [auto|]. intros i Hi. destruct (Nat.ltb_spec i N); [|apply O1; lia]. assert (EN : INR N = 2 * INR M) by (rewrite Hn, mult_INR; reflexivity). rewrite EN in *. replace 2.0 with 2 by lra. field. intros Z. apply NZ. rewrite Z. ring.
Qed.
Theorem C98_four_int a b c cint n p : (n + 1 = 2 * 2 ^ p)%nat -> (n < List.length cint)%nat ->
  four_int_numrecFFT a b c cint n = four_int a b c cint n.
Proof.
  intros Hn Li. unfold four_int_numrecFFT, four_int. set (N := (n + 1)%nat). destruct (fill_loop 0 N (fun j u => wr u j (INR j * (b - a) / INR N)) (fun j => INR j * (b - a) / INR N) (repeat 0 (N + 1)) 0) as (u & E & Lu & _).
  all: try (rewrite repeat_length; lia). all: try lia. { reflexivity. } rewrite E. cbn [rbind]. rewrite repeat_length in Lu. rewrite (C98_four_coeffs cint u n p) by (auto; lia). reflexivity.
Qed.

Theorem C98_cheb_zeros_coeffs c u n p : (n + 1 = 2 * 2 ^ p)%nat -> (n < List.length c)%nat -> (n < List.length u)%nat ->
  cheb_coeffs_fromZeros_numrecFFT c u n = cheb_coeffs_fromZeros c u n.
Proof.
  intros Hn Lc Lu. destruct (fromZeros_ok c u n) as (c' & E & L' & V & O); try lia. rewrite E. unfold cheb_coeffs_fromZeros_numrecFFT. set (N := (n + 1)%nat) in *. set (L := List.length c) in *.
  rewrite (self_tabl c) at 1. fold L. rewrite (tfill L _ 0 N _ (fun j => 2.0 / INR N * u.[j])) by (try lia; intros; rewrite (rd_ok u j 0) by lia; reflexivity). cbn [rbind].
  match goal with |- numrec_cosft2 (tabl L ?Y) _ _ = _ => set (y := Y) end.
  assert (ER : numrec_cosft2 (tabl L y) N true = Ok (tabl L (fun k => if (k <? N)%nat then dct2 N y k else y k))) by (rewrite Hn; apply cosft2_fwd; lia). rewrite ER. f_equal. symmetry. apply is_tabl; [auto|].
  intros i Hi. destruct (Nat.ltb_spec i N).
  - rewrite V by lia. unfold dct2. rewrite <- Sig_scal. apply Sig_ext. intros k Hk. unfold y. destruct (Nat.ltb_spec k N); [|lia]. cbn [andb Nat.leb]. unfold phi.
    replace (INR i * (PI * (INR k + / 2) / INR N)) with (INR i * (PI / INR N) * (INR k + / 2)) by (unfold Rdiv; ring). lra.
  - rewrite O by lia. unfold y. destruct (Nat.ltb_spec i N); [lia|]. now rewrite andb_false_r.
Qed.
Theorem C98_cheb_zeros_eval c u n p : (n + 1 = 2 * 2 ^ p)%nat -> (n < List.length c)%nat -> (n < List.length u)%nat ->
  cheb_eval_onZeros_numrecFFT c u n = cheb_eval_onZeros c u n.
Proof.
  intros Hn Lc Lu. destruct (C34_zeros_coeffs c u c n) as (v & c' & E & E' & _ & V & _); try lia. destruct (onZeros_ok c u n) as (v1 & E1 & L1 & _ & O1); try lia. assert (v1 = v) by congruence. subst v1.
  destruct (fromZeros_ok c v n) as (c2 & E2 & _ & W & _); try lia. assert (c2 = c') by congruence. subst c2. rewrite E. unfold cheb_eval_onZeros_numrecFFT. pose proof (pow2_pos p) as M0. set (N := (n + 1)%nat) in *. set (L := List.length u) in *.
  assert (NZ : INR N <> 0) by (apply not_0_INR; lia). rewrite (self_tabl u) at 1. fold L. rewrite (tfill L _ 0 N _ (fun j => c.[j])) by (try lia; intros; rewrite (rd_ok c j 0) by lia; reflexivity). cbn [rbind].
  rewrite (tabl_ext L _ (fun k => if (k <? N)%nat then dct2 N (fun j => 2 / INR N * v.[j]) k else u.[k])).
  2:{ intros x Hx. cbn [Nat.leb andb]. destruct (Nat.ltb_spec x N); [|auto]. rewrite <- V, W by lia. unfold dct2. rewrite <- Sig_scal. apply Sig_ext. intros k Hk. unfold phi.
      replace (INR x * (PI * (INR k + / 2) / INR N)) with (INR x * (PI / INR N) * (INR k + / 2)) by (unfold Rdiv; ring). ring. }
  assert (ER : numrec_cosft2 (tabl L (fun k => if (k <? N)%nat then dct2 N (fun j => 2 / INR N * v.[j]) k else u.[k])) N false
     = Ok (tabl L (fun k => if (k <? N)%nat then INR (2 ^ p) * (2 / INR N * v.[k]) else u.[k]))) by (rewrite Hn; apply (cosft2_inv L p); lia).
  rewrite ER. f_equal. symmetry. apply is_tabl; [auto|]. intros i Hi. destruct (Nat.ltb_spec i N); [|apply O1; lia]. assert (EN : INR N = 2 * INR (2 ^ p)) by (rewrite Hn, mult_INR; reflexivity). rewrite EN in *. field. intros Z. apply NZ. rewrite Z. ring.
Qed.
Theorem C98_cheb_extrema_coeffs c u N p : (N = 2 * 2 ^ p)%nat -> (N < List.length c)%nat -> (N < List.length u)%nat ->
  cheb_coeffs_fromExtrema_numrecFFT c u N = cheb_coeffs_fromExtrema c u N.
Proof.
  intros HN Lc Lu. pose proof (pow2_pos p) as M0. destruct (fromExtrema_ok c u N) as (c' & E & L' & V & O); try lia. rewrite E. unfold cheb_coeffs_fromExtrema_numrecFFT. set (L := List.length c) in *.
  rewrite (self_tabl c) at 1. fold L. rewrite (tfill L _ 0 (N + 1) _ (fun j => 2.0 / INR N * u.[j])) by (try lia; intros; rewrite (rd_ok u j 0) by lia; reflexivity). cbn [rbind].
  match goal with |- rbind (numrec_cosft1 (tabl L ?Y) _) _ = _ => set (y := Y) end.
  assert (ER : numrec_cosft1 (tabl L y) N = Ok (tabl L (fun k => if (k <=? N)%nat then dct1 N y k else y k))) by (rewrite HN; apply cosft1_ok; lia). rewrite ER. cbn [rbind]. rewrite rd_tabl by lia. cbn [rbind]. rewrite wr_tabl by lia. f_equal. symmetry. apply is_tabl; [auto|].
  assert (D : forall i, dct1 N y i = 2 / INR N * Sig (N + 1) (fun k => wend N k * (cos (INR i * (PI / INR N) * INR k) * u.[k]))).
  { intros i. unfold dct1. rewrite <- Sig_scal. apply Sig_ext. intros k Hk. unfold y. destruct (Nat.ltb_spec k (N + 1)); [|lia]. cbn [andb Nat.leb]. lra. }
  intros i Hi. unfold fset. destruct (Nat.leb_spec N N); [|lia]. destruct (Nat.eqb_spec i N) as [->|Ni].
  - rewrite V by lia. rewrite Nat.eqb_refl, D. lra.
  - destruct (Nat.leb_spec i N).
    + rewrite V by lia. destruct (Nat.eqb_spec i N); [lia|]. rewrite D. ring.
    + rewrite O by lia. unfold y. destruct (Nat.ltb_spec i (N + 1)); [lia|]. now rewrite andb_false_r.
Qed.
Theorem C98_cheb_extrema_eval c u N p : (N = 2 * 2 ^ p)%nat -> (N < List.length c)%nat -> (N < List.length u)%nat ->
  cheb_eval_onExtrema_numrecFFT c u N = cheb_eval_onExtrema c u N.
Proof.
  intros HN Lc Lu. pose proof (pow2_pos p) as M0. destruct (onExtrema_ok c u N) as (u' & E & L' & V & O); try lia. rewrite E. unfold cheb_eval_onExtrema_numrecFFT. set (L := List.length u) in *.
  rewrite (self_tabl u) at 1. fold L. rewrite (tfill L _ 0 N _ (fun j => c.[j])) by (try lia; intros; rewrite (rd_ok c j 0) by lia; reflexivity). cbn [rbind]. rewrite (rd_ok c N 0) by lia. cbn [rbind]. rewrite wr_tabl by lia. cbn [rbind].
  match goal with |- numrec_cosft1 (tabl L ?Y) _ = _ => set (y := Y) end.
  assert (ER : numrec_cosft1 (tabl L y) N = Ok (tabl L (fun k => if (k <=? N)%nat then dct1 N y k else y k))) by (rewrite HN; apply cosft1_ok; lia). rewrite ER. f_equal. symmetry. apply is_tabl; [auto|].
  intros i Hi. destruct (Nat.leb_spec i N).
  - rewrite V by lia. unfold dct1. apply Sig_ext. intros k Hk. replace (INR i * (PI / INR N) * INR k) with (INR k * (PI / INR N) * INR i) by ring. unfold y, fset, wend, whalf. destruct (Nat.eqb_spec k N) as [->|Nk].
    + destruct (Nat.eqb_spec N 0); [lia|]. cbn [orb]. lra.
    + destruct (Nat.ltb_spec k N); [|lia]. cbn [Nat.leb andb]. destruct (Nat.eqb_spec k 0); cbn [orb]; lra.
  - rewrite O by lia. unfold y, fset. destruct (Nat.eqb_spec i N); [lia|]. destruct (Nat.ltb_spec i N); [lia|]. now rewrite andb_false_r.
Qed.

(** the test that decides about the use of the fast transforms *)
Lemma highbit_pow p : forall fuel ng, (2 ^ p <= fuel)%nat -> highbit fuel (2 ^ p) ng = (ng + p)%nat.
Proof.
  induction p as [|p IH]; intros [|f] ng H; [simpl in H; lia| |pose proof (pow2_pos p); simpl in H; lia|].
  - cbn [highbit]. change (2 ^ 0 / 2)%nat with 0%nat. cbn. lia.
  - cbn [highbit]. change (2 ^ S p)%nat with (2 * 2 ^ p)%nat in *. rewrite half_even. pose proof (pow2_pos p). destruct (Nat.eqb_spec (2 ^ p) 0); [lia|]. rewrite IH; lia.
Qed.
Theorem C98_power_of_two N : is_power_of_two N = true <-> exists p, N = (2 ^ p)%nat.
Proof.
  unfold is_power_of_two. split; intros H.
  - apply Nat.eqb_eq in H. now exists (highbit N N 0).
  - destruct H as [p ->]. rewrite highbit_pow by lia. apply Nat.eqb_refl.
Qed.
(** the round trips with the fast transforms *)
Theorem C98_round_trip c u u0 n p : (n + 1 = 2 * 2 ^ p)%nat -> List.length c = (n + 1)%nat -> List.length u = (n + 1)%nat -> List.length u0 = (n + 1)%nat ->
  (exists c', four_coeffs_numrecFFT c u n = Ok c' /\ four_eval_numrecFFT c' u0 n = Ok u) /\
  (exists c', cheb_coeffs_fromZeros_numrecFFT c u n = Ok c' /\ cheb_eval_onZeros_numrecFFT c' u0 n = Ok u).
Proof.
  intros Hn Lc Lu Lv. split.
  - destruct (C37_values c u u0 n) as (c' & u' & E1 & E2 & L & V & _); try lia. destruct (four_coeffs_ok c u n) as (c1 & E3 & L3 & _); try lia. assert (c1 = c') by congruence. subst c1.
    exists c'. rewrite (C98_four_coeffs c u n p), (C98_four_eval c' u0 n p) by (auto; lia). split; auto. rewrite E2. f_equal. apply nth_ext with 0 0; [lia|]. intros i Hi. apply V. lia.
  - destruct (C34_zeros_values c u u0 n) as (c' & u' & E1 & E2 & L & V & _); try lia. destruct (fromZeros_ok c u n) as (c1 & E3 & L3 & _); try lia. assert (c1 = c') by congruence. subst c1.
    exists c'. rewrite (C98_cheb_zeros_coeffs c u n p), (C98_cheb_zeros_eval c' u0 n p) by (auto; lia). split; auto. rewrite E2. f_equal. apply nth_ext with 0 0; [lia|]. intros i Hi. apply V. lia.
Qed.
(** one point passes the test although the fast transforms then leave the array; two extrema pass it with a wrong result *)
Theorem C98_one_point_refuted u : is_power_of_two 1 = true /\ four_coeffs_numrecFFT [0] [u] 0 = UB /\ (exists c, four_coeffs [0] [u] 0 = Ok c /\ c = [u]).
Proof.
  split; [reflexivity|]. split; [reflexivity|]. destruct (four_coeffs_ok [0] [u] 0) as (c & E & L & V & _); try (simpl; lia). exists c. split; auto. simpl in L. destruct c as [|x [|? ?]]; try discriminate. f_equal.
  specialize (V 0%nat ltac:(lia)). cbn in V. rewrite V. unfold mode. simpl. ring.
Qed.
Theorem C98_two_extrema_refuted : is_power_of_two (2 - 1) = true /\
  (exists c, cheb_coeffs_fromExtrema_numrecFFT [0; 0] [1; 1] 1 = Ok c /\ c.[0] = 4) /\ (exists c, cheb_coeffs_fromExtrema [0; 0] [1; 1] 1 = Ok c /\ c.[0] = 2).
Proof.
  split; [reflexivity|]. split.
  - unfold cheb_coeffs_fromExtrema_numrecFFT, numrec_cosft1. rewrite wp_ok. cbn. eexists. split; [reflexivity|]. cbn. lra.
  - destruct (fromExtrema_ok [0; 0] [1; 1] 1) as (c & E & _ & V & _); try (simpl; lia). exists c. split; auto. rewrite V by lia. cbn. unfold wend. cbn. rewrite !Rmult_0_l, !cos_0. field.
Qed.
(** for three points, which the test rejects, the functions would give something else *)
Theorem C98_three_points_differ : is_power_of_two 3 = false /\
  (exists c, four_coeffs_numrecFFT [0; 0; 0] [0; 0; 1] 2 = Ok c /\ c.[0] = 0) /\ (exists c, four_coeffs [0; 0; 0] [0; 0; 1] 2 = Ok c /\ c.[0] = 1).
Proof.
  split; [reflexivity|]. split.
  - unfold four_coeffs_numrecFFT, numrec_realft. rewrite wp_ok. cbn. eexists. split; [reflexivity|]. cbn. lra.
  - destruct (four_coeffs_ok [0; 0; 0] [0; 0; 1] 2) as (c & E & _ & V & _); try (simpl; lia). exists c. split; auto. rewrite V by lia. cbn. unfold mode. cbn. ring.
Qed.
Example C98_eight : exists c, four_coeffs_numrecFFT (repeat 0 8) [1; 2; 3; 4; 5; 6; 7; 8] 7 = Ok c /\ c.[0] = 36 /\ c.[7] = -4.
Proof.
  destruct (four_coeffs_ok (repeat 0 8) [1; 2; 3; 4; 5; 6; 7; 8] 7) as (c & E & _ & V & _); try (simpl; lia). exists c. rewrite (C98_four_coeffs _ _ _ 2) by (simpl; lia). split; auto. rewrite !V by lia.
  split.
  - cbn. unfold mode. cbn. ring.
  - rewrite (Sig_ext 8 _ (fun k => (-1) ^ k * [1; 2; 3; 4; 5; 6; 7; 8].[k])) by (intros; change 7%nat with (8 - 1)%nat at 1; rewrite mode_ny by (auto; lia); reflexivity). cbn. ring.
Qed.
Print Assumptions C98_four_coeffs.
Print Assumptions C98_four_eval.
Print Assumptions C98_four_int.
Print Assumptions C98_cheb_zeros_coeffs.
Print Assumptions C98_cheb_zeros_eval.
Print Assumptions C98_cheb_extrema_coeffs.
Print Assumptions C98_cheb_extrema_eval.
Print Assumptions C98_power_of_two.
Print Assumptions C98_round_trip.

(** Proofs about the fast transforms: numrec_cosft2 in both directions. *)
From Verif Require Import Rutil Loops Sparse_model Rsum Trig Fft_model.
From Verif Require Export Fft_cos.
Local Open Scope R_scope.

Definition phi (N j : nat) : R := PI * (INR j + / 2) / INR N.
Definition dct2 (N : nat) (y : nat -> R) (m : nat) : R := Sig N (fun j => y j * cos (INR m * phi N j)).
Definition aux2 (N : nat) (y : nat -> R) (j : nat) : R := 0.5 * (y j + y (N - 1 - j)%nat) + sin (phi N j) * (y j - y (N - 1 - j)%nat).
Lemma phi_mirror N j : (j < N)%nat -> phi N (N - 1 - j) = PI - phi N j.
Proof. intros H. assert (INR N <> 0) by (apply not_0_INR; lia). unfold phi. rewrite !minus_INR by lia. simpl INR. field. auto. Qed.
Lemma cos_even_mirror N j k : (j < N)%nat -> cos (INR (2 * k) * phi N (N - 1 - j)) = cos (INR (2 * k) * phi N j).
Proof. intros H. rewrite phi_mirror by auto. replace (INR (2 * k) * (PI - phi N j)) with (- (INR (2 * k) * phi N j) + 2 * INR k * PI) by (rewrite mult_INR; simpl; ring). now rewrite cos_period, cos_neg. Qed.
Lemma sin_even_mirror N j k : (j < N)%nat -> sin (INR (2 * k) * phi N (N - 1 - j)) = - sin (INR (2 * k) * phi N j).
Proof. intros H. rewrite phi_mirror by auto. replace (INR (2 * k) * (PI - phi N j)) with (- (INR (2 * k) * phi N j) + 2 * INR k * PI) by (rewrite mult_INR; simpl; ring). now rewrite sin_period, sin_neg. Qed.
Lemma sin_phi_mirror N j : (j < N)%nat -> sin (phi N (N - 1 - j)) = sin (phi N j).
Proof. intros H. now rewrite phi_mirror, sin_PI_x. Qed.
Lemma back N j : (j < N)%nat -> (N - 1 - (N - 1 - j) = j)%nat. Proof. lia. Qed.
Lemma aux2_cos N y k : Sig N (fun j => aux2 N y j * cos (INR (2 * k) * phi N j)) = dct2 N y (2 * k).
Proof.
  rewrite (Sig_ext N _ (fun j => 0.5 * (y j * cos (INR (2 * k) * phi N j)) + 0.5 * (y (N - 1 - j)%nat * cos (INR (2 * k) * phi N j)) + sin (phi N j) * (y j - y (N - 1 - j)%nat) * cos (INR (2 * k) * phi N j))) by (intros; unfold aux2; ring).
  rewrite !Sig_plus, !Sig_scal. rewrite (mirror N (fun j => y (N - 1 - j)%nat * cos (INR (2 * k) * phi N j)) (fun j => y j * cos (INR (2 * k) * phi N j))) by (intros; now rewrite cos_even_mirror).
  rewrite (mirror0 N (fun j => sin (phi N j) * (y j - y (N - 1 - j)%nat) * cos (INR (2 * k) * phi N j))) by (intros; rewrite cos_even_mirror, sin_phi_mirror, back by auto; ring). unfold dct2. lra.
Qed.
Lemma aux2_sin N y k : (1 <= k)%nat -> Sig N (fun j => aux2 N y j * sin (INR (2 * k) * phi N j)) = dct2 N y (2 * k - 1) - dct2 N y (2 * k + 1).
Proof.
  intros Hk.
  rewrite (Sig_ext N _ (fun j => 0.5 * ((y j + y (N - 1 - j)%nat) * sin (INR (2 * k) * phi N j)) + y j * (sin (phi N j) * sin (INR (2 * k) * phi N j)) + - (y (N - 1 - j)%nat * (sin (phi N j) * sin (INR (2 * k) * phi N j))))) by (intros; unfold aux2; ring).
  rewrite !Sig_plus, !Sig_scal. rewrite (mirror0 N (fun j => (y j + y (N - 1 - j)%nat) * sin (INR (2 * k) * phi N j))) by (intros; rewrite sin_even_mirror, back by auto; ring).
  rewrite (mirror N (fun j => - (y (N - 1 - j)%nat * (sin (phi N j) * sin (INR (2 * k) * phi N j)))) (fun j => y j * (sin (phi N j) * sin (INR (2 * k) * phi N j)))) by (intros; rewrite sin_even_mirror, sin_phi_mirror by auto; ring).
  unfold dct2. rewrite <- Sig_minus, Rmult_0_r, Rplus_0_l, <- Sig_plus. apply Sig_ext. intros j Hj.
  replace (INR (2 * k - 1) * phi N j) with (INR (2 * k) * phi N j - phi N j) by (rewrite minus_INR by lia; simpl INR; ring).
  replace (INR (2 * k + 1) * phi N j) with (INR (2 * k) * phi N j + phi N j) by (rewrite plus_INR; simpl INR; ring). rewrite cos_minus, cos_plus. ring.
Qed.
Lemma rot_ang N j k : (0 < N)%nat -> 2 * PI * INR j * INR k / INR N + INR k * (PI / INR N) = INR (2 * k) * phi N j.
Proof. intros H. assert (INR N <> 0) by (apply not_0_INR; lia). unfold phi. rewrite mult_INR. simpl INR. field. auto. Qed.
Lemma cosft2_even N y k : (0 < N)%nat -> fst (rdft N (aux2 N y) k) * cos (INR k * (PI / INR N)) - snd (rdft N (aux2 N y) k) * sin (INR k * (PI / INR N)) = dct2 N y (2 * k).
Proof.
  intros H. rewrite rdft_fst, rdft_snd, <- aux2_cos, <- !Sig_scal_r, <- Sig_minus. apply Sig_ext. intros j Hj. rewrite <- rot_ang, cos_plus by auto. ring.
Qed.
Lemma cosft2_odd N y k : (0 < N)%nat -> (1 <= k)%nat -> snd (rdft N (aux2 N y) k) * cos (INR k * (PI / INR N)) + fst (rdft N (aux2 N y) k) * sin (INR k * (PI / INR N)) = dct2 N y (2 * k - 1) - dct2 N y (2 * k + 1).
Proof.
  intros H Hk. rewrite rdft_fst, rdft_snd, <- aux2_sin, <- !Sig_scal_r, <- Sig_plus by auto. apply Sig_ext. intros j Hj. rewrite <- rot_ang, sin_plus by auto. ring.
Qed.
Lemma dct2_above N y : (0 < N)%nat -> dct2 N y (N + 1) = - dct2 N y (N - 1).
Proof.
  intros H. assert (INR N <> 0) by (apply not_0_INR; lia). unfold dct2. rewrite <- Sig_opp. apply Sig_ext. intros j Hj. rewrite plus_INR, minus_INR by lia. simpl INR.
  replace ((INR N + 1) * phi N j) with (INR N * phi N j + phi N j) by ring. replace ((INR N - 1) * phi N j) with (INR N * phi N j - phi N j) by ring. rewrite cos_plus, cos_minus.
  replace (INR N * phi N j) with (INR j * PI + PI / 2) by (unfold phi; field; auto). rewrite (cos_plus (INR j * PI)), cos_PI2. replace (sin (INR j * PI)) with 0; [ring|].
  clear. induction j; [simpl; now rewrite Rmult_0_l, sin_0|]. rewrite S_INR. replace ((INR j + 1) * PI) with (INR j * PI + PI) by ring. rewrite neg_sin, <- IHj. ring.
Qed.
Lemma cosft2_top M y : (0 < M)%nat -> fst (rdft (2 * M) (aux2 (2 * M) y) M) = 2 * dct2 (2 * M) y (2 * M - 1).
Proof.
  intros H. assert (INR M <> 0) by (apply not_0_INR; lia). pose proof (cosft2_odd (2 * M) y M) as E. rewrite dct2_above in E by lia. replace (INR M * (PI / INR (2 * M))) with (PI / 2) in E by (rewrite mult_INR; simpl INR; field; auto).
  rewrite cos_PI2, sin_PI2 in E. specialize (E ltac:(lia) H). lra.
Qed.
Lemma cosft2_zero N y : (0 < N)%nat -> fst (rdft N (aux2 N y) 0) = dct2 N y 0.
Proof. intros H. pose proof (cosft2_even N y 0 H) as E. simpl INR in E. rewrite Rmult_0_l, cos_0, sin_0 in E. change (2 * 0)%nat with 0%nat in E. lra. Qed.
Lemma sin_phi_nz N j : (j < N)%nat -> sin (phi N j) <> 0.
Proof.
  intros H. assert (0 < INR N) by (apply lt_0_INR; lia). assert (INR j + 1 <= INR N) by (rewrite <- S_INR; apply le_INR; lia). pose proof (pos_INR j). pose proof PI_RGT_0. apply Rgt_not_eq, sin_gt_0; unfold phi.
  - apply Rdiv_lt_0_compat; nra.
  - apply Rmult_lt_reg_r with (INR N); auto. field_simplify; [|lra]. nra.
Qed.

(** the complex number k of the packed array turned by the angle k*t *)
Definition spun (M : nat) (t : R) (X : nat -> C) (i : nat) : C := if ((1 <=? i) && (i <? M))%nat then Cmult (X i) (cis (INR i * t)) else X i.
Lemma spun_at M t X : spun M t X M = X M.
Proof. unfold spun. destruct (Nat.ltb_spec M M); [lia|]. now rewrite andb_false_r. Qed.
Lemma spun_step M t X x : (1 <= M)%nat -> cset (spun M t X) M (Cmult (X M) (cis (INR M * t))) x = spun (M + 1) t X x.
Proof.
  intros H. unfold cset, spun. destruct (Nat.eqb_spec x M) as [->|N].
  - destruct (Nat.leb_spec 1 M), (Nat.ltb_spec M (M + 1)); cbn [andb]; auto; lia.
  - destruct (Nat.leb_spec 1 x), (Nat.ltb_spec x M), (Nat.ltb_spec x (M + 1)); cbn [andb]; auto; lia.
Qed.
Lemma spun_1 t X x : spun 1 t X x = X x.
Proof. unfold spun. destruct (Nat.leb_spec 1 x), (Nat.ltb_spec x 1); cbn [andb]; auto; lia. Qed.

Ltac w2 := repeat (first [rewrite rd1_tabl by lia|rewrite wr1_tabl by lia]; cbn [rbind]).
Lemma cosft2_fwd L p y : let N := (2 * 2 ^ p)%nat in (N <= L)%nat ->
  numrec_cosft2 (tabl L y) N true = Ok (tabl L (fun k => if (k <? N)%nat then dct2 N y k else y k)).
Proof.
  intros N HL. set (M := (2 ^ p)%nat) in *. assert (M0 : (0 < M)%nat) by apply pow2_pos. assert (N2 : (N / 2 = M)%nat) by (unfold N; apply half_even).
  assert (NM : N = (2 * M)%nat) by reflexivity. assert (N1 : ((N - 1) / 2 + 1 = M)%nat). { replace (N - 1)%nat with (2 * (M - 1) + 1)%nat by lia. rewrite half_odd. lia. }
  assert (N0 : INR N <> 0) by (apply not_0_INR; lia). unfold numrec_cosft2. rewrite N2, N1. cbv zeta. clearbody N.
  set (theta := 0.5 * PI / INR N). set (t := PI / INR N). assert (Et : 2 * theta = t) by (unfold theta, t; lra). rewrite Et. replace theta with (0.5 * t) by lra. rewrite cos_half2.
  (* the auxiliary function *)
  set (F := fun i : nat => (tabl L (ppart 0 (N - 1) (i - 1) (aux2 N y) y), (cis (phi N (i - 1)) : R * R))).
  assert (F0 : (tabl L y, (cos (0.5 * t), sin (0.5 * t))) = F 1%nat).
  { unfold F. change (1 - 1)%nat with 0%nat. f_equal; [apply tabl_ext; intros; now rewrite ppart_none|]. unfold cis, phi, t. simpl INR. replace (0.5 * (PI / INR N)) with (PI * (0 + / 2) / INR N) by lra. reflexivity. }
  rewrite F0. rewrite (for_nat_eq F); [|lia|].
  2:{ intros i Hi. unfold F at 1. cbv beta iota zeta. rewrite turn_gen. cbn [cis snd]. destruct (ppart_at 0 (N - 1) (i - 1) (aux2 N y) y) as [P1 P2]; [lia|]. w2.
      replace (N - i + 1 - 1)%nat with (N - 1 - (i - 1))%nat by lia. rewrite P1, P2. unfold F. replace (i + 1 - 1)%nat with (i - 1 + 1)%nat by lia. do 2 f_equal.
      - apply tabl_ext. intros x Hx. rewrite <- ppart_step by lia.
        replace (aux2 N y (i - 1)) with (0.5 * (y (i - 1)%nat + y (N - 1 - (i - 1))%nat) + sin (phi N (i - 1)) * (y (i - 1)%nat - y (N - 1 - (i - 1))%nat)) by reflexivity.
        replace (aux2 N y (N - 1 - (i - 1))) with (0.5 * (y (i - 1)%nat + y (N - 1 - (i - 1))%nat) - sin (phi N (i - 1)) * (y (i - 1)%nat - y (N - 1 - (i - 1))%nat)); [reflexivity|].
        unfold aux2. rewrite sin_phi_mirror, back by lia. ring.
      - f_equal. unfold phi, t. rewrite plus_INR. simpl INR. field. auto. }
  unfold F. rewrite Nat.add_sub. cbn [rbind fst].
  set (y2 := fun x => if (x <? N)%nat then aux2 N y x else y x).
  rewrite (tabl_ext L _ y2).
  2:{ intros x Hx. rewrite ppart_all by lia. unfold y2. destruct (Nat.leb_spec 0 x), (Nat.leb_spec (x + 0) (N - 1)), (Nat.ltb_spec x N); cbn [andb]; auto; lia. }
  assert (ER : numrec_realft (tabl L y2) N true = Ok (tabl L (flat (packed N y2)))) by (rewrite NM; apply realft_fwd; fold M; lia). rewrite ER. cbn [rbind].
  assert (RX : forall k, rdft N y2 k = rdft N (aux2 N y) k). { intros k. apply rdft_ext. intros j Hj. unfold y2. destruct (Nat.ltb_spec j N); [auto|lia]. }
  (* the rotation *)
  set (X := packed N y2).
  set (G := fun k : nat => (tabl L (flat (spun k t X)), (cis (INR (k - 1) * t) : R * R))).
  assert (G0 : (tabl L (flat X), (1, 0)) = G 1%nat).
  { unfold G. f_equal; [apply tabl_ext; intros; apply flat_ext; intros; now rewrite spun_1|]. simpl INR. rewrite Rmult_0_l. unfold cis. now rewrite cos_0, sin_0. }
  rewrite G0. rewrite (for_nat_eq G); [|lia|].
  2:{ intros k Hk. unfold G at 1. cbv beta iota zeta. rewrite turn_gen. replace (INR (k - 1) * t + t) with (INR k * t) by (rewrite minus_INR by lia; simpl INR; ring). unfold cis at 1. cbv beta iota. w2.
      replace (2 * k + 1 + 1 - 1)%nat with (2 * k + 1)%nat by lia. replace (2 * k + 1 - 1)%nat with (2 * k)%nat by lia. rewrite flat_even, flat_odd, spun_at.
      unfold G. replace (k + 1 - 1)%nat with k by lia. do 2 f_equal. apply tabl_ext. intros x Hx. rewrite (flat_ext (spun (k + 1) t X) (cset (spun k t X) k (Cmult (X k) (cis (INR k * t))))) by (intros; symmetry; apply spun_step; lia).
      rewrite flat_cset. unfold fset, Cmult, cis. cbn [fst snd]. destruct (x =? 2 * k + 1)%nat; [ring|]. destruct (x =? 2 * k)%nat; [ring|]. reflexivity. }
  unfold G. cbn [rbind fst].
  set (y3 := flat (spun M t X)).
  assert (V0 : y3 0%nat = dct2 N y 0). { unfold y3. replace (flat (spun M t X) 0) with (fst (spun M t X 0)) by (symmetry; apply (flat_even _ 0)). unfold spun, X, packed. cbn [Nat.leb andb Nat.eqb fst]. now rewrite RX, cosft2_zero by lia. }
  assert (V1 : y3 1%nat = 2 * dct2 N y (N - 1)). { unfold y3. replace (flat (spun M t X) 1) with (snd (spun M t X 0)) by (symmetry; apply (flat_odd _ 0)). unfold spun, X, packed. cbn [Nat.leb andb Nat.eqb snd]. rewrite RX, N2, NM. now apply cosft2_top. }
  assert (Vk : forall i, (1 <= i < M)%nat -> spun M t X i = (dct2 N y (2 * i), dct2 N y (2 * i - 1) - dct2 N y (2 * i + 1))).
  { intros i Hi. unfold spun. destruct (Nat.leb_spec 1 i); [|lia]. destruct (Nat.ltb_spec i M); [|lia]. cbn [andb]. unfold X, packed. rewrite N2. destruct (Nat.eqb_spec i 0); [lia|]. destruct (Nat.ltb_spec i M); [|lia]. rewrite RX.
    rewrite <- cosft2_even, <- cosft2_odd by lia. unfold Cmult, cis. cbn [fst snd]. fold t. f_equal. ring. }
  assert (Vx : forall x, (N <= x)%nat -> y3 x = y x). { intros x Hx. unfold y3. destruct (nat_cases x) as [[i ->]|[i ->]]; [rewrite flat_even|rewrite flat_odd]; unfold spun; (destruct (Nat.ltb_spec i M); [lia|]); rewrite andb_false_r; unfold X, packed; rewrite N2; destruct (Nat.eqb_spec i 0); try lia;
    (destruct (Nat.ltb_spec i M); [lia|]); unfold unflat, y2; cbn [fst snd]; [destruct (Nat.ltb_spec (2 * i) N)|destruct (Nat.ltb_spec (2 * i + 1) N)]; auto; lia. }
  w2. change (2 - 1)%nat with 1%nat. rewrite V1. replace (0.5 * (2 * dct2 N y (N - 1))) with (dct2 N y (N - 1)) by lra.
  set (Q := fun k : nat => (tabl L (fun x => if (negb (Nat.even x) && ((N - 2 * k <=? x) && (x <? N)))%nat then dct2 N y x else y3 x), if (k <? M)%nat then dct2 N y (N - 1 - 2 * k) else dct2 N y 1 + y3 1%nat)).
  assert (Q0 : (tabl L y3, dct2 N y (N - 1)) = Q 0%nat).
  { unfold Q. destruct (Nat.ltb_spec 0 M); [|lia]. f_equal; [|f_equal; lia]. apply tabl_ext. intros x Hx. destruct (Nat.leb_spec (N - 2 * 0) x), (Nat.ltb_spec x N); cbn [andb]; rewrite ?andb_false_r; auto; lia. }
  rewrite Q0. rewrite (for_nat_eq Q); [|lia|].
  - unfold Q. cbn [rbind fst]. f_equal. apply tabl_ext. intros x Hx. destruct (Nat.leb_spec (N - 2 * M) x); [|lia]. cbn [andb]. destruct (Nat.ltb_spec x N); [|rewrite andb_false_r; now apply Vx]. rewrite andb_true_r.
    destruct (nat_cases x) as [[i ->]|[i ->]]; [rewrite even_2k|rewrite even_2k1]; cbn [negb]; auto. destruct i as [|i]; [apply V0|]. unfold y3. rewrite flat_even, Vk by lia. reflexivity.
  - intros k Hk. unfold Q at 1. cbv beta iota zeta. w2. set (i := (M - 1 - k)%nat). replace (N - 2 * k - 1)%nat with (2 * i + 1)%nat by lia. rewrite even_2k1. cbn [negb andb]. destruct (Nat.leb_spec (N - 2 * k) (2 * i + 1)); [lia|]. cbn [andb].
    destruct (Nat.ltb_spec k M); [|lia]. unfold Q. do 2 f_equal.
    + apply tabl_ext. intros x Hx. unfold fset. destruct (Nat.eqb_spec x (2 * i + 1)) as [->|Nx].
      * rewrite even_2k1. cbn [negb andb]. destruct (Nat.leb_spec (N - 2 * (k + 1)) (2 * i + 1)); [|lia]. destruct (Nat.ltb_spec (2 * i + 1) N); [|lia]. cbn [andb]. f_equal. lia.
      * destruct (nat_cases x) as [[h ->]|[h ->]]; [rewrite even_2k|rewrite even_2k1]; cbn [negb andb]; auto. destruct (Nat.leb_spec (N - 2 * k) (2 * h + 1)), (Nat.leb_spec (N - 2 * (k + 1)) (2 * h + 1)); cbn [andb]; auto; lia.
    + destruct (Nat.ltb_spec (k + 1) M).
      * unfold y3. rewrite flat_odd, Vk by lia. cbn [snd]. replace (N - 1 - 2 * k)%nat with (2 * i + 1)%nat by lia. replace (N - 1 - 2 * (k + 1))%nat with (2 * i - 1)%nat by lia. ring.
      * assert (i = 0)%nat by lia. replace (N - 1 - 2 * k)%nat with 1%nat by lia. replace (2 * i + 1)%nat with 1%nat by lia. reflexivity.
Qed.

Lemma cosft2_inv L p v o : let N := (2 * 2 ^ p)%nat in (N <= L)%nat ->
  numrec_cosft2 (tabl L (fun k => if (k <? N)%nat then dct2 N v k else o k)) N false = Ok (tabl L (fun k => if (k <? N)%nat then INR (2 ^ p) * v k else o k)).
Proof.
  intros N HL. set (M := (2 ^ p)%nat) in *. assert (M0 : (0 < M)%nat) by apply pow2_pos. assert (N2 : (N / 2 = M)%nat) by (unfold N; apply half_even).
  assert (NM : N = (2 * M)%nat) by reflexivity. assert (N1 : ((N - 1) / 2 + 1 = M)%nat). { replace (N - 1)%nat with (2 * (M - 1) + 1)%nat by lia. rewrite half_odd. lia. }
  assert (N0 : INR N <> 0) by (apply not_0_INR; lia). unfold numrec_cosft2. rewrite N2, N1. cbv zeta. clearbody N.
  set (theta := 0.5 * PI / INR N). set (t := PI / INR N). assert (Et : 2 * theta = t) by (unfold theta, t; lra). rewrite Et. replace theta with (0.5 * t) by lra. rewrite cos_half2.
  set (y := fun k => if (k <? N)%nat then dct2 N v k else o k).
  assert (Yi : forall k, (k < N)%nat -> y k = dct2 N v k) by (intros k Hk; unfold y; destruct (Nat.ltb_spec k N); [auto|lia]).
  w2. rewrite Yi by lia.
  set (G := fun k : nat => tabl L (fun x => if (negb (Nat.even x) && ((N - 2 * k <=? x) && (x <? N)))%nat then dct2 N v (x - 2) - dct2 N v x else y x)).
  assert (G0 : tabl L y = G 0%nat). { unfold G. apply tabl_ext. intros x Hx. destruct (Nat.leb_spec (N - 2 * 0) x), (Nat.ltb_spec x N); cbn [andb]; rewrite ?andb_false_r; auto; lia. }
  rewrite G0. rewrite (for_nat_eq G); [|lia|].
  2:{ intros k Hk. unfold G. w2. set (i := (M - 1 - k)%nat). replace (N - 2 * k - 2 - 1)%nat with (2 * (i - 1) + 1)%nat by lia. replace (N - 2 * k - 1)%nat with (2 * i + 1)%nat by lia. rewrite !even_2k1. cbn [negb andb].
      destruct (Nat.leb_spec (N - 2 * k) (2 * (i - 1) + 1)); [lia|]. destruct (Nat.leb_spec (N - 2 * k) (2 * i + 1)); [lia|]. cbn [andb]. rewrite !Yi by lia. f_equal. apply tabl_ext. intros x Hx. unfold fset. destruct (Nat.eqb_spec x (2 * i + 1)) as [->|Nx].
      - rewrite even_2k1. cbn [negb andb]. destruct (Nat.leb_spec (N - 2 * (k + 1)) (2 * i + 1)); [|lia]. destruct (Nat.ltb_spec (2 * i + 1) N); [|lia]. cbn [andb]. do 2 f_equal; lia.
      - destruct (nat_cases x) as [[h ->]|[h ->]]; [rewrite even_2k|rewrite even_2k1]; cbn [negb andb]; auto. destruct (Nat.leb_spec (N - 2 * k) (2 * h + 1)), (Nat.leb_spec (N - 2 * (k + 1)) (2 * h + 1)); cbn [andb]; auto; lia. }
  unfold G. cbn [rbind]. w2. change (2 - 1)%nat with 1%nat.
  (* the packed transform of aux2, turned *)
  set (X := fun i => if (i <? M)%nat then packed N (aux2 N v) i else unflat o i).
  rewrite (tabl_ext L _ (flat (spun M t X))).
  2:{ intros x Hx. unfold fset. destruct (nat_cases x) as [[i ->]|[i ->]].
      - destruct (Nat.eqb_spec (2 * i) 1); [lia|]. rewrite even_2k, flat_even. cbn [negb andb]. unfold spun, X, y. rewrite NM. destruct (Nat.ltb_spec i M), (Nat.ltb_spec (2 * i) (2 * M)); try lia.
        + destruct (Nat.leb_spec 1 i); cbn [andb].
          * unfold packed. rewrite <- NM, N2. destruct (Nat.eqb_spec i 0); [lia|]. destruct (Nat.ltb_spec i M); [|lia]. rewrite <- cosft2_even by lia. reflexivity.
          * assert (i = 0)%nat by lia. subst i. unfold packed. cbn [Nat.eqb fst]. rewrite cosft2_zero by lia. reflexivity.
        + rewrite andb_false_r. reflexivity.
      - rewrite even_2k1, flat_odd. cbn [negb andb]. unfold spun, X, y. destruct (Nat.eqb_spec (2 * i + 1) 1).
        + assert (i = 0)%nat by lia. subst i. destruct (Nat.ltb_spec 0 M); [|lia]. cbn [Nat.leb andb]. unfold packed. cbn [Nat.eqb snd]. rewrite N2, NM, cosft2_top by lia. reflexivity.
        + destruct (Nat.leb_spec (N - 2 * (M - 1)) (2 * i + 1)); [|lia]. cbn [andb]. destruct (Nat.ltb_spec (2 * i + 1) N), (Nat.ltb_spec i M); try lia.
          * destruct (Nat.leb_spec 1 i); [|lia]. cbn [andb]. unfold packed. rewrite N2. destruct (Nat.eqb_spec i 0); [lia|]. destruct (Nat.ltb_spec i M); [|lia]. replace (2 * i + 1 - 2)%nat with (2 * i - 1)%nat by lia. rewrite <- cosft2_odd by lia. fold t. unfold Cmult, cis. cbn [fst snd]. ring.
          * rewrite andb_false_r. reflexivity. }
  set (H := fun k : nat => (tabl L (flat (fun i => if (i <? k)%nat then X i else spun M t X i)), (cis (INR (k - 1) * t) : R * R))).
  assert (H0 : (tabl L (flat (spun M t X)), (1, 0)) = H 1%nat).
  { unfold H. f_equal; [apply tabl_ext; intros; apply flat_ext; intros [|z]; reflexivity|]. simpl INR. rewrite Rmult_0_l. unfold cis. now rewrite cos_0, sin_0. }
  rewrite H0. rewrite (for_nat_eq H); [|lia|].
  2:{ intros k Hk. unfold H at 1. cbv beta iota zeta. rewrite turn_gen. replace (INR (k - 1) * t + t) with (INR k * t) by (rewrite minus_INR by lia; simpl INR; ring). unfold cis at 1. cbv beta iota. w2.
      replace (2 * k + 1 + 1 - 1)%nat with (2 * k + 1)%nat by lia. replace (2 * k + 1 - 1)%nat with (2 * k)%nat by lia. rewrite flat_even, flat_odd.
      destruct (Nat.ltb_spec k k); [lia|]. replace (spun M t X k) with (Cmult (X k) (cis (INR k * t))) by (unfold spun; destruct (Nat.leb_spec 1 k); [|lia]; destruct (Nat.ltb_spec k M); [auto|lia]).
      unfold H. replace (k + 1 - 1)%nat with k by lia. do 2 f_equal. apply tabl_ext. intros x Hx.
      rewrite (flat_ext (fun i => if (i <? k + 1)%nat then X i else spun M t X i) (cset (fun i => if (i <? k)%nat then X i else spun M t X i) k (X k))).
      2:{ intros z. unfold cset. destruct (Nat.eqb_spec z k) as [->|Nz]; [destruct (Nat.ltb_spec k (k + 1)); [auto|lia]|]. destruct (Nat.ltb_spec z k), (Nat.ltb_spec z (k + 1)); auto; lia. }
      rewrite flat_cset. unfold fset, Cmult, cis. cbn [fst snd]. pose proof (sin2_cos2 (INR k * t)) as SC. unfold Rsqr in SC. destruct (X k) as [a b]. cbn [fst snd].
      destruct (x =? 2 * k + 1)%nat; [|destruct (x =? 2 * k)%nat; [|reflexivity]].
      - transitivity (b * (sin (INR k * t) * sin (INR k * t) + cos (INR k * t) * cos (INR k * t))); [ring|rewrite SC; ring].
      - transitivity (a * (sin (INR k * t) * sin (INR k * t) + cos (INR k * t) * cos (INR k * t))); [ring|rewrite SC; ring]. }
  unfold H. cbn [rbind fst].
  rewrite (tabl_ext L _ (fun i => if (i <? N)%nat then 1 * flat (packed N (aux2 N v)) i else o i)).
  2:{ intros x Hx. rewrite (flat_ext _ X). 2:{ intros z. unfold spun. destruct (Nat.ltb_spec z M); [auto|]. now rewrite andb_false_r. }
      destruct (nat_cases x) as [[i ->]|[i ->]]; [rewrite !flat_even|rewrite !flat_odd]; unfold X; rewrite NM; [destruct (Nat.ltb_spec (2 * i) (2 * M))|destruct (Nat.ltb_spec (2 * i + 1) (2 * M))]; (destruct (Nat.ltb_spec i M); try lia); rewrite ?Rmult_1_l; reflexivity. }
  assert (ER : numrec_realft (tabl L (fun i => if (i <? N)%nat then 1 * flat (packed N (aux2 N v)) i else o i)) N false = Ok (tabl L (fun i => if (i <? N)%nat then 1 * INR M * aux2 N v i else o i))) by (rewrite NM; apply realft_inv; fold M; lia).
  rewrite ER. cbn [rbind]. set (y5 := fun i => if (i <? N)%nat then 1 * INR M * aux2 N v i else o i).
  set (F := fun i : nat => (tabl L (ppart 0 (N - 1) (i - 1) (fun j => INR M * v j) y5), (cis (phi N (i - 1)) : R * R))).
  assert (F0 : (tabl L y5, (cos (0.5 * t), sin (0.5 * t))) = F 1%nat).
  { unfold F. change (1 - 1)%nat with 0%nat. f_equal; [apply tabl_ext; intros; now rewrite ppart_none|]. unfold cis, phi, t. simpl INR. replace (0.5 * (PI / INR N)) with (PI * (0 + / 2) / INR N) by lra. reflexivity. }
  rewrite F0. rewrite (for_nat_eq F); [|lia|].
  2:{ intros i Hi. unfold F at 1. cbv beta iota zeta. rewrite turn_gen. cbn [cis snd]. destruct (ppart_at 0 (N - 1) (i - 1) (fun j => INR M * v j) y5) as [P1 P2]; [lia|]. w2.
      replace (N - i + 1 - 1)%nat with (N - 1 - (i - 1))%nat by lia. rewrite P1, P2. unfold F. replace (i + 1 - 1)%nat with (i - 1 + 1)%nat by lia. do 2 f_equal.
      - apply tabl_ext. intros x Hx. rewrite <- ppart_step by lia. assert (Ya : forall j, (j < N)%nat -> y5 j = INR M * aux2 N v j) by (intros j Hj; unfold y5; destruct (Nat.ltb_spec j N); [ring|lia]). rewrite !Ya by lia.
        assert (Ey : aux2 N v (N - 1 - (i - 1)) = 0.5 * (v (i - 1)%nat + v (N - 1 - (i - 1))%nat) - sin (phi N (i - 1)) * (v (i - 1)%nat - v (N - 1 - (i - 1))%nat)) by (unfold aux2; rewrite sin_phi_mirror, back by lia; ring). rewrite Ey.
        pose proof (sin_phi_nz N (i - 1) ltac:(lia)) as SZ. unfold aux2. unfold fset. destruct (x =? N - 1 - (i - 1))%nat; [|destruct (x =? i - 1)%nat; [|reflexivity]]; replace 0.5 with (/ 2) by lra; field; auto.
      - f_equal. unfold phi, t. rewrite plus_INR. simpl INR. field. auto. }
  unfold F. rewrite Nat.add_sub. cbn [rbind fst]. f_equal. apply tabl_ext. intros x Hx. rewrite ppart_all by lia. unfold y5.
  destruct (Nat.leb_spec 0 x), (Nat.leb_spec (x + 0) (N - 1)), (Nat.ltb_spec x N); cbn [andb]; auto; lia.
Qed.

(** Sums of spherical harmonics with coefficients of a real function. *)
From Coq Require Import Reals Lra Lia ZArith List Factorial.
From Verif Require Import Base Loops Sparse_model Sparse_proofs Ylm_model Ylm_spec Ylm_math Ylm_math2 Ylm_proofs.
Open Scope R_scope.

(** ** the sum over both signs of m *)
Lemma sum_first (g : nat -> R) n : sum_f_R0 g (S n) = g 0%nat + sum_f_R0 (fun i => g (S i)) n.
Proof. rewrite (decomp_sum g (S n)) by lia. reflexivity. Qed.
Lemma sym_sum (g : Z -> R) l : sum_f_R0 (fun j => g (Z.of_nat j - Z.of_nat l)%Z) (2 * l) = sum_f_R0 (fun m => if Nat.eqb m 0 then g 0%Z else g (Z.of_nat m) + g (- Z.of_nat m)%Z) l.
Proof.
  induction l as [|l IH]; [cbn; f_equal; lia|].
  replace (2 * S l)%nat with (S (S (2 * l))) by lia. rewrite tech5, sum_first, (tech5 _ l). cbn [Nat.eqb].
  rewrite (sum_eq (fun i => g (Z.of_nat (S i) - Z.of_nat (S l))%Z) (fun j => g (Z.of_nat j - Z.of_nat l)%Z)) by (intros; f_equal; lia). rewrite IH.
  replace (Z.of_nat 0 - Z.of_nat (S l))%Z with (- Z.of_nat (S l))%Z by lia. replace (Z.of_nat (S (S (2 * l))) - Z.of_nat (S l))%Z with (Z.of_nat (S l)) by lia. ring.
Qed.
Definition wgt (m : nat) : R := if Nat.eqb m 0 then 1 else 2.
Definition term (c : list R) (th ph : R) (l m : nat) : R := wgt m * (nth (2 * ind_lm l m) c 0 * Yr l m th ph - nth (2 * ind_lm l m + 1) c 0 * Yi l m th ph).
Definition series (c : list R) (L : nat) (th ph : R) : R := sum_f_R0 (fun l => sum_f_R0 (term c th ph l) l) L.
Lemma Ylm_pos_unique l m th ph a b : is_Ylm_pos l m th ph a b -> a = Yr l m th ph /\ b = Yi l m th ph.
Proof.
  intros (P & HP & H). apply is_Plm_rd in HP. fold (PL l m (cos th)) in HP. subst P. cbv zeta in H. destruct H as [-> ->]. unfold Yr, Yi. fold (fac_of l m). split; ring.
Qed.
Lemma pow_m1_sq m : (-1) ^ m * (-1) ^ m = 1.
Proof. rewrite <- pow_add. replace (m + m)%nat with (2 * m)%nat by lia. apply pow_1_even. Qed.
Lemma series_ok c L th ph v : is_series c L th ph v <-> v = series c L th ph.
Proof.
  assert (K : forall YR YI, (forall l m, (Z.abs_nat m <= l)%nat -> is_Ylm l m th ph (YR l m) (YI l m)) ->
    sum_f_R0 (fun l => sum_f_R0 (fun j => let m := (Z.of_nat j - Z.of_nat l)%Z in Cre c l m * YR l m - Cim c l m * YI l m) (2 * l)) L = series c L th ph).
  { intros YR YI H. unfold series. apply sum_eq. intros l _. cbv zeta. rewrite (sym_sum (fun m => Cre c l m * YR l m - Cim c l m * YI l m) l). apply sum_eq. intros m Hm.
    assert (G : forall n, Z.abs_nat n = m -> Cre c l n * YR l n - Cim c l n * YI l n = nth (2 * ind_lm l m) c 0 * Yr l m th ph - nth (2 * ind_lm l m + 1) c 0 * Yi l m th ph).
    { intros n Hn. destruct (H l n) as (a & b & HP & HV); [lia|]. rewrite Hn in *. apply Ylm_pos_unique in HP. destruct HP as [-> ->]. unfold Cre, Cim. rewrite Hn, !entry_ind. cbv zeta.
      destruct (n <? 0)%Z; destruct HV as [-> ->]; [|reflexivity].
      replace ((-1) ^ m * nth (2 * ind_lm l m) c 0 * ((-1) ^ m * Yr l m th ph) - - ((-1) ^ m * nth (2 * ind_lm l m + 1) c 0) * - ((-1) ^ m * Yi l m th ph))
        with ((-1) ^ m * (-1) ^ m * (nth (2 * ind_lm l m) c 0 * Yr l m th ph - nth (2 * ind_lm l m + 1) c 0 * Yi l m th ph)) by ring. rewrite pow_m1_sq. ring. }
    unfold term, wgt. destruct (Nat.eqb_spec m 0) as [->|N]; [rewrite G by lia; ring|]. rewrite !G by lia. ring. }
  split.
  - intros (YR & YI & H & ->). now apply K.
  - intros ->. set (YR := fun (l : nat) (m : Z) => if (m <? 0)%Z then (-1) ^ Z.abs_nat m * Yr l (Z.abs_nat m) th ph else Yr l (Z.abs_nat m) th ph).
    set (YI := fun (l : nat) (m : Z) => if (m <? 0)%Z then - ((-1) ^ Z.abs_nat m * Yi l (Z.abs_nat m) th ph) else Yi l (Z.abs_nat m) th ph).
    assert (H : forall l m, (Z.abs_nat m <= l)%nat -> is_Ylm l m th ph (YR l m) (YI l m)).
    { intros l m _. exists (Yr l (Z.abs_nat m) th ph), (Yi l (Z.abs_nat m) th ph). split; [apply Yr_spec|]. unfold YR, YI. destruct (m <? 0)%Z; auto. }
    exists YR, YI. split; auto. symmetry. now apply K.
Qed.

(** ** filling an array of pairs *)
Definition pdone (L : nat) (f : nat -> nat -> R * R) (n : nat) (cd : list R) (l m : nat) : Prop :=
  List.length cd = n /\ forall a b, (b <= a <= L)%nat -> before a b l m = true -> nth (2 * ind_lm a b) cd 0 = fst (f a b) /\ nth (2 * ind_lm a b + 1) cd 0 = snd (f a b).
Lemma ind_next l m : (ind_lm l m + 1 = ind_lm l (m + 1))%nat.
Proof. unfold ind_lm. lia. Qed.
Lemma pair_fill L (f : nat -> nat -> R * R) (body : nat -> nat -> list R * nat -> res (list R * nat)) cd0 :
  (2 * tabsize L <= List.length cd0)%nat ->
  (forall l m cd, (m <= l <= L)%nat -> List.length cd = List.length cd0 ->
     body l m (cd, 2 * ind_lm l m)%nat = Ok (upd (upd cd (2 * ind_lm l m) (fst (f l m))) (2 * ind_lm l m + 1) (snd (f l m)), 2 * ind_lm l m + 2)%nat) ->
  exists cd', (do s <- for_nat 0 (L + 1) (fun l s => for_nat 0 (l + 1) (fun m s => body l m s) s) (cd0, 0%nat); Ok (fst s)) = Ok cd' /\ List.length cd' = List.length cd0 /\
    forall l m, (m <= l <= L)%nat -> nth (2 * ind_lm l m) cd' 0 = fst (f l m) /\ nth (2 * ind_lm l m + 1) cd' 0 = snd (f l m).
Proof.
  intros LN HB.
  destruct (for_nat_inv (fun l s => snd s = (2 * ind_lm l 0)%nat /\ pdone L f (List.length cd0) (fst s) l 0) (fun l s => for_nat 0 (l + 1) (fun m s => body l m s) s) 0 (L + 1) (cd0, 0%nat)) as ([cd' i'] & F & _ & H).
  - lia.
  - split; [reflexivity|]. split; auto. intros a b _ C. apply before_iff in C. lia.
  - intros l [cd i] Hl (E & D). cbn [fst snd] in E, D. subst i.
    destruct (for_nat_inv (fun m s => snd s = (2 * ind_lm l m)%nat /\ pdone L f (List.length cd0) (fst s) l m) (fun m s => body l m s) 0 (l + 1) (cd, (2 * ind_lm l 0)%nat)) as ([cd1 i1] & F1 & E1 & D1).
    + lia.
    + split; auto.
    + intros m [ce i] Hm (E & De). cbn [fst snd] in E, De. subst i. destruct De as [Le De]. rewrite HB by (lia || auto). eexists. split; [reflexivity|]. cbn [fst snd]. split.
      { rewrite <- ind_next. lia. }
      split; [now rewrite !upd_length|]. intros a b Hb C.
      assert (Bd : (ind_lm l m < tabsize L)%nat) by (apply ind_bound; lia).
      destruct (Nat.eq_dec (ind_lm a b) (ind_lm l m)) as [EI|EI].
      * rewrite EI. apply ind_inj in EI; try lia. destruct EI as [-> ->]. split; [rewrite nth_upd_ne by lia; apply nth_upd_eq; lia|]. apply nth_upd_eq. rewrite upd_length. lia.
      * rewrite !nth_upd_ne by lia. apply De; auto. apply before_iff. apply before_iff in C. destruct C as [C|[-> C]]; [auto|]. right. split; auto. destruct (Nat.eq_dec b m); [subst; tauto|lia].
    + rewrite F1. exists (cd1, i1). split; [reflexivity|]. cbn [fst snd] in *. split. { rewrite E1. replace (l + 1)%nat with (S l) by lia. rewrite ind_S, (ind_m l (S l)). lia. }
      destruct D1 as [La Da]. split; auto. intros a b Hb C. apply Da; auto. apply before_iff. apply before_iff in C. lia.
  - rewrite F. cbn [rbind fst]. exists cd'. split; [reflexivity|]. cbn [fst] in H. destruct H as [LH H]. split; auto. intros l m Hm. apply H; [lia|]. apply before_iff. lia.
Qed.

(** ** derivative with respect to phi *)
Lemma dphi_ok c cd L : (2 * tabsize L <= List.length c)%nat -> (2 * tabsize L <= List.length cd)%nat ->
  exists cd', SphHarm_dphi_forRealFunc c cd L = Ok cd' /\ List.length cd' = List.length cd /\
    forall l m, (m <= l <= L)%nat -> nth (2 * ind_lm l m) cd' 0 = - INR m * nth (2 * ind_lm l m + 1) c 0 /\ nth (2 * ind_lm l m + 1) cd' 0 = INR m * nth (2 * ind_lm l m) c 0.
Proof.
  intros LC LD. unfold SphHarm_dphi_forRealFunc.
  apply (pair_fill L (fun l m => (- INR m * nth (2 * ind_lm l m + 1) c 0, INR m * nth (2 * ind_lm l m) c 0)) _ cd LD).
  intros l m ce Hm He. pose proof (ind_bound l m L ltac:(lia) ltac:(lia)). rewrite !(rd_ok _ _ 0) by lia. cbn [rbind]. rewrite wr_ok by lia. cbn [rbind]. rewrite wr_ok by (rewrite upd_length; lia). reflexivity.
Qed.
(** ** coefficients of sin(theta) d/dtheta *)
Lemma elm_ok l m : (m <= l)%nat -> elm_of l m = sqrt (ee l m).
Proof.
  intros H. unfold elm_of. fold (ee l m). f_equal. apply Rabs_pos_eq. destruct l as [|l]; [|now apply ee_nonneg]. unfold ee. replace m with 0%nat by lia. cbn [INR]. unfold Rdiv. rewrite Rmult_0_l. lra.
Qed.
Lemma elp1_ok l m : elp1m_of l m = sqrt (ee (S l) m).
Proof. unfold elp1m_of, ee. cbv zeta. rewrite S_INR. do 2 f_equal. ring. Qed.
(** [cf c o l m] is coefficient (l,m), real part for o = 0, imaginary part for o = 1 *)
Definition cf (c : list R) (o l m : nat) : R := nth (2 * ind_lm l m + o) c 0.
Definition dth (c : list R) (o l m : nat) : R := (INR l - 1) * sqrt (ee l m) * (if Nat.ltb m l then cf c o (l - 1) m else 0) - (INR l + 2) * sqrt (ee (S l) m) * cf c o (S l) m.
Lemma ee_diag l : sqrt (ee l l) = 0.
Proof. unfold ee. replace (INR l * INR l - INR l * INR l) with 0 by ring. unfold Rdiv. rewrite Rmult_0_l. apply sqrt_0. Qed.
Lemma dtheta_ok c cd L : (2 * ind_lm (S L) L + 1 < List.length c)%nat -> (2 * tabsize L <= List.length cd)%nat ->
  exists cd', SphHarm_sin_theta_dtheta_forRealFunc c cd L = Ok cd' /\ List.length cd' = List.length cd /\
    forall l m, (m <= l <= L)%nat -> nth (2 * ind_lm l m) cd' 0 = dth c 0 l m /\ nth (2 * ind_lm l m + 1) cd' 0 = dth c 1 l m.
Proof.
  intros LC LD. unfold SphHarm_sin_theta_dtheta_forRealFunc.
  apply (pair_fill L (fun l m => (dth c 0 l m, dth c 1 l m)) _ cd LD).
  intros l m ce Hm He. pose proof (ind_bound l m L ltac:(lia) ltac:(lia)) as Bd. cbv zeta.
  assert (U : (2 * ind_lm l m + 2 * (l + 1) = 2 * ind_lm (S l) m)%nat) by (rewrite ind_S, (ind_m l m); lia).
  assert (UB : (ind_lm (S l) m <= ind_lm (S L) L)%nat). { rewrite !ind_S. destruct (Nat.eq_dec l L) as [->|]; [lia|]. pose proof (ind_mono l L ltac:(lia)). rewrite (ind_m l l) in *. lia. }
  rewrite !U. pose proof (ind_m l m). rewrite !(rd_ok _ _ 0) by lia. cbn [rbind]. rewrite wr_ok by lia. cbn [rbind]. rewrite wr_ok by (rewrite upd_length; lia). cbn [rbind fst snd].
  rewrite elm_ok, elp1_ok by lia.
  assert (V : forall o, (o <= 1)%nat -> (INR l - 1) * sqrt (ee l m) * nth (2 * ind_lm l m - 2 * l + o) c 0 - (INR l + 2) * sqrt (ee (S l) m) * nth (2 * ind_lm (S l) m + o) c 0 = dth c o l m).
  { intros o Ho. unfold dth, cf. destruct (Nat.ltb_spec m l) as [Q|Q].
    - destruct l as [|l]; [lia|]. replace (S l - 1)%nat with l by lia. replace (2 * ind_lm (S l) m - 2 * S l + o)%nat with (2 * ind_lm l m + o)%nat; [reflexivity|]. rewrite ind_S, (ind_m l m). lia.
    - replace m with l by lia. rewrite ee_diag. ring. }
  do 3 f_equal. { rewrite <- (V 0%nat) by lia. now rewrite !Nat.add_0_r. } rewrite <- (V 1%nat) by lia. reflexivity.
Qed.

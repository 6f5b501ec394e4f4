(** C110: the spherical filter is the projection onto spherical harmonics. *)
From Coq Require Import Lra Lia.
From Verif Require Import Base Rutil Rsum Trig Arrays Loops Sparse_model Mat_model Mat_spec Four_spec Four_proofs Dir_model Dir_spec Lines_model Lines_spec Lines_proofs Lines_kernel Lines_props
  Integ_spec Integ_props Filt_model Swsh_proofs Modes_math Modes_spec Modes_proofs Modes_props Leg_math Yfil_model Yfil_spec Yfil_proofs Yfil_proofs2 Yfil_math.
Local Open Scope R_scope.

Lemma node_theta bw j : node bw j = theta_pt (4 * bw) j.
Proof. unfold node, theta_pt, Rdiv. ring. Qed.
Lemma pnode_node c bw j : exact c -> pnode c bw j = node bw j.
Proof. intros (E & _). unfold pnode, node. rewrite E. replace (2 * (2 * bw))%nat with (4 * bw)%nat by lia. rewrite plus_INR, (mult_INR 2 j). change (INR 1) with 1. change (INR 2) with 2. unfold Rdiv. ring. Qed.
Lemma wq_dh bw j : wq bw j = dh_weight bw j.
Proof. unfold wq, dh_weight. rewrite node_theta. f_equal. f_equal. apply Sig_ext. intros k _. unfold Rdiv. ring. Qed.
Lemma firstC_norm c m : exact c -> normC m (firstC c m).
Proof. intros (_ & _ & E). unfold firstC. destruct (Nat.eqb_spec m 0) as [->|N]; [|apply mcons_norm]. unfold normC. cbn [fact Nat.mul Nat.add INR pow]. lra. Qed.
Lemma normC_nz m C : normC m C -> C <> 0.
Proof.
  intros H ->. unfold normC in H. rewrite Rmult_0_l in H. assert (P1 := INR_fact_lt_0 (2 * m + 1)). assert (P2 := INR_fact_lt_0 m). assert (P3 : 0 < 4 ^ m) by (apply pow_lt; lra).
  assert (0 < INR (fact (2 * m + 1)) / (2 * 4 ^ m * (INR (fact m) * INR (fact m)))). { apply Rdiv_lt_0_compat; auto. repeat apply Rmult_lt_0_compat; auto; lra. } lra.
Qed.
Lemma CP_pow d (a : nat -> R) n : (n <= S d)%nat -> CP d (fun t => Sig n (fun q => a q * cos t ^ q)).
Proof.
  assert (P : forall q D, (q <= D)%nat -> CP D (fun t => cos t ^ q)).
  { induction q as [|q IH]; intros D Le. { apply CP_one. } destruct D as [|D]; [lia|]. apply (CPext _ (fun t => cos t * cos t ^ q)); [|reflexivity]. apply CP_cos. apply IH. lia. }
  induction n as [|n IH]; intros Le. { apply (CPext _ (fun t => 0 * 1)); [apply CPscal, CP_one|]. intros; cbn; ring. }
  apply (CPext _ (fun t => Sig n (fun q => a q * cos t ^ q) + a n * cos t ^ n)); [|intros; now rewrite Sig_S]. apply CPplus; [apply IH; lia|]. apply CPscal. apply P. lia.
Qed.

(** The weights integrate polynomials of degree < 2 bw in cos theta exactly. *)
Theorem C110_weights bw w : (1 <= bw)%nat -> List.length w = (4 * bw)%nat -> exists w', makeweights bw w = Ok w' /\ List.length w' = (4 * bw)%nat /\ (forall j, (j < 2 * bw)%nat -> w'.[j] = dh_weight bw j) /\
  quadrature bw (fun j => w'.[j]) /\ forall j, (j < 2 * bw)%nat -> w'.[j + 2 * bw] = w'.[j] * sin (theta_pt (4 * bw) j).
Proof.
  intros HB L. destruct (makeweights_ok bw w L) as (w' & E & L' & V). exists w'. split; auto. split; auto. assert (V1 : forall j, (j < 2 * bw)%nat -> w'.[j] = wq bw j) by (intros j Hj; apply V, Hj). split; [intros j Hj; now rewrite V1, wq_dh|]. split.
  - intros d a Hd x Ix. rewrite (Sig_ext _ _ (fun j => wq bw j * Sig (S d) (fun q => a q * cos (node bw j) ^ q))) by (intros j Hj; rewrite V1, node_theta by auto; reflexivity).
    destruct (wq_exact bw d (fun t => Sig (S d) (fun q => a q * cos t ^ q)) HB Hd (CP_pow d a (S d) ltac:(lia))) as (y & Iy & ->). apply (integral_unique (fun th => sin th * Sig (S d) (fun q => a q * cos th ^ q)) 0 PI); auto. assert (P := PI_RGT_0). lra.
  - intros j Hj. destruct (V j Hj) as [A B]. rewrite B, A, node_theta. reflexivity.
Qed.
Print Assumptions C110_weights.

(** Row i of table m holds the values of a function sin^m times a polynomial of degree i in cos theta; the functions of one table are orthonormal on the sphere. *)
Lemma leg_poly m C i : (exists a, forall th, leg m C i th = sin th ^ m * Sig (S i) (fun q => a q * cos th ^ q)) /\ exists a, forall th, legm m C i th = sin th ^ m * Sig i (fun q => a q * cos th ^ q).
Proof.
  induction i as [|i [[a A] [b B]]].
  - split. { exists (fun _ => C). intros th. rewrite Sig_S. cbn [Sig]. unfold leg. cbn [lp snd pow]. change (Sig 0 _) with 0. ring. } exists (fun _ => 0). intros th. unfold legm. cbn [lp fst]. change (Sig 0 _) with 0. ring.
  - split; [|exists a; intros; now rewrite leg_S]. exists (fun q => / eps m (S (m + i)) * ((if (q =? 0)%nat then 0 else a (q - 1)%nat) - eps m (m + i) * (if (q <? i)%nat then b q else 0))).
    intros th. assert (R := leg_rec m C i th). assert (N := epsS m i). apply (Rmult_eq_reg_l (eps m (S (m + i)))); auto. rewrite R, A, B.
    rewrite (Sig_ext (S (S i)) _ (fun q => / eps m (S (m + i)) * (((if (q =? 0)%nat then 0 else a (q - 1)%nat) * cos th ^ q) - eps m (m + i) * ((if (q <? i)%nat then b q else 0) * cos th ^ q)))) by (intros; ring).
    rewrite Sig_scal, Sig_minus, Sig_scal. rewrite (Sig_S_l (S i) (fun q => (if (q =? 0)%nat then 0 else a (q - 1)%nat) * cos th ^ q)). cbn [Nat.eqb].
    rewrite (Sig_ext (S i) (fun i0 => a (S i0 - 1)%nat * cos th ^ S i0) (fun q => cos th * (a q * cos th ^ q))). 2:{ intros q _. replace (S q - 1)%nat with q by lia. cbn [pow]. ring. }
    rewrite Sig_scal. replace (S (S i)) with (i + 2)%nat by lia. rewrite (Sig_add i 2). rewrite (Sig_ext i (fun q => (if (q <? i)%nat then b q else 0) * cos th ^ q) (fun q => b q * cos th ^ q)). 2:{ intros q Hq. destruct (Nat.ltb_spec q i); [auto|lia]. }
    rewrite (Sig_zero 2). 2:{ intros q _. destruct (Nat.ltb_spec (i + q) i); [lia|ring]. } field. exact N.
Qed.
Theorem C110_legendre c bw m st w : exact c -> (m < bw)%nat -> wok bw w -> List.length st = (2 * bw * bw)%nat ->
  exists st' w' (P : nat -> R -> R), PmlTableGen c bw m st w = Ok (st', w') /\ (forall i j, (m + i < bw)%nat -> (j < 2 * bw)%nat -> st'.[i * (2 * bw) + j] = P i (theta_pt (4 * bw) j)) /\
    (forall i, exists a, forall th, P i th = sin th ^ m * Sig (S i) (fun q => a q * cos th ^ q)) /\ forall i k, integral (fun th => sin th * (P i th * P k th)) 0 PI (if (i =? k)%nat then 1 else 0).
Proof.
  intros Ex Hm Hw Ls. destruct (table_ok c bw m st w Hm Hw Ls) as (st' & w' & E & _ & _ & V). exists st', w', (leg m (firstC c m)). split; auto. split; [intros i j Hi Hj; now rewrite V, pnode_node, node_theta by auto|]. split; [intros i; apply leg_poly|].
  intros i k. destruct (Nat.eqb_spec i k) as [->|N]; [apply (leg_norm m (firstC c m) (firstC_norm c m Ex))|now apply leg_orth].
Qed.
Print Assumptions C110_legendre.

(** ** One box *)
Lemma Tc_TT c bw n3 cut u j k : exact c -> Tc c bw n3 cut u j k = TT bw n3 cut (firstC c) u j k.
Proof.
  intros Ex. unfold Tc, TT. apply Sig_ext. intros q Hq. f_equal. f_equal. unfold gk. cbv zeta. destruct (_ <? _)%nat; auto. apply Sig_ext. intros l _. unfold Pc, PT. rewrite pnode_node by auto. f_equal. apply Sig_ext. intros j' _. now rewrite pnode_node.
Qed.
Lemma half_turn n3 k f L : Nat.Even n3 -> (1 <= n3)%nat -> (k < n3)%nat -> sphere_poly L f -> forall th, f (2 * PI - th) (phase n3 (opp3 n3 k)) = f th (phase n3 k).
Proof.
  intros [h E] H1 Hk Hf th. assert (D : (n3 / 2 = h)%nat) by (rewrite E, Nat.mul_comm; now apply Nat.div_mul). assert (Ph : 0 < INR h) by (apply lt_0_INR; lia). assert (N3 : INR n3 = 2 * INR h) by (rewrite E, mult_INR; reflexivity).
  unfold opp3. rewrite D. destruct (Nat.ltb_spec k h).
  - replace (phase n3 (k + h)) with (phase n3 k + PI). { now apply (SP_cover L). } unfold phase. rewrite plus_INR, N3. field. lra.
  - rewrite <- (SP_period L f Hf _ (phase n3 (k - h))). replace (phase n3 (k - h) + 2 * PI) with (phase n3 k + PI). { now apply (SP_cover L). } unfold phase. rewrite minus_INR, N3 by auto. field. lra.
Qed.
Lemma mirror bw j : (1 <= bw)%nat -> (j < 4 * bw)%nat -> theta_pt (4 * bw) (4 * bw - 1 - j) = 2 * PI - theta_pt (4 * bw) j.
Proof.
  intros H1 Hj. unfold theta_pt. assert (P : 0 < INR (4 * bw)) by (apply lt_0_INR; lia). replace (2 * (4 * bw - 1 - j) + 1)%nat with (2 * (4 * bw) - (2 * j + 1))%nat by lia. rewrite minus_INR, (mult_INR 2 (4 * bw)) by lia. change (INR 2) with 2. field. lra.
Qed.
(** the result of the box as samples of one function *)
Lemma result_sampled c b bw cut u u' : exact c -> nn b X2 = (4 * bw)%nat -> (1 <= bw)%nat -> Nat.Even (nn b X3) -> (cut <= bw)%nat -> result c b bw cut u u' -> sampled b (fun i => gf bw (nn b X3) cut (firstC c) (fun j r => val b u (i, j, r))) u'.
Proof.
  intros Ex N2 HB E3 Hc [L V]. split; auto. intros i j k I. rewrite V by auto. assert (I' := I). apply inbox3 in I'. rewrite N2 in *. change (phi_pt (nn b X3) k) with (phase (nn b X3) k). destruct (Nat.ltb_spec j (2 * bw)).
  - now rewrite Tc_TT, TT_gf, node_theta by auto.
  - rewrite Tc_TT, TT_gf, node_theta by auto. rewrite mirror by (auto; lia). destruct (Nat.eq_dec cut 0) as [Z|N]. { now rewrite !gf_zero. }
    apply (half_turn (nn b X3) k _ (cut - 1)); auto; try lia. apply gf_SP; lia.
Qed.
Section OneBox.
  Variables (c : literals) (b : sbox) (bw : nat) (lmshift : Z) (lmax : nat) (u u' : list R).
  Hypotheses (Ex : exact c) (N2 : nn b X2 = (4 * bw)%nat) (HB : (1 <= bw)%nat) (E3 : Nat.Even (nn b X3)) (Hl : (lmshift <= 0)%Z) (Hm : Z.of_nat lmax = (Z.of_nat bw - 1 + lmshift)%Z).
  Hypothesis HR : result c b bw (Z.to_nat (Z.of_nat bw + lmshift)) u u'.
  Lemma cut_eq : Z.to_nat (Z.of_nat bw + lmshift) = S lmax. Proof. lia. Qed.
  Lemma box_range : exists g, sampled b g u' /\ forall i, sphere_poly lmax (g i).
  Proof.
    assert (R' := HR). rewrite cut_eq in R'. exists (fun i => gf bw (nn b X3) (S lmax) (firstC c) (fun j r => val b u (i, j, r))). split; [apply (result_sampled c b bw (S lmax) u u'); auto; lia|].
    intros i. replace lmax with (S lmax - 1)%nat at 1 by lia. apply gf_SP; lia.
  Qed.
  Lemma box_projected : (2 * lmax < nn b X3)%nat -> projected b bw lmax u u'.
  Proof.
    intros Hn. assert (R' := HR). rewrite cut_eq in R'. exists (fun i => gf bw (nn b X3) (S lmax) (firstC c) (fun j r => val b u (i, j, r))). split; [apply (result_sampled c b bw (S lmax) u u'); auto; lia|]. split.
    { intros i. replace lmax with (S lmax - 1)%nat at 1 by lia. apply gf_SP; lia. }
    intros i h Hi Hh. rewrite N2. set (f := fun j k => val b u (i, j, k)). change (phi_pt (nn b X3)) with (phase (nn b X3)).
    rewrite (Sig_ext _ _ (fun j => wq bw j * Sig (nn b X3) (fun k => f j k * h (node bw j) (phase (nn b X3) k)) - wq bw j * Sig (nn b X3) (fun k => TT bw (nn b X3) (S lmax) (firstC c) f j k * h (node bw j) (phase (nn b X3) k)))).
    - rewrite Sig_minus. assert (O := TT_orth bw (nn b X3) (S lmax) (firstC c) ltac:(lia) (fun m => firstC_norm c m Ex) lmax h f ltac:(lia) Hn (SP_BF (firstC c) (fun m => normC_nz m _ (firstC_norm c m Ex)) lmax h Hh)). unfold dot in O. rewrite O. ring.
    - intros j _. rewrite <- Rmult_minus_distr_l, <- Sig_minus, wq_dh. f_equal. apply Sig_ext. intros k _. rewrite TT_gf, <- node_theta. unfold f. ring.
  Qed.
  Lemma box_keeps f : (2 * lmax < nn b X3)%nat -> (forall i, (i < nn b X1)%nat -> sphere_poly lmax (f i)) -> (forall i j k, inbox b (i, j, k) -> (j < 2 * bw)%nat -> val b u (i, j, k) = f i (theta_pt (nn b X2) j) (phi_pt (nn b X3) k)) -> sampled b f u'.
  Proof.
    intros Hn Hf Hu. assert (R' := HR). rewrite cut_eq in R'. destruct R' as [L V]. split; auto. intros i j k I. rewrite V by auto. assert (I' := I). apply inbox3 in I'. rewrite N2 in *. change (phi_pt (nn b X3)) with (phase (nn b X3)) in *.
    assert (K : forall j k, TT bw (nn b X3) (S lmax) (firstC c) (fun j' r => val b u (i, j', r)) j k = f i (node bw j) (phase (nn b X3) k)).
    { intros j' k'. rewrite <- (TT_keeps bw (nn b X3) (S lmax) (firstC c) ltac:(lia) (fun m => firstC_norm c m Ex) lmax (f i) ltac:(lia) Hn (SP_BF (firstC c) (fun m => normC_nz m _ (firstC_norm c m Ex)) lmax (f i) (Hf i ltac:(lia)))).
      apply TT_ext. intros j2 r Hj2 Hr. rewrite node_theta. apply Hu; auto. apply inbox3. lia. }
    destruct (Nat.ltb_spec j (2 * bw)). { now rewrite Tc_TT, K, node_theta. }
    rewrite Tc_TT, K, node_theta, mirror by (auto; lia). apply (half_turn (nn b X3) k (f i) lmax); auto; try lia. apply Hf. lia.
  Qed.
End OneBox.

(** ** The grid *)
Lemma grid_ok c nboxes bx bw lmshift en t idx g : (lmshift <= 0)%Z -> all_ready nboxes bx bw en t idx g ->
  exists g', YlmFilter c nboxes bx lmshift en t idx g = Ok g' /\ (forall i, (nboxes <= i)%nat -> g' i = g i) /\ forall i, (i < nboxes)%nat -> ylm_box c (bx i) lmshift (en i) t idx (g i) = Ok (g' i) /\
    (forall w, ~ In w (t :: idx) -> g' i w = g i w) /\ List.length (g' i t) = npoints (bx i) /\ forall iu, In iu idx -> result c (bx i) (bw i) (Z.to_nat (Z.of_nat (bw i) + lmshift)) (g i iu) (g' i iu).
Proof.
  intros Hl Hr. unfold YlmFilter. destruct (Z.ltb_spec 0 lmshift); [lia|].
  match goal with |- context [for_nat 0 nboxes ?B g] => destruct (for_nat_inv (fun m g' => (forall i, (m <= i)%nat -> g' i = g i) /\ forall i, (i < m)%nat -> (i < nboxes)%nat -> ylm_box c (bx i) lmshift (en i) t idx (g i) = Ok (g' i) /\
    (forall w, ~ In w (t :: idx) -> g' i w = g i w) /\ List.length (g' i t) = npoints (bx i) /\ forall iu, In iu idx -> result c (bx i) (bw i) (Z.to_nat (Z.of_nat (bw i) + lmshift)) (g i iu) (g' i iu)) B 0 nboxes g) as (g' & E & P1 & P2) end.
  - lia. - split; auto. intros; lia.
  - intros m s Hm (P1 & P2). rewrite P1 by lia. destruct (Hr m ltac:(lia)) as [He Hy]. destruct (ylm_box_ok c (bx m) (bw m) lmshift (en m) t idx (g m) He Hy Hl) as (x & E & K & Lt & V). rewrite E. cbn [rbind]. eexists. split; [reflexivity|]. split.
    + intros i Hi. cbv beta. destruct (Nat.eqb_spec i m); [lia|]. apply P1. lia.
    + intros i Hi Hn. cbv beta. destruct (Nat.eqb_spec i m) as [->|]; [auto|]. apply P2; lia.
  - exists g'. split; auto.
Qed.
(** The code's value of lmax is bw - 1 + lmshift.  All missing in the _partial theorems: the literals of the code are exact only up to their 15 digits. *)
Theorem C110_projects_partial c nboxes bx bw lmshift en t idx g : exact c -> (lmshift <= 0)%Z -> all_ready nboxes bx bw en t idx g ->
  exists g', YlmFilter c nboxes bx lmshift en t idx g = Ok g' /\ (forall i w, (nboxes <= i)%nat \/ ~ In w (t :: idx) -> g' i w = g i w) /\
    forall i iu lmax, (i < nboxes)%nat -> In iu idx -> Z.of_nat lmax = (Z.of_nat (bw i) - 1 + lmshift)%Z ->
      (exists f, sampled (bx i) f (g' i iu) /\ forall q, sphere_poly lmax (f q)) /\ ((2 * lmax < nn (bx i) X3)%nat -> projected (bx i) (bw i) lmax (g i iu) (g' i iu)).
Proof.
  intros Ex Hl Hr. destruct (grid_ok c nboxes bx bw lmshift en t idx g Hl Hr) as (g' & E & P1 & P2). exists g'. split; auto. split.
  - intros i w H. destruct (Nat.le_gt_cases nboxes i) as [Le|Lt]. { now rewrite P1. } destruct (P2 i Lt) as (_ & K & _). apply K. destruct H; [lia|auto].
  - intros i iu lmax Hi Hu Hm. destruct (P2 i Hi) as (_ & _ & _ & V). destruct (Hr i Hi) as [_ (N2 & HB & E3 & _)]. split; [apply (box_range c (bx i) (bw i) lmshift lmax (g i iu)); auto|]. intros Hn. apply (box_projected c (bx i) (bw i) lmshift lmax); auto.
Qed.
Print Assumptions C110_projects_partial.
Theorem C110_keeps_partial c nboxes bx bw lmshift en t idx g : exact c -> (lmshift <= 0)%Z -> all_ready nboxes bx bw en t idx g ->
  exists g', YlmFilter c nboxes bx lmshift en t idx g = Ok g' /\ forall i iu lmax f, (i < nboxes)%nat -> In iu idx -> Z.of_nat lmax = (Z.of_nat (bw i) - 1 + lmshift)%Z -> (2 * lmax < nn (bx i) X3)%nat ->
    (forall q, sphere_poly lmax (f q)) -> (forall q j k, inbox (bx i) (q, j, k) -> (j < nn (bx i) X2 / 2)%nat -> val (bx i) (g i iu) (q, j, k) = f q (theta_pt (nn (bx i) X2) j) (phi_pt (nn (bx i) X3) k)) ->
    sampled (bx i) f (g' i iu).
Proof.
  intros Ex Hl Hr. destruct (grid_ok c nboxes bx bw lmshift en t idx g Hl Hr) as (g' & E & P1 & P2). exists g'. split; auto.
  intros i iu lmax f Hi Hu Hm Hn Hf Hs. destruct (P2 i Hi) as (_ & _ & _ & V). destruct (Hr i Hi) as [_ (N2 & HB & E3 & _)]. apply (box_keeps c (bx i) (bw i) lmshift lmax (g i iu)); auto.
  intros q j k I Hj. apply Hs; auto. rewrite N2. replace (4 * bw i)%nat with (2 * bw i * 2)%nat by lia. rewrite Nat.div_mul; auto.
Qed.
Print Assumptions C110_keeps_partial.
(** Filtering twice is filtering once. *)
Theorem C110_idempotent_partial c nboxes bx bw lmshift en en2 t idx g : exact c -> (lmshift <= 0)%Z -> all_ready nboxes bx bw en t idx g -> (forall i, (i < nboxes)%nat -> env_ok (bx i) (bw i) (en2 i)) ->
  (forall i, (i < nboxes)%nat -> (2 * (Z.of_nat (bw i) - 1 + lmshift) < Z.of_nat (nn (bx i) X3))%Z /\ (0 <= Z.of_nat (bw i) - 1 + lmshift)%Z) ->
  exists g1 g2, YlmFilter c nboxes bx lmshift en t idx g = Ok g1 /\ YlmFilter c nboxes bx lmshift en2 t idx g1 = Ok g2 /\ forall i iu, In iu idx -> g2 i iu = g1 i iu.
Proof.
  intros Ex Hl Hr He2 Hn. destruct (grid_ok c nboxes bx bw lmshift en t idx g Hl Hr) as (g1 & E & P1 & P2).
  assert (Hr1 : all_ready nboxes bx bw en2 t idx g1).
  { intros i Hi. split; [now apply He2|]. destruct (Hr i Hi) as [_ (A1 & A2 & A3 & A4 & A5 & A6 & A7)]. repeat (split; auto). destruct (P2 i Hi) as (_ & _ & Lt & V). intros w [<-|Hw]; auto. apply V. exact Hw. }
  destruct (grid_ok c nboxes bx bw lmshift en2 t idx g1 Hl Hr1) as (g2 & E2 & Q1 & Q2). exists g1, g2. split; auto. split; auto.
  intros i iu Hu. destruct (Nat.le_gt_cases nboxes i) as [Le|Lt]. { now rewrite Q1. }
  destruct (Hn i Lt) as [Hn1 Hn2]. destruct (P2 i Lt) as (_ & _ & _ & V). destruct (Q2 i Lt) as (_ & _ & _ & W). destruct (Hr i Lt) as [_ (N2 & HB & E3 & _)].
  set (lmax := Z.to_nat (Z.of_nat (bw i) - 1 + lmshift)). assert (Hm : Z.of_nat lmax = (Z.of_nat (bw i) - 1 + lmshift)%Z) by (unfold lmax; lia).
  destruct (box_range c (bx i) (bw i) lmshift lmax (g i iu) (g1 i iu)) as (f & [L1 V1] & Hf); auto.
  destruct (box_keeps c (bx i) (bw i) lmshift lmax (g1 i iu) (g2 i iu) Ex N2 HB E3 Hl Hm (W iu Hu) f) as [L2 V2]; auto; [lia|].
  apply (arr_ext (bx i)); auto. intros [[q j] k] I. now rewrite V1, V2.
Qed.
Print Assumptions C110_idempotent_partial.
(** lmax < 0: everything is removed *)
Theorem C110_empty c nboxes bx bw lmshift en t idx g : (lmshift <= 0)%Z -> all_ready nboxes bx bw en t idx g -> (forall i, (i < nboxes)%nat -> (Z.of_nat (bw i) - 1 + lmshift < 0)%Z) ->
  exists g', YlmFilter c nboxes bx lmshift en t idx g = Ok g' /\ forall i iu p, (i < nboxes)%nat -> In iu idx -> inbox (bx i) p -> val (bx i) (g' i iu) p = 0.
Proof.
  intros Hl Hr Hn. destruct (grid_ok c nboxes bx bw lmshift en t idx g Hl Hr) as (g' & E & P1 & P2). exists g'. split; auto. intros i iu [[q j] k] Hi Hu I. destruct (P2 i Hi) as (_ & _ & _ & V). destruct (V iu Hu) as [_ W]. rewrite W by auto.
  assert (Hc : Z.to_nat (Z.of_nat (bw i) + lmshift) = 0%nat) by (specialize (Hn i Hi); lia). rewrite Hc.
  assert (G : forall u j k, Tc c (bw i) (nn (bx i) X3) 0 u j k = 0). { intros u j' k'. unfold Tc. apply Sig_zero. intros r _. unfold gk. cbn [Nat.ltb Nat.leb]. cbv zeta. ring. } destruct (_ <? _)%nat; apply G.
Qed.
Print Assumptions C110_empty.
(** The calls that end the program. *)
Theorem C110_errors c nboxes bx lmshift en t idx g : ((0 < lmshift)%Z -> YlmFilter c nboxes bx lmshift en t idx g = Err) /\
  forall b e v, (nn b X2 mod 4 <> 0)%nat \/ (nn b X3 mod 2 <> 0)%nat -> ylm_box c b lmshift e t idx v = Err.
Proof.
  split. { intros H. unfold YlmFilter. destruct (Z.ltb_spec 0 lmshift); [auto|lia]. }
  intros b e v H. unfold ylm_box. destruct (Nat.eqb_spec (nn b X2 mod 4) 0) as [E1|]; cbn [negb]; auto. destruct (Nat.eqb_spec (nn b X3 mod 2) 0) as [E2|]; cbn [negb]; auto. tauto.
Qed.
Print Assumptions C110_errors.
(** With the literals of the code the constant function loses part of its amplitude when only l = 0 is kept. *)
Theorem C110_constant_refuted b bw en t iu v a : env_ok b bw en -> ylm_ready b bw t [iu] v -> (forall p, inbox b p -> val b (v iu) p = a) ->
  exists v', ylm_box in_code b (1 - Z.of_nat bw) en t [iu] v = Ok v' /\ forall p, inbox b p -> val b (v' iu) p = 2 * (0.707106781186547 * 0.707106781186547) * a /\ (a <> 0 -> val b (v' iu) p <> val b (v iu) p).
Proof.
  intros He Hy Ha. assert (HB : (1 <= bw)%nat) by apply Hy. assert (N2 : nn b X2 = (4 * bw)%nat) by apply Hy. assert (E3 : Nat.Even (nn b X3)) by apply Hy.
  destruct (ylm_box_ok in_code b bw (1 - Z.of_nat bw) en t [iu] v He Hy ltac:(lia)) as (v' & E & _ & _ & V). exists v'. split; auto. destruct (V iu ltac:(now left)) as [_ W]. replace (Z.to_nat (Z.of_nat bw + (1 - Z.of_nat bw))) with 1%nat in W by lia.
  assert (Sw : Sig (2 * bw) (wq bw) = 2).
  { destruct (wq_exact bw 0 (fun _ => 1) HB ltac:(lia) (CP_one 0)) as (x & Ix & Sx). rewrite (Sig_ext _ _ (fun j => wq bw j * 1)) by (intros; ring). rewrite Sx. apply (integral_unique (fun t => sin t * 1) 0 PI); auto. { assert (P := PI_RGT_0). lra. }
    exists (fun t => - cos t). split; [|rewrite cos_PI, cos_0; ring]. intros X. replace (sin X * 1) with (- - sin X) by ring. apply (derivable_pt_lim_opp cos). apply derivable_pt_lim_cos. }
  assert (G : forall i j k, (i < nn b X1)%nat -> (k < nn b X3)%nat -> Tc in_code bw (nn b X3) 1 (fun j' r => val b (v iu) (i, j', r)) j k = 2 * (0.707106781186547 * 0.707106781186547) * a).
  { intros i j k Hi Hk. unfold Tc. set (n3 := nn b X3) in *. rewrite (Sig_single n3 0); [|lia|].
    - rewrite weight_0, mode_0. unfold gk. cbv zeta. change ((0 + 1) / 2)%nat with 0%nat. cbn [Nat.ltb Nat.leb Nat.sub]. change (Sig 1 ?f) with (0 + f 0%nat). unfold Pc, firstC, leg. cbn [lp snd Nat.eqb pow c_half in_code].
      rewrite (Sig_ext _ _ (fun j' => (INR n3 * a * 0.707106781186547) * wq bw j')).
      + rewrite Sig_scal, Sw. assert (0 < INR n3) by (apply lt_0_INR; lia). field. lra.
      + intros j' Hj'. rewrite (Sig_ext _ _ (fun _ => a)). { rewrite Sig_const. ring. } intros r Hr. rewrite mode_0, Ha; [ring|]. apply inbox3. fold n3. lia.
    - intros q Hq Nq. unfold gk. cbv zeta. destruct (Nat.ltb_spec ((q + 1) / 2) 1) as [Lt|]; [|ring]. exfalso. assert ((q + 1) / 2 = 0)%nat by lia. apply Nat.div_small_iff in H; lia. }
  intros [[i j] k] I. assert (I' := I). apply inbox3 in I'. rewrite W by auto. rewrite Ha by auto.
  assert (K : (if (j <? 2 * bw)%nat then Tc in_code bw (nn b X3) 1 (fun j' r => val b (v iu) (i, j', r)) j k else Tc in_code bw (nn b X3) 1 (fun j' r => val b (v iu) (i, j', r)) (4 * bw - 1 - j) (opp3 (nn b X3) k)) = 2 * (0.707106781186547 * 0.707106781186547) * a).
  { destruct (Nat.ltb_spec j (2 * bw)); apply G; try lia. destruct E3 as [h E3]. unfold opp3. assert (nn b X3 / 2 = h)%nat by (rewrite E3, Nat.mul_comm; now apply Nat.div_mul). destruct (Nat.ltb_spec k (nn b X3 / 2)); lia. }
  rewrite K. split; auto. intros Na Q. apply Na. assert (X : (2 * (0.707106781186547 * 0.707106781186547) - 1) * a = 0) by lra. apply Rmult_integral in X as [X|X]; auto. exfalso. lra.
Qed.
Print Assumptions C110_constant_refuted.

(** ** Concrete cases *)
Definition exact_literals : literals := {| c_pi := PI; c_half := / sqrt 2 |}.
Lemma exact_ok : exact exact_literals.
Proof. split; [reflexivity|]. cbn [c_half exact_literals]. assert (P : 0 < sqrt 2) by (apply sqrt_lt_R0; lra). split; [now apply Rinv_0_lt_compat|]. rewrite <- Rinv_mult, sqrt_sqrt by lra. lra. Qed.
Definition env_of (b : sbox) (bw : nat) : yenv := let z := repeat 0 (2 * bw) in
  {| y_plm := fun _ => repeat 0 (2 * bw * bw); y_weights := repeat 0 (4 * bw); y_ws := {| w_pp := z; w_p := z; w_t1 := z; w_t2 := z; w_t3 := z; w_t4 := z; w_x := z; w_e := z |};
     y_an := fun _ => sequential b X3; y_sy := fun _ => sequential b X3; y_order := fun _ => seq 0 (nn b X3); y_alloc := fun _ _ => (repeat 0 (nn b X2), repeat 0 bw, repeat 0 (18 * bw));
     y_copy1 := fun _ => seq 0 (nn b X3 / 2); y_copy2 := fun _ => seq (nn b X3 / 2) (nn b X3 / 2) |}.
Lemma env_of_ok b bw : env_ok b bw (env_of b bw).
Proof.
  unfold env_of, env_ok. cbn [y_plm y_weights y_ws y_an y_sy y_order y_alloc y_copy1 y_copy2 w_pp w_p w_t1 w_t2 w_t3 w_t4 w_x w_e]. cbv zeta. split; [intros; now rewrite repeat_length|]. split; [now rewrite repeat_length|]. split; [rewrite !repeat_length; repeat (split; [reflexivity|]); reflexivity|].
  intros vi. split; [apply sequential_schedule|]. split; [apply sequential_schedule|]. split; [auto|]. split; [auto|]. split; [auto|]. intros k. rewrite !repeat_length. split; auto. split; auto. lia.
Qed.
(** 3 + 5 z + x y - x^2 on a box with 12 x 6 points on the sphere: bw = 3, lmax = 2; and z^3, which is not in the space and is projected *)
Definition quadratic (th ph : R) : R := 3 + 5 * uz th ph + ux th ph * uy th ph - ux th ph * ux th ph.
Lemma quadratic_SP : sphere_poly 2 quadratic.
Proof.
  apply (SPext _ (fun th ph => (3 + uz th ph * 5) + (ux th ph * (uy th ph * 1) + ux th ph * (ux th ph * (-1))))); [|intros; unfold quadratic; ring].
  repeat first [apply SPplus|apply SPx|apply SPy|apply SPz|apply SPconst].
Qed.
Example C110_ex : exists b v v', nn b X2 = 12%nat /\ nn b X3 = 6%nat /\ inbox b (1, 11, 5)%nat /\ all_ready 1 (fun _ => b) (fun _ => 3%nat) (fun _ => env_of b 3) 2 [0%nat; 1%nat] (fun _ => v) /\
  YlmFilter exact_literals 1 (fun _ => b) 0 (fun _ => env_of b 3) 2 [0%nat; 1%nat] (fun _ => v) = Ok v' /\ sampled b (fun _ => quadratic) (v' 0%nat 0%nat) /\ projected b 3 2 (v 1%nat) (v' 0%nat 1%nat).
Proof.
  destruct (mode_box_ex 2 12 6) as (b & MB & N1 & N2 & N3); try lia; try (now exists 6%nat); try (now exists 3%nat).
  set (v := fun w : nat => table b (fun p => if (w =? 0)%nat then quadratic (theta_pt 12 (comp X2 p)) (phi_pt 6 (comp X3 p)) else cos (theta_pt 12 (comp X2 p)) ^ 3)).
  assert (AR : all_ready 1 (fun _ => b) (fun _ => 3%nat) (fun _ => env_of b 3) 2 [0%nat; 1%nat] (fun _ => v)).
  { intros i Hi. split; [apply env_of_ok|]. destruct MB as (_ & B3 & _). split; [rewrite N2; reflexivity|]. split; [lia|]. split; [exists 3%nat; lia|]. split; auto. split. { repeat constructor; cbn; intuition lia. } split. { cbn. intuition lia. } intros w _. apply table_length. }
  destruct (C110_projects_partial exact_literals 1 (fun _ => b) (fun _ => 3%nat) 0 (fun _ => env_of b 3) 2 [0%nat; 1%nat] (fun _ => v) exact_ok ltac:(lia) AR) as (v' & E & _ & P).
  destruct (C110_keeps_partial exact_literals 1 (fun _ => b) (fun _ => 3%nat) 0 (fun _ => env_of b 3) 2 [0%nat; 1%nat] (fun _ => v) exact_ok ltac:(lia) AR) as (v1 & E1 & K). assert (v1 = v') by congruence. subst v1.
  exists b, v, v'. split; auto. split; auto. split. { apply inbox3. lia. } split; auto. split; auto. split.
  - apply (K 0%nat 0%nat 2%nat (fun _ => quadratic)); [lia|now left|lia|lia|intros; apply quadratic_SP|]. intros q j k I _. unfold v. rewrite table_val by auto. cbn [comp Nat.eqb]. now rewrite N2, N3.
  - apply (P 0%nat 1%nat 2%nat); [lia|right; now left|lia|lia].
Qed.
Example C110_constant_ex : exists b v, env_ok b 1 (env_of b 1) /\ ylm_ready b 1 1 [0%nat] v /\ inbox b (0, 3, 1)%nat /\ forall p, inbox b p -> val b (v 0%nat) p = 7.
Proof.
  destruct (mode_box_ex 1 4 2) as (b & MB & N1 & N2 & N3); try lia; try (now exists 2%nat); try (now exists 1%nat). exists b, (fun _ => table b (fun _ => 7)). split; [apply env_of_ok|]. destruct MB as (_ & B3 & _). split.
  - split; [rewrite N2; reflexivity|]. split; [lia|]. split; [exists 1%nat; lia|]. split; auto. split. { repeat constructor; cbn; intuition lia. } split. { cbn. intuition lia. } intros w _. apply table_length.
  - split; [apply inbox3; lia|]. intros p Ip. now rewrite table_val.
Qed.

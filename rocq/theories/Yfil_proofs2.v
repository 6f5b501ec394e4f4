(** Proofs about the Ylm filter: the loops over the box. *)
From Verif Require Import Base Rutil Rsum Trig Arrays Loops Mat_model Mat_spec Mat_proofs Four_model Four_spec Four_proofs Four_props Dir_model Dir_spec Dir_props
  Lines_model Lines_spec Lines_proofs Lines_kernel Lines_props Integ_proofs Integ_props Filt_model Modes_math Modes_proofs Leg_math Yfil_model Yfil_spec Yfil_proofs.
Local Open Scope R_scope.

(** ** Fourier lines *)
Lemma fourier_ops D : built Fourier D -> let n := b_n D in exists FA FE, analysis_of D FA /\ synthesis_of D FE /\
  (forall l, List.length l = n -> List.length (FA l) = n /\ forall k, (k < n)%nat -> (FA l).[k] = Sig n (fun m => mode k (phase n m) * l.[m])) /\
  (forall l, List.length l = n -> List.length (FE l) = n /\ forall k, (k < n)%nat -> (FE l).[k] = Sig n (fun i => weight n i * l.[i] * mode i (phase n k))).
Proof.
  intros B n. destruct (built_ops Fourier D B) as (A & _ & E & _ & _ & HE & Inv & SA & SE & _). fold n in HE, Inv, SA, SE. destruct B as (_ & Hab & Hn & _). fold n in Hn. assert (Pn : 0 < INR n) by (apply lt_0_INR; lia).
  assert (Ex : forall l k, (k < n)%nat -> expansion Fourier (b_lo D) (b_hi D) n l (coord Fourier (b_lo D) (b_hi D) n k) = Sig n (fun i => weight n i * l.[i] * mode i (phase n k))).
  { intros l k Hk. cbn [expansion]. rewrite coord_fourier. replace (phase_at (b_lo D) (b_hi D) (b_lo D + INR k * (b_hi D - b_lo D) / INR n)) with (phase n k) by (unfold phase_at, phase; field; lra). reflexivity. }
  assert (EV : forall l, List.length l = n -> forall k, (k < n)%nat -> (apply n E l).[k] = Sig n (fun i => weight n i * l.[i] * mode i (phase n k))).
  { intros l Ll k Hk. destruct (eval_is_expansion Fourier (b_lo D) (b_hi D) n l l) as (v & Ev & Lv & V); auto. rewrite HE in Ev by auto. injection Ev as <-. rewrite V, Ex by auto. reflexivity. }
  exists (apply n A), (apply n E). split; auto. split; auto. split; [|intros l Ll; split; [apply apply_length|auto]].
  intros l Ll. split; [apply apply_length|]. intros k Hk. set (c' := map (fun i => Sig n (fun m => mode i (phase n m) * l.[m])) (seq 0 n)).
  assert (apply n A l = c') as ->.
  { apply (expansion_unique Fourier (b_lo D) (b_hi D) n); auto. { apply apply_length. } { unfold c'. now rewrite map_length, seq_length. }
    intros m Hm. rewrite !Ex by auto. rewrite <- EV by (auto; apply apply_length). rewrite Inv by auto. rewrite <- (recon n (fun m => l.[m]) m Hm). apply Sig_ext. intros i Hi. unfold c'. now rewrite (map_seq_nth _ n i 0). }
  unfold c'. now rewrite (map_seq_nth _ n k 0).
Qed.

(** ** one coefficient of the lines in phi *)
Definition gk (bw cut : nat) (w : nat -> R) (P : nat -> nat -> nat -> R) (f : nat -> R) (k j : nat) : R :=
  let m := ((k + 1) / 2)%nat in if (m <? cut)%nat then Sig (cut - m) (fun l => Sig (2 * bw) (fun j' => w j' * f j' * P m l j') * P m l j) else 0.
Lemma gk_ext bw cut w P f g k j : (forall j', (j' < 2 * bw)%nat -> f j' = g j') -> gk bw cut w P f k j = gk bw cut w P g k j.
Proof. intros H. unfold gk. cbv zeta. destruct (_ <? _)%nat; auto. apply Sig_ext. intros l _. f_equal. apply Sig_ext. intros j' Hj. now rewrite H. Qed.
Definition talloc (b : sbox) (bw : nat) (a : list R * list R * list R) : Prop := let '(x, y, z) := a in List.length x = nn b X2 /\ List.length y = bw /\ (2 * bw <= List.length z)%nat.
Definition tables (bw : nat) (P : nat -> nat -> nat -> R) (plm : nat -> list R) : Prop := forall m i j, (m < bw)%nat -> (m + i < bw)%nat -> (j < 2 * bw)%nat ->
  (i * (2 * bw) + j < List.length (plm m))%nat /\ (plm m).[i * (2 * bw) + j] = P m i j.
Lemma filter_k_ok b bw cut lmshift plm weights alloc k vc (w : nat -> R) P : nn b X2 = (4 * bw)%nat -> (lmshift <= 0)%Z -> cut = Z.to_nat (Z.of_nat bw + lmshift) -> tables bw P plm ->
  (2 * bw <= List.length weights)%nat -> (forall j, (j < 2 * bw)%nat -> weights.[j] = w j) -> talloc b bw alloc -> (k < nn b X3)%nat -> List.length vc = npoints b ->
  exists vc', filter_k b bw lmshift plm weights alloc k vc = Ok vc' /\ List.length vc' = npoints b /\ (forall i j k', inbox b (i, j, k') -> k' <> k -> val b vc' (i, j, k') = val b vc (i, j, k')) /\
    forall i j, inbox b (i, j, k) -> (j < 2 * bw)%nat -> val b vc' (i, j, k) = gk bw cut w P (fun j' => val b vc (i, j', k)) k j.
Proof.
  intros N2 Hl Hc HP Lw Hw Ha Hk Lv. unfold filter_k. cbv zeta. set (m := ((k + 1) / 2)%nat). unfold gk. fold m. cbv zeta.
  destruct (Z.ltb_spec (Z.of_nat m) (Z.of_nat bw + lmshift)) as [Lt|Ge].
  - assert (Hm : (m < cut)%nat) by lia. assert (Hcb : (cut <= bw)%nat) by lia. destruct (Nat.ltb_spec m cut); [|lia]. replace (Z.to_nat (Z.of_nat bw - Z.of_nat m + lmshift)) with (cut - m)%nat by lia.
    set (G := fun i j => Sig (cut - m) (fun l => Sig (2 * bw) (fun j' => w j' * val b vc (i, j', k) * P m l j') * P m l j)).
    match goal with |- context [for_nat 0 (nn b X1) ?B ?s] => destruct (for_nat_inv (fun i0 (r : list R * (list R * list R * list R)) => List.length (fst r) = npoints b /\ talloc b bw (snd r) /\
       (forall i j k', inbox b (i, j, k') -> (k' <> k \/ (i0 <= i)%nat) -> val b (fst r) (i, j, k') = val b vc (i, j, k')) /\
       forall i j, inbox b (i, j, k) -> (i < i0)%nat -> (j < 2 * bw)%nat -> val b (fst r) (i, j, k) = G i j) B 0 (nn b X1) s) as ([v' a'] & E & I1 & I2 & I3 & I4) end.
    + lia.
    + cbn [fst snd]. split; auto. split; auto. split; auto. intros; lia.
    + intros i [v [[sa co] ws]] Hi (I1 & (A1 & A2 & A3) & I3 & I4). cbn [fst snd] in I1, I3, I4. cbv beta iota.
      rewrite (get_memline_ok b v sa X2 i k) by (auto; cbn [n_inner n_outer]; lia). cbn [rbind]. set (l0 := ln b X2 v i k). assert (L0 : List.length l0 = nn b X2) by apply ln_length.
      assert (V0 : forall j, (j < nn b X2)%nat -> l0.[j] = val b vc (i, j, k)). { intros j Hj. unfold l0. rewrite ln_nth by auto. cbn [pt]. apply I3; [apply inbox3; lia|lia]. }
      destruct (analysis1_ok l0 bw m weights co (plm m) ws (P m) w) as (c1 & E1 & L1 & V1); auto; try lia. { intros l j Hl' Hj. apply HP; auto; lia. } rewrite E1. cbn [rbind].
      destruct (fill_loop (cut - m) (bw - m) (fun l c => wr c l 0) (fun _ => 0) c1 0) as (c2 & E2 & L2 & V2); [lia|reflexivity|]. rewrite E2. cbn [rbind].
      destruct (synth1_ok c2 bw m l0 (plm m) (P m)) as (l1 & E3 & L3 & V3 & _); try lia. { intros l j Hl' Hj. apply HP; auto; lia. } rewrite E3. cbn [rbind].
      destruct (put_memline_ok b v l1 X2 i k) as (v' & E4 & L4 & V4); cbn [n_inner n_outer]; auto; try lia. rewrite E4. cbn [rbind]. eexists. split; [reflexivity|]. cbn [fst snd]. split; auto. split. { unfold talloc. repeat split; lia. }
      assert (V5 : forall i' j k', inbox b (i', j, k') -> val b v' (i', j, k') = if same i k i' k' then l1.[j] else val b v (i', j, k')).
      { intros i' j k' I. assert (I' := I). apply inbox3 in I'. assert (Q := V4 i' k' ltac:(cbn [n_inner]; lia) ltac:(cbn [n_outer]; lia)). assert (Q1 := ln_nth b X2 v' i' k' j ltac:(lia)). cbn [pt] in Q1. rewrite <- Q1, Q. destruct (same i k i' k'); auto. rewrite ln_nth by lia. reflexivity. }
      split.
      * intros i' j k' I Or. rewrite V5 by auto. destruct (same i k i' k') eqn:Es. { apply same_eq in Es. lia. } apply I3; auto. destruct Or; [auto|right; lia].
      * intros i' j I Hi' Hj. rewrite V5 by auto. destruct (same i k i' k) eqn:Es.
        -- apply same_eq in Es as [-> _]. rewrite V3 by auto. unfold G. replace (bw - m)%nat with ((cut - m) + (bw - cut))%nat by lia. rewrite Sig_add. rewrite (Sig_zero (bw - cut)), Rplus_0_r.
           ++ apply Sig_ext. intros l Hl'. rewrite V2. destruct (Nat.leb_spec (cut - m) l); [lia|]. cbn [andb]. rewrite V1 by lia. f_equal. apply Sig_ext. intros j' Hj'. now rewrite V0 by lia.
           ++ intros l Hl'. rewrite V2. destruct (Nat.leb_spec (cut - m) (cut - m + l)); [|lia]. destruct (Nat.ltb_spec (cut - m + l) (bw - m)); [|lia]. cbn [andb]. ring.
        -- apply I4; auto. destruct (Nat.eq_dec i' i) as [->|]; [|lia]. rewrite same_refl in Es. discriminate.
    + rewrite E. cbn [rbind fst snd] in *. exists v'. split; auto. split; auto. split. { intros i j k' I Nk. apply I3; auto. } intros i j I Hj. apply I4; auto. apply inbox3 in I. lia.
  - assert (Hm : (cut <= m)%nat) by lia. destruct (Nat.ltb_spec m cut); [lia|].
    set (F := fun p : point => let '(i, j, k') := p in if (k' =? k)%nat then 0 else val b vc p). set (tasks := flat_map (fun j => map (fun i => (i, j, k)) (seq 0 (nn b X1 - 0))) (seq 0 (nn b X2 - 0))).
    assert (Tin : forall i j k', In (i, j, k') tasks <-> (k' = k /\ inbox b (i, j, k))).
    { intros i j k'. unfold tasks. rewrite in_flat_map. split. { intros (j' & Hj & Hx). apply in_map_iff in Hx as (i' & Q & Hi). injection Q as -> -> ->. apply in_seq in Hj, Hi. split; auto. apply inbox3. lia. }
      intros [-> I]. apply inbox3 in I. exists j. split; [apply in_seq; lia|]. apply in_map_iff. exists i. split; auto. apply in_seq. lia. }
    destruct (forl_fill b F (fun _ => True) (fun _ _ => Ok 0) tasks) with (u := vc) as (u' & E & Lu' & _ & Ht & Hp); auto.
    { intros [[i j] k'] T. apply Tin in T as [-> I]. auto. } { intros [[i j] k'] u T _ _. apply Tin in T as [-> I]. unfold F. now rewrite Nat.eqb_refl. }
    exists u'. split. { rewrite <- E. unfold tasks, for_nat. rewrite forl_flat. apply forl_ext. intros j v _. rewrite forl_map. apply forl_ext. intros i v1 _. reflexivity. } split; auto. split.
    + intros i j k' I Nk. rewrite (Hp (i, j, k') I); unfold F; destruct (Nat.eqb_spec k' k); auto; contradiction.
    + intros i j I Hj. rewrite (Ht (i, j, k)) by (apply Tin; auto). unfold F. now rewrite Nat.eqb_refl.
Qed.
Lemma all_k_ok b bw cut lmshift plm weights (alloc : nat -> list R * list R * list R) vc (w : nat -> R) P : nn b X2 = (4 * bw)%nat -> (lmshift <= 0)%Z -> cut = Z.to_nat (Z.of_nat bw + lmshift) -> tables bw P plm ->
  (2 * bw <= List.length weights)%nat -> (forall j, (j < 2 * bw)%nat -> weights.[j] = w j) -> (forall k, talloc b bw (alloc k)) -> forall order, NoDup order -> (forall k, In k order -> (k < nn b X3)%nat) -> List.length vc = npoints b ->
  exists vc', forl order (fun k vc => filter_k b bw lmshift plm weights (alloc k) k vc) vc = Ok vc' /\ List.length vc' = npoints b /\ (forall i j k, inbox b (i, j, k) -> ~ In k order -> val b vc' (i, j, k) = val b vc (i, j, k)) /\
    forall i j k, inbox b (i, j, k) -> In k order -> (j < 2 * bw)%nat -> val b vc' (i, j, k) = gk bw cut w P (fun j' => val b vc (i, j', k)) k j.
Proof.
  intros N2 Hl Hc HP Lw Hw Ha order. revert vc. induction order as [|q order IH]; intros vc Nd Hin Lv; cbn [forl]. { exists vc. split; auto. split; auto. split; auto. intros i j k _ []. }
  inversion Nd as [|? ? Nq Nd']. subst. destruct (filter_k_ok b bw (Z.to_nat (Z.of_nat bw + lmshift)) lmshift plm weights (alloc q) q vc w P) as (v1 & E1 & L1 & K1 & V1); auto. { apply Hin. now left. } rewrite E1. cbn [rbind].
  destruct (IH v1) as (v2 & E2 & L2 & K2 & V2); auto. { intros k Ik. apply Hin. now right. } exists v2. split; auto. split; auto. split.
  - intros i j k I Nk. rewrite K2 by (auto; intros Q; apply Nk; now right). apply K1; auto. intros ->. apply Nk. now left.
  - intros i j k I Ik Hj. destruct (Nat.eq_dec k q) as [->|Ne].
    + rewrite K2 by auto. now apply V1.
    + destruct Ik as [Q|Ik]; [congruence|]. rewrite V2 by auto. apply gk_ext. intros j' Hj'. apply K1; auto. apply inbox3 in I. apply inbox3. lia.
Qed.

(** ** the copies *)
Definition opp3 (n3 k : nat) : nat := if (k <? n3 / 2)%nat then (k + n3 / 2)%nat else (k - n3 / 2)%nat.
Lemma cover_ok b u0 order opp u : Nat.Even (nn b X2) -> Nat.Even (nn b X3) -> (forall k, In k order -> (k < nn b X3)%nat /\ opp k = opp3 (nn b X3) k) ->
  let F := fun p : point => let '(i, j, k) := p in if (j <? nn b X2 / 2)%nat then val b u0 p else val b u0 (i, nn b X2 - 1 - j, opp3 (nn b X3) k)%nat in
  List.length u = npoints b -> (forall i j k, inbox b (i, j, k) -> (j < nn b X2 / 2)%nat -> val b u (i, j, k) = val b u0 (i, j, k)) ->
  exists u', copy_cover b order opp u = Ok u' /\ List.length u' = npoints b /\ (forall i j k, inbox b (i, j, k) -> (j < nn b X2 / 2)%nat -> val b u' (i, j, k) = val b u0 (i, j, k)) /\
    (forall i j k, inbox b (i, j, k) -> (nn b X2 / 2 <= j)%nat -> In k order -> val b u' (i, j, k) = F (i, j, k)) /\ forall p, inbox b p -> val b u p = F p -> val b u' p = F p.
Proof.
  intros [h2 E2] [h3 E3] Hin F Lu Hu. assert (H2 : (nn b X2 / 2 = h2)%nat) by (rewrite E2, Nat.mul_comm; now apply Nat.div_mul). assert (H3 : (nn b X3 / 2 = h3)%nat) by (rewrite E3, Nat.mul_comm; now apply Nat.div_mul).
  set (tasks := flat_map (fun k => flat_map (fun j => map (fun i => (i, j, k)) (seq 0 (nn b X1 - 0))) (seq (nn b X2 / 2) (nn b X2 - nn b X2 / 2))) order).
  assert (Tin : forall i j k, In (i, j, k) tasks <-> In k order /\ (nn b X2 / 2 <= j)%nat /\ inbox b (i, j, k)).
  { intros i j k. unfold tasks. rewrite in_flat_map. split.
    - intros (k' & Hk & H). apply in_flat_map in H as (j' & Hj & H). apply in_map_iff in H as (i' & Q & Hi). injection Q as -> -> ->. apply in_seq in Hj, Hi. split; auto. split; [lia|]. apply inbox3. destruct (Hin k Hk). lia.
    - intros (Hk & Hj & I). apply inbox3 in I. exists k. split; auto. apply in_flat_map. exists j. split; [apply in_seq; lia|]. apply in_map_iff. exists i. split; auto. apply in_seq. lia. }
  destruct (forl_fill b F (fun v => forall i j k, inbox b (i, j, k) -> (j < nn b X2 / 2)%nat -> val b v (i, j, k) = val b u0 (i, j, k))
     (fun p v => let '(i, j, k) := p in rd v (Ix b i (nn b X2 - j - 1) (opp k))) tasks) with (u := u) as (u' & E & Lu' & Ku' & Ht & Hp); auto.
  - intros [[i j] k] T. now apply Tin in T.
  - intros v v' _ _ Kv Pv i j k I Hj. assert (Q := Pv (i, j, k) I). unfold F in Q. destruct (Nat.ltb_spec j (nn b X2 / 2)); [|lia]. apply Q. now apply Kv.
  - intros [[i j] k] v T Lv Kv. apply Tin in T as (Hk & Hj & I). destruct (Hin k Hk) as [Lk Ok']. unfold F. destruct (Nat.ltb_spec j (nn b X2 / 2)); [lia|]. rewrite Ok'. replace (nn b X2 - 1 - j)%nat with (nn b X2 - j - 1)%nat by lia.
    assert (I2 : inbox b (i, nn b X2 - j - 1, opp3 (nn b X3) k)%nat). { apply inbox3 in I. apply inbox3. unfold opp3. destruct (Nat.ltb_spec k (nn b X3 / 2)); lia. }
    rewrite val_rd by auto. f_equal. apply Kv; auto. apply inbox3 in I. lia.
  - exists u'. split. { rewrite <- E. unfold tasks, copy_cover, for_nat. rewrite forl_flat. apply forl_ext. intros k v _. rewrite forl_flat. apply forl_ext. intros j v1 _. rewrite forl_map. apply forl_ext. intros i v2 _. reflexivity. }
    split; auto. split; auto. split; auto. intros i j k I Hj Hk. apply Ht. apply Tin. auto.
Qed.

(** ** the whole box, for any literals *)
Definition Pc (c : literals) (bw m l j : nat) : R := leg m (firstC c m) l (pnode c bw j).
Definition Tc (c : literals) (bw n3 cut : nat) (u : nat -> nat -> R) (j k : nat) : R :=
  Sig n3 (fun q => weight n3 q * gk bw cut (wq bw) (Pc c bw) (fun j' => Sig n3 (fun r => mode q (phase n3 r) * u j' r)) q j * mode q (phase n3 k)).
Definition result (c : literals) (b : sbox) (bw cut : nat) (u u' : list R) : Prop := List.length u' = npoints b /\ forall i j k, inbox b (i, j, k) ->
  val b u' (i, j, k) = if (j <? 2 * bw)%nat then Tc c bw (nn b X3) cut (fun j' r => val b u (i, j', r)) j k else Tc c bw (nn b X3) cut (fun j' r => val b u (i, j', r)) (4 * bw - 1 - j) (opp3 (nn b X3) k).
Lemma along_line_nth b d F u u' i j k m : along b d F u u' -> (forall l, List.length l = nn b d -> List.length (F l) = nn b d) -> inbox b (i, j, k) -> (m < nn b d)%nat -> val b u' (setc d (i, j, k) m) = (F (line b d u (i, j, k))).[m].
Proof. intros A HF I Hm. rewrite <- (line_nth b d u' (i, j, k) m Hm). f_equal. apply along_line; auto. apply HF. apply line_length. Qed.
Lemma ylm_box_ok c b bw lmshift en t idx v : env_ok b bw en -> ylm_ready b bw t idx v -> (lmshift <= 0)%Z ->
  exists v', ylm_box c b lmshift en t idx v = Ok v' /\ (forall w, ~ In w (t :: idx) -> v' w = v w) /\ List.length (v' t) = npoints b /\ forall iu, In iu idx -> result c b bw (Z.to_nat (Z.of_nat bw + lmshift)) (v iu) (v' iu).
Proof.
  intros (Ep & Ew & Ews & Ev) (N2 & Hbw & Ev3 & HB & Nd & Nt & Lv) Hl. set (cut := Z.to_nat (Z.of_nat bw + lmshift)). unfold ylm_box. assert (Db : (nn b X2 / 4 = bw)%nat) by (rewrite N2, Nat.mul_comm; now apply Nat.div_mul).
  assert (M4 : (nn b X2 mod 4 = 0)%nat) by (rewrite N2, Nat.mul_comm; now apply Nat.mod_mul). rewrite M4. cbn [Nat.eqb negb]. assert (M2 : (nn b X3 mod 2 = 0)%nat) by (destruct Ev3 as [h ->]; rewrite Nat.mul_comm; now apply Nat.mod_mul). rewrite M2. cbn [Nat.eqb negb]. cbv zeta. rewrite Db.
  destruct (all_tables_ok c bw (y_plm en) (y_ws en)) as (plm & E1 & HP); auto. rewrite E1. cbn [rbind]. destruct (makeweights_ok bw (y_weights en) Ew) as (ws & E2 & Lw & Vw). rewrite E2. cbn [rbind].
  assert (N3 : (2 <= nn b X3)%nat) by (destruct HB as (_ & _ & H & _); exact H). set (n3 := nn b X3) in *.
  destruct (fourier_ops (bd b X3) HB) as (FA & FE & SA & SE & VA & VE). change (b_n (bd b X3)) with n3 in *.
  unfold for_vars.
  match goal with |- context [for_nat 0 (List.length idx) ?B v] => destruct (for_nat_inv (fun m v' => (forall w, ~ In w (t :: idx) -> v' w = v w) /\ List.length (v' t) = npoints b /\
       (forall i, (m <= i < List.length idx)%nat -> v' (nth i idx 0%nat) = v (nth i idx 0%nat)) /\
       forall i, (i < m)%nat -> (i < List.length idx)%nat -> result c b bw cut (v (nth i idx 0%nat)) (v' (nth i idx 0%nat))) B 0 (List.length idx) v) as (v' & Er & P1 & P2 & _ & P4) end.
  - lia.
  - split; auto. split; [apply Lv; now left|]. split; auto. intros; lia.
  - intros m w Hm (Q1 & Q2 & Q3 & Q4). cbv beta. set (iu := nth m idx 0%nat) in *. assert (Im : In iu idx) by (apply nth_In; lia).
    assert (Nm : iu <> t) by (intros Q; rewrite Q in Im; contradiction). assert (Eb : (iu =? t)%nat = false) by now apply Nat.eqb_neq. rewrite Eb. destruct (Ev m) as (S1 & S2 & O1 & O2 & O3 & Al).
    assert (Lu : List.length (v iu) = npoints b) by (apply Lv; now right). assert (Wu : w iu = v iu) by (apply Q3; lia).
    destruct (analysis_ok b (y_an en m) X3 false (w iu) (w t) FA) as (vc & F1 & A1); auto; [congruence|discriminate|]. rewrite F1. cbn [rbind].
    assert (G1 : setv w t vc t = vc) by (unfold setv; now rewrite Nat.eqb_refl). rewrite G1.
    assert (Lvc : List.length vc = npoints b) by (destruct A1; auto).
    destruct (all_k_ok b bw cut lmshift plm ws (y_alloc en m) vc (wq bw) (Pc c bw)) with (order := y_order en m) as (vc2 & F2 & L2 & _ & V2); auto; try lia.
    { intros j Hj. now apply Vw. } { apply (Permutation_NoDup (Permutation_sym O1)), seq_NoDup. } { intros k Hk. apply (Permutation_in _ O1), in_seq in Hk. unfold n3 in Hk. lia. }
    rewrite F2. cbn [rbind].
    assert (G2 : setv (setv w t vc) t vc2 t = vc2) by (unfold setv; now rewrite Nat.eqb_refl). assert (G3 : setv (setv w t vc) t vc2 iu = v iu) by (unfold setv; rewrite Eb; auto). rewrite G2, G3.
    destruct (synthesis_ok b (y_sy en m) X3 false (v iu) vc2 FE) as (u1 & F3 & A3); auto; [discriminate|]. rewrite F3. cbn [rbind].
    assert (L1 : List.length u1 = npoints b) by (destruct A3; auto).
    assert (G4 : setv (setv (setv w t vc) t vc2) iu u1 iu = u1) by (unfold setv; now rewrite Nat.eqb_refl). rewrite G4.
    assert (Ev2 : Nat.Even (nn b X2)) by (exists (2 * bw)%nat; lia). assert (D2 : (nn b X2 / 2 = 2 * bw)%nat) by (rewrite N2; replace (4 * bw)%nat with (2 * bw * 2)%nat by lia; now apply Nat.div_mul).
    assert (E3 : (n3 = 2 * (n3 / 2))%nat) by (destruct Ev3 as [h ->]; rewrite (Nat.mul_comm 2 h), Nat.div_mul by lia; lia).
    destruct (cover_ok b u1 (y_copy1 en m) (fun k => k + n3 / 2)%nat u1) as (u2 & F4 & L4 & K4 & V4 & P4); auto.
    { intros k Hk. apply (Permutation_in _ O2), in_seq in Hk. fold n3. split; [lia|]. unfold opp3. destruct (Nat.ltb_spec k (n3 / 2)); auto; lia. }
    fold n3 in F4. rewrite F4. cbn [rbind].
    match goal with |- context [copy_cover b (y_copy2 en m) _ (?s iu)] => assert (G5 : s iu = u2) by (unfold setv; now rewrite Nat.eqb_refl) end. rewrite G5.
    destruct (cover_ok b u1 (y_copy2 en m) (fun k => k - n3 / 2)%nat u2) as (u3 & F5 & L5 & K5 & V5 & P5); auto.
    { intros k Hk. apply (Permutation_in _ O3), in_seq in Hk. fold n3. split; [lia|]. unfold opp3. destruct (Nat.ltb_spec k (n3 / 2)); auto; lia. }
    fold n3 in F5. rewrite F5. cbn [rbind]. eexists. split; [reflexivity|].
    assert (Vout : forall j', (nth j' idx 0%nat = iu -> (j' < List.length idx)%nat -> j' = m)). { intros j' Hj' Lj. apply (NoDup_nth idx 0%nat); auto; lia. }
    split. { intros x Hx. unfold setv. destruct (Nat.eqb_spec x iu) as [->|]. { exfalso. apply Hx. now right. } destruct (Nat.eqb_spec x t) as [->|]. { exfalso. apply Hx. now left. } auto. }
    split. { unfold setv. rewrite Nat.eqb_sym, Eb. now rewrite Nat.eqb_refl. }
    split. { intros i Hi. assert (X1' : (nth i idx 0%nat =? iu)%nat = false) by (apply Nat.eqb_neq; intros Q; apply Vout in Q; lia). assert (X2' : (nth i idx 0%nat =? t)%nat = false) by (apply Nat.eqb_neq; intros Q; apply Nt; rewrite <- Q; apply nth_In; lia). unfold setv. rewrite ?X1', ?X2'. apply Q3. lia. }
    intros i Hi Hli. destruct (Nat.eq_dec i m) as [->|Ni].
    2:{ assert (X1' : (nth i idx 0%nat =? iu)%nat = false) by (apply Nat.eqb_neq; intros Q; apply Vout in Q; lia). assert (X2' : (nth i idx 0%nat =? t)%nat = false) by (apply Nat.eqb_neq; intros Q; apply Nt; rewrite <- Q; apply nth_In; lia). unfold setv. rewrite ?X1', ?X2'. apply Q4; lia. }
    fold iu. assert (G6 : forall s : arrays, setv s iu u3 iu = u3) by (intros s; unfold setv; now rewrite Nat.eqb_refl). rewrite G6. clear G6.
    assert (U1 : forall i j k, inbox b (i, j, k) -> (j < 2 * bw)%nat -> val b u1 (i, j, k) = Tc c bw n3 cut (fun j' r => val b (v iu) (i, j', r)) j k).
    { intros i' j k I Hj. assert (I' := I). apply inbox3 in I'. fold n3 in I'. assert (Q := along_line_nth b X3 FE vc2 u1 i' j k k A3 (fun l Hl => proj1 (VE l Hl)) I ltac:(fold n3; lia)). cbn [setc] in Q. rewrite Q. rewrite (proj2 (VE _ (line_length b X3 vc2 (i', j, k)))) by lia. unfold Tc. apply Sig_ext. intros q Hq. f_equal. f_equal.
      rewrite line_nth by auto. cbn [setc]. rewrite V2; auto. 2:{ apply inbox3. fold n3. lia. } 2:{ apply (Permutation_in _ (Permutation_sym O1)), in_seq. lia. }
      apply gk_ext. intros j' Hj'. assert (I2 : inbox b (i', j', q)) by (apply inbox3; fold n3; lia). assert (Q9 := along_line_nth b X3 FA (w iu) vc i' j' q q A1 (fun l Hl => proj1 (VA l Hl)) I2 ltac:(fold n3; lia)). cbn [setc] in Q9. rewrite Q9. rewrite (proj2 (VA _ (line_length b X3 (w iu) (i', j', q)))) by lia.
      apply Sig_ext. intros r Hr. f_equal. rewrite line_nth by auto. cbn [setc]. now rewrite Wu. }
    split; auto. intros i' j k I. assert (I' := I). apply inbox3 in I'. fold n3 in I' |- *. destruct (Nat.ltb_spec j (2 * bw)) as [Lt|Ge].
    + rewrite K5 by (auto; lia). now apply U1.
    + assert (FF : val b u3 (i', j, k) = val b u1 (i', nn b X2 - 1 - j, opp3 n3 k)%nat).
      { assert (Fv : (if (j <? nn b X2 / 2)%nat then val b u1 (i', j, k) else val b u1 (i', nn b X2 - 1 - j, opp3 n3 k)%nat) = val b u1 (i', nn b X2 - 1 - j, opp3 n3 k)%nat) by (destruct (Nat.ltb_spec j (nn b X2 / 2)); [lia|auto]).
        destruct (Nat.lt_ge_cases k (n3 / 2)) as [Lk|Gk].
        - assert (X := P5 (i', j, k) I). cbv beta iota zeta in X. fold n3 in X. rewrite Fv in X. apply X. assert (Y := V4 i' j k I ltac:(lia)). cbv beta iota zeta in Y. fold n3 in Y. rewrite Fv in Y. apply Y. apply (Permutation_in _ (Permutation_sym O2)), in_seq. lia.
        - assert (Y := V5 i' j k I ltac:(lia)). cbv beta iota zeta in Y. fold n3 in Y. rewrite Fv in Y. apply Y. apply (Permutation_in _ (Permutation_sym O3)), in_seq. lia. }
      rewrite FF, U1; [|apply inbox3; fold n3; unfold opp3; destruct (Nat.ltb_spec k (n3 / 2)); lia|lia]. now replace (nn b X2 - 1 - j)%nat with (4 * bw - 1 - j)%nat by lia.
  - exists v'. split; auto. split; auto. split; auto. intros iu Hi. apply (In_nth _ _ 0%nat) in Hi as (i & Hi & <-). now apply P4.
Qed.

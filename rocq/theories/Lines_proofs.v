(** Proof library for the line-wise operations; no code is modelled here. *)
From Verif Require Import Arrays Mat_model Mat_spec Mat_proofs Dir_model Lines_model Lines_spec.
Local Open Scope R_scope.

(** ** points and cells *)
Definition pt (d : dir) (i j k : nat) : point := match d with X1 => (i, j, k) | X2 => (j, i, k) | X3 => (j, k, i) end.
Definition inner (d : dir) (p : point) : nat := let '(i, j, k) := p in match d with X1 => j | X2 => i | X3 => i end.
Definition outer (d : dir) (p : point) : nat := let '(i, j, k) := p in match d with X1 => k | X2 => k | X3 => j end.
Definition Ixp (b : sbox) (p : point) : nat := let '(i, j, k) := p in Ix b i j k.
Lemma pt_comps d i j k : comp d (pt d i j k) = i /\ inner d (pt d i j k) = j /\ outer d (pt d i j k) = k. Proof. destruct d; auto. Qed.
Lemma pt_eta d p : pt d (comp d p) (inner d p) (outer d p) = p. Proof. destruct p as [[i j] k], d; auto. Qed.
Lemma setc_pt d i j k m : setc d (pt d i j k) m = pt d m j k. Proof. destruct d; auto. Qed.
Lemma inbox_pt b d i j k : inbox b (pt d i j k) <-> (i < nn b d /\ j < n_inner b d /\ k < n_outer b d)%nat.
Proof.
  split. - intros H. pose proof (H X1) as H1. pose proof (H X2) as H2. pose proof (H X3) as H3. destruct d; cbn in *; lia.
  - intros H e. destruct d, e; cbn in *; lia.
Qed.
Lemma inbox_setc b d p m : inbox b p -> (m < nn b d)%nat -> inbox b (setc d p m).
Proof. intros H Hm. rewrite <- (pt_eta d p), setc_pt. rewrite <- (pt_eta d p) in H. rewrite inbox_pt in *. lia. Qed.
Lemma cell_Ix b d i j k : (base b d j k + i * stride b d)%nat = Ixp b (pt d i j k).
Proof. destruct d; cbn; unfold Ix; ring. Qed.
Lemma inbox_inv b i j k : inbox b (i, j, k) -> (i < nn b X1 /\ j < nn b X2 /\ k < nn b X3)%nat.
Proof. intros H. pose proof (H X1). pose proof (H X2). pose proof (H X3). cbn in *. lia. Qed.
Lemma Ixp_lt b p : inbox b p -> (Ixp b p < npoints b)%nat.
Proof. destruct p as [[i j] k]. intros H. apply inbox_inv in H. unfold Ixp, Ix, npoints. assert (Y : (j + nn b X2 * k < nn b X2 * nn b X3)%nat) by nia. rewrite <- Nat.mul_assoc. set (y := (j + nn b X2 * k)%nat) in *. set (z := (nn b X2 * nn b X3)%nat) in *. nia. Qed.
Lemma Ixp_inj b p q : inbox b p -> inbox b q -> Ixp b p = Ixp b q -> p = q.
Proof.
  destruct p as [[i j] k], q as [[i' j'] k']. intros H H'. apply inbox_inv in H, H'. unfold Ixp, Ix. intros E.
  assert (i = i' /\ (j + nn b X2 * k = j' + nn b X2 * k')%nat) as [-> E2]. { set (x := (j + nn b X2 * k)%nat) in *. set (y := (j' + nn b X2 * k')%nat) in *. assert (x = y) by (clearbody x y; nia). lia. }
  clear E. assert (k = k') by nia. subst. f_equal. f_equal. lia.
Qed.
Definition unIx (b : sbox) (x : nat) : point := (x mod nn b X1, (x / nn b X1) mod nn b X2, x / nn b X1 / nn b X2)%nat.
Lemma unIx_ok b x : (x < npoints b)%nat -> inbox b (unIx b x) /\ Ixp b (unIx b x) = x.
Proof.
  intros H. unfold npoints in H. assert (N1 : nn b X1 <> 0%nat) by nia. assert (N2 : nn b X2 <> 0%nat) by nia.
  assert (D1 := Nat.div_mod x _ N1). assert (M1 := Nat.mod_upper_bound x _ N1).
  assert (D2 := Nat.div_mod (x / nn b X1) _ N2). assert (M2 := Nat.mod_upper_bound (x / nn b X1) _ N2). split.
  - intros []; cbn [comp unIx]; auto. apply Nat.div_lt_upper_bound; auto. apply Nat.div_lt_upper_bound; auto. now rewrite Nat.mul_assoc.
  - unfold unIx, Ixp, Ix. rewrite (Nat.add_comm (_ mod nn b X2)), <- D2. lia.
Qed.
Lemma val_Ix b u p : val b u p = u.[Ixp b p]. Proof. destruct p as [[i j] k]. reflexivity. Qed.
Lemma arr_ext b u v : List.length u = npoints b -> List.length v = npoints b -> (forall p, inbox b p -> val b u p = val b v p) -> u = v.
Proof. intros Lu Lv H. apply list_eq_R; [congruence|]. intros x Hx. destruct (unIx_ok b x) as [I E]; [lia|]. specialize (H _ I). now rewrite !val_Ix, E in H. Qed.
Definition table (b : sbox) (g : point -> R) : list R := map (fun x => g (unIx b x)) (seq 0 (npoints b)).
Lemma table_length b g : List.length (table b g) = npoints b. Proof. unfold table. now rewrite map_length, seq_length. Qed.
Lemma map_seq_nth {A} (f : nat -> A) n i d : (i < n)%nat -> nth i (map f (seq 0 n)) d = f i.
Proof. intros H. rewrite (nth_indep _ d (f 0%nat)) by now rewrite map_length, seq_length. now rewrite map_nth, seq_nth. Qed.
Lemma table_val b g p : inbox b p -> val b (table b g) p = g p.
Proof. intros H. rewrite val_Ix. unfold table. assert (L := Ixp_lt b p H). rewrite map_seq_nth by auto. f_equal. destruct (unIx_ok b _ L) as [I E]. now apply (Ixp_inj b). Qed.

(** ** lines *)
Definition ln (b : sbox) (d : dir) (u : list R) (j k : nat) : list R := line b d u (pt d 0 j k).
Lemma line_ln b d u p : line b d u p = ln b d u (inner d p) (outer d p).
Proof. unfold ln, line. apply map_ext. intros m. rewrite setc_pt. rewrite <- (pt_eta d p) at 1. now rewrite setc_pt. Qed.
Lemma ln_length b d u j k : List.length (ln b d u j k) = nn b d. Proof. unfold ln, line. now rewrite map_length, seq_length. Qed.
Lemma line_length b d u p : List.length (line b d u p) = nn b d. Proof. unfold line. now rewrite map_length, seq_length. Qed.
Lemma line_nth b d u p m : (m < nn b d)%nat -> (line b d u p).[m] = val b u (setc d p m). Proof. intros H. unfold line. now rewrite map_seq_nth. Qed.
Lemma ln_nth b d u j k i : (i < nn b d)%nat -> (ln b d u j k).[i] = val b u (pt d i j k). Proof. intros H. unfold ln. now rewrite line_nth, setc_pt. Qed.
Lemma line_self b d u p : inbox b p -> (line b d u p).[comp d p] = val b u p.
Proof. intros H. rewrite line_nth by apply H. f_equal. rewrite <- (pt_eta d p) at 1. now rewrite setc_pt, pt_eta. Qed.
Lemma inbox_ranges b d p : inbox b p -> (inner d p < n_inner b d /\ outer d p < n_outer b d)%nat.
Proof. intros H. rewrite <- (pt_eta d p) in H. rewrite inbox_pt in H. tauto. Qed.
Definition same (j k j' k' : nat) : bool := ((j =? j') && (k =? k'))%nat.

Lemma get_memline_ok b u l d j k : List.length u = npoints b -> List.length l = nn b d -> (j < n_inner b d)%nat -> (k < n_outer b d)%nat ->
  get_memline b u l d j k = Ok (ln b d u j k).
Proof.
  intros Lu Ll Hj Hk. unfold get_memline.
  destruct (fill_loop 0 (nn b d) (fun i l => do x <- rd u (base b d j k + i * stride b d); wr l i x) (fun i => val b u (pt d i j k)) l 0) as (l' & E & L & V).
  - lia. - intros i s Hi _. rewrite cell_Ix, (rd_ok _ _ 0). { cbn [rbind]. now rewrite val_Ix. } rewrite Lu. apply Ixp_lt, inbox_pt. lia.
  - rewrite E. f_equal. apply list_eq_R. { rewrite ln_length. lia. } intros i Hi. rewrite V. rewrite ln_nth by lia. destruct (Nat.leb_spec 0 i), (Nat.ltb_spec i (nn b d)); try lia. reflexivity.
Qed.
Lemma put_memline_ok b u l d j k : List.length u = npoints b -> List.length l = nn b d -> (j < n_inner b d)%nat -> (k < n_outer b d)%nat ->
  exists u', put_memline b u l d j k = Ok u' /\ List.length u' = npoints b /\
    forall j' k', (j' < n_inner b d)%nat -> (k' < n_outer b d)%nat -> ln b d u' j' k' = if same j k j' k' then l else ln b d u j' k'.
Proof.
  intros Lu Ll Hj Hk. unfold put_memline.
  destruct (for_nat_inv (fun m u' => List.length u' = npoints b /\ forall i j' k', (i < nn b d)%nat -> (j' < n_inner b d)%nat -> (k' < n_outer b d)%nat ->
      val b u' (pt d i j' k') = if (same j k j' k' && (i <? m))%nat then l.[i] else val b u (pt d i j' k'))
    (fun i u => do x <- rd l i; wr u (base b d j k + i * stride b d) x) 0 (nn b d) u) as (u' & E & L & V).
  - lia.
  - split; auto. intros. rewrite andb_false_r. reflexivity.
  - intros m u1 Hm [L1 V1]. rewrite (rd_ok _ _ 0) by lia. cbn [rbind]. rewrite cell_Ix.
    assert (I0 : inbox b (pt d m j k)) by (apply inbox_pt; lia). assert (C := Ixp_lt _ _ I0). rewrite wr_ok by lia. eexists. split; [reflexivity|]. rewrite upd_length. split; auto.
    intros i j' k' Hi Hj' Hk'. rewrite val_Ix. assert (I1 : inbox b (pt d i j' k')) by (apply inbox_pt; lia). unfold same in *.
    destruct (Nat.eq_dec (Ixp b (pt d i j' k')) (Ixp b (pt d m j k))) as [Q|NQ].
    + rewrite Q, nth_upd_eq by lia. apply Ixp_inj in Q; auto.
      destruct (pt_comps d i j' k') as (P1 & P2 & P3). destruct (pt_comps d m j k) as (P4 & P5 & P6). rewrite Q in P1, P2, P3. assert (i = m) by congruence. assert (j' = j) by congruence. assert (k' = k) by congruence. subst i j' k'.
      rewrite P4, P5, P6, !Nat.eqb_refl. destruct (Nat.ltb_spec m (m + 1)); [|lia]. reflexivity.
    + rewrite nth_upd_ne by auto. rewrite <- val_Ix, V1 by auto. destruct (Nat.eqb_spec j j') as [->|]; auto. destruct (Nat.eqb_spec k k') as [->|]; auto. cbn [andb].
      destruct (Nat.ltb_spec i m), (Nat.ltb_spec i (m + 1)); auto; try lia. exfalso. apply NQ. now replace i with m by lia.
  - exists u'. split; auto. split; auto. intros j' k' Hj' Hk'. apply list_eq_R. { destruct (same j k j' k'); rewrite !ln_length; auto. } rewrite ln_length. intros i Hi. rewrite ln_nth, V by auto.
    destruct (Nat.ltb_spec i (nn b d)); [|lia]. rewrite andb_true_r. destruct (same j k j' k'); auto. now rewrite ln_nth.
Qed.
(** direct product on a line in direction 1 *)
Lemma base_X1 b j k : base b X1 j k = Ix b 0 j k. Proof. reflexivity. Qed.
Lemma mtv_line_ok b M u du j k : List.length M = (nn b X1 * nn b X1)%nat -> List.length u = npoints b -> List.length du = npoints b -> (j < nn b X2)%nat -> (k < nn b X3)%nat ->
  exists u', mtv_at false M u (Ix b 0 j k) du (Ix b 0 j k) (nn b X1) = Ok u' /\ List.length u' = npoints b /\
    forall j' k', (j' < nn b X2)%nat -> (k' < nn b X3)%nat -> ln b X1 u' j' k' = if same j k j' k' then apply (nn b X1) (mat (nn b X1) M) (ln b X1 u j k) else ln b X1 du j' k'.
Proof.
  intros LM Lu Ld Hj Hk. set (n := nn b X1) in *. assert (B0 : (Ix b 0 j k + n <= npoints b)%nat). { unfold Ix, npoints. fold n. assert (Y : (j + nn b X2 * k < nn b X2 * nn b X3)%nat) by nia. rewrite <- Nat.mul_assoc. set (y := (j + nn b X2 * k)%nat) in *. set (z := (nn b X2 * nn b X3)%nat) in *. clearbody y z. nia. }
  destruct (mtv_at_ok M u (Ix b 0 j k) du (Ix b 0 j k) n (mat n M)) as (u' & E & L & V); try lia. { split; auto. }
  exists u'. split; auto. split; [lia|]. intros j' k' Hj' Hk'. apply list_eq_R. { destruct (same j k j' k'); rewrite ?ln_length, ?apply_length; auto. }
  rewrite ln_length. intros i Hi. fold n in Hi. rewrite ln_nth, val_Ix, V by auto. change (Ixp b (pt X1 i j' k')) with (Ix b i j' k').
  destruct ((Ix b 0 j k <=? Ix b i j' k') && (Ix b i j' k' <? Ix b 0 j k + n))%nat eqn:C.
  - apply andb_prop in C. destruct C as [C1 C2]. apply Nat.leb_le in C1. apply Nat.ltb_lt in C2.
    assert (Q : Ixp b (i, j', k') = Ixp b (Ix b i j' k' - Ix b 0 j k, j, k)%nat). { unfold Ixp, Ix in C1, C2 |- *. fold n in C1, C2 |- *. lia. }
    apply Ixp_inj in Q. 2:{ apply (inbox_pt b X1); cbn; fold n; lia. } 2:{ apply (inbox_pt b X1 (Ix b i j' k' - Ix b 0 j k) j k). fold n. cbn [n_inner n_outer]. lia. }
    injection Q as Q1 -> ->. unfold same. rewrite !Nat.eqb_refl. cbn [andb]. rewrite apply_nth by auto. apply Sig_ext. intros m Hm. rewrite <- Q1, ln_nth, val_Ix by auto. do 2 f_equal. cbn [pt Ixp]. unfold Ix. lia.
  - unfold same. destruct (Nat.eqb_spec j j') as [->|]; [destruct (Nat.eqb_spec k k') as [->|]|]; cbn [andb]; try (rewrite ln_nth, val_Ix by auto; reflexivity).
    exfalso. apply andb_false_iff in C. destruct C as [C|C]; [apply Nat.leb_gt in C|apply Nat.ltb_ge in C]; unfold Ix in C; fold n in C; lia.
Qed.

(** ** the loop over lines *)
Section Loop.
Context {S B A : Type} (ar : S -> A -> list R) (bok : B -> Prop) (b : sbox) (d : dir).
Definition wf (s : S) : Prop := forall a, List.length (ar s a) = npoints b.
Definition lns (s : S) (j k : nat) : A -> list R := fun a => ln b d (ar s a) j k.
(** the body turns the lines (j,k) of all arrays into G of these lines, and leaves the other lines *)
Definition does (body : nat -> nat -> S * B -> res (S * B)) (G : nat -> nat -> (A -> list R) -> A -> list R) : Prop :=
  forall j k s bu, (j < n_inner b d)%nat -> (k < n_outer b d)%nat -> wf s -> bok bu ->
  exists s' bu', body j k (s, bu) = Ok (s', bu') /\ wf s' /\ bok bu' /\
    forall j' k' a, (j' < n_inner b d)%nat -> (k' < n_outer b d)%nat -> lns s' j' k' a = if same j k j' k' then G j k (lns s j k) a else lns s j' k' a.
Definition extl (G : nat -> nat -> (A -> list R) -> A -> list R) : Prop := forall j k L L' a, (forall a, L a = L' a) -> G j k L a = G j k L' a.
Lemma does_seq b1 b2 G1 G2 : extl G2 -> does b1 G1 -> does b2 G2 -> does (fun j k r => do r <- b1 j k r; b2 j k r) (fun j k L => G2 j k (G1 j k L)).
Proof.
  intros X2 D1 D2 j k s bu Hj Hk W Bu. destruct (D1 j k s bu) as (s1 & bu1 & E1 & W1 & B1 & V1); auto. destruct (D2 j k s1 bu1) as (s2 & bu2 & E2 & W2 & B2 & V2); auto.
  exists s2, bu2. rewrite E1. cbn [rbind]. split; auto. split; auto. split; auto. intros j' k' a Hj' Hk'. rewrite V2 by auto. destruct (same j k j' k') eqn:Q.
  - apply X2. intros a'. rewrite V1 by auto. unfold same. now rewrite !Nat.eqb_refl.
  - rewrite V1 by auto. now rewrite Q.
Qed.
Lemma does_skip : does (fun j k r => Ok r) (fun j k L => L).
Proof. intros j k s bu Hj Hk W Bu. exists s, bu. split; auto. split; auto. split; auto. intros j' k' a _ _. unfold same. destruct (Nat.eqb_spec j j') as [->|], (Nat.eqb_spec k k') as [->|]; auto. Qed.

Lemma inner_loop body G k s bu : extl G -> does body G -> (k < n_outer b d)%nat -> wf s -> bok bu ->
  exists s' bu', for_nat 0 (n_inner b d) (fun j r => body j k r) (s, bu) = Ok (s', bu') /\ wf s' /\ bok bu' /\
    forall j' k' a, (j' < n_inner b d)%nat -> (k' < n_outer b d)%nat -> lns s' j' k' a = if (k =? k')%nat then G j' k' (lns s j' k') a else lns s j' k' a.
Proof.
  intros XG Db Hk W Bu.
  destruct (for_nat_inv (fun m r => wf (fst r) /\ bok (snd r) /\ forall j' k' a, (j' < n_inner b d)%nat -> (k' < n_outer b d)%nat ->
      lns (fst r) j' k' a = if ((k =? k') && (j' <? m))%nat then G j' k' (lns s j' k') a else lns s j' k' a)
    (fun j r => body j k r) 0 (n_inner b d) (s, bu)) as ([s' bu'] & E & W' & Bu' & V).
  - lia.
  - cbn [fst snd]. repeat split; auto. intros. rewrite andb_false_r. reflexivity.
  - intros m [s1 bu1] Hm (W1 & B1 & V1). cbn [fst snd] in *. destruct (Db m k s1 bu1) as (s2 & bu2 & E2 & W2 & B2 & V2); auto; [lia|].
    exists (s2, bu2). split; auto. cbn [fst snd]. repeat split; auto. intros j' k' a Hj' Hk'. rewrite V2 by auto. unfold same.
    destruct (Nat.eqb_spec m j') as [->|N]; [destruct (Nat.eqb_spec k k') as [->|]|]; cbn [andb].
    + destruct (Nat.ltb_spec j' (j' + 1)); [|lia]. apply XG. intros a'. rewrite V1 by auto. destruct (Nat.ltb_spec j' j'); [lia|]. now rewrite andb_false_r.
    + rewrite V1 by auto. destruct (Nat.eqb_spec k k'); [contradiction|]. reflexivity.
    + rewrite V1 by auto. destruct (k =? k')%nat; auto. cbn [andb]. destruct (Nat.ltb_spec j' m), (Nat.ltb_spec j' (m + 1)); auto; lia.
  - exists s', bu'. cbn [fst snd] in *. repeat split; auto. intros j' k' a Hj' Hk'. rewrite V by auto. destruct (Nat.ltb_spec j' (n_inner b d)); [|lia]. now rewrite andb_true_r.
Qed.
Lemma lines_loop_aux body G alloc : extl G -> does body G -> (forall k, bok (alloc k)) -> forall order s, NoDup order -> (forall k, In k order -> (k < n_outer b d)%nat) -> wf s ->
  exists s', forLines order (n_inner b d) alloc body s = Ok s' /\ wf s' /\
    forall j k a, (j < n_inner b d)%nat -> (k < n_outer b d)%nat -> lns s' j k a = if existsb (Nat.eqb k) order then G j k (lns s j k) a else lns s j k a.
Proof.
  intros XG Db Ba. induction order as [|k0 order IH]; intros s ND R W.
  { exists s. unfold forLines. cbn. auto. }
  unfold forLines. cbn [forl]. destruct (inner_loop body G k0 s (alloc k0)) as (s1 & bu1 & E1 & W1 & _ & V1); auto. { apply R. now left. }
  rewrite E1. cbn [rbind fst]. inversion ND; subst. destruct (IH s1) as (s2 & E2 & W2 & V2); auto. { intros k Hk. apply R. now right. }
  exists s2. split; auto. split; auto. intros j k a Hj Hk. rewrite V2 by auto. cbn [existsb].
  destruct (Nat.eqb_spec k k0) as [->|N].
  - destruct (existsb (Nat.eqb k0) order) eqn:Q. { apply existsb_exists in Q. destruct Q as (y & Iy & Ey). apply Nat.eqb_eq in Ey. subst. contradiction. }
    rewrite V1 by auto. now rewrite Nat.eqb_refl.
  - cbn [orb]. destruct (existsb (Nat.eqb k) order).
    + apply XG. intros a'. rewrite V1 by auto. destruct (Nat.eqb_spec k0 k); auto. congruence.
    + rewrite V1 by auto. destruct (Nat.eqb_spec k0 k); auto. congruence.
Qed.
Lemma lines_loop body G alloc order s : extl G -> does body G -> (forall k, bok (alloc k)) -> Permutation order (seq 0 (n_outer b d)) -> wf s ->
  exists s', forLines order (n_inner b d) alloc body s = Ok s' /\ wf s' /\
    forall j k a, (j < n_inner b d)%nat -> (k < n_outer b d)%nat -> lns s' j k a = G j k (lns s j k) a.
Proof.
  intros XG Db Ba P W. destruct (lines_loop_aux body G alloc XG Db Ba order s) as (s' & E & W' & V); auto.
  { apply (Permutation_NoDup (Permutation_sym P)). apply seq_NoDup. } { intros k Hk. apply (Permutation_in _ P), in_seq in Hk. lia. }
  exists s'. split; auto. split; auto. intros j k a Hj Hk. rewrite V by auto. replace (existsb (Nat.eqb k) order) with true; auto. symmetry. apply existsb_exists. exists k. split; [|apply Nat.eqb_refl].
  apply (Permutation_in _ (Permutation_sym P)), in_seq. lia.
Qed.
End Loop.

(** ** operations on one array *)
Definition one (s : list R) (_ : Datatypes.unit) : list R := s.
Definition bok2 (b : sbox) (d : dir) (bu : list R * list R) : Prop := List.length (fst bu) = nn b d /\ List.length (snd bu) = nn b d.
(** result of a loop on one array, as a fact about points *)
Lemma along_of_lines b d F u u' : List.length u' = npoints b ->
  (forall j k, (j < n_inner b d)%nat -> (k < n_outer b d)%nat -> ln b d u' j k = F (ln b d u j k)) -> along b d F u u'.
Proof.
  intros L H. split; auto. intros p Ip. destruct (inbox_ranges b d p Ip) as [Hj Hk]. rewrite (line_ln b d u), <- H by auto. rewrite <- line_ln. symmetry. now apply line_self.
Qed.
Lemma along_unique b d F u v w : along b d F u v -> along b d F u w -> v = w.
Proof. intros [L1 V1] [L2 V2]. apply (arr_ext b); auto. intros p Ip. now rewrite V1, V2. Qed.
Lemma along_ext b d F G u v : (forall l, List.length l = nn b d -> F l = G l) -> along b d F u v -> along b d G u v.
Proof. intros H [L V]. split; auto. intros p Ip. rewrite V by auto. now rewrite H by apply line_length. Qed.
Lemma comp_setc d p m : comp d (setc d p m) = m. Proof. destruct p as [[x y] z]. now destruct d. Qed.
Lemma line_setc b d u p m : line b d u (setc d p m) = line b d u p. Proof. unfold line. apply map_ext. intros i. f_equal. destruct p as [[x y] z]. now destruct d. Qed.
Lemma along_line b d F u u' p : inbox b p -> along b d F u u' -> List.length (F (line b d u p)) = nn b d -> line b d u' p = F (line b d u p).
Proof.
  intros Ip [L V] LF. apply list_eq_R. { now rewrite line_length. } rewrite line_length. intros i Hi. assert (IV := inbox_setc b d p i Ip Hi). rewrite line_nth by auto. rewrite (V _ IV).
  now rewrite comp_setc, line_setc.
Qed.
(** one loop with a body that gets a line, transforms it and puts it *)
Lemma one_array_loop b sc d alias u du (F : list R -> list R) (body : nat -> nat -> list R * (list R * list R) -> res (list R * (list R * list R))) :
  schedule b d sc -> List.length u = npoints b -> List.length du = npoints b -> (alias = true -> du = u) ->
  (forall j k s bu, (j < n_inner b d)%nat -> (k < n_outer b d)%nat -> List.length s = npoints b -> bok2 b d bu ->
    exists s' bu', body j k (s, bu) = Ok (s', bu') /\ List.length s' = npoints b /\ bok2 b d bu' /\
      forall j' k', (j' < n_inner b d)%nat -> (k' < n_outer b d)%nat -> ln b d s' j' k' = if same j k j' k' then F (ln b d (if alias then s else u) j k) else ln b d s j' k') ->
  exists u', forLines (s_order sc) (n_inner b d) (s_alloc sc) body du = Ok u' /\ along b d F u u'.
Proof.
  intros (P & Ba & _) Lu Ld Ha H.
  pose (G := fun (j k : nat) (L : Datatypes.unit -> list R) (_ : Datatypes.unit) => F (if alias then L tt else ln b d u j k)).
  destruct (lines_loop one (bok2 b d) b d body G (s_alloc sc) (s_order sc) du) as (u' & E & W & V).
  - intros j k L L' a EL. unfold G. now rewrite EL.
  - intros j k s bu Hj Hk W Bu. destruct (H j k s bu) as (s' & bu' & E & L' & B' & V); auto. { apply (W tt). } exists s', bu'. split; auto. split; [intros x; exact L'|]. split; auto.
    intros j' k' a Hj' Hk'. unfold lns, one, G. rewrite V by auto. destruct (same j k j' k'); auto. now destruct alias.
  - intros k. apply Ba. - auto. - intros x. exact Ld.
  - exists u'. split; auto. apply along_of_lines; [apply (W tt)|]. intros j k Hj Hk. specialize (V j k tt Hj Hk). unfold lns, one, G in V. rewrite V. destruct alias; auto. now rewrite Ha.
Qed.

(** ** the operations *)
Lemma by_matrix_ok n M F l o : by_matrix n M F -> List.length l = n -> List.length o = n -> matrix_times_vector M l o n = Ok (F l) /\ List.length (F l) = n.
Proof. intros [L H] Ll Lo. rewrite H. split; [|apply apply_length]. apply mtv_ok; auto. split; auto. Qed.
Lemma body_put b d u l j k (bu : list R * list R) s0 : List.length u = npoints b -> List.length l = nn b d -> (j < n_inner b d)%nat -> (k < n_outer b d)%nat -> bok2 b d bu -> u = s0 ->
  exists s' bu', (do u <- put_memline b u l d j k; Ok (u, bu)) = Ok (s', bu') /\ List.length s' = npoints b /\ bok2 b d bu' /\
      forall j' k', (j' < n_inner b d)%nat -> (k' < n_outer b d)%nat -> ln b d s' j' k' = if same j k j' k' then l else ln b d s0 j' k'.
Proof. intros Lu Ll Hj Hk Bu <-. destruct (put_memline_ok b u l d j k) as (u' & E & L & V); auto. exists u', bu. rewrite E. cbn [rbind]. auto. Qed.

Lemma analysis_ok b sc d alias u c F : schedule b d sc -> analysis_of (bd b d) F -> List.length u = npoints b -> List.length c = npoints b -> (alias = true -> c = u) ->
  exists c', spec_analysis1 b sc d alias u c = Ok c' /\ along b d F u c'.
Proof.
  intros Sc HF Lu Lc Ha. apply (one_array_loop b sc d alias u c F); auto. intros j k s [uline cline] Hj Hk Ls [B1 B2]. cbn [fst snd] in *.
  rewrite get_memline_ok by (auto; destruct alias; auto). cbn [rbind]. set (l := ln b d (if alias then s else u) j k). assert (Ll : List.length l = nn b d) by apply ln_length.
  unfold analysis_of in HF. fold (nn b d) in HF. destruct (b_T (bd b d)).
  - destruct (HF l cline Ll B2) as [E L]. unfold swap in E. rewrite E. cbn [rbind]. apply body_put; auto. split; auto.
  - destruct (by_matrix_ok _ _ _ l cline HF Ll B2) as [E L]. rewrite E. cbn [rbind]. apply body_put; auto. split; auto.
Qed.
Lemma synthesis_ok b sc d alias u c F : schedule b d sc -> synthesis_of (bd b d) F -> List.length u = npoints b -> List.length c = npoints b -> (alias = true -> u = c) ->
  exists u', spec_synthesis1 b sc d alias u c = Ok u' /\ along b d F c u'.
Proof.
  intros Sc HF Lu Lc Ha. apply (one_array_loop b sc d alias c u F); auto. intros j k s [uline cline] Hj Hk Ls [B1 B2]. cbn [fst snd] in *.
  rewrite get_memline_ok by (auto; destruct alias; auto). cbn [rbind]. set (l := ln b d (if alias then s else c) j k). assert (Ll : List.length l = nn b d) by apply ln_length.
  unfold synthesis_of in HF. fold (nn b d) in HF. destruct (b_T (bd b d)).
  - destruct (HF l uline Ll B1) as [E L]. rewrite E. cbn [rbind]. apply body_put; auto. split; auto.
  - destruct (by_matrix_ok _ _ _ l uline HF Ll B1) as [E L]. rewrite E. cbn [rbind]. apply body_put; auto. split; auto.
Qed.
Lemma deriv1_ok b sc d alias u du F : schedule b d sc -> deriv_of (bd b d) F -> List.length u = npoints b -> List.length du = npoints b -> (alias = true -> du = u /\ (b_T (bd b d) = true \/ d <> X1)) ->
  exists du', spec_Deriv1 b sc d alias u du = Ok du' /\ along b d F u du'.
Proof.
  intros Sc HF Lu Lc Ha. apply (one_array_loop b sc d alias u du F); auto. { intros H. now destruct (Ha H). } intros j k s [uline cline] Hj Hk Ls [B1 B2]. cbn [fst snd] in *.
  unfold deriv_of in HF. fold (nn b d) in HF. destruct (b_T (bd b d)) eqn:T.
  - rewrite get_memline_ok by (auto; destruct alias; auto). cbn [rbind]. set (l := ln b d (if alias then s else u) j k). assert (Ll : List.length l = nn b d) by apply ln_length.
    destruct HF as (A & B & E & HA & HB & HE & HF). destruct (HA l cline Ll B2) as [E1 L1]. unfold swap in E1. rewrite E1. cbn [rbind].
    destruct (HB (A l) l L1 Ll) as [E2 L2]. rewrite E2. cbn [rbind]. destruct (HE (B (A l)) (A l) L2 L1) as [E3 L3]. rewrite E3. cbn [rbind].
    rewrite HF. apply body_put; auto. split; auto.
  - assert (D : d = X1 \/ d <> X1) by (destruct d; auto; right; discriminate). destruct D as [->|D].
    + destruct alias. { destruct (Ha eq_refl) as [_ [C|C]]; congruence. } destruct HF as [LM HF]. destruct (mtv_line_ok b (m_D (b_m (bd b X1))) u s j k) as (s' & E & L & V); auto.
      exists s', (uline, cline). rewrite E. cbn [rbind]. split; auto. split; auto. split; [split; auto|]. intros j' k' Hj' Hk'. rewrite HF. apply V; auto.
    + assert (G : exists s' bu', (do uline <- get_memline b (if alias then s else u) uline d j k; do duline <- matrix_times_vector (m_D (b_m (bd b d))) uline cline (nn b d); do du <- put_memline b s duline d j k; Ok (du, (uline, duline))) = Ok (s', bu') /\
        List.length s' = npoints b /\ bok2 b d bu' /\ forall j' k', (j' < n_inner b d)%nat -> (k' < n_outer b d)%nat -> ln b d s' j' k' = if same j k j' k' then F (ln b d (if alias then s else u) j k) else ln b d s j' k').
      { rewrite get_memline_ok by (auto; destruct alias; auto). cbn [rbind]. set (l := ln b d (if alias then s else u) j k). assert (Ll : List.length l = nn b d) by apply ln_length.
        destruct (by_matrix_ok _ _ _ l cline HF Ll B2) as [E L]. rewrite E. cbn [rbind]. apply body_put; auto. split; auto. }
      destruct d; auto. congruence.
Qed.
Lemma deriv2_ok b sc d alias u du F : schedule b d sc -> deriv2_of (bd b d) F -> List.length u = npoints b -> List.length du = npoints b -> (alias = true -> du = u /\ (b_T (bd b d) = true \/ d <> X1)) ->
  exists du', spec_Deriv2 b sc d alias u du = Ok du' /\ along b d F u du'.
Proof.
  intros Sc HF Lu Lc Ha. apply (one_array_loop b sc d alias u du F); auto. { intros H. now destruct (Ha H). } intros j k s [uline cline] Hj Hk Ls [B1 B2]. cbn [fst snd] in *.
  unfold deriv2_of in HF. fold (nn b d) in HF. destruct (b_T (bd b d)) eqn:T.
  - rewrite get_memline_ok by (auto; destruct alias; auto). cbn [rbind]. set (l := ln b d (if alias then s else u) j k). assert (Ll : List.length l = nn b d) by apply ln_length.
    destruct HF as (A & B & E & HA & HB & HE & HF). destruct (HA l cline Ll B2) as [E1 L1]. unfold swap in E1. rewrite E1. cbn [rbind].
    destruct (HB (A l) l L1 Ll) as [E2 L2]. rewrite E2. cbn [rbind]. destruct (HB (B (A l)) (A l) L2 L1) as [E3 L3]. rewrite E3. cbn [rbind]. destruct (HE (B (B (A l))) (B (A l)) L3 L2) as [E4 L4]. rewrite E4. cbn [rbind].
    rewrite HF. apply body_put; auto. split; auto.
  - assert (D : d = X1 \/ d <> X1) by (destruct d; auto; right; discriminate). destruct D as [->|D].
    + destruct alias. { destruct (Ha eq_refl) as [_ [C|C]]; congruence. } destruct HF as [LM HF]. destruct (mtv_line_ok b (m_DD (b_m (bd b X1))) u s j k) as (s' & E & L & V); auto.
      exists s', (uline, cline). rewrite E. cbn [rbind]. split; auto. split; auto. split; [split; auto|]. intros j' k' Hj' Hk'. rewrite HF. apply V; auto.
    + assert (G : exists s' bu', (do uline <- get_memline b (if alias then s else u) uline d j k; do duline <- matrix_times_vector (m_DD (b_m (bd b d))) uline cline (nn b d); do du <- put_memline b s duline d j k; Ok (du, (uline, duline))) = Ok (s', bu') /\
        List.length s' = npoints b /\ bok2 b d bu' /\ forall j' k', (j' < n_inner b d)%nat -> (k' < n_outer b d)%nat -> ln b d s' j' k' = if same j k j' k' then F (ln b d (if alias then s else u) j k) else ln b d s j' k').
      { rewrite get_memline_ok by (auto; destruct alias; auto). cbn [rbind]. set (l := ln b d (if alias then s else u) j k). assert (Ll : List.length l = nn b d) by apply ln_length.
        destruct (by_matrix_ok _ _ _ l cline HF Ll B2) as [E L]. rewrite E. cbn [rbind]. apply body_put; auto. split; auto. }
      destruct d; auto. congruence.
Qed.

(** ** passes on the ten arrays of spec_allDerivs *)
Definition stv (s : store) (a : arr) : list R := s a.
Definition bok3 (b : sbox) (d : dir) (bu : lines3) : Prop := let '(x, y, z) := bu in List.length x = nn b d /\ List.length y = nn b d /\ List.length z = nn b d.
(** the effect y := F(x) on the lines *)
Definition eff (x y : arr) (F : list R -> list R) (L : arr -> list R) : arr -> list R := fun a => if arr_eqb y a then F (L x) else L a.
Lemma arr_eqb_spec x y : reflect (x = y) (arr_eqb x y). Proof. destruct x, y; constructor; auto; discriminate. Qed.
Lemma put_same s x v : put s x v x = v. Proof. unfold put. destruct (arr_eqb_spec x x); congruence. Qed.
Lemma put_line_store b d (s : store) y l j k : wf stv b s -> List.length l = nn b d -> (j < n_inner b d)%nat -> (k < n_outer b d)%nat ->
  exists v, put_memline b (s y) l d j k = Ok v /\ wf stv b (put s y v) /\
    forall j' k' a, (j' < n_inner b d)%nat -> (k' < n_outer b d)%nat -> lns stv b d (put s y v) j' k' a = if same j k j' k' then (if arr_eqb y a then l else lns stv b d s j' k' a) else lns stv b d s j' k' a.
Proof.
  intros W Ll Hj Hk. destruct (put_memline_ok b (s y) l d j k) as (v & E & L & V); try apply (W y); auto. exists v. split; auto. split.
  - intros a. unfold stv, put. destruct (arr_eqb y a); [auto|apply (W a)].
  - intros j' k' a Hj' Hk'. unfold lns, stv, put. destruct (arr_eqb_spec y a) as [->|].
    + rewrite V by auto. now destruct (same j k j' k'). + now destruct (same j k j' k').
Qed.
Lemma mtv_line_store b (s : store) x y M j k : wf stv b s -> List.length M = (nn b X1 * nn b X1)%nat -> (j < nn b X2)%nat -> (k < nn b X3)%nat ->
  exists v, mtv_at false M (s x) (Ix b 0 j k) (s y) (Ix b 0 j k) (nn b X1) = Ok v /\ wf stv b (put s y v) /\
    forall j' k' a, (j' < n_inner b X1)%nat -> (k' < n_outer b X1)%nat -> lns stv b X1 (put s y v) j' k' a =
      if same j k j' k' then (if arr_eqb y a then apply (nn b X1) (mat (nn b X1) M) (ln b X1 (s x) j k) else lns stv b X1 s j' k' a) else lns stv b X1 s j' k' a.
Proof.
  intros W LM Hj Hk. destruct (mtv_line_ok b M (s x) (s y) j k) as (v & E & L & V); try apply (W x); try apply (W y); auto. exists v. split; auto. split.
  - intros a. unfold stv, put. destruct (arr_eqb y a); [auto|apply (W a)].
  - intros j' k' a Hj' Hk'. unfold lns, stv, put. destruct (arr_eqb_spec y a) as [->|].
    + rewrite V by auto. now destruct (same j k j' k'). + now destruct (same j k j' k').
Qed.
Lemma same_refl j k : same j k j k = true. Proof. unfold same. now rewrite !Nat.eqb_refl. Qed.
Lemma same_eq j k j' k' : same j k j' k' = true -> j' = j /\ k' = k. Proof. unfold same. intros H. apply andb_prop in H as [H1 H2]. apply Nat.eqb_eq in H1, H2. auto. Qed.

Lemma one_does b d x y F : deriv_of (bd b d) F ->
  does stv (bok3 b d) b d (if b_T (bd b d) then one_fft b d x y else one_mat b d x y) (fun j k => eff x y F).
Proof.
  intros HF j k s [[uline duline] dduline] Hj Hk W (B1 & B2 & B3). unfold deriv_of in HF. fold (nn b d) in HF. destruct (b_T (bd b d)).
  - unfold one_fft. fold (nn b d). rewrite get_memline_ok by (auto; apply (W x)). cbn [rbind]. set (l := ln b d (s x) j k). assert (Ll : List.length l = nn b d) by apply ln_length.
    destruct HF as (A & B & E & HA & HB & HE & HF). destruct (HA l duline Ll B2) as [E1 L1]. unfold swap in E1. rewrite E1. cbn [rbind].
    destruct (HB (A l) l L1 Ll) as [E2 L2]. rewrite E2. cbn [rbind]. destruct (HE (B (A l)) (A l) L2 L1) as [E3 L3]. rewrite E3. cbn [rbind].
    destruct (put_line_store b d s y (E (B (A l))) j k) as (v & Ev & Wv & V); auto. rewrite Ev. cbn [rbind]. eexists _, _. split; [reflexivity|]. split; auto. split; [repeat split; auto|].
    intros j' k' a Hj' Hk'. rewrite V by auto. destruct (same j k j' k') eqn:Q; auto. apply same_eq in Q as [-> ->]. unfold eff. rewrite HF. reflexivity.
  - assert (D : d = X1 \/ d <> X1) by (destruct d; auto; right; discriminate). destruct D as [->|D].
    + destruct HF as [LM HF]. unfold one_mat. destruct (mtv_line_store b s x y (m_D (b_m (bd b X1))) j k) as (v & Ev & Wv & V); auto. rewrite Ev. cbn [rbind]. eexists _, _. split; [reflexivity|]. split; auto. split; [repeat split; auto|].
      intros j' k' a Hj' Hk'. rewrite V by auto. destruct (same j k j' k') eqn:Q; auto. apply same_eq in Q as [-> ->]. unfold eff. rewrite HF. reflexivity.
    + assert (G : exists s' bu', (do uline <- get_memline b (s x) uline d j k; do duline <- matrix_times_vector (m_D (b_m (bd b d))) uline duline (nn b d); do v <- put_memline b (s y) duline d j k; Ok (put s y v, (uline, duline, dduline))) = Ok (s', bu') /\
        wf stv b s' /\ bok3 b d bu' /\ forall j' k' a, (j' < n_inner b d)%nat -> (k' < n_outer b d)%nat -> lns stv b d s' j' k' a = if same j k j' k' then eff x y F (lns stv b d s j k) a else lns stv b d s j' k' a).
      { rewrite get_memline_ok by (auto; apply (W x)). cbn [rbind]. set (l := ln b d (s x) j k). assert (Ll : List.length l = nn b d) by apply ln_length.
        destruct (by_matrix_ok _ _ _ l duline HF Ll B2) as [E L]. rewrite E. cbn [rbind].
        destruct (put_line_store b d s y (F l) j k) as (v & Ev & Wv & V); auto. rewrite Ev. cbn [rbind]. eexists _, _. split; [reflexivity|]. split; auto. split; [repeat split; auto|].
        intros j' k' a Hj' Hk'. rewrite V by auto. destruct (same j k j' k') eqn:Q; auto. apply same_eq in Q as [-> ->]. unfold eff. reflexivity. }
      unfold one_mat. destruct d; auto. congruence.
Qed.
Lemma two_puts b d (s : store) y1 y2 l1 l2 j k : wf stv b s -> List.length l1 = nn b d -> List.length l2 = nn b d -> (j < n_inner b d)%nat -> (k < n_outer b d)%nat -> y1 <> y2 ->
  exists v v', put_memline b (s y1) l1 d j k = Ok v /\ put_memline b (put s y1 v y2) l2 d j k = Ok v' /\ wf stv b (put (put s y1 v) y2 v') /\
    forall j' k' a, (j' < n_inner b d)%nat -> (k' < n_outer b d)%nat -> lns stv b d (put (put s y1 v) y2 v') j' k' a =
      if same j k j' k' then (if arr_eqb y2 a then l2 else if arr_eqb y1 a then l1 else lns stv b d s j' k' a) else lns stv b d s j' k' a.
Proof.
  intros W L1 L2 Hj Hk N. destruct (put_line_store b d s y1 l1 j k) as (v & Ev & Wv & V); auto. destruct (put_line_store b d (put s y1 v) y2 l2 j k) as (v' & Ev' & Wv' & V'); auto.
  exists v, v'. split; auto. split; auto. split; auto. intros j' k' a Hj' Hk'. rewrite V' by auto. rewrite !V by auto. destruct (same j k j' k'); auto.
Qed.
Lemma both_does b d x y1 y2 F F2 : deriv_of (bd b d) F -> deriv2_of (bd b d) F2 -> x <> y1 -> x <> y2 -> y1 <> y2 ->
  does stv (bok3 b d) b d (if b_T (bd b d) then both_fft b d x y1 y2 else both_mat b d x y1 y2) (fun j k L => eff x y2 F2 (eff x y1 F L)).
Proof.
  intros HF HF2 N1 N2 N12 j k s [[uline duline] dduline] Hj Hk W (B1 & B2 & B3). unfold deriv_of in HF. unfold deriv2_of in HF2. fold (nn b d) in HF, HF2.
  assert (X1F : forall L : arr -> list R, eff x y1 F L x = L x). { intros L. unfold eff. destruct (arr_eqb_spec y1 x); congruence. }
  destruct (b_T (bd b d)).
  - unfold both_fft. fold (nn b d). rewrite get_memline_ok by (auto; apply (W x)). cbn [rbind]. set (l := ln b d (s x) j k). assert (Ll : List.length l = nn b d) by apply ln_length.
    destruct HF as (A & B & E & HA & HB & HE & HF). destruct HF2 as (A' & B' & E' & HA' & HB' & HE' & HF2). destruct (HA l duline Ll B2) as [E1 L1]. unfold swap in E1. rewrite E1. cbn [rbind].
    destruct (HB (A l) l L1 Ll) as [E2 L2]. rewrite E2. cbn [rbind]. destruct (HE (B (A l)) (A l) L2 L1) as [E3 L3]. rewrite E3. cbn [rbind].
    destruct (HB (B (A l)) (E (B (A l))) L2 L3) as [E4 L4]. destruct (HE (B (B (A l))) dduline L4 B3) as [E5 L5].
    destruct (two_puts b d s y1 y2 (E (B (A l))) (E (B (B (A l)))) j k) as (v & v' & Ev & Ev' & Wv & V); auto. rewrite Ev. cbn [rbind]. rewrite E4. cbn [rbind]. rewrite E5. cbn [rbind]. rewrite Ev'. cbn [rbind].
    eexists _, _. split; [reflexivity|]. split; auto. split; [repeat split; auto|].
    intros j' k' a Hj' Hk'. rewrite V by auto. destruct (same j k j' k') eqn:Q; auto. apply same_eq in Q as [-> ->]. unfold eff at 1. rewrite X1F. unfold eff.
    replace (F2 (lns stv b d s j k x)) with (E (B (B (A l)))). { rewrite HF. reflexivity. } rewrite HF2. change (lns stv b d s j k x) with l.
    destruct (HA' l duline Ll B2) as [F1 M1]. destruct (HB' (A' l) l M1 Ll) as [G1 M2]. unfold swap in F1. assert (Q1 : A' l = A l) by congruence. rewrite Q1 in *. assert (Q2 : B' (A l) = B (A l)) by congruence. rewrite Q2 in *.
    destruct (HB' (B (A l)) (E (B (A l))) M2 L3) as [G2 M3]. assert (Q3 : B' (B (A l)) = B (B (A l))) by congruence. rewrite Q3 in *. destruct (HE' (B (B (A l))) dduline M3 B3) as [G3 _]. congruence.
  - assert (D : d = X1 \/ d <> X1) by (destruct d; auto; right; discriminate). destruct D as [->|D].
    + destruct HF as [LM HF]. destruct HF2 as [LM2 HF2]. unfold both_mat. destruct (mtv_line_store b s x y1 (m_D (b_m (bd b X1))) j k) as (v & Ev & Wv & V); auto. rewrite Ev. cbn [rbind].
      destruct (mtv_line_store b (put s y1 v) x y2 (m_DD (b_m (bd b X1))) j k) as (v' & Ev' & Wv' & V'); auto. rewrite Ev'. cbn [rbind]. eexists _, _. split; [reflexivity|]. split; auto. split; [repeat split; auto|].
      intros j' k' a Hj' Hk'. rewrite V' by auto. rewrite !V by auto. destruct (same j k j' k') eqn:Q; auto. apply same_eq in Q as [-> ->]. unfold eff at 1. rewrite X1F. unfold eff. rewrite HF, HF2.
      unfold put at 1. destruct (arr_eqb_spec y1 x); [congruence|]. reflexivity.
    + assert (G : exists s' bu', (do uline <- get_memline b (s x) uline d j k; do duline <- matrix_times_vector (m_D (b_m (bd b d))) uline duline (nn b d); do dduline <- matrix_times_vector (m_DD (b_m (bd b d))) uline dduline (nn b d);
          do v <- put_memline b (s y1) duline d j k; let s := put s y1 v in do v <- put_memline b (s y2) dduline d j k; Ok (put s y2 v, (uline, duline, dduline))) = Ok (s', bu') /\
        wf stv b s' /\ bok3 b d bu' /\ forall j' k' a, (j' < n_inner b d)%nat -> (k' < n_outer b d)%nat -> lns stv b d s' j' k' a = if same j k j' k' then eff x y2 F2 (eff x y1 F (lns stv b d s j k)) a else lns stv b d s j' k' a).
      { rewrite get_memline_ok by (auto; apply (W x)). cbn [rbind]. set (l := ln b d (s x) j k). assert (Ll : List.length l = nn b d) by apply ln_length.
        destruct (by_matrix_ok _ _ _ l duline HF Ll B2) as [E L]. rewrite E. cbn [rbind]. destruct (by_matrix_ok _ _ _ l dduline HF2 Ll B3) as [E2 L2]. rewrite E2. cbn [rbind].
        destruct (two_puts b d s y1 y2 (F l) (F2 l) j k) as (v & v' & Ev & Ev' & Wv & V); auto. rewrite Ev. cbn [rbind]. cbv zeta. rewrite Ev'. cbn [rbind]. eexists _, _. split; [reflexivity|]. split; auto. split; [repeat split; auto|].
        intros j' k' a Hj' Hk'. rewrite V by auto. destruct (same j k j' k') eqn:Q; auto. apply same_eq in Q as [-> ->]. unfold eff at 1. rewrite X1F. unfold eff. reflexivity. }
      unfold both_mat. destruct d; auto. congruence.
Qed.
Fixpoint effs (F : list R -> list R) (more : list (arr * arr)) (L : arr -> list R) : arr -> list R :=
  match more with [] => L | (x, y) :: r => effs F r (eff x y F L) end.
Lemma eff_ext x y F (L L' : arr -> list R) a : (forall a, L a = L' a) -> eff x y F L a = eff x y F L' a.
Proof. intros H. unfold eff. now rewrite !H. Qed.
Lemma effs_ext F more : forall (L L' : arr -> list R), (forall a, L a = L' a) -> forall a, effs F more L a = effs F more L' a.
Proof. induction more as [|[x y] r IH]; intros L L' H a; cbn [effs]; auto. apply IH. intros a'. now apply eff_ext. Qed.
Lemma more_does b d F more : deriv_of (bd b d) F ->
  does stv (bok3 b d) b d (fun j k r => forl more (fun p r => (if b_T (bd b d) then one_fft b d else one_mat b d) (fst p) (snd p) j k r) r) (fun j k => effs F more).
Proof.
  intros HF. induction more as [|[x y] r IH]. { apply does_skip. }
  intros j k s bu Hj Hk W Bu. cbn [forl fst snd effs].
  assert (D := does_seq stv (bok3 b d) b d _ _ _ _ (fun j k L L' a H => effs_ext F r L L' H a) (one_does b d x y F HF) IH j k s bu Hj Hk W Bu).
  destruct (b_T (bd b d)); exact D.
Qed.
Lemma dpass_ok b sc fft d more F F2 s : schedule b d sc -> deriv_of (bd b d) F -> deriv2_of (bd b d) F2 -> (fft = false -> b_T (bd b d) = false) -> (forall a, List.length (s a) = npoints b) ->
  let ud := match d with X1 => U1 | X2 => U2 | X3 => U3 end in let udd := match d with X1 => U11 | X2 => U22 | X3 => U33 end in
  exists s', dpass b sc fft d more s = Ok s' /\ (forall a, List.length (s' a) = npoints b) /\
    forall a p, inbox b p -> line b d (s' a) p = effs F more (eff U udd F2 (eff U ud F (fun a => line b d (s a) p))) a.
Proof.
  intros (P & _ & Ba) HF HF2 Hf W ud udd.
  assert (DB : does stv (bok3 b d) b d (if b_T (bd b d) then both_fft b d U ud udd else both_mat b d U ud udd) (fun j k L => eff U udd F2 (eff U ud F L))) by (apply both_does; auto; unfold ud, udd; destruct d; discriminate).
  assert (D := does_seq stv (bok3 b d) b d _ _ _ _ (fun j k L L' a H => effs_ext F more L L' H a) DB (more_does b d F more HF)).
  match type of D with does _ _ _ _ ?bdy ?GG => destruct (lines_loop stv (bok3 b d) b d bdy GG (s_alloc3 sc) (s_order sc) s) as (s' & E & W' & V); [|exact D| | | |] end.
  - intros j k L L' a H. apply effs_ext. intros a'. apply eff_ext. intros a''. now apply eff_ext.
  - intros k. specialize (Ba k). unfold bok3. destruct (s_alloc3 sc k) as [[x y] z]. auto.
  - auto. - exact W.
  - exists s'. split. { unfold dpass. destruct (b_T (bd b d)); auto. destruct fft; auto. discriminate Hf. reflexivity. } split; [exact W'|].
    intros a p Ip. destruct (inbox_ranges b d p Ip) as [Hj Hk]. specialize (V _ _ a Hj Hk). unfold lns, stv in V. rewrite line_ln, V. apply effs_ext. intros a'. apply eff_ext. intros a''. apply eff_ext. intros. symmetry. apply line_ln.
Qed.

(** C109: the mode computer gives the coefficients of the field. *)
From Verif Require Import Base Loops Arrays Sparse_model Sparse_proofs Cart_model Mat_model Mat_spec Mat_proofs Four_model Four_spec Four_proofs Four_props Dir_model Dir_spec Dir_props
  Lines_model Lines_spec Lines_proofs Lines_props Integ_spec Integ_proofs Integ_props Dcov_model Dcov_spec Dcov_props Sphere_model Sphere_props Swsh_model Swsh_spec Swsh_proofs Swsh_props Modes_math Modes_model Modes_spec Modes_proofs.
Local Open Scope R_scope.

Lemma theta_of_ok b j : mode_box b -> theta_of b (2 * PI * INR j / INR (nn b X2)) = theta b j.
Proof.
  intros (_ & _ & _ & _ & _ & _ & E2 & _ & N2 & _). assert (PN : 0 < INR (nn b X2)) by (apply lt_0_INR; lia). unfold theta_of, theta. replace (nn b X2 mod 2)%nat with 0%nat by (destruct E2 as [h ->]; rewrite Nat.mul_comm; symmetry; apply Nat.mod_mul; lia).
  simpl (INR (1 + 0)). field. lra.
Qed.
Lemma antipode_pts b j k : mode_box b -> (j < nn b X2)%nat -> (k < nn b X3)%nat -> theta b (nn b X2 - 1 - j) = 2 * PI - theta b j /\ exists z, phi b ((k + nn b X3 / 2) mod nn b X3) = phi b k + PI + 2 * PI * IZR z.
Proof.
  intros (_ & _ & _ & _ & _ & _ & E2 & E3 & N2 & N3) Hj Hk. assert (PN : 0 < INR (nn b X2)) by (apply lt_0_INR; lia). assert (PN3 : 0 < INR (nn b X3)) by (apply lt_0_INR; lia). split.
  - unfold theta. rewrite !minus_INR by lia. simpl (INR 1). field. lra.
  - destruct E3 as [h E3]. assert (Eh : (nn b X3 / 2)%nat = h) by (rewrite E3, Nat.mul_comm; apply Nat.div_mul; lia). rewrite Eh. set (q := ((k + h) / nn b X3)%nat). exists (- Z.of_nat q)%Z.
    assert (A := Nat.div_mod (k + h) (nn b X3) ltac:(lia)). fold q in A. set (r := ((k + h) mod nn b X3)%nat) in *. unfold phi. assert (B : INR r = INR k + INR h - INR (nn b X3) * INR q). { assert (B := f_equal INR A). rewrite !plus_INR, mult_INR in B. lra. }
    assert (Hh : INR h = INR (nn b X3) / 2) by (rewrite E3, mult_INR; simpl (INR 2); field). rewrite B, Hh, opp_IZR, <- INR_IZR_INZ. field. lra.
Qed.
Lemma tval_2pi E th ph z : tval E th (ph + 2 * PI * IZR z) = tval E th ph.
Proof. apply total_ext. intros e _. destruct (z_2pi (tn e) ph z) as [-> ->]. reflexivity. Qed.
Lemma set_sYlm_ok f ks b rad X Y Z_ s L u : mode_box b -> mode_coords b rad X Y Z_ -> copy_orders b ks -> ((L + 1) * (L + 1) <= nn b X1)%nat -> List.length u = npoints b ->
  exists u', set_sYlm_inbox f ks b Y Z_ s L u = Ok u' /\ List.length u' = npoints b /\
    forall i l m j k, nth_error (mode_pairs L) i = Some (l, m) -> inbox b (i, j, k) -> (j < nn b X2 / 2)%nat -> val b u' (i, j, k) = f l m s (theta b j) (phi b k).
Proof.
  intros MB (LX & LY & LZ & HC) CO HL Lu. unfold set_sYlm_inbox. destruct (set_points_ok b L (sYlm_at f b Y Z_ s) (fun l m _ j k => f l m s (theta b j) (phi b k)) u) as (u1 & E1 & L1 & V1); auto.
  { intros i l m j k _ I _. destruct (HC i j k I) as (_ & _ & EY & EZ). unfold sYlm_at. rewrite !val_rd by auto. cbn [rbind]. now rewrite EY, EZ, theta_of_ok. }
  rewrite E1. cbn [rbind]. destruct MB as (_ & _ & _ & _ & _ & _ & E2 & E3 & _). destruct (copy_arr_ok ks b u1 E2 E3 CO L1) as (u2 & E & L2 & C1 & _). exists u2. split; auto. split; auto. intros i l m j k En I Hj. rewrite C1 by auto. eauto.
Qed.
Lemma mode_lt L i l m : nth_error (mode_pairs L) i = Some (l, m) -> (i < (L + 1) * (L + 1))%nat /\ (0 <= l <= Z.of_nat L)%Z /\ (- l <= m <= l)%Z.
Proof. intros E. assert (H : (i < List.length (mode_pairs L))%nat) by (apply nth_error_Some; congruence). rewrite mode_pairs_length in H. split; auto. apply mode_pairs_in. eapply nth_error_In; eauto. Qed.
Lemma out_modes_ok L RM IM : ((L + 1) * (L + 1) <= List.length RM)%nat -> ((L + 1) * (L + 1) <= List.length IM)%nat ->
  exists out, out_modes L RM IM = Ok out /\ List.length out = ((L + 1) * (L + 1))%nat /\ forall i l m, nth_error (mode_pairs L) i = Some (l, m) -> nth_error out i = Some (l, m, RM.[i], IM.[i]).
Proof.
  intros H1 H2. set (h := fun x : nat * (Z * Z) => let '(i, (l, m)) := x in (l, m, RM.[i], IM.[i])). exists (map h (numbered (mode_pairs L))). assert (LN : List.length (numbered (mode_pairs L)) = ((L + 1) * (L + 1))%nat) by (unfold numbered; rewrite combine_length, seq_length, mode_pairs_length; lia).
  split; [|split].
  - unfold out_modes. assert (G : forall ts out, (forall i x, In (i, x) ts -> (i < (L + 1) * (L + 1))%nat) -> forl ts (fun x out => let '(i, (l, m)) := x in do a <- rd RM i; do c <- rd IM i; Ok (out ++ [(l, m, a, c)])) out = Ok (out ++ map h ts)).
    { induction ts as [|[i [l m]] ts IH]; intros out Hi; cbn [forl map]. { now rewrite app_nil_r. } assert (B := Hi _ _ (or_introl eq_refl)). rewrite (rd_ok RM i 0), (rd_ok IM i 0) by lia. cbn [rbind]. rewrite IH. { now rewrite <- app_assoc. } intros. eapply Hi. right. eauto. }
    rewrite G; [reflexivity|]. intros i [l m] I. apply numbered_in in I. now apply mode_lt in I.
  - now rewrite map_length.
  - intros i l m E. assert (Hi := proj1 (mode_lt _ _ _ _ E)). rewrite (map_nth_error h i _ (d := (i, (l, m)))); auto. unfold numbered.
    assert (G : forall (ps : list (Z * Z)) a i, nth_error ps i = Some (l, m) -> nth_error (combine (seq a (List.length ps)) ps) i = Some ((a + i)%nat, (l, m))).
    { induction ps as [|p ps IH]; intros a n En; destruct n; cbn in *; try discriminate. { injection En as ->. now rewrite Nat.add_0_r. } rewrite (IH (S a) n En). do 2 f_equal. lia. }
    apply (G _ 0%nat i E).
Qed.
(** the integrand, copied to the second half *)
Lemma integrand_ok c ks b rad X Y Z_ s lmax L u RY IY RV IV D D' : mode_box b -> mode_coords b rad X Y Z_ -> copy_orders b ks -> ((lmax + 1) * (lmax + 1) <= nn b X1)%nat -> List.length u = npoints b ->
  List.length RY = npoints b -> List.length IY = npoints b -> samples b (field_re D s) RV -> samples b (field_im D s) IV -> bandlimited D' s L -> (lmax + L < nn b X3)%nat ->
  (forall i l m j k, nth_error (mode_pairs lmax) i = Some (l, m) -> inbox b (i, j, k) -> (j < nn b X2 / 2)%nat -> val b RY (i, j, k) = Re_sYlm l m s (theta b j) (phi b k)) ->
  (forall i l m j k, nth_error (mode_pairs lmax) i = Some (l, m) -> inbox b (i, j, k) -> (j < nn b X2 / 2)%nat -> val b IY (i, j, k) = Im_sYlm l m s (theta b j) (phi b k)) ->
  (forall l m th ph, (0 <= l)%Z -> (- l <= m <= l)%Z -> c (Re_sYlm l m s th ph) (Im_sYlm l m s th ph) (field_re D s th ph) (field_im D s th ph) = tval (mks l m s D') th ph) ->
  exists u1 u2, set_points b lmax (mode_at c X RY IY RV IV) u = Ok u1 /\ copy_arr ks b u1 = Ok u2 /\ List.length u2 = npoints b /\
    forall i l m j k, nth_error (mode_pairs lmax) i = Some (l, m) -> inbox b (i, j, k) -> val b u2 (i, j, k) = tval (mks l m s D') (theta b j) (phi b k) / (rad i * rad i).
Proof.
  intros MB (LX & LY & LZ & HC) CO HL Lu LR LI [LRV SR] [LIV SI] BL HN HR HI Hc.
  destruct (set_points_ok b lmax (mode_at c X RY IY RV IV) (fun l m i j k => tval (mks l m s D') (theta b j) (phi b k) / (rad i * rad i)) u) as (u1 & E1 & L1 & V1); auto.
  { intros i l m j k En I Hj. destruct (HC i j k I) as (_ & EX & _). unfold mode_at. rewrite !val_rd by auto. cbn [rbind]. rewrite EX, (HR i l m), (HI i l m), SR, SI by auto. destruct (mode_lt _ _ _ _ En) as (_ & ? & ?). rewrite Hc by lia. reflexivity. }
  assert (MB' := MB). destruct MB as (_ & _ & _ & _ & _ & _ & E2 & E3 & N2 & N3). destruct (copy_arr_ok ks b u1 E2 E3 CO L1) as (u2 & E & L2 & C1 & C2). exists u1, u2. repeat split; auto.
  intros i l m j k En I. assert (I' := proj1 (inbox3 b i j k) I). destruct (Nat.lt_ge_cases j (nn b X2 / 2)) as [Hj|Hj]. { rewrite C1 by auto. now apply V1. }
  rewrite C2 by auto. destruct (antipode_pts b j k MB' ltac:(lia) ltac:(lia)) as [Et [z Ez]]. set (k' := ((k + nn b X3 / 2) mod nn b X3)%nat) in *. assert (k' < nn b X3)%nat by (apply Nat.mod_upper_bound; lia).
  assert (nn b X2 - 1 - j < nn b X2 / 2)%nat. { destruct E2 as [h Eh]. rewrite Eh in *. replace (2 * h / 2)%nat with h in * by (rewrite Nat.mul_comm, Nat.div_mul; lia). lia. }
  rewrite (V1 i l m) by (auto; apply inbox3; lia). f_equal. rewrite Et, Ez, tval_2pi. destruct (mode_lt _ _ _ _ En) as (_ & ? & ?). apply (tval_antipode (nn b X3) (lmax + L)). intros e He. eapply mks_good; eauto; lia.
Qed.

(** The modes that are written are the coefficients of the field, exactly, if the field has only modes with l <= L and the grid has more than 2 (lmax + L) points in theta and more than lmax + L in phi.
    Modes with l < |s| come out as 0. *)
Theorem C109_modes b ks sc rad X Y Z_ s lmax L D RV IV RY IY RM IM : mode_box b -> mode_coords b rad X Y Z_ -> (forall n, copy_orders b (ks n)) -> (forall d, schedule b d (sc d)) ->
  ((lmax + 1) * (lmax + 1) <= nn b X1)%nat -> bandlimited D s L -> (2 * (lmax + L) < nn b X2)%nat -> (lmax + L < nn b X3)%nat ->
  samples b (field_re D s) RV -> samples b (field_im D s) IV -> List.length RY = npoints b -> List.length IY = npoints b -> List.length RM = npoints b -> List.length IM = npoints b ->
  exists out, modes_of b ks sc X Y Z_ s lmax RV IV RY IY RM IM = Ok out /\ List.length out = ((lmax + 1) * (lmax + 1))%nat /\
    forall l m, (0 <= l <= Z.of_nat lmax)%Z -> (- l <= m <= l)%Z -> nth_error out (Z.to_nat (l * l + l + m)) = Some (l, m, coef_re D l m, coef_im D l m).
Proof.
  intros MB MC CO Sc HL BL H2 H3 SR SI LRY LIY LRM LIM. unfold modes_of.
  destruct (set_sYlm_ok Re_sYlm (ks 0%nat) b rad X Y Z_ s lmax RY MB MC (CO _) HL LRY) as (RY' & -> & LRY' & VR). cbn [rbind].
  destruct (set_sYlm_ok Im_sYlm (ks 1%nat) b rad X Y Z_ s lmax IY MB MC (CO _) HL LIY) as (IY' & -> & LIY' & VI). cbn [rbind].
  destruct (integrand_ok (fun RsYlm IsYlm R I => RsYlm * R + IsYlm * I) (ks 2%nat) b rad X Y Z_ s lmax L RM RY' IY' RV IV D D) as (a1 & a2 & -> & Ea & La & Va); auto. { intros. eapply mks_re; eauto. } cbn [rbind].
  destruct (integrand_ok (fun RsYlm IsYlm R I => RsYlm * I - IsYlm * R) (ks 3%nat) b rad X Y Z_ s lmax L IM RY' IY' RV IV D (map turn D)) as (c1 & c2 & -> & Ec & Lc & Vc); auto using turn_band. { intros. eapply mks_im; eauto. } cbn [rbind].
  rewrite Ea. cbn [rbind]. rewrite Ec. cbn [rbind].
  destruct (quad b sc rad X Y Z_ a2 (lmax + L) MB Sc MC La H2) as (Va' & -> & LVa & Qa). cbn [rbind]. destruct (quad b sc rad X Y Z_ c2 (lmax + L) MB Sc MC Lc H2) as (Vc' & -> & LVc & Qc). cbn [rbind].
  assert (NP : (nn b X1 <= npoints b)%nat). { destruct MB as (_ & _ & _ & _ & _ & _ & _ & _ & N2 & N3). unfold npoints. assert (1 <= nn b X2 * nn b X3)%nat by nia. rewrite <- Nat.mul_assoc. nia. }
  destruct (out_modes_ok lmax Va' Vc') as (out & Eo & Lo & Ho); [lia..|]. exists out. split; auto. split; auto. intros l m Hl Hm. assert (En := mode_pairs_nth lmax l m Hl Hm). rewrite (Ho _ l m En). assert (Hi := proj1 (mode_lt _ _ _ _ En)). set (i := Z.to_nat (l * l + l + m)) in *. do 3 f_equal.
  - f_equal. rewrite (Qa i (mks l m s D)); [eapply mks_picked; eauto; lia|lia| |eauto]. intros e He. eapply mks_good; eauto; lia.
  - rewrite (Qc i (mks l m s (map turn D))); [rewrite <- turn_coef; eapply mks_picked; eauto using turn_band; lia|lia| |eauto]. intros e He. apply (mks_good l m s L lmax (nn b X3) (map turn D)); auto using turn_band; lia.
Qed.
Print Assumptions C109_modes.

(** ** Reading the data *)
Definition known (b : sbox) (F : point -> R) (A : nat -> nat -> Prop) (u : list R) : Prop := forall i j k, inbox b (i, j, k) -> A j k -> val b u (i, j, k) = F (i, j, k).
Lemma fill3_ok b k0 k1 j0 j1 (g : nat -> nat -> nat -> list R -> res R) F A u : (k1 <= nn b X3)%nat -> (j1 <= nn b X2)%nat ->
  (forall i j k u, inbox b (i, j, k) -> (j0 <= j < j1)%nat -> (k0 <= k < k1)%nat -> List.length u = npoints b -> known b F A u -> g i j k u = Ok (F (i, j, k))) -> List.length u = npoints b -> known b F A u ->
  exists u', fill3 b k0 k1 j0 j1 g u = Ok u' /\ List.length u' = npoints b /\ known b F (fun j k => A j k \/ ((j0 <= j < j1)%nat /\ (k0 <= k < k1)%nat)) u'.
Proof.
  intros H3 H2 Hg Lu Ku. set (tasks := flat_map (fun k => flat_map (fun j => map (fun i => (i, j, k)) (seq 0 (nn b X1 - 0))) (seq j0 (j1 - j0))) (seq k0 (k1 - k0))).
  assert (Tin : forall i j k, In (i, j, k) tasks <-> (i < nn b X1)%nat /\ (j0 <= j < j1)%nat /\ (k0 <= k < k1)%nat).
  { intros i j k. unfold tasks. split.
    - intros H. apply in_flat_map in H. destruct H as (k' & Hk & H). apply in_flat_map in H. destruct H as (j' & Hj & H). apply in_map_iff in H. destruct H as (i' & E & Hi). injection E as -> -> ->. apply in_seq in Hk, Hj, Hi. lia.
    - intros (Hi & Hj & Hk). apply in_flat_map. exists k. split; [apply in_seq; lia|]. apply in_flat_map. exists j. split; [apply in_seq; lia|]. apply in_map_iff. exists i. split; auto. apply in_seq. lia. }
  destruct (forl_fill b F (known b F A) (fun p u => let '(i, j, k) := p in g i j k u) tasks) with (u := u) as (u' & E & L' & K' & Ht & _); auto.
  - intros [[i j] k] H. apply Tin in H. apply inbox3. lia.
  - intros v v' _ _ Kv H i j k I Aj. apply H; auto.
  - intros [[i j] k] v H Lv Kv. apply Tin in H. apply Hg; auto; try lia. apply inbox3. lia.
  - exists u'. split; [|split; auto].
    + rewrite <- E. unfold tasks, fill3. rewrite forl_flat. unfold for_nat. apply forl_ext. intros k v _. rewrite forl_flat. apply forl_ext. intros j w _. now rewrite forl_map.
    + intros i j k I [Ak|[Hj Hk]]; [now apply K'|]. apply (Ht (i, j, k)). apply Tin. apply inbox3 in I. lia.
Qed.
Lemma known_weaken b F (A B : nat -> nat -> Prop) u : known b F A u -> (forall j k, B j k -> A j k) -> known b F B u. Proof. intros H I i j k Ip Hb. apply H; auto. Qed.
Theorem C109_read ks b gt ntheta nphi bs rs os vals F var : mode_box b -> copy_orders b ks -> List.length var = npoints b ->
  (forall j k, (j < ntheta)%nat -> (k < nphi)%nat -> vals j k = F (theta b j) (phi b k)) ->
  match gt with
  | full => ntheta = (nn b X2 / 2)%nat /\ nphi = nn b X3
  | bitant => covers_theta b ntheta /\ nphi = nn b X3 /\ sym_theta F bs
  | rotant => ntheta = (nn b X2 / 2)%nat /\ nphi = (nn b X3 / 2)%nat /\ sym_rot F rs
  | quadrant => covers_theta b ntheta /\ nphi = (nn b X3 / 2)%nat /\ sym_theta F bs /\ sym_rot F rs
  | octant => covers_theta b ntheta /\ (nphi <= nn b X3 / 2 < 2 * nphi)%nat /\ sym_theta F bs /\ sym_rot F rs /\ sym_phi F os
  end -> exists u, read_spheredata ks b gt ntheta nphi bs rs os vals var = Ok u /\ samples b F u.
Proof.
  intros MB CO Lv HV HS. assert (PP := PI_RGT_0). assert (MB' := MB). destruct MB' as (_ & _ & _ & _ & _ & _ & E2 & E3 & N2 & N3). assert (PN : 0 < INR (nn b X2)) by (apply lt_0_INR; lia). assert (PN3 : 0 < INR (nn b X3)) by (apply lt_0_INR; lia).
  assert (Q2 : (2 * (nn b X2 / 2) = nn b X2)%nat) by (destruct E2 as [h Eh]; rewrite Eh, (Nat.mul_comm 2 h), Nat.div_mul by lia; lia). assert (Q3 : (2 * (nn b X3 / 2) = nn b X3)%nat) by (destruct E3 as [h Eh]; rewrite Eh, (Nat.mul_comm 2 h), Nat.div_mul by lia; lia).
  assert (R2 : INR (nn b X2) = 2 * INR (nn b X2 / 2)) by (rewrite <- Q2 at 1; now rewrite mult_INR). assert (R3 : INR (nn b X3) = 2 * INR (nn b X3 / 2)) by (rewrite <- Q3 at 1; now rewrite mult_INR).
  set (F3 := fun p : point => let '(i, j, k) := p in F (theta b j) (phi b k)).
  assert (Th : forall j, (j < nn b X2 / 2)%nat -> theta b (nn b X2 / 2 - j - 1) = PI - theta b j). { intros j Hj. unfold theta. rewrite !minus_INR by lia. simpl (INR 1). rewrite R2 in *. field. lra. }
  assert (Ph : forall k, (k <= nn b X3 / 2)%nat -> phi b (nn b X3 / 2 - k) = PI - phi b k). { intros k Hk. unfold phi. rewrite !minus_INR by lia. rewrite R3 in *. field. lra. }
  assert (Pr : forall k, (nn b X3 / 2 <= k)%nat -> phi b k = phi b (k - nn b X3 / 2) + PI). { intros k Hk. unfold phi. rewrite !minus_INR by lia. rewrite R3 in *. field. lra. }
  assert (Bd : (ntheta <= nn b X2 / 2 /\ nphi <= nn b X3)%nat) by (destruct gt; unfold covers_theta in HS; lia).
  unfold read_spheredata. destruct (fill3_ok b 0 nphi 0 ntheta (fun i j k u => Ok (vals j k)) F3 (fun _ _ => False) var) as (u1 & E1 & L1 & K1); auto; try lia.
  { intros i j k u I Hj Hk _ _. now rewrite HV by lia. } { intros i j k _ []. } rewrite E1. cbn [rbind]. apply (known_weaken b F3 _ (fun j k => (j < ntheta)%nat /\ (k < nphi)%nat)) in K1. 2:{ intros. right. lia. }
  set (A2 := fun j k => (j < nn b X2 / 2)%nat /\ (k < nphi)%nat).
  match goal with |- context [rbind ?m _] => assert (S2 : exists u2, m = Ok u2 /\ List.length u2 = npoints b /\ known b F3 A2 u2) end.
  { assert (G : covers_theta b ntheta -> sym_theta F bs -> exists u2, fill3 b 0 nphi ntheta (nn b X2 / 2) (fun i j k u => do x <- rd u (Ix b i (nn b X2 / 2 - j - 1) k); Ok (IZR bs * x)) u1 = Ok u2 /\ List.length u2 = npoints b /\ known b F3 A2 u2).
    { intros CT ST. destruct (fill3_ok b 0 nphi ntheta (nn b X2 / 2) (fun i j k u => do x <- rd u (Ix b i (nn b X2 / 2 - j - 1) k); Ok (IZR bs * x)) F3 (fun j k => (j < ntheta)%nat /\ (k < nphi)%nat) u1) as (u2 & E & L & K); auto; try lia.
      - intros i j k u I Hj Hk Lu Ku. apply inbox3 in I. unfold covers_theta in CT. assert (I' : inbox b (i, nn b X2 / 2 - j - 1, k)%nat) by (apply inbox3; lia). rewrite val_rd by auto. cbn [rbind]. rewrite Ku by (auto; lia). unfold F3. rewrite Th by lia. f_equal. rewrite <- ST. f_equal. ring.
      - exists u2. split; auto. split; auto. eapply known_weaken; eauto. intros j k [Hj Hk]. cbv beta. lia. }
    destruct gt; try (apply G; tauto); exists u1; split; auto; split; auto; eapply known_weaken; eauto; intros j k [Hj Hk]; cbv beta; lia. }
  destruct S2 as (u2 & -> & L2 & K2). cbn [rbind]. set (A3 := fun j k => (j < nn b X2 / 2)%nat /\ (k < match gt with octant => nn b X3 / 2 | _ => nphi end)%nat).
  match goal with |- context [rbind ?m _] => assert (S3 : exists u3, m = Ok u3 /\ List.length u3 = npoints b /\ known b F3 A3 u3) end.
  { destruct gt; try (exists u2; split; auto; split; auto; fail). destruct HS as (_ & HN & _ & _ & SP).
    destruct (fill3_ok b nphi (nn b X3 / 2) 0 (nn b X2 / 2) (fun i j k u => do x <- rd u (Ix b i j (nn b X3 / 2 - k)); Ok (IZR os * x)) F3 A2 u2) as (u3 & E & L & K); auto; try lia.
    - intros i j k u I Hj Hk Lu Ku. apply inbox3 in I. assert (I' : inbox b (i, j, nn b X3 / 2 - k)%nat) by (apply inbox3; lia). rewrite val_rd by auto. cbn [rbind]. rewrite Ku by (auto; unfold A2; lia). unfold F3. rewrite Ph by lia. f_equal. rewrite <- SP. f_equal. ring.
    - exists u3. split; auto. split; auto. eapply known_weaken; eauto. unfold A2, A3. intros j k [Hj Hk]. lia. }
  destruct S3 as (u3 & -> & L3 & K3). cbn [rbind].
  match goal with |- context [rbind ?m _] => assert (S4 : exists u4, m = Ok u4 /\ List.length u4 = npoints b /\ known b F3 (fun j _ => (j < nn b X2 / 2)%nat) u4) end.
  { assert (G : (match gt with octant => nn b X3 / 2 | _ => nphi end = nn b X3 / 2)%nat -> sym_rot F rs -> exists u4, fill3 b (nn b X3 / 2) (nn b X3) 0 (nn b X2 / 2) (fun i j k u => do x <- rd u (Ix b i j (k - nn b X3 / 2)); Ok (IZR rs * x)) u3 = Ok u4 /\ List.length u4 = npoints b /\ known b F3 (fun j _ => (j < nn b X2 / 2)%nat) u4).
    { intros HN SP. destruct (fill3_ok b (nn b X3 / 2) (nn b X3) 0 (nn b X2 / 2) (fun i j k u => do x <- rd u (Ix b i j (k - nn b X3 / 2)); Ok (IZR rs * x)) F3 A3 u3) as (u4 & E & L & K); auto; try lia.
      - intros i j k u I Hj Hk Lu Ku. apply inbox3 in I. assert (I' : inbox b (i, j, k - nn b X3 / 2)%nat) by (apply inbox3; lia). rewrite val_rd by auto. cbn [rbind]. rewrite Ku by (auto; unfold A3; rewrite HN; lia). unfold F3. rewrite (Pr k) by lia. now rewrite SP.
      - exists u4. split; auto. split; auto. intros i j k I Hj. apply K; auto. apply inbox3 in I. unfold A3. rewrite HN. lia. }
    destruct gt; try (apply G; tauto); exists u3; split; auto; split; auto; intros i j k I Hj; apply K3; auto; apply inbox3 in I; unfold A3; destruct HS as (? & HS); try (destruct HS); lia. }
  destruct S4 as (u4 & -> & L4 & K4). cbn [rbind]. destruct (copy_arr_ok ks b u4 E2 E3 CO L4) as (u5 & E5 & L5 & C1 & _). exists u5. split; auto. split; auto. intros i j k I Hj. rewrite C1 by auto. now apply K4.
Qed.
Print Assumptions C109_read.

(** ** The time levels *)
Section Times.
Context {A : Type}.
Implicit Types (t : R * A) (f : list (R * A)).
Lemma ltb_spec x y : reflect (x < y) (ltb x y). Proof. unfold ltb. destruct (Rlt_dec x y); constructor; auto. Qed.
Lemma forward_spec before f : forall t, match forward before t f with
  | (Some t', f') => before (fst t') = false /\ (exists sk, t :: f = sk ++ t' :: f' /\ forall a, In a sk -> before (fst a) = true) /\ (before (fst t) = true -> (List.length f' < List.length f)%nat) /\ (List.length f' <= List.length f)%nat /\ (before (fst t) = false -> t' = t /\ f' = f)
  | (None, f') => f' = [] /\ (forall a, In a (t :: f) -> before (fst a) = true) end.
Proof.
  induction f as [|x f IH]; intros t; cbn [forward]; destruct (before (fst t)) eqn:E.
  - split; [reflexivity|]. intros a [<-|[]]; auto.
  - split; auto. split. { exists []. split; [reflexivity|]. intros a []. } repeat split; auto; discriminate.
  - specialize (IH x). destruct (forward before x f) as [[t'|] f'].
    + destruct IH as (H1 & (sk & E2 & H2) & H3 & H4 & H5). split; auto. split. { exists (t :: sk). split. { cbn. now rewrite E2. } intros a [<-|I]; auto. } cbn [List.length]. repeat split; try lia; discriminate.
    + destruct IH as [-> H]. split; auto. intros a [<-|I]; auto.
  - split; auto. split. { exists []. split; [reflexivity|]. intros a []. } repeat split; auto; discriminate.
Qed.
Lemma inc_app f1 f2 : increasing (f1 ++ f2) -> increasing f2.
Proof. induction f1 as [|x f1 IH]; cbn; auto. intros H. inversion H; auto. Qed.
Lemma inc_head t f a : increasing (t :: f) -> In a (t :: f) -> fst t <= fst a.
Proof. intros H [<-|I]; [lra|]. inversion H as [|x y S Fa]; subst. rewrite Forall_forall in Fa. left. now apply Fa. Qed.
Lemma same_skip2 sk f1 f2 t1 p : increasing (t1 :: f1) -> (forall a, In a sk -> fst a < fst t1) -> same_time (t1 :: f1) (sk ++ f2) p <-> same_time (t1 :: f1) f2 p.
Proof.
  intros H S. unfold same_time. rewrite in_app_iff. split; [|tauto]. intros (I1 & [I2|I2] & E); [|tauto]. assert (P := inc_head _ _ _ H I1). assert (Q := S _ I2). lra.
Qed.
Lemma same_skip1 sk f1 f2 t2 p : increasing (t2 :: f2) -> (forall a, In a sk -> fst a < fst t2) -> same_time (sk ++ f1) (t2 :: f2) p <-> same_time f1 (t2 :: f2) p.
Proof.
  intros H S. unfold same_time. rewrite in_app_iff. split; [|tauto]. intros ([I1|I1] & I2 & E); [|tauto]. assert (P := inc_head _ _ _ H I2). assert (Q := S _ I1). lra.
Qed.
Lemma match_spec : forall fuel t1 t2 f1 f2, (List.length f1 + List.length f2 < fuel)%nat -> increasing (t1 :: f1) -> increasing (t2 :: f2) -> exists r, match_times fuel t1 t2 f1 f2 = Ok r /\ match r with
  | None => forall p, ~ same_time (t1 :: f1) (t2 :: f2) p
  | Some (a1, a2, g1, g2) => fst a1 = fst a2 /\ increasing (a1 :: g1) /\ increasing (a2 :: g2) /\ (forall p, same_time (t1 :: f1) (t2 :: f2) p <-> same_time (a1 :: g1) (a2 :: g2) p) /\ (List.length g1 <= List.length f1)%nat /\
      (forall a, In a (a1 :: g1) -> In a (t1 :: f1)) end.
Proof.
  induction fuel as [|fuel IH]; intros t1 t2 f1 f2 HF I1 I2; [lia|]. cbn [match_times]. destruct (Req_EM_T (fst t1) (fst t2)) as [E|N]. { eexists. split; [reflexivity|]. cbv beta iota. split; auto. split; auto. split; auto. split; [intros p; reflexivity|]. auto. }
  assert (S2 := forward_spec (fun time2 => ltb time2 (fst t1)) f2 t2). destruct (forward _ t2 f2) as [[t2'|] f2'].
  2:{ eexists. split; [reflexivity|]. cbv beta iota. destruct S2 as [_ S2]. intros p (P1 & P2 & P3). assert (Q := S2 _ P2). cbv beta in Q. destruct (ltb_spec (fst (snd p)) (fst t1)); [|discriminate]. assert (W := inc_head _ _ _ I1 P1). lra. }
  destruct S2 as (B2 & (sk2 & E2 & K2) & D2 & D2' & Q2). cbv beta in B2, Q2. destruct (ltb_spec (fst t2') (fst t1)) as [|G2]; [discriminate|].
  assert (J2 : increasing (t2' :: f2')) by (rewrite E2 in I2; now apply inc_app in I2). assert (C2 : forall p, same_time (t1 :: f1) (t2 :: f2) p <-> same_time (t1 :: f1) (t2' :: f2') p).
  { intros p. rewrite E2. apply same_skip2; auto. intros a Ia. assert (Q := K2 _ Ia). cbv beta in Q. destruct (ltb_spec (fst a) (fst t1)); auto; discriminate. }
  assert (S1 := forward_spec (fun time1 => ltb time1 (fst t2')) f1 t1). destruct (forward _ t1 f1) as [[t1'|] f1'].
  2:{ eexists. split; [reflexivity|]. cbv beta iota. destruct S1 as [_ S1]. intros p P. apply C2 in P. destruct P as (P1 & P2 & P3). assert (Q := S1 _ P1). cbv beta in Q. destruct (ltb_spec (fst (fst p)) (fst t2')); [|discriminate]. assert (W := inc_head _ _ _ J2 P2). lra. }
  destruct S1 as (B1 & (sk1 & E1 & K1) & D1 & D1' & Q1). assert (J1 : increasing (t1' :: f1')) by (rewrite E1 in I1; now apply inc_app in I1).
  assert (C1 : forall p, same_time (t1 :: f1) (t2' :: f2') p <-> same_time (t1' :: f1') (t2' :: f2') p).
  { intros p. rewrite E1. apply same_skip1; auto. intros a Ia. assert (Q := K1 _ Ia). cbv beta in Q. destruct (ltb_spec (fst a) (fst t2')); auto; discriminate. }
  assert (Less : (List.length f1' + List.length f2' < List.length f1 + List.length f2)%nat).
  { destruct (Rlt_le_dec (fst t2) (fst t1)) as [L|L].
    - assert (List.length f2' < List.length f2)%nat; [|lia]. apply D2. cbv beta. destruct (ltb_spec (fst t2) (fst t1)); auto; lra.
    - assert (X2 : t2' = t2 /\ f2' = f2). { apply Q2. destruct (ltb_spec (fst t2) (fst t1)); auto; lra. } destruct X2 as [-> ->].
      assert (List.length f1' < List.length f1)%nat; [|lia]. apply D1. cbv beta. destruct (ltb_spec (fst t1) (fst t2)); auto; lra. }
  destruct (IH t1' t2' f1' f2' ltac:(lia) J1 J2) as (r & Er & Hr). exists r. split; auto. destruct r as [[[[a1 a2] g1] g2]|].
  - destruct Hr as (H1 & H2 & H3 & H4 & H5 & H6). split; auto. split; auto. split; auto. split. { intros p. now rewrite C2, C1, H4. } split; [lia|].
    intros a Ia. apply H6 in Ia. rewrite E1. apply in_or_app. now right.
  - intros p P. apply C2, C1 in P. exact (Hr p P).
Qed.
(** Modes are written for exactly the times that are in both files, in the order of time, and from the two time levels with this time. *)
Theorem C109_times fuel f1 f2 : (List.length f1 <= fuel)%nat -> increasing f1 -> increasing f2 ->
  exists l, time_loop fuel f1 f2 = Ok l /\ (forall p, In p l <-> same_time f1 f2 p) /\ StronglySorted (fun p q => fst (fst p) < fst (fst q)) l.
Proof.
  revert f1 f2. induction fuel as [|fuel IH]; intros f1 f2 HF I1 I2.
  - destruct f1; [|cbn in HF; lia]. exists []. split; [reflexivity|]. split; [|constructor]. intros p. split; [intros []|]. intros [[] _].
  - destruct f1 as [|t1 f1]. { exists []. split; [reflexivity|]. split; [|constructor]. intros p. split; [intros []|]. intros [[] _]. }
    destruct f2 as [|t2 f2]. { exists []. split; [reflexivity|]. split; [|constructor]. intros p. split; [intros []|]. intros (_ & [] & _). }
    cbn [time_loop]. destruct (match_spec (List.length f1 + List.length f2 + 1) t1 t2 f1 f2 ltac:(lia) I1 I2) as (r & -> & Hr). cbn [rbind]. destruct r as [[[[a1 a2] g1] g2]|].
    + destruct Hr as (E & J1 & J2 & C & Lg & _). cbn in HF. inversion J1 as [|x1 y1 T1 F1]; subst. inversion J2 as [|x2 y2 T2 F2]; subst. rewrite Forall_forall in F1, F2.
      destruct (IH g1 g2 ltac:(lia) T1 T2) as (l & -> & Hl & Sl). cbn [rbind]. exists ((a1, a2) :: l). split; auto. split.
      * intros p. rewrite C. cbn [In]. rewrite Hl. unfold same_time. cbn [In]. split.
        -- intros [<-|(P1 & P2 & P3)]; cbn; auto.
        -- destruct p as [p1 p2]. cbn [fst snd]. intros ([->|P1] & [->|P2] & P3); auto. { assert (Q := F2 _ P2). lra. } assert (Q := F1 _ P1). lra.
      * constructor; auto. rewrite Forall_forall. intros q Iq. apply Hl in Iq. destruct Iq as (Q & _). cbn [fst]. now apply F1.
    + exists []. split; auto. split; [|constructor]. intros p. split; [intros []|]. intros P. destruct (Hr p P).
Qed.
End Times.
Print Assumptions C109_times.

(** ** From the files to the modes: both parts read from files of the same grid type, then the modes *)
Theorem C109_file b ks kr sc rad X Y Z_ s lmax L D gt ntheta nphi bs bs' rs rs' os os' valsR valsI RV IV RY IY RM IM : mode_box b -> mode_coords b rad X Y Z_ -> (forall n, copy_orders b (ks n)) -> (forall n, copy_orders b (kr n)) -> (forall d, schedule b d (sc d)) ->
  ((lmax + 1) * (lmax + 1) <= nn b X1)%nat -> bandlimited D s L -> (2 * (lmax + L) < nn b X2)%nat -> (lmax + L < nn b X3)%nat ->
  List.length RV = npoints b -> List.length IV = npoints b -> List.length RY = npoints b -> List.length IY = npoints b -> List.length RM = npoints b -> List.length IM = npoints b ->
  (forall j k, (j < ntheta)%nat -> (k < nphi)%nat -> valsR j k = field_re D s (theta b j) (phi b k) /\ valsI j k = field_im D s (theta b j) (phi b k)) ->
  let Fr := field_re D s in let Fi := field_im D s in
  match gt with
  | full => ntheta = (nn b X2 / 2)%nat /\ nphi = nn b X3
  | bitant => covers_theta b ntheta /\ nphi = nn b X3 /\ sym_theta Fr bs /\ sym_theta Fi bs'
  | rotant => ntheta = (nn b X2 / 2)%nat /\ nphi = (nn b X3 / 2)%nat /\ sym_rot Fr rs /\ sym_rot Fi rs'
  | quadrant => covers_theta b ntheta /\ nphi = (nn b X3 / 2)%nat /\ (sym_theta Fr bs /\ sym_rot Fr rs) /\ (sym_theta Fi bs' /\ sym_rot Fi rs')
  | octant => covers_theta b ntheta /\ (nphi <= nn b X3 / 2 < 2 * nphi)%nat /\ (sym_theta Fr bs /\ sym_rot Fr rs /\ sym_phi Fr os) /\ (sym_theta Fi bs' /\ sym_rot Fi rs' /\ sym_phi Fi os')
  end -> exists out, (do RV <- read_spheredata (kr 0%nat) b gt ntheta nphi bs rs os valsR RV; do IV <- read_spheredata (kr 1%nat) b gt ntheta nphi bs' rs' os' valsI IV; modes_of b ks sc X Y Z_ s lmax RV IV RY IY RM IM) = Ok out /\
    List.length out = ((lmax + 1) * (lmax + 1))%nat /\ forall l m, (0 <= l <= Z.of_nat lmax)%Z -> (- l <= m <= l)%Z -> nth_error out (Z.to_nat (l * l + l + m)) = Some (l, m, coef_re D l m, coef_im D l m).
Proof.
  intros MB MC CO KO Sc HL BL H2 H3 LR LI LRY LIY LRM LIM HV Fr Fi HS.
  destruct (C109_read (kr 0%nat) b gt ntheta nphi bs rs os valsR Fr RV MB (KO _) LR) as (RV' & -> & SR). { intros. now apply HV. } { destruct gt; tauto. } cbn [rbind].
  destruct (C109_read (kr 1%nat) b gt ntheta nphi bs' rs' os' valsI Fi IV MB (KO _) LI) as (IV' & -> & SI). { intros. now apply HV. } { destruct gt; tauto. } cbn [rbind].
  now apply (C109_modes b ks sc rad X Y Z_ s lmax L D).
Qed.
Print Assumptions C109_file.

(** ** Concrete boxes *)
Lemma mode_box_ex n1 n2 n3 : Nat.Even n2 -> Nat.Even n3 -> (1 <= n1)%nat -> (4 <= n2)%nat -> (2 <= n3)%nat -> exists b, mode_box b /\ nn b X1 = n1 /\ nn b X2 = n2 /\ nn b X3 = n3.
Proof.
  intros E2 E3 H1 H2 H3. assert (PP := PI_RGT_0). destruct (mkdir_built Fourier n2 0 (2 * PI) eq_refl ltac:(lra) ltac:(lia)) as (m2 & B2). destruct (mkdir_built Fourier n3 0 (2 * PI) eq_refl ltac:(lra) ltac:(lia)) as (m3 & B3).
  exists {| bd1 := mkdir Fourier n1 1 (INR n1 + 1) m2; bd2 := mkdir Fourier n2 0 (2 * PI) m2; bd3 := mkdir Fourier n3 0 (2 * PI) m3 |}. split; [|auto]. split; [exact B2|]. split; [exact B3|]. repeat (split; auto).
Qed.
Definition coords_of (b : sbox) : list R * list R * list R :=
  (table b (fun p => 1 + INR (comp X1 p)), table b (fun p => 2 * PI * INR (comp X2 p) / INR (nn b X2)), table b (fun p => phi b (comp X3 p))).
Lemma coords_ok b : let '(X, Y, Z_) := coords_of b in mode_coords b (fun i => 1 + INR i) X Y Z_.
Proof.
  unfold coords_of, mode_coords. do 3 (split; [apply table_length|]). intros i j k I. rewrite !table_val by auto. cbn [comp]. split; auto. assert (P := pos_INR i). lra.
Qed.
Definition in_order (b : sbox) : list nat * list nat := (seq 0 (nn b X3 / 2), seq (nn b X3 / 2) (nn b X3 / 2)).
Lemma in_order_ok b : copy_orders b (in_order b). Proof. split; reflexivity. Qed.
(** the field (3 + 4 i) times the harmonic l=2, m=2 of spin weight -2 on a 9 x 10 x 6 box *)
Example C109_ex : exists b X Y Z_ RV IV out, nn b X2 = 10%nat /\ nn b X3 = 6%nat /\ samples b (fun th ph => 3 * ylm_re 2 2 (-2) th ph - 4 * ylm_im 2 2 (-2) th ph + 0) RV /\
  modes_of b (fun _ => in_order b) (sequential b) X Y Z_ (-2) 2 RV IV RV IV RV IV = Ok out /\ nth_error out 8 = Some (2%Z, 2%Z, 3, 4) /\ nth_error out 7 = Some (2%Z, 1%Z, 0, 0) /\ nth_error out 0 = Some (0%Z, 0%Z, 0, 0).
Proof.
  destruct (mode_box_ex 9 10 6) as (b & MB & N1 & N2 & N3); try lia; try (now exists 5%nat); try (now exists 3%nat). set (D := [(2%Z, 2%Z, 3, 4)] : expansion_terms). assert (MC := coords_ok b). destruct (coords_of b) as [[X Y] Z_].
  set (RV := table b (fun p => field_re D (-2) (theta b (comp X2 p)) (phi b (comp X3 p)))). set (IV := table b (fun p => field_im D (-2) (theta b (comp X2 p)) (phi b (comp X3 p)))).
  assert (SR : samples b (field_re D (-2)) RV). { split; [apply table_length|]. intros i j k I _. unfold RV. now rewrite table_val. } assert (SI : samples b (field_im D (-2)) IV). { split; [apply table_length|]. intros i j k I _. unfold IV. now rewrite table_val. }
  destruct (C109_modes b (fun _ => in_order b) (sequential b) (fun i => 1 + INR i) X Y Z_ (-2) 2 2 D RV IV RV IV RV IV) as (out & E & _ & H); auto using in_order_ok, sequential_schedule; try apply table_length; rewrite ?N1, ?N2, ?N3; try lia.
  { intros l m x y [Q|[]]. injection Q as <- <- _ _. unfold modes. lia. }
  exists b, X, Y, Z_, RV, IV, out. split; auto. split; auto. split; auto. split; auto.
  assert (A := H 2%Z 2%Z ltac:(lia) ltac:(lia)). assert (B := H 2%Z 1%Z ltac:(lia) ltac:(lia)). assert (G := H 0%Z 0%Z ltac:(lia) ltac:(lia)). change (Z.to_nat (2 * 2 + 2 + 2)) with 8%nat in A. change (Z.to_nat (2 * 2 + 2 + 1)) with 7%nat in B. change (Z.to_nat (0 * 0 + 0 + 0)) with 0%nat in G.
  rewrite A, B, G. unfold coef_re, coef_im, D, is_mode, total. cbn [Z.eqb Pos.eqb andb]. repeat split; rewrite ?Rplus_0_r; reflexivity.
Qed.
Example C109_times_ex : exists l, time_loop 3 [(0, 1); (1, 2); (3, 3)] [(1, 4); (2, 5); (3, 6)] = Ok l /\ In ((1, 2), (1, 4)) l /\ In ((3, 3), (3, 6)) l /\ forall p, In p l -> fst (fst p) <> 2 /\ fst (fst p) <> 0.
Proof.
  destruct (C109_times 3 [(0, 1); (1, 2); (3, 3)] [(1, 4); (2, 5); (3, 6)]) as (l & E & H & S); [cbn; lia|repeat constructor; cbn; lra|repeat constructor; cbn; lra|].
  exists l. split; auto. split. { apply H. unfold same_time. cbn. repeat split; auto. } split. { apply H. unfold same_time. cbn. repeat split; auto. }
  intros [[a x] [c y]] I. apply H in I. unfold same_time in I. cbn in I. destruct I as (A & B & ->). cbn. destruct A as [A|[A|[A|[]]]], B as [B|[B|[B|[]]]]; injection A as ? ?; injection B as ? ?; lra.
Qed.
(** ** With n3/4 points in phi in an octant file, as the comment "PI/2<=phi<PI i.e. nphi<=k<n3/2" (ModeComputer.c:213) says, the value at phi = PI/2 is not set from the file *)
Theorem C109_octant_refuted : exists b ntheta nphi vals F var u, mode_box b /\ (4 * ntheta = nn b X2)%nat /\ (4 * nphi = nn b X3)%nat /\ sym_theta F 1 /\ sym_rot F 1 /\ sym_phi F 1 /\ List.length var = npoints b /\
  (forall j k, (j < ntheta)%nat -> (k < nphi)%nat -> vals j k = F (theta b j) (phi b k)) /\ read_spheredata (in_order b) b octant ntheta nphi 1 1 1 vals var = Ok u /\ ~ samples b F u.
Proof.
  destruct (mode_box_ex 1 4 4) as (b & MB & N1 & N2 & N3); try lia; try (now exists 2%nat).
  exists b, 1%nat, 1%nat, (fun _ _ => 1), (fun _ _ => 1), (repeat 0 16).
  assert (NP : npoints b = 16%nat) by (unfold npoints; now rewrite N1, N2, N3). eexists. split; auto. split; [lia|]. split; [lia|]. split; [intros ? ?; ring|]. split; [intros ? ?; ring|]. split; [intros ? ?; ring|]. split; [now rewrite NP|]. split; [reflexivity|]. split.
  - unfold read_spheredata, fill3, copy_arr, in_order, Ix. rewrite N1, N2, N3. cbn. reflexivity.
  - intros [_ S]. assert (Q := S 0%nat 0%nat 1%nat ltac:(apply inbox3; lia) ltac:(rewrite N2; cbn; lia)). unfold val in Q. rewrite N1, N2 in Q. cbn in Q. lra.
Qed.
Print Assumptions C109_octant_refuted.

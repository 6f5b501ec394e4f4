(** C77: the nearest grid point; C78: the box and box coordinates of a point. *)
From Coq Require Import Sorted.
From Verif Require Import Rutil Base Loops Sparse_model Sparse_proofs Cheb_model Dcov_model Dcov_props Find_model.
From Verif Require Import Coord_model Coord_spec Cub_model Cub_spec Cub_proofs Cub_props Cub2_props.
Local Open Scope R_scope.

(** *** C77 *)
(** the distance of grid point i from (x,y,z) *)
Definition distance (b : fbox) (i : nat) (x y z : R) : R := sqrt ((nth i (fx b) 0 - x) ^ 2 + (nth i (fy b) 0 - y) ^ 2 + (nth i (fz b) 0 - z) ^ 2).
Definition coords_at (b : fbox) (i : nat) : pt := (nth i (fX b) 0, nth i (fY b) 0, nth i (fZ b) 0).
Definition all_arrays (b : fbox) : Prop := Forall (fun a => List.length a = nnodes b) [fX b; fY b; fZ b; fx b; fy b; fz b].
(** the result is a closest one among the points of [among], the last of them in the order of the indices; its coordinates and its distance are returned; if there is none the result is -1 and nothing is changed *)
Definition closest (b : fbox) (among : nat -> Prop) (x y z : R) (o : nat * pt) (r : R) (o' : nat * pt) : Prop :=
  ((exists i, among i) /\ among (fst o') /\ snd o' = coords_at b (fst o') /\ r = distance b (fst o') x y z /\
     forall i, among i -> distance b (fst o') x y z <= distance b i x y z /\ (distance b i x y z = distance b (fst o') x y z -> (i <= fst o')%nat)) \/
  ((forall i, ~ among i) /\ r = -1 /\ o' = o).
Definition sqd (b : fbox) (i : nat) (x y z : R) : R := (nth i (fx b) 0 - x) * (nth i (fx b) 0 - x) + (nth i (fy b) 0 - y) * (nth i (fy b) 0 - y) + (nth i (fz b) 0 - z) * (nth i (fz b) 0 - z).
Lemma sqd_pos b i x y z : 0 <= sqd b i x y z. Proof. unfold sqd. assert (Q : forall u, 0 <= u * u) by (intros; nra). pose proof (Q (nth i (fx b) 0 - x)). pose proof (Q (nth i (fy b) 0 - y)). pose proof (Q (nth i (fz b) 0 - z)). lra. Qed.
Lemma dist_sqd b i x y z : distance b i x y z = sqrt (sqd b i x y z). Proof. unfold distance, sqd. f_equal. ring. Qed.
Definition near_inv (b : fbox) (x y z : R) (o : nat * pt) (seen : list nat) (s : near) : Prop :=
  let '(rmin, o') := s in
  (seen = [] /\ rmin = -1 /\ o' = o) \/
  (In (fst o') seen /\ snd o' = coords_at b (fst o') /\ rmin = sqd b (fst o') x y z /\ forall i, In i seen -> rmin <= sqd b i x y z /\ (sqd b i x y z = rmin -> (i <= fst o')%nat)).
Lemma near_list b x y z o : all_arrays b -> forall l seen s, (forall i, In i l -> (i < nnodes b)%nat) -> (forall i j, In i seen -> In j l -> (i < j)%nat) -> Sorted.StronglySorted lt l -> near_inv b x y z o seen s ->
  exists s', forl l (near_step b x y z) s = Ok s' /\ near_inv b x y z o (seen ++ l) s'.
Proof.
  intros AA. unfold all_arrays in AA. rewrite !Forall_cons_iff in AA. destruct AA as (L1 & L2 & L3 & L4 & L5 & L6 & _).
  induction l as [|i l IH]; intros seen s IN LT SO NI; cbn [forl].
  - exists s. rewrite app_nil_r. auto.
  - assert (I : (i < nnodes b)%nat) by (apply IN; now left). destruct s as [rmin o']. unfold near_step at 1.
    rewrite !rd_ok with (d := 0) by lia. cbn [rbind]. cbv zeta. fold (sqd b i x y z). apply Sorted.StronglySorted_inv in SO. destruct SO as [SO FI]. rewrite Forall_forall in FI.
    assert (KEEP : forall i' j, In i' (seen ++ [i]) -> In j l -> (i' < j)%nat). { intros i' j. rewrite in_app_iff. intros [H|[<-|[]]] H'; [apply LT; auto; now right|auto]. }
    replace (seen ++ i :: l) with ((seen ++ [i]) ++ l) by (now rewrite <- app_assoc).
    assert (NEW : (if if Rle_dec (sqd b i x y z) rmin then true else if Rlt_dec rmin 0 then true else false then Ok (sqd b i x y z, (i, (nth i (fX b) 0, nth i (fY b) 0, nth i (fZ b) 0))) else Ok (rmin, o')) =
                  Ok (if if Rle_dec (sqd b i x y z) rmin then true else if Rlt_dec rmin 0 then true else false then (sqd b i x y z, (i, coords_at b i)) else (rmin, o'))) by (destruct (Rle_dec _ _); auto; destruct (Rlt_dec _ _); auto).
    match goal with |- context [rbind ?m _] => change m with (if if Rle_dec (sqd b i x y z) rmin then true else if Rlt_dec rmin 0 then true else false then Ok (sqd b i x y z, (i, (nth i (fX b) 0, nth i (fY b) 0, nth i (fZ b) 0))) else Ok (rmin, o')) end.
    rewrite NEW. cbn [rbind]. apply IH; auto; [intros; apply IN; now right|]. clear NEW IH. pose proof (sqd_pos b i x y z) as SP. cbn [near_inv] in NI.
    destruct NI as [(-> & -> & ->)|(H1 & H2 & H3 & H4)].
    + destruct (Rle_dec _ (-1)); [lra|]. destruct (Rlt_dec (-1) 0); [|lra]. right. cbn [fst snd app]. split; [now left|]. split; auto. split; auto. intros j [<-|[]]. split; [lra|lia].
    + pose proof (sqd_pos b (fst o') x y z). destruct (Rle_dec _ _) as [LE|LE].
      * right. cbn [fst snd]. split; [apply in_app_iff; right; now left|]. split; auto. split; auto. intros j. rewrite in_app_iff. intros [Hj|[<-|[]]]; [|split; [lra|lia]].
        destruct (H4 j Hj) as [Q1 Q2]. split; [lra|]. intros _. specialize (LT j i Hj (or_introl eq_refl)). lia.
      * destruct (Rlt_dec rmin 0); [lra|]. right. split; [apply in_app_iff; now left|]. split; auto. split; auto. intros j. rewrite in_app_iff. intros [Hj|[<-|[]]]; [auto|]. split; [lra|]. intros; lra.
Qed.
Lemma near_closest b x y z o l : all_arrays b -> (forall i, In i l -> (i < nnodes b)%nat) -> Sorted.StronglySorted lt l ->
  exists r o', (do s <- forl l (near_step b x y z) (-1, o); Ok (near_end s)) = Ok (r, o') /\ closest b (fun i => In i l) x y z o r o'.
Proof.
  intros AA IN SO. destruct (near_list b x y z o AA l [] (-1, o) IN) as ([rmin o'] & E & NI); auto; [intros ? ? []|left; auto|]. cbn [app] in NI.
  rewrite E. cbn [rbind near_end]. eexists _, o'. split; [reflexivity|]. destruct NI as [(-> & -> & ->)|(H1 & H2 & H3 & H4)].
  - right. split; [intros i []|]. destruct (Rlt_dec 0 (-1)); [lra|auto].
  - left. split; [eauto|]. split; auto. split; auto. pose proof (sqd_pos b (fst o') x y z) as P. split.
    + rewrite dist_sqd, <- H3. destruct (Rlt_dec 0 rmin); auto. assert (rmin = 0) as -> by lra. now rewrite sqrt_0.
    + intros i Hi. destruct (H4 i Hi) as [Q1 Q2]. rewrite !dist_sqd. rewrite <- H3. split; [apply sqrt_le_1; auto; [lra|apply sqd_pos]|]. intros EQ. apply Q2. apply sqrt_inj; auto; [apply sqd_pos|lra].
Qed.
Lemma closest_ext b P Q x y z o r o' : (forall i, P i <-> Q i) -> closest b P x y z o r o' -> closest b Q x y z o r o'.
Proof.
  intros E [((i & H0) & H1 & H2 & H3 & H4)|(H0 & H1 & H2)].
  - left. split; [exists i; now apply E|]. split; [now apply E|]. repeat split; auto; apply H4; now apply E.
  - right. split; auto. intros i Hi. apply (H0 i). now apply E.
Qed.
Lemma ss_seq n : forall a, Sorted.StronglySorted lt (seq a n).
Proof. induction n; intros a; cbn [seq]; constructor; auto. apply Forall_forall. intros y. rewrite in_seq. lia. Qed.
Lemma ss_app (l1 l2 : list nat) : Sorted.StronglySorted lt l1 -> Sorted.StronglySorted lt l2 -> (forall i j, In i l1 -> In j l2 -> (i < j)%nat) -> Sorted.StronglySorted lt (l1 ++ l2).
Proof.
  intros S1 S2 L. induction S1 as [|i l1 S1 IH F]; cbn [app]; auto. constructor.
  - apply IH. intros; apply L; auto. now right.
  - apply Forall_app. split; auto. apply Forall_forall. intros j Hj. apply L; auto. now left.
Qed.
Lemma ss_flat (l : list nat) f : Sorted.StronglySorted lt l -> (forall k, In k l -> Sorted.StronglySorted lt (f k)) -> (forall k k' i j, In k l -> In k' l -> (k < k')%nat -> In i (f k) -> In j (f k') -> (i < j)%nat) -> Sorted.StronglySorted lt (flat_map f l).
Proof.
  intros S1 S2 L. induction S1 as [|k l S1 IH F]; cbn [flat_map]; [constructor|]. rewrite Forall_forall in F. apply ss_app.
  - apply S2. now left.
  - apply IH; intros; [apply S2; now right|eapply L; eauto; now right].
  - intros i j Hi Hj. apply in_flat_map in Hj. destruct Hj as (k' & Hk & Hj). eapply (L k k'); eauto; [now left|now right].
Qed.
Lemma ss_map (l : list nat) f : Sorted.StronglySorted lt l -> (forall i j, (i < j)%nat -> (f i < f j)%nat) -> Sorted.StronglySorted lt (map f l).
Proof. intros S M. induction S as [|i l S IH F]; cbn [map]; constructor; auto. rewrite Forall_forall in *. intros y Hy. apply in_map_iff in Hy. destruct Hy as (j & <- & Hj). auto. Qed.
(** C77: nearestXYZ_of_xyz searches all points of the box. *)
Theorem C77_box b x y z o : all_arrays b -> exists r o', nearestXYZ_of_xyz b x y z o = Ok (r, o') /\ closest b (fun i => (i < nnodes b)%nat) x y z o r o'.
Proof.
  intros AA. destruct (near_closest b x y z o (seq 0 (nnodes b - 0)) AA) as (r & o' & E & C). { intros i. rewrite in_seq. lia. } { apply ss_seq. }
  exists r, o'. split; [exact E|]. eapply closest_ext; [|exact C]. intros i. cbv beta. rewrite in_seq. lia.
Qed.
Print Assumptions C77_box.
(** the indices of a block of points *)
Definition block (d : dims) (li lj lk : list nat) : list nat := flat_map (fun k => flat_map (fun j => map (fun i => idx d i j k) li) lj) lk.
Lemma block_in d li lj lk n : In n (block d li lj lk) <-> exists i j k, In i li /\ In j lj /\ In k lk /\ n = idx d i j k.
Proof.
  unfold block. rewrite in_flat_map. split.
  - intros (k & Hk & H). apply in_flat_map in H. destruct H as (j & Hj & H). apply in_map_iff in H. destruct H as (i & <- & Hi). eauto 10.
  - intros (i & j & k & Hi & Hj & Hk & ->). exists k. split; auto. apply in_flat_map. exists j. split; auto. apply in_map_iff. eauto.
Qed.
Lemma idx_lt d i j k : (i < d1 d)%nat -> (j < d2 d)%nat -> (k < d3n d)%nat -> (idx d i j k < d1 d * d2 d * d3n d)%nat.
Proof. unfold idx. intros. assert (j + d2 d * k < d2 d * d3n d)%nat by nia. nia. Qed.
Lemma block_ss d li lj lk : Sorted.StronglySorted lt li -> Sorted.StronglySorted lt lj -> Sorted.StronglySorted lt lk -> (forall i, In i li -> (i < d1 d)%nat) -> (forall j, In j lj -> (j < d2 d)%nat) -> Sorted.StronglySorted lt (block d li lj lk).
Proof.
  intros Si Sj Sk Bi Bj. apply ss_flat; auto.
  - intros k _. apply ss_flat; auto. { intros j _. apply ss_map; auto. unfold idx. lia. }
    intros j j' a c Hj Hj' L Ha Hc. apply in_map_iff in Ha, Hc. destruct Ha as (i & <- & Hi), Hc as (i' & <- & Hi'). specialize (Bi _ Hi). unfold idx. nia.
  - intros k k' a c _ _ L Ha Hc. apply in_flat_map in Ha, Hc. destruct Ha as (j & Hj & Ha), Hc as (j' & Hj' & Hc). apply in_map_iff in Ha, Hc. destruct Ha as (i & <- & Hi), Hc as (i' & <- & Hi').
    specialize (Bi _ Hi). specialize (Bj _ Hj). unfold idx. assert (j + d2 d * k + 1 <= j' + d2 d * k')%nat by nia. nia.
Qed.
Lemma near_block b x y z o li lj lk : all_arrays b -> Sorted.StronglySorted lt li -> Sorted.StronglySorted lt lj -> Sorted.StronglySorted lt lk ->
  (forall i, In i li -> (i < d1 (fd b))%nat) -> (forall j, In j lj -> (j < d2 (fd b))%nat) -> (forall k, In k lk -> (k < d3n (fd b))%nat) ->
  exists r o', (do s <- forl lk (fun k => forl lj (fun j => forl li (fun i => near_step b x y z (idx (fd b) i j k)))) (-1, o); Ok (near_end s)) = Ok (r, o') /\
    closest b (fun n => exists i j k, In i li /\ In j lj /\ In k lk /\ n = idx (fd b) i j k) x y z o r o'.
Proof.
  intros AA Si Sj Sk Bi Bj Bk. destruct (near_closest b x y z o (block (fd b) li lj lk) AA) as (r & o' & E & C).
  - intros n. rewrite block_in. intros (i & j & k & Hi & Hj & Hk & ->). unfold nnodes. apply idx_lt; auto.
  - apply block_ss; auto.
  - exists r, o'. split; [|eapply closest_ext; [|exact C]; intros n; apply block_in].
    rewrite <- E. f_equal. unfold block. rewrite forl_flat. apply forl_ext. intros k s _. rewrite forl_flat. apply forl_ext. intros j s' _. now rewrite forl_map.
Qed.
(** C77: the search for a guess looks at the points away from the boundary. *)
Theorem C77_inner b x y z o : all_arrays b -> exists r o', nearestinnerXYZ_of_xyz b x y z o = Ok (r, o') /\
  closest b (fun n => exists i j k, (0 < i < d1 (fd b) - 1)%nat /\ (0 < j < d2 (fd b) - 1)%nat /\ (0 < k < d3n (fd b) - 1)%nat /\ n = idx (fd b) i j k) x y z o r o'.
Proof.
  intros AA. destruct (near_block b x y z o (seq 1 (d1 (fd b) - 1 - 1)) (seq 1 (d2 (fd b) - 1 - 1)) (seq 1 (d3n (fd b) - 1 - 1)) AA (ss_seq _ _) (ss_seq _ _) (ss_seq _ _)) as (r & o' & E & C); try (intros ?; rewrite in_seq; lia).
  exists r, o'. split; [exact E|]. eapply closest_ext; [|exact C]. intros n. split; intros (i & j & k & Hi & Hj & Hk & ->); exists i, j, k; rewrite ?in_seq in *; repeat split; auto; lia.
Qed.
Print Assumptions C77_inner.
(** C77: the search in a plane looks at the points of that plane; other plane numbers are refused. *)
Definition in_plane (d : dims) (plane pind n : nat) : Prop := exists i j k, (i < d1 d)%nat /\ (j < d2 d)%nat /\ (k < d3n d)%nat /\ n = idx d i j k /\ match plane with 1%nat => i = pind | 2%nat => j = pind | _ => k = pind end.
Definition plane_size (d : dims) (plane : nat) : nat := match plane with 1%nat => d1 d | 2%nat => d2 d | _ => d3n d end.
Lemma ss1 a : Sorted.StronglySorted lt [a]. Proof. repeat constructor. Qed.
Theorem C77_plane b x y z o plane pind : all_arrays b -> (pind < plane_size (fd b) plane)%nat -> (1 <= plane <= 3)%nat ->
  exists r o', nearestXYZ_of_xyz_inplane b x y z plane pind o = Ok (r, o') /\ closest b (in_plane (fd b) plane pind) x y z o r o'.
Proof.
  intros AA PB PL. assert (one : forall S (f : nat -> S -> res S) s, forl [pind] f s = f pind s) by (intros; cbn [forl]; destruct (f pind s); reflexivity).
  assert (plane = 1 \/ plane = 2 \/ plane = 3)%nat as [->|[->| ->]] by lia; cbn [plane_size] in PB.
  - destruct (near_block b x y z o [pind] (seq 0 (d2 (fd b) - 0)) (seq 0 (d3n (fd b) - 0)) AA (ss1 _) (ss_seq _ _) (ss_seq _ _)) as (r & o' & E & C); try (intros ?; rewrite in_seq; lia). { intros i [<-|[]]. auto. }
    exists r, o'. split.
    + rewrite <- E. cbn [nearestXYZ_of_xyz_inplane]. unfold for_nat. f_equal. apply forl_ext. intros k s _. apply forl_ext. intros j s' _. now rewrite one.
    + eapply closest_ext; [|exact C]. intros n. split.
      * intros (i & j & k & Hi & Hj & Hk & ->). rewrite in_seq in *. destruct Hi as [<-|[]]. exists pind, j, k. repeat split; auto; lia.
      * intros (i & j & k & Hi & Hj & Hk & -> & ->). exists pind, j, k. rewrite !in_seq. repeat split; auto; try lia. now left.
  - destruct (near_block b x y z o (seq 0 (d1 (fd b) - 0)) [pind] (seq 0 (d3n (fd b) - 0)) AA (ss_seq _ _) (ss1 _) (ss_seq _ _)) as (r & o' & E & C); try (intros ?; rewrite in_seq; lia). { intros i [<-|[]]. auto. }
    exists r, o'. split.
    + rewrite <- E. cbn [nearestXYZ_of_xyz_inplane]. unfold for_nat. f_equal. apply forl_ext. intros k s _. now rewrite one.
    + eapply closest_ext; [|exact C]. intros n. split.
      * intros (i & j & k & Hi & Hj & Hk & ->). rewrite in_seq in *. destruct Hj as [<-|[]]. exists i, pind, k. repeat split; auto; lia.
      * intros (i & j & k & Hi & Hj & Hk & -> & ->). exists i, pind, k. rewrite !in_seq. repeat split; auto; try lia. now left.
  - destruct (near_block b x y z o (seq 0 (d1 (fd b) - 0)) (seq 0 (d2 (fd b) - 0)) [pind] AA (ss_seq _ _) (ss_seq _ _) (ss1 _)) as (r & o' & E & C); try (intros ?; rewrite in_seq; lia). { intros i [<-|[]]. auto. }
    exists r, o'. split.
    + rewrite <- E. cbn [nearestXYZ_of_xyz_inplane]. unfold for_nat. now rewrite one.
    + eapply closest_ext; [|exact C]. intros n. split.
      * intros (i & j & k & Hi & Hj & Hk & ->). rewrite in_seq in *. destruct Hk as [<-|[]]. exists i, j, pind. repeat split; auto; lia.
      * intros (i & j & k & Hi & Hj & Hk & -> & ->). exists i, j, pind. rewrite !in_seq. repeat split; auto; try lia. now left.
Qed.
Print Assumptions C77_plane.
Theorem C77_plane_refused b x y z o plane pind : (plane < 1 \/ 3 < plane)%nat -> nearestXYZ_of_xyz_inplane b x y z plane pind o = Err.
Proof. intros H. destruct plane as [|[|[|[|p]]]]; try lia; reflexivity. Qed.
Print Assumptions C77_plane_refused.
(** C77: over several boxes, the closest of all their points. *)
Theorem C77_boxes grid x y z j l o : (forall bi, In bi l -> all_arrays (grid bi) /\ (0 < nnodes (grid bi))%nat) -> l <> [] ->
  exists r bi i, nearest_b_loop grid x y z j l o = Ok (r, (bi, (i, coords_at (grid bi) i))) /\ In bi l /\ (i < nnodes (grid bi))%nat /\ r = distance (grid bi) i x y z /\
  forall bi' i', In bi' l -> (i' < nnodes (grid bi'))%nat -> r <= distance (grid bi') i' x y z.
Proof.
  intros AA NE. unfold nearest_b_loop.
  assert (G : forall l seen rmin o0, (forall bi, In bi l -> all_arrays (grid bi) /\ (0 < nnodes (grid bi))%nat) ->
     (seen = [] /\ rmin = -1) \/ (exists bi i, o0 = (bi, (i, coords_at (grid bi) i)) /\ In bi seen /\ (i < nnodes (grid bi))%nat /\ rmin = distance (grid bi) i x y z /\ forall bi' i', In bi' seen -> (i' < nnodes (grid bi'))%nat -> rmin <= distance (grid bi') i' x y z) ->
     exists r o', forl l (fun bi s => let '(rmin, o) := s in do (r, o1) <- nearestXYZ_of_xyz (grid bi) x y z j; if (if Rle_dec r rmin then true else if Rlt_dec rmin 0 then true else false) then Ok (r, (bi, o1)) else Ok s) (rmin, o0) = Ok (r, o') /\
     ((seen ++ l = [] /\ r = -1) \/ (exists bi i, o' = (bi, (i, coords_at (grid bi) i)) /\ In bi (seen ++ l) /\ (i < nnodes (grid bi))%nat /\ r = distance (grid bi) i x y z /\ forall bi' i', In bi' (seen ++ l) -> (i' < nnodes (grid bi'))%nat -> r <= distance (grid bi') i' x y z))).
  { clear l o AA NE. induction l as [|bi l IH]; intros seen rmin o0 AA NI; cbn [forl].
    - exists rmin, o0. rewrite app_nil_r. auto.
    - destruct (AA bi (or_introl eq_refl)) as [A1 A2]. destruct (C77_box (grid bi) x y z j A1) as (r & (i, c) & E & C). rewrite E. cbn [rbind].
      destruct C as [(_ & H1 & H2 & H3 & H4)|(H0 & _ & _)]; [|exfalso; apply (H0 0%nat); lia]. cbn [fst snd] in *. subst c.
      replace (seen ++ bi :: l) with ((seen ++ [bi]) ++ l) by (now rewrite <- app_assoc).
      assert (RP : 0 <= r) by (rewrite H3; apply sqrt_pos).
      set (cnd := if Rle_dec r rmin then true else if Rlt_dec rmin 0 then true else false).
      assert (EQ : (if cnd then Ok (r, (bi, (i, coords_at (grid bi) i))) else Ok (rmin, o0)) = Ok (if cnd then r else rmin, if cnd then (bi, (i, coords_at (grid bi) i)) else o0)) by (destruct cnd; reflexivity).
      rewrite EQ. cbn [rbind]. apply IH; [intros; apply AA; now right|]. right. unfold cnd. clear EQ cnd.
      destruct NI as [(-> & ->)|(b0 & i0 & -> & I1 & I2 & I3 & I4)].
      + destruct (Rle_dec r (-1)); [lra|]. destruct (Rlt_dec (-1) 0); [|lra]. exists bi, i. split; auto. split; [now left|]. split; auto. split; auto. intros b' i' [<-|[]] Hi. rewrite H3. now apply H4.
      + assert (0 <= rmin) by (rewrite I3; apply sqrt_pos). destruct (Rle_dec r rmin) as [LE|LE].
        * exists bi, i. split; auto. split; [apply in_app_iff; right; now left|]. split; auto. split; auto. intros b' i'. rewrite in_app_iff. intros [Hb|[<-|[]]] Hi; [specialize (I4 b' i' Hb Hi); lra|]. rewrite H3. now apply H4.
        * destruct (Rlt_dec rmin 0); [lra|]. exists b0, i0. split; auto. split; [apply in_app_iff; now left|]. split; auto. split; auto. intros b' i'. rewrite in_app_iff. intros [Hb|[<-|[]]] Hi; [auto|]. destruct (H4 i' Hi) as [Q _]. lra. }
  destruct (G l [] (-1) o AA (or_introl (conj eq_refl eq_refl))) as (r & o' & E & [(Q & _)|(bi & i & -> & I1 & I2 & I3 & I4)]); [contradiction|]. cbn [app] in *. exists r, bi, i. auto.
Qed.
Print Assumptions C77_boxes.
(** C77: XYZ_on_face counts the faces within 1e-10 of the point, and moveXYZ_off_face moves the point inwards by 1e-6 of the length of the box in the directions of those faces only. *)
Definition near_face (bb : nat -> R) (X Y Z : R) (f : nat) : Prop := Rabs (comp X Y Z (1 + f / 2) - bb f) <= 1 / 10000000000.
Theorem C77_faces bb X Y Z : let '(face, nf) := XYZ_on_face bb X Y Z in List.length face = 6%nat /\ (forall f, (f < 6)%nat -> nth f face false = true <-> near_face bb X Y Z f) /\ (nf = 0%nat <-> forall f, (f < 6)%nat -> ~ near_face bb X Y Z f).
Proof.
  unfold XYZ_on_face. assert (N : forall f, (f < 6)%nat -> nth f (map (fun f => dequal (comp X Y Z (1 + f / 2)) (bb f)) (seq 0 6)) false = dequal (comp X Y Z (1 + f / 2)) (bb f)).
  { intros f F. do 6 (destruct f as [|f]; [reflexivity|]). lia. }
  set (face := map _ _) in *. assert (L : List.length face = 6%nat) by (unfold face; now rewrite map_length, seq_length). split; auto. split.
  - intros f F. rewrite N by auto. apply dequal_abs.
  - rewrite <- count_occ_not_In. split.
    + intros NI f F H. apply NI. apply dequal_abs in H. rewrite <- (N f F) in H. rewrite <- H. apply nth_In. lia.
    + intros NF H. apply (In_nth _ _ false) in H. destruct H as (f & F & H). rewrite L in F. apply (NF f F). apply dequal_abs. now rewrite <- N.
Qed.
Print Assumptions C77_faces.
Theorem C77_off_face bb X Y Z dir : (1 <= dir <= 3)%nat -> let '(nf, (X', Y', Z')) := moveXYZ_off_face bb X Y Z in let lo := (2 * (dir - 1))%nat in let L := bb (lo + 1)%nat - bb lo in
  (~ near_face bb X Y Z lo -> ~ near_face bb X Y Z (lo + 1) -> comp X' Y' Z' dir = comp X Y Z dir) /\
  (near_face bb X Y Z lo -> ~ near_face bb X Y Z (lo + 1) -> comp X' Y' Z' dir = comp X Y Z dir + L / 1000000) /\
  (near_face bb X Y Z (lo + 1) -> comp X' Y' Z' dir = comp X Y Z dir - L / 1000000).
Proof.
  intros DI. pose proof (C77_faces bb X Y Z) as F. unfold moveXYZ_off_face. destruct (XYZ_on_face bb X Y Z) as [face nf]. destruct F as (L & NF & Z0).
  assert (G : forall d X0, (d < 3)%nat -> let lo := (2 * d)%nat in (~ near_face bb X Y Z lo -> ~ near_face bb X Y Z (lo + 1) -> X0 + face_step bb face d = X0) /\ (near_face bb X Y Z lo -> ~ near_face bb X Y Z (lo + 1) -> X0 + face_step bb face d = X0 + (bb (lo + 1)%nat - bb lo) / 1000000) /\ (near_face bb X Y Z (lo + 1) -> X0 + face_step bb face d = X0 - (bb (lo + 1)%nat - bb lo) / 1000000)).
  { intros d X0 D lo. unfold face_step. fold lo. pose proof (NF lo ltac:(lia)) as A. pose proof (NF (lo + 1)%nat ltac:(lia)) as B. destruct (nth (lo + 1) face false), (nth lo face false); (split; [|split]); intros; first [lra|exfalso; intuition congruence]. }
  destruct (Nat.eqb_spec nf 0) as [E|E].
  - assert (NN : forall f, (f < 6)%nat -> ~ near_face bb X Y Z f) by (now apply Z0). assert (dir = 1 \/ dir = 2 \/ dir = 3)%nat as [->|[->| ->]] by lia; cbn [comp Nat.sub Nat.mul Nat.add]; repeat split; intros H; try (exfalso; eapply NN; [|exact H]; lia); auto.
  - assert (dir = 1 \/ dir = 2 \/ dir = 3)%nat as [->|[->| ->]] by lia; cbn [comp]; [apply (G 0%nat)|apply (G 1%nat)|apply (G 2%nat)]; lia.
Qed.
Print Assumptions C77_off_face.
Example C77_ex : let b := FBox (Dims 1 1 2) [0; 0] [0; 0] [5; 6] [0; 0] [0; 0] [1; 2] in all_arrays b /\ nnodes b = 2%nat /\ distance b 0 0 0 1 = 0.
Proof.
  split; [|split; [reflexivity|]]. { unfold all_arrays. repeat constructor. }
  unfold distance. cbn [nth fx fy fz]. replace ((0 - 0) ^ 2 + (0 - 0) ^ 2 + (1 - 1) ^ 2) with 0 by ring. apply sqrt_0.
Qed.

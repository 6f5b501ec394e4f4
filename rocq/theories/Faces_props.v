From Coq Require Import FunctionalExtensionality FinFun Classical_Prop Sorted Permutation Psatz.
From Verif Require Import Rutil Cheb_model Faces_model Faces_spec.
Local Open Scope R_scope.

(** ** C100: touching faces are found and paired point by point *)
Lemma dist2_sym p q : dist2 p q = dist2 q p.
Proof. destruct p as [[a b] c], q as [[x y] z]. unfold dist2. ring. Qed.
Lemma dist2_pos p q : 0 <= dist2 p q.
Proof. destruct p as [[a b] c], q as [[x y] z]. unfold dist2. assert (T := Rle_0_sqr). unfold Rsqr in T. pose proof (T (a - x)). pose proof (T (b - y)). pose proof (T (c - z)). lra. Qed.
Lemma dequal_0 r : 0 <= r -> (dequal r 0 = true <-> r <= dequaleps).
Proof.
  intros H. unfold dequal, dless, dequaleps. destruct (Rlt_dec r (0 - 1 / 10000000000)), (Rlt_dec 0 (r - 1 / 10000000000)); cbn; split; intros; try discriminate; try lra; reflexivity.
Qed.
(** *** the nearest point *)
Lemma near_fold (g : gbox) p : forall l s, 0 <= fst s ->
  let s' := fold_left (fun s i => let r := dist2 (xyz g i) p in if Rle_dec r (fst s) then (r, i) else if Rlt_dec (fst s) 0 then (r, i) else s) l s in
  (s' = s \/ In (snd s') l /\ fst s' = dist2 (xyz g (snd s')) p) /\ fst s' <= fst s /\ (forall q, In q l -> fst s' <= dist2 (xyz g q) p).
Proof.
  induction l as [|i l IH]; intros s Hs; cbn [fold_left]. { cbv zeta. split; [now left|]. split; [lra|]. intros q []. }
  cbv zeta in *. set (s1 := if Rle_dec _ _ then _ else _). assert (D := dist2_pos (xyz g i) p).
  assert (H1 : 0 <= fst s1 /\ fst s1 <= fst s /\ fst s1 <= dist2 (xyz g i) p /\ (s1 = s \/ snd s1 = i /\ fst s1 = dist2 (xyz g i) p)).
  { unfold s1. destruct (Rle_dec _ _); [cbn; repeat split; try lra; now right|]. destruct (Rlt_dec _ _); [lra|]. repeat split; try lra. now left. }
  destruct H1 as (A1 & A2 & A3 & A4). destruct (IH s1 A1) as (B1 & B2 & B3). clear IH. split; [|split].
  - destruct B1 as [->|[B1 B1']]; [|right; split; [now right|auto]]. destruct A4 as [->|[A4 A4']]; [now left|]. right. split; [left; auto|]. now rewrite A4, A4'.
  - lra.
  - intros q [<-|Hq]; [lra|auto].
Qed.
Lemma nearest_ok g f p : plane_pts g f <> [] -> let '(r, i) := nearest g f p in let r2 := if Rlt_dec 0 r then r * r else r in
  In i (plane_pts g f) /\ r2 = dist2 (xyz g i) p /\ 0 <= r2 /\ forall q, In q (plane_pts g f) -> dist2 (xyz g i) p <= dist2 (xyz g q) p.
Proof.
  intros H. unfold nearest. destruct (plane_pts g f) as [|i0 l] eqn:E; [congruence|]. clear H. cbn [fold_left fst]. assert (D0 := dist2_pos (xyz g i0) p).
  destruct (Rle_dec (dist2 (xyz g i0) p) (-1)) as [|]; [lra|]. destruct (Rlt_dec (-1) 0); [|lra].
  destruct (near_fold g p l (dist2 (xyz g i0) p, i0)) as (B1 & B2 & B3); [exact D0|]. cbv zeta in B1, B2, B3. set (s := fold_left _ l _) in *. cbn [fst] in B2.
  assert (V : fst s = dist2 (xyz g (snd s)) p) by (destruct B1 as [->|[_ B1]]; auto). assert (I : In (snd s) (i0 :: l)) by (destruct B1 as [->|[B1 _]]; [now left|now right]).
  assert (DS := dist2_pos (xyz g (snd s)) p). cbn zeta. split; auto.
  assert (R2 : (if Rlt_dec 0 (if Rlt_dec 0 (fst s) then sqrt (fst s) else fst s) then (if Rlt_dec 0 (fst s) then sqrt (fst s) else fst s) * (if Rlt_dec 0 (fst s) then sqrt (fst s) else fst s) else (if Rlt_dec 0 (fst s) then sqrt (fst s) else fst s)) = fst s).
  { destruct (Rlt_dec 0 (fst s)) as [P|P]. - assert (0 < sqrt (fst s)) by (apply sqrt_lt_R0; auto). destruct (Rlt_dec 0 (sqrt (fst s))); [|lra]. apply sqrt_sqrt. lra. - destruct (Rlt_dec 0 (fst s)); [lra|]. reflexivity. }
  rewrite R2. split; auto. split; [lra|]. intros q [<-|Hq]; rewrite <- V; [lra|auto].
Qed.
(** *** one scan over a face *)
Definition hit (G1 G2 : gbox) (f2 p : nat) : list nat :=
  let '(r, i) := nearest G2 f2 (xyz G1 p) in let r := if Rlt_dec 0 r then r * r else r in if dequal r 0 then [i] else [].
Lemma hit_ok G1 G2 f2 p : plane_pts G2 f2 <> [] ->
  (exists q, hit G1 G2 f2 p = [q] /\ In q (plane_pts G2 f2) /\ same_place G1 G2 p q) \/ (hit G1 G2 f2 p = [] /\ forall q, In q (plane_pts G2 f2) -> ~ same_place G1 G2 p q).
Proof.
  intros H. unfold hit. assert (N := nearest_ok G2 f2 (xyz G1 p) H). destruct (nearest G2 f2 (xyz G1 p)) as [r i]. cbv zeta in N. set (r2 := if Rlt_dec 0 r then r * r else r) in *. destruct N as (I & V & P & M).
  destruct (dequal r2 0) eqn:E.
  - left. exists i. split; auto. split; auto. unfold same_place. rewrite dist2_sym. apply (dequal_0 r2 P) in E. lra.
  - right. split; auto. intros q Hq S. unfold same_place in S. rewrite dist2_sym in S. specialize (M q Hq). assert (dequal r2 0 = true) by (apply (dequal_0 r2 P); lra). congruence.
Qed.
Definition app_fpts (o : option (list nat)) (l : list nat) : option (list nat) := match l with [] => o | _ => Some (match o with None => l | Some k => k ++ l end) end.
Lemma app_fpts_app o l l' : app_fpts (app_fpts o l) l' = app_fpts o (l ++ l').
Proof. destruct l as [|a l], l' as [|a' l'], o as [k|]; cbn; rewrite ?app_nil_r; try reflexivity. - now rewrite <- app_assoc. Qed.
Lemma add_pt_fpts p x : add_pt p x = with_fpts (app_fpts (fpts x) [p]) x.
Proof. destruct x as [? ? ? ? ? ? ? ? ? ? [k|]]; reflexivity. Qed.
Lemma with_fpts2 l l' x : with_fpts l (with_fpts l' x) = with_fpts l x.
Proof. reflexivity. Qed.
Lemma scan_ok G1 G2 f2 : forall l x1 x2, fold_left (scan_pt G1 G2 f2) l (x1, x2) = (with_fpts (app_fpts (fpts x1) l) x1, with_fpts (app_fpts (fpts x2) (flat_map (hit G1 G2 f2) l)) x2).
Proof.
  induction l as [|p l IH]; intros x1 x2; cbn [fold_left flat_map app_fpts]. { destruct x1, x2; reflexivity. }
  assert (E : scan_pt G1 G2 f2 (x1, x2) p = (with_fpts (app_fpts (fpts x1) [p]) x1, with_fpts (app_fpts (fpts x2) (hit G1 G2 f2 p)) x2)).
  { unfold scan_pt, hit. destruct (nearest G2 f2 (xyz G1 p)) as [r i]. cbv zeta. rewrite !add_pt_fpts. destruct (dequal _ 0); auto. f_equal. destruct x2; reflexivity. }
  rewrite E, IH. cbn [fpts with_fpts]. rewrite !with_fpts2, !app_fpts_app. reflexivity.
Qed.
Lemma hits_length G1 G2 f2 l : (List.length (flat_map (hit G1 G2 f2) l) <= List.length l)%nat.
Proof. induction l as [|p l IH]; cbn [flat_map]; auto. rewrite app_length. unfold hit at 1. destruct (nearest G2 f2 (xyz G1 p)). cbv zeta. destruct (dequal _ 0); cbn [List.length]; lia. Qed.
Lemma hits_all G1 G2 f2 l : plane_pts G2 f2 <> [] ->
  (List.length (flat_map (hit G1 G2 f2) l) = List.length l <-> forall p, In p l -> exists q, In q (plane_pts G2 f2) /\ same_place G1 G2 p q) /\
  (List.length (flat_map (hit G1 G2 f2) l) = List.length l -> Forall2 (same_place G1 G2) l (flat_map (hit G1 G2 f2) l)) /\ incl (flat_map (hit G1 G2 f2) l) (plane_pts G2 f2).
Proof.
  intros H. induction l as [|p l (IH1 & IH2 & IH3)]; cbn [flat_map]. { split; [|split]; [split; auto; intros _ ? []|constructor|intros ? []]. }
  assert (Q := hits_length G1 G2 f2 l). destruct (hit_ok G1 G2 f2 p H) as [(q & -> & I & S)|(-> & N)]; cbn [app List.length] in *.
  - split; [|split].
    + split. * intros L r [<-|Hr]; [eauto|]. apply IH1; auto; lia. * intros A. f_equal. apply IH1. intros r Hr. apply A. now right.
    + intros L. constructor; [auto|apply IH2; lia].
    + intros r [<-|Hr]; auto.
  - split; [|split]; auto.
    + split; [intros; lia|]. intros A. destruct (A p) as (q & Iq & Sq); [now left|]. destruct (N q Iq Sq).
    + intros; lia.
Qed.

Section P.
Variable grid : nat -> gbox.
Variable nb : nat.
Hypothesis pos : forall b, (b < nb)%nat -> forall f, plane_pts (grid b) f <> [].
Notation ok b f := ((b < nb)%nat /\ (f < 6)%nat).
(** all faces are untouched or paired *)
Definition Inv (st : faces) : Prop := forall b f, ok b f -> st b f = empty_bface \/ exists b2 f2, ok b2 f2 /\ pair grid st b f b2 f2.
Lemma pair_sym st b f b2 f2 : pair grid st b f b2 f2 -> pair grid st b2 f2 b f.
Proof.
  intros (A0 & A1 & A2 & A3 & A4 & A5 & A6 & A7 & A8 & A9 & l & l2 & B1 & B2 & B3 & B4 & B5 & B6). repeat (split; [solve [auto]|]). split. { rewrite A9. now rewrite negb_involutive. }
  exists l2, l. repeat (split; [solve [auto]|]). split. { clear - B3. induction B3; constructor; auto. unfold same_place in *. now rewrite dist2_sym. } split; auto. split; auto. tauto.
Qed.
Lemma fset_same st b f x : fset st b f x b f = x. Proof. unfold fset. now rewrite !Nat.eqb_refl. Qed.
Lemma fset_other st b f x b' f' : (b', f') <> (b, f) -> fset st b f x b' f' = st b' f'.
Proof. intros H. unfold fset. destruct (Nat.eqb_spec b' b), (Nat.eqb_spec f' f); cbn [andb]; auto. congruence. Qed.
Lemma fset_id st b f : fset st b f (st b f) = st.
Proof. apply functional_extensionality. intros b'. apply functional_extensionality. intros f'. unfold fset. destruct (Nat.eqb_spec b' b), (Nat.eqb_spec f' f); cbn [andb]; subst; auto. Qed.
(** one pair of faces that are not in use *)
Lemma try_ok st b b2 fi fi2 : Inv st -> ok b fi -> ok b2 fi2 -> b <> b2 -> st b fi = empty_bface -> st b2 fi2 = empty_bface ->
  (covered (grid b) (grid b2) fi fi2 /\ exists st', try_pair grid 0 b b2 fi fi2 st = Ok (st', true) /\ Inv st' /\ pair grid st' b fi b2 fi2 /\ (forall b' f', (b', f') <> (b, fi) -> (b', f') <> (b2, fi2) -> st' b' f' = st b' f')) \/
  (~ covered (grid b) (grid b2) fi fi2 /\ try_pair grid 0 b b2 fi fi2 st = Ok (st, false)).
Proof.
  intros HI H1 H2 Hb E1 E2. unfold try_pair. cbn [Nat.add]. rewrite scan_ok, E1, E2. cbn [empty_bface fpts].
  assert (F1 : fset st b fi empty_bface = st) by (rewrite <- E1; apply fset_id). assert (F2 : fset st b2 fi2 empty_bface = st) by (rewrite <- E2; apply fset_id).
  assert (P1 := pos b (proj1 H1) fi). assert (P2 := pos b2 (proj1 H2) fi2). set (l := plane_pts (grid b) fi) in *. set (h := flat_map (hit (grid b) (grid b2) fi2) l).
  destruct (hits_all (grid b) (grid b2) fi2 l P2) as (Q1 & Q2 & Q3). fold h in Q1, Q2, Q3. assert (El : app_fpts None l = Some l) by (destruct l; [congruence|reflexivity]). rewrite El.
  destruct h as [|x h'] eqn:Eh.
  - right. cbn [app_fpts fpts with_fpts rbind]. split.
    + intros C. apply Q1 in C. destruct l; [congruence|discriminate].
    + f_equal. f_equal. match goal with |- fset (fset _ _ _ ?x) _ _ ?y = _ => change x with empty_bface; change y with empty_bface end. now rewrite F1, F2.
  - rewrite <- Eh in *. assert (Eh2 : app_fpts None h = Some h) by (rewrite Eh; reflexivity). rewrite Eh2. cbn [fpts with_fpts npts]. rewrite !Nat.eqb_refl. cbn [rbind].
    destruct (Nat.eqb_spec (List.length l) (List.length h)) as [L|L].
    + left. split. { unfold covered. fold l. apply Q1. auto. } set (x1 := with_pair b2 fi2 _). set (x2 := with_nd _ _). exists (fset (fset st b fi x1) b2 fi2 x2). split; auto.
      assert (NE : (b, fi) <> (b2, fi2)) by congruence. assert (V1 : fset (fset st b fi x1) b2 fi2 x2 b fi = x1) by (rewrite fset_other, fset_same; auto). assert (V2 := fset_same (fset st b fi x1) b2 fi2 x2).
      assert (V3 : forall b' f', (b', f') <> (b, fi) -> (b', f') <> (b2, fi2) -> fset (fset st b fi x1) b2 fi2 x2 b' f' = st b' f') by (intros; rewrite !fset_other; auto).
      set (st' := fset (fset st b fi x1) b2 fi2 x2) in *.
      assert (PP : pair grid st' b fi b2 fi2).
      { unfold pair. rewrite V1, V2. repeat (split; [reflexivity || auto|]). exists l, h. split; [reflexivity|]. split; [reflexivity|]. split; [apply Q2; lia|]. split; [apply incl_refl|]. split; auto. }
      split; [|split; auto]. intros b' f' O. destruct (Nat.eq_dec b' b) as [->|Nb]; [destruct (Nat.eq_dec f' fi) as [->|Nf]|].
      * right. exists b2, fi2. auto.
      * destruct (HI b f' O) as [E|(b3 & f3 & O3 & P3)]. { left. rewrite V3; auto; congruence. }
        right. exists b3, f3. split; auto. unfold pair in *. assert (N1 : (b3, f3) <> (b, fi)). { intros X. injection X as -> ->. destruct P3 as (_ & _ & _ & P3 & _). rewrite E1 in P3. cbn in P3. lia. }
        assert (N2 : (b3, f3) <> (b2, fi2)). { intros X. injection X as -> ->. destruct P3 as (_ & _ & _ & P3 & _). rewrite E2 in P3. cbn in P3. lia. } rewrite !V3 by (auto; congruence). exact P3.
      * destruct (Nat.eq_dec b' b2) as [->|Nb2]; [destruct (Nat.eq_dec f' fi2) as [->|Nf]|].
        -- right. exists b, fi. split; auto. now apply pair_sym.
        -- destruct (HI b2 f' O) as [E|(b3 & f3 & O3 & P3)]. { left. rewrite V3; auto; congruence. }
           right. exists b3, f3. split; auto. unfold pair in *. assert (N1 : (b3, f3) <> (b, fi)). { intros X. injection X as -> ->. destruct P3 as (_ & _ & _ & P3 & _). rewrite E1 in P3. cbn in P3. lia. }
           assert (N2 : (b3, f3) <> (b2, fi2)). { intros X. injection X as -> ->. destruct P3 as (_ & _ & _ & P3 & _). rewrite E2 in P3. cbn in P3. lia. } rewrite !V3 by (auto; congruence). exact P3.
        -- destruct (HI b' f' O) as [E|(b3 & f3 & O3 & P3)]. { left. rewrite V3; auto; congruence. }
           right. exists b3, f3. split; auto. unfold pair in *. assert (N1 : (b3, f3) <> (b, fi)). { intros X. injection X as -> ->. destruct P3 as (_ & _ & _ & P3 & _). rewrite E1 in P3. cbn in P3. lia. }
           assert (N2 : (b3, f3) <> (b2, fi2)). { intros X. injection X as -> ->. destruct P3 as (_ & _ & _ & P3 & _). rewrite E2 in P3. cbn in P3. lia. } rewrite !V3 by (auto; congruence). exact P3.
    + right. split. { intros C. apply Q1 in C. lia. }
      f_equal. f_equal. match goal with |- fset (fset _ _ _ ?x) _ _ ?y = _ => change x with empty_bface; change y with empty_bface end. now rewrite F1, F2.
Qed.
(** faces in use stay as they are *)
Definition grows (st st' : faces) : Prop := forall b f, ok b f -> st b f <> empty_bface -> st' b f = st b f.
Lemma grows_refl st : grows st st. Proof. intros b f O H. reflexivity. Qed.
Lemma grows_trans a b c : grows a b -> grows b c -> grows a c.
Proof. intros H1 H2 x f O N. rewrite <- (H1 x f O N). apply H2; auto. rewrite (H1 x f O N). auto. Qed.
Lemma empty_back st st' b f : grows st st' -> ok b f -> st' b f = empty_bface -> st b f = empty_bface.
Proof.
  intros G O E. destruct (Z.eq_dec 0 0) as [_|]; [|congruence]. assert (D : st b f = empty_bface \/ st b f <> empty_bface) by apply Classical_Prop.classic. destruct D as [D|D]; auto. rewrite <- (G b f O D). exact E.
Qed.
Lemma in_use st b f : Inv st -> ok b f -> (0 <=? ob (st b f))%Z = false -> st b f = empty_bface.
Proof. intros HI O E. destruct (HI b f O) as [H|(b2 & f2 & _ & H)]; auto. destruct H as (_ & H & _). apply Z.leb_gt in E. lia. Qed.
Lemma bf_dec (x y : nat * nat) : {x = y} + {x <> y}.
Proof. decide equality; apply Nat.eq_dec. Qed.
(** the number of faces in use *)
Definition used (st : faces) (l : list (nat * nat)) : nat := List.length (filter (fun x => (0 <=? ob (st (fst x) (snd x)))%Z) l).
Lemma used_set st st' x0 y0 l : NoDup l -> In x0 l -> In y0 l -> x0 <> y0 -> (ob (st (fst x0) (snd x0)) < 0)%Z -> (ob (st (fst y0) (snd y0)) < 0)%Z ->
  (0 <= ob (st' (fst x0) (snd x0)))%Z -> (0 <= ob (st' (fst y0) (snd y0)))%Z -> (forall x, x <> x0 -> x <> y0 -> st' (fst x) (snd x) = st (fst x) (snd x)) -> used st' l = (2 + used st l)%nat.
Proof.
  intros ND I1 I2 NE A1 A2 A3 A4 A5. unfold used.
  assert (H : forall l, NoDup l -> (List.length (filter (fun x => (0 <=? ob (st' (fst x) (snd x)))%Z) l) = (if in_dec bf_dec x0 l then 1 else 0) + (if in_dec bf_dec y0 l then 1 else 0) + List.length (filter (fun x => (0 <=? ob (st (fst x) (snd x)))%Z) l))%nat).
  { clear l ND I1 I2. induction l as [|x l IH]; intros ND; [reflexivity|]. inversion ND as [|? ? N1 N2]; subst. specialize (IH N2). cbn [filter].
    destruct (bf_dec x x0) as [->|Nx0].
    - destruct (Z.leb_spec 0 (ob (st' (fst x0) (snd x0)))); [|lia]. destruct (Z.leb_spec 0 (ob (st (fst x0) (snd x0)))); [lia|]. cbn [List.length]. rewrite IH.
      destruct (in_dec _ x0 l); [tauto|]. destruct (in_dec _ x0 (x0 :: l)) as [_|nn]; [|destruct nn; now left]. destruct (in_dec _ y0 l), (in_dec _ y0 (x0 :: l)) as [ii|n']; try lia; [destruct n'; now right|destruct ii; congruence].
    - destruct (bf_dec x y0) as [->|Ny0].
      + destruct (Z.leb_spec 0 (ob (st' (fst y0) (snd y0)))); [|lia]. destruct (Z.leb_spec 0 (ob (st (fst y0) (snd y0)))); [lia|]. cbn [List.length]. rewrite IH.
        destruct (in_dec _ y0 l); [tauto|]. destruct (in_dec _ y0 (y0 :: l)) as [_|nn]; [|destruct nn; now left]. destruct (in_dec _ x0 l), (in_dec _ x0 (y0 :: l)) as [ii|n']; try lia; [destruct n'; now right|destruct ii; congruence].
      + rewrite (A5 x Nx0 Ny0). destruct (in_dec _ x0 l), (in_dec _ x0 (x :: l)) as [ii|n']; try (exfalso; destruct n'; now right); try (exfalso; destruct ii; congruence);
        destruct (in_dec _ y0 l), (in_dec _ y0 (x :: l)) as [i'|n'']; try (exfalso; destruct n''; now right); try (exfalso; destruct i'; congruence); destruct (0 <=? _)%Z; cbn [List.length]; lia. }
  rewrite H by auto. destruct (in_dec _ x0 l); [|tauto]. destruct (in_dec _ y0 l); [|tauto]. lia.
Qed.
Definition all_faces : list (nat * nat) := flat_map (fun b => map (fun f => (b, f)) (seq 0 6)) (seq 0 nb).
Lemma all_faces_in b f : ok b f -> In (b, f) all_faces.
Proof. intros [H1 H2]. apply in_flat_map. exists b. split; [apply in_seq; lia|]. apply in_map. apply in_seq. lia. Qed.
Lemma all_faces_nodup : NoDup all_faces.
Proof.
  unfold all_faces. clear pos. set (L := seq 0 6). assert (NL : NoDup L) by apply seq_NoDup. clearbody L. generalize 0%nat. induction nb as [|n IH]; intros s; [constructor|]. cbn [seq flat_map].
  assert (AppND : forall (l l' : list (nat * nat)), NoDup l -> NoDup l' -> (forall x, In x l -> ~ In x l') -> NoDup (l ++ l')).
  { clear. induction l as [|a l IH]; intros l' H1 H2 H3; auto. inversion H1; subst. cbn. constructor. - rewrite in_app_iff. intros [?|?]; auto. apply (H3 a); auto. now left. - apply IH; auto. intros x Hx. apply H3. now right. }
  apply AppND.
  - apply FinFun.Injective_map_NoDup; [intros x y E; congruence|exact NL].
  - apply IH.
  - intros x Hx Hy. apply in_map_iff in Hx. destruct Hx as (f & <- & _). apply in_flat_map in Hy. destruct Hy as (b & Hb & Hf). apply in_seq in Hb. apply in_map_iff in Hf. destruct Hf as (f' & E & _). injection E as -> ->. lia.
Qed.
(** no two free faces that match *)
Definition tried (st : faces) (b b2 fi fi2 : nat) : Prop := st b fi = empty_bface -> st b2 fi2 = empty_bface -> ~ covered (grid b) (grid b2) fi fi2.
Lemma tried_grows st st' b b2 fi fi2 : ok b fi -> ok b2 fi2 -> grows st st' -> tried st b b2 fi fi2 -> tried st' b b2 fi fi2.
Proof. intros O1 O2 G T E1 E2. apply T; eapply empty_back; eauto. Qed.
Definition good (s : faces * nat) : Prop := Inv (fst s) /\ used (fst s) all_faces = (2 * snd s)%nat.
Lemma fi2_ok b b2 fi : ok b fi -> (b2 < nb)%nat -> b <> b2 -> forall l s, (forall x, In x l -> (x < 6)%nat) -> good s -> fst s b fi = empty_bface ->
  exists s', fi2_loop grid 0 b b2 fi l s = Ok s' /\ good s' /\ grows (fst s) (fst s') /\ forall fi2, In fi2 l -> tried (fst s') b b2 fi fi2.
Proof.
  intros O1 Hb2 NE. induction l as [|fi2 l IH]; intros s Hl HG E; cbn [fi2_loop Nat.add].
  { exists s. split; auto. split; auto. split; [apply grows_refl|]. intros ? []. }
  assert (O2 : ok b2 fi2) by (split; [auto|apply Hl; now left]). assert (Hl' : forall x, In x l -> (x < 6)%nat) by (intros; apply Hl; now right).
  destruct (0 <=? ob (fst s b2 fi2))%Z eqn:U.
  { destruct (IH s Hl' HG E) as (s' & E' & G' & M & T). exists s'. split; auto. split; auto. split; auto. intros f [<-|Hf]; auto. intros X1 X2. exfalso.
    assert (X := empty_back _ _ b2 fi2 M O2 X2). rewrite X in U. discriminate. }
  destruct HG as [HI HU]. assert (E2 := in_use _ _ _ HI O2 U).
  destruct (try_ok (fst s) b b2 fi fi2 HI O1 O2 NE E E2) as [(C & st' & ET & HI' & PP & V)|(C & ET)]; rewrite ET; cbn [rbind].
  - exists (st', S (snd s)). split; auto. split.
    + split; auto. cbn [fst snd]. rewrite (used_set (fst s) st' (b, fi) (b2, fi2)); [lia|apply all_faces_nodup|now apply all_faces_in|now apply all_faces_in|congruence|cbn [fst snd]; rewrite E; cbn; lia|cbn [fst snd]; rewrite E2; cbn; lia| | |].
      * cbn [fst snd]. destruct PP as (_ & PP & _). rewrite PP. lia.
      * cbn [fst snd]. destruct PP as (_ & _ & _ & PP & _). rewrite PP. lia.
      * intros [b' f'] N1 N2. cbn [fst snd]. apply V; auto.
    + split. { intros b' f' O N. apply V; intros X; injection X as -> ->; auto. }
      intros f Hf X1. exfalso. cbn [fst] in X1. destruct PP as (_ & PP & _). rewrite X1 in PP. cbn in PP. lia.
  - destruct s as [st k]. cbn [fst snd] in *. destruct (IH (st, k) Hl' (conj HI HU) E) as (s' & E' & G' & M & T). exists s'. split; auto. split; auto. split; auto. intros f [<-|Hf]; auto.
    eapply tried_grows; eauto. intros _ _. exact C.
Qed.
Lemma fi_ok b b2 : (b < nb)%nat -> (b2 < nb)%nat -> b <> b2 -> forall l s, (forall x, In x l -> (x < 6)%nat) -> good s ->
  exists s', fi_loop grid 0 b b2 l s = Ok s' /\ good s' /\ grows (fst s) (fst s') /\ forall fi fi2, In fi l -> (fi2 < 6)%nat -> tried (fst s') b b2 fi fi2.
Proof.
  intros H1 H2 NE. induction l as [|fi l IH]; intros s Hl HG; cbn [fi_loop Nat.add].
  { exists s. split; auto. split; auto. split; [apply grows_refl|]. intros ? ? []. }
  assert (O1 : ok b fi) by (split; [auto|apply Hl; now left]). assert (Hl' : forall x, In x l -> (x < 6)%nat) by (intros; apply Hl; now right).
  assert (X : exists s1, (if (0 <=? ob (fst s b fi))%Z then Ok s else fi2_loop grid 0 b b2 fi (seq 0 6) s) = Ok s1 /\ good s1 /\ grows (fst s) (fst s1) /\ forall fi2, (fi2 < 6)%nat -> tried (fst s1) b b2 fi fi2).
  { destruct (0 <=? ob (fst s b fi))%Z eqn:U.
    - exists s. split; auto. split; auto. split; [apply grows_refl|]. intros f Hf X1. rewrite X1 in U. discriminate.
    - destruct (fi2_ok b b2 fi O1 H2 NE (seq 0 6) s) as (s1 & E1 & G1 & M1 & T1); auto. { intros x Hx. apply in_seq in Hx. lia. } { destruct HG. now apply in_use. }
      exists s1. split; auto. split; auto. split; auto. intros f Hf. apply T1. apply in_seq. lia. }
  destruct X as (s1 & -> & G1 & M1 & T1). cbn [rbind]. destruct (IH s1 Hl' G1) as (s' & E' & G' & M' & T'). exists s'. split; auto. split; auto. split; [eapply grows_trans; eauto|].
  intros f f2 [<-|Hf] H6; [|now apply T']. eapply tried_grows; eauto.
Qed.
Lemma b2_ok b : (b < nb)%nat -> forall l s, (forall x, In x l -> (x < nb)%nat) -> good s ->
  exists s', b2_loop grid 0 b l s = Ok s' /\ good s' /\ grows (fst s) (fst s') /\ forall b2 fi fi2, In b2 l -> b2 <> b -> (fi < 6)%nat -> (fi2 < 6)%nat -> tried (fst s') b b2 fi fi2.
Proof.
  intros H1. induction l as [|b2 l IH]; intros s Hl HG; cbn [b2_loop].
  { exists s. split; auto. split; auto. split; [apply grows_refl|]. intros ? ? ? []. }
  assert (H2 : (b2 < nb)%nat) by (apply Hl; now left). assert (Hl' : forall x, In x l -> (x < nb)%nat) by (intros; apply Hl; now right).
  assert (X : exists s1, (if (b2 =? b)%nat then Ok s else fi_loop grid 0 b b2 (seq 0 6) s) = Ok s1 /\ good s1 /\ grows (fst s) (fst s1) /\ forall fi fi2, b2 <> b -> (fi < 6)%nat -> (fi2 < 6)%nat -> tried (fst s1) b b2 fi fi2).
  { destruct (Nat.eqb_spec b2 b) as [->|N].
    - exists s. split; auto. split; auto. split; [apply grows_refl|]. congruence.
    - destruct (fi_ok b b2 H1 H2 (not_eq_sym N) (seq 0 6) s) as (s1 & E1 & G1 & M1 & T1); auto. { intros x Hx. apply in_seq in Hx. lia. }
      exists s1. split; auto. split; auto. split; auto. intros f f2 _ Hf Hf2. apply T1; auto. apply in_seq. lia. }
  destruct X as (s1 & -> & G1 & M1 & T1). cbn [rbind]. destruct (IH s1 Hl' G1) as (s' & E' & G' & M' & T'). exists s'. split; auto. split; auto. split; [eapply grows_trans; eauto|].
  intros c f f2 [<-|Hc] Nc Hf Hf2; [|now apply T']. eapply tried_grows; eauto.
Qed.
Lemma b_ok : forall l s, (forall x, In x l -> (x < nb)%nat) -> good s ->
  exists s', b_loop grid 0 nb l s = Ok s' /\ good s' /\ grows (fst s) (fst s') /\ forall b b2 fi fi2, In b l -> (b2 < nb)%nat -> b2 <> b -> (fi < 6)%nat -> (fi2 < 6)%nat -> tried (fst s') b b2 fi fi2.
Proof.
  induction l as [|b l IH]; intros s Hl HG; cbn [b_loop].
  { exists s. split; auto. split; auto. split; [apply grows_refl|]. intros ? ? ? ? []. }
  assert (H2 : (b < nb)%nat) by (apply Hl; now left). assert (Hl' : forall x, In x l -> (x < nb)%nat) by (intros; apply Hl; now right).
  destruct (b2_ok b H2 (seq 0 nb) s) as (s1 & E1 & G1 & M1 & T1); auto. { intros x Hx. apply in_seq in Hx. lia. } rewrite E1. cbn [rbind].
  destruct (IH s1 Hl' G1) as (s' & E' & G' & M' & T'). exists s'. split; auto. split; auto. split; [eapply grows_trans; eauto|].
  intros c c2 f f2 [<-|Hc] Hc2 Nc Hf Hf2; [|now apply T']. eapply tried_grows; eauto. apply T1; auto. apply in_seq. lia.
Qed.
Lemma init_good st : good (init_faces 0 nb st, 0%nat).
Proof.
  assert (V : forall b f, ok b f -> init_faces 0 nb st b f = empty_bface). { intros b f [H1 H2]. unfold init_faces. destruct (Nat.leb_spec 0 b), (Nat.ltb_spec b (0 + nb)), (Nat.ltb_spec f 6); try lia. reflexivity. }
  split. - intros b f O. left. now apply V.
  - cbn [fst snd]. unfold used. rewrite (proj2 (List.length_zero_iff_nil _)); auto. assert (H : forall x, In x all_faces -> (0 <=? ob (init_faces 0 nb st (fst x) (snd x)))%Z = false).
    { intros [b f] H. unfold all_faces in H. apply in_flat_map in H. destruct H as (b' & Hb & Hf). apply in_map_iff in Hf. destruct Hf as (f' & E & Hf). injection E as -> ->. apply in_seq in Hb, Hf. cbn [fst snd]. rewrite V by lia. reflexivity. }
    revert H. generalize all_faces. induction l as [|x l IH]; intros H; auto. cbn [filter]. rewrite H by now left. apply IH. intros y Hy. apply H. now right.
Qed.
End P.

(** All boxes with at least one point on each face (numbers of points at least 1), boxes numbered from 0 (as in all calls in the program). *)
Theorem C100_pairs grid nb st : (forall b, (b < nb)%nat -> (1 <= g1 (grid b) /\ 1 <= g2 (grid b) /\ 1 <= g3 (grid b))%nat) ->
  exists st' k, set_touching grid 0 nb st = Ok (st', k) /\
    (** every face is free or one of a pair *)
    (forall b f, (b < nb)%nat -> (f < 6)%nat -> unpaired (st' b f) /\ fpts (st' b f) = None \/ exists b2 f2, (b2 < nb)%nat /\ (f2 < 6)%nat /\ pair grid st' b f b2 f2) /\
    (** no two free faces of different boxes match *)
    (forall b f b2 f2, (b < nb)%nat -> (f < 6)%nat -> (b2 < nb)%nat -> (f2 < 6)%nat -> b <> b2 -> unpaired (st' b f) -> unpaired (st' b2 f2) -> ~ covered (grid b) (grid b2) f f2) /\
    (** the result of the function is the number of pairs *)
    List.length (filter (fun x => (0 <=? ob (st' (fst x) (snd x)))%Z) (list_prod (seq 0 nb) (seq 0 6))) = (2 * k)%nat.
Proof.
  intros Hp. assert (pos : forall b, (b < nb)%nat -> forall f, plane_pts (grid b) f <> []).
  { intros b Hb f. destruct (Hp b Hb) as (A1 & A2 & A3). assert (NE : forall a n (F : nat -> nat -> nat) m, (1 <= n)%nat -> (1 <= m)%nat -> flat_map (fun k => map (fun j => F k j) (seq a n)) (seq 0 m) <> []).
    { intros a n F m H1 H2. destruct n as [|n], m as [|m]; try lia. cbn. discriminate. }
    unfold plane_pts. destruct (f / 2)%nat as [|[|]]; apply NE; auto. }
  destruct (b_ok grid nb pos (seq 0 nb) (init_faces 0 nb st, 0%nat)) as ([st' k] & E & [HI HU] & _ & T). { intros x Hx. apply in_seq in Hx. lia. } { apply init_good. }
  exists st', k. split; auto. cbn [fst snd] in *. split; [|split].
  - intros b f Hb Hf. destruct (HI b f (conj Hb Hf)) as [->|(b2 & f2 & [? ?] & P)]; [left|right; exists b2, f2; auto]. repeat split.
  - intros b f b2 f2 Hb Hf Hb2 Hf2 N U1 U2. assert (F : forall b f, (b < nb)%nat -> (f < 6)%nat -> unpaired (st' b f) -> st' b f = empty_bface).
    { intros c g Hc Hg (U & _). destruct (HI c g (conj Hc Hg)) as [H|(? & ? & _ & (_ & H & _))]; auto. lia. }
    apply (T b b2 f f2); auto. apply in_seq. lia.
  - rewrite <- HU. unfold used. f_equal. f_equal. unfold all_faces. clear. generalize (seq 0 nb). induction l as [|b l IH]; auto. cbn [list_prod flat_map]. now rewrite IH.
Qed.

(** the faces that are left over become outer boundaries with all their points; the others stay as they are *)
Lemma add_all l : forall x, fold_left (fun x p => add_pt p x) l x = with_fpts (app_fpts (fpts x) l) x.
Proof. induction l as [|p l IH]; intros x; cbn [fold_left app_fpts]. { destruct x; reflexivity. } rewrite IH, add_pt_fpts. cbn [fpts with_fpts]. rewrite with_fpts2, app_fpts_app. reflexivity. Qed.
Theorem C100_outer grid nb st st' k : (forall b, (b < nb)%nat -> (1 <= g1 (grid b) /\ 1 <= g2 (grid b) /\ 1 <= g3 (grid b))%nat) -> set_touching grid 0 nb st = Ok (st', k) ->
  forall b f, (b < nb)%nat -> (f < 6)%nat -> let x := set_outer grid 0 nb st' b f in
  outerb x = true /\ unpaired x /\ fpts x = Some (plane_pts (grid b) f) \/ outerb x = outerb (st' b f) /\ x = st' b f /\ exists b2 f2, (b2 < nb)%nat /\ (f2 < 6)%nat /\ pair grid (set_outer grid 0 nb st') b f b2 f2.
Proof.
  intros Hp E b f Hb Hf. destruct (C100_pairs grid nb st Hp) as (st1 & k1 & E1 & A & _). rewrite E in E1. injection E1 as <- <-. cbv zeta.
  assert (V : forall b f, (b < nb)%nat -> (f < 6)%nat -> ob (st' b f) <> (-1)%Z -> set_outer grid 0 nb st' b f = st' b f).
  { intros c g Hc Hg N. unfold set_outer. destruct (Z.eqb_spec (ob (st' c g)) (-1)); [tauto|]. now rewrite andb_false_r. }
  destruct (A b f Hb Hf) as [((U1 & U2 & U3) & U4)|(b2 & f2 & H2 & H6 & P)].
  - left. unfold set_outer. destruct (Nat.leb_spec 0 b), (Nat.ltb_spec b (0 + nb)), (Nat.ltb_spec f 6); try lia. rewrite U1, Z.eqb_refl. cbn [andb]. rewrite add_all, U4.
    split; [reflexivity|]. split; [repeat split; cbn; auto|]. cbn [fpts with_outer with_fpts]. destruct (plane_pts (grid b) f) eqn:X; auto. exfalso. revert X. clear - Hp Hb.
    destruct (Hp b Hb) as (A1 & A2 & A3). assert (NE : forall a n (F : nat -> nat -> nat) m, (1 <= n)%nat -> (1 <= m)%nat -> flat_map (fun k => map (fun j => F k j) (seq a n)) (seq 0 m) <> []).
    { intros a n F m H1 H2. destruct n as [|n], m as [|m]; try lia. cbn. discriminate. } unfold plane_pts. destruct (f / 2)%nat as [|[|]]; apply NE; auto.
  - right. assert (P' := P). destruct P' as (_ & P1 & _ & P2 & _). rewrite V by (auto; lia). split; auto. split; auto. exists b2, f2. split; auto. split; auto. unfold pair. rewrite !V by (auto; lia). exact P.
Qed.

(** *** values on one face, normal derivatives on the other *)
Section Flags.
Variables (F s2 : bool) (nb : nat) (st0 : faces).
Notation ok b f := ((b < nb)%nat /\ (f < 6)%nat).
Hypothesis shape : forall b f, ok b f -> (ob (st0 b f) < 0)%Z \/ (ofi (st0 b f) < 0)%Z \/ touch (st0 b f) = false \/ exists b2 f2, ok b2 f2 /\ mutual st0 b f b2 f2.
Hypothesis Fs2 : s2 = true -> F = true.
Notation frame st := (forall b f, st b f = with_nd (setnd (st b f)) (st0 b f)).
Definition done (pre : list (nat * nat)) (st : faces) : Prop := forall b f b2 f2, ok b f -> ok b2 f2 -> (b < b2)%nat -> mutual st0 b f b2 f2 ->
  (In (b, f) pre -> setnd (st b2 f2) = negb (setnd (st b f)) /\ (F = true -> setnd (st b f) = s2)) /\ (~ In (b, f) pre -> F = true -> setnd (st b f) = false /\ setnd (st b2 f2) = false).
Lemma mutual_sym b f b2 f2 : mutual st0 b f b2 f2 -> mutual st0 b2 f2 b f.
Proof. unfold mutual. intuition. Qed.
Lemma mutual_fun b f b2 f2 b3 f3 : mutual st0 b f b2 f2 -> mutual st0 b f b3 f3 -> b2 = b3 /\ f2 = f3.
Proof. unfold mutual. intros (_ & H1 & H2 & _) (_ & H3 & H4 & _). split; lia. Qed.
Lemma flags_step pre b f st : ok b f -> frame st -> done pre st -> ~ In (b, f) pre -> (forall b' f', ok b' f' -> (b' < b)%nat -> In (b', f') pre) ->
  exists st', consistent_face s2 st b f = Ok st' /\ frame st' /\ done (pre ++ [(b, f)]) st'.
Proof.
  intros O Fr D N B.
  assert (FB : forall b f, ob (st b f) = ob (st0 b f) /\ ofi (st b f) = ofi (st0 b f) /\ touch (st b f) = touch (st0 b f)) by (intros c g; rewrite (Fr c g); repeat split).
  assert (Skip : ~ (exists b2 f2, mutual st0 b f b2 f2) -> done (pre ++ [(b, f)]) st).
  { intros NM c g c2 g2 Oc Oc2 L M. destruct (D c g c2 g2 Oc Oc2 L M) as [D1 D2]. split; intros I; [apply D1|apply D2].
    - apply in_app_iff in I. destruct I as [I|[I|[]]]; auto. injection I as <- <-. destruct NM. eauto.
    - intros J. apply I. apply in_app_iff. auto. }
  unfold consistent_face. destruct (FB b f) as (-> & -> & ->). destruct (Z.ltb_spec (ob (st0 b f)) 0).
  { exists st. split; auto. split; auto. apply Skip. intros (? & ? & (_ & M & _)). lia. }
  destruct (Z.ltb_spec (ofi (st0 b f)) 0). { exists st. split; auto. split; auto. apply Skip. intros (? & ? & (_ & _ & M & _)). lia. }
  destruct (touch (st0 b f)) eqn:T. 2: { exists st. split; auto. split; auto. apply Skip. intros (? & ? & (_ & _ & _ & _ & _ & M & _)). congruence. }
  destruct (shape b f O) as [Hs|[Hs|[Hs|(b2 & f2 & O2 & M)]]]; try lia; try congruence. assert (M' := M). destruct M' as (NE & M1 & M2 & M3 & M4 & M5 & M6).
  rewrite M1, M2, !Nat2Z.id. destruct (FB b2 f2) as (_ & -> & ->). rewrite M6, M4, Z.eqb_refl. cbn [negb].
  set (st' := if s2 then fset st b f (with_nd (negb (setnd (st b2 f2))) (st b f)) else fset st b2 f2 (with_nd (negb (setnd (st b f))) (st b2 f2))).
  exists st'. split. { unfold st'. destruct s2; reflexivity. }
  assert (NE2 : (b, f) <> (b2, f2)) by congruence.
  assert (W : forall v c g, with_nd v (st c g) = with_nd v (st0 c g)) by (intros v c g; rewrite (Fr c g); reflexivity).
  assert (Fr' : frame st'). { intros c g. unfold st'. destruct s2; [destruct (bf_dec (c, g) (b, f)) as [X|X]|destruct (bf_dec (c, g) (b2, f2)) as [X|X]]; try (injection X as -> ->; rewrite fset_same; apply W); rewrite fset_other by auto; apply Fr. }
  split; auto.
  assert (Oth : forall c g, (c, g) <> (b, f) -> (c, g) <> (b2, f2) -> setnd (st' c g) = setnd (st c g)) by (intros; unfold st'; destruct s2; rewrite fset_other; auto).
  intros c g c2 g2 Oc Oc2 L Mc. destruct (bf_dec (c, g) (b, f)) as [X|X]; [|destruct (bf_dec (c, g) (b2, f2)) as [Y|Y]].
  - injection X as -> ->. destruct (mutual_fun _ _ _ _ _ _ M Mc) as [<- <-]. destruct (D b f b2 f2 Oc Oc2 L M) as [_ D2]. specialize (D2 N). split; [|intros J; destruct J; apply in_app_iff; right; now left]. intros _.
    unfold st'. destruct s2 eqn:E2.
    + destruct (D2 (Fs2 eq_refl)) as [A1 A2]. rewrite fset_same, fset_other by congruence. cbn [setnd with_nd]. rewrite A2. auto.
    + rewrite fset_same, fset_other by congruence. cbn [setnd with_nd]. split; auto. intros HF. apply D2. auto.
  - injection Y as -> ->. destruct (mutual_fun _ _ _ _ _ _ (mutual_sym _ _ _ _ M) Mc) as [<- <-]. assert (I := B b2 f2 Oc L). destruct (D b2 f2 b f Oc Oc2 L Mc) as [D1 _]. destruct (D1 I) as [A1 A2].
    assert (Same : setnd (st' b f) = setnd (st b f) /\ setnd (st' b2 f2) = setnd (st b2 f2)).
    { unfold st'. destruct s2; rewrite fset_same, fset_other by congruence; cbn [setnd with_nd]; rewrite A1, ?negb_involutive; auto. }
    destruct Same as [-> ->]. split; [auto|]. intros J. destruct J. apply in_app_iff. auto.
  - assert (Z1 : (c2, g2) <> (b, f)). { intros WW. injection WW as -> ->. destruct (mutual_fun _ _ _ _ _ _ M (mutual_sym _ _ _ _ Mc)). congruence. }
    assert (Z2 : (c2, g2) <> (b2, f2)). { intros WW. injection WW as -> ->. destruct (mutual_fun _ _ _ _ _ _ (mutual_sym _ _ _ _ M) (mutual_sym _ _ _ _ Mc)). congruence. }
    rewrite !Oth by auto. destruct (D c g c2 g2 Oc Oc2 L Mc) as [D1 D2]. split; intros I; [apply D1|apply D2].
    + apply in_app_iff in I. destruct I as [I|[I|[]]]; auto. congruence.
    + intros J. apply I. apply in_app_iff. auto.
Qed.
Lemma flags_loop : forall l pre st, all_faces nb = pre ++ l -> frame st -> done pre st -> exists st', consistent_loop s2 l st = Ok st' /\ frame st' /\ done (pre ++ l) st'.
Proof.
  assert (ND := all_faces_nodup nb). assert (SS : forall n s, StronglySorted (fun x y : nat * nat => (fst x <= fst y)%nat) (flat_map (fun b => map (fun f => (b, f)) (seq 0 6)) (seq s n)) /\ Forall (fun x => s <= fst x)%nat (flat_map (fun b => map (fun f => (b, f)) (seq 0 6)) (seq s n))).
  { clear. induction n as [|n IH]; intros s. { split; constructor. } destruct (IH (S s)) as [I1 I2]. cbn [seq flat_map map app]. set (r := flat_map _ _) in *.
    assert (Fr : Forall (fun x : nat * nat => (s <= fst x)%nat) r) by (eapply Forall_impl; [|exact I2]; cbn; intros; lia). split; repeat (constructor; cbn [fst]; auto). }
  specialize (SS nb 0%nat). destruct SS as [SS _]. fold (all_faces nb) in SS.
  induction l as [|[b f] l IH]; intros pre st E Fr D; cbn [consistent_loop]. { exists st. rewrite app_nil_r. auto. }
  assert (O : ok b f). { assert (I : In (b, f) (all_faces nb)) by (rewrite E; apply in_app_iff; right; now left). unfold all_faces in I. apply in_flat_map in I. destruct I as (b' & Hb & Hf). apply in_map_iff in Hf. destruct Hf as (f' & X & Hf). injection X as -> ->. apply in_seq in Hb, Hf. lia. }
  destruct (flags_step pre b f st O Fr D) as (st1 & -> & Fr1 & D1).
  - rewrite E in ND. apply NoDup_remove_2 in ND. intros I. apply ND. apply in_app_iff. auto.
  - intros b' f' O' L. assert (I := all_faces_in nb b' f' O'). rewrite E in I. apply in_app_iff in I. destruct I as [I|[I|I]]; auto; [injection I as -> ->; lia|]. exfalso.
    rewrite E in SS. clear - SS I L. induction pre as [|x pre IHp]; cbn in SS. + inversion SS as [|? ? S1 S2]; subst. rewrite Forall_forall in S2. specialize (S2 _ I). cbn in S2. lia. + inversion SS; subst. auto.
  - cbn [rbind]. change ((b, f) :: l) with ([(b, f)] ++ l). rewrite app_assoc. apply IH; auto. rewrite <- app_assoc. exact E.
Qed.
End Flags.
(** For all grids whose touching faces name each other: of each pair one face gets the flag and the other does not; with one of the options
    setnormalderiv_order1 and setnormalderiv_order2 the face in the box with the higher number gets it, or that in the box with the
    lower number.  Nothing else changes. *)
Theorem C100_flags snd1 snd2 nb st : (forall b f, (b < nb)%nat -> (f < 6)%nat -> (ob (st b f) < 0)%Z \/ (ofi (st b f) < 0)%Z \/ touch (st b f) = false \/ exists b2 f2, (b2 < nb)%nat /\ (f2 < 6)%nat /\ mutual st b f b2 f2) ->
  exists st', set_consistent_flags snd1 snd2 nb st = Ok st' /\ (forall b f, st' b f = with_nd (setnd (st' b f)) (st b f)) /\
    forall b f b2 f2, (b < nb)%nat -> (f < 6)%nat -> (b2 < nb)%nat -> (f2 < 6)%nat -> (b < b2)%nat -> mutual st b f b2 f2 ->
      setnd (st' b2 f2) = negb (setnd (st' b f)) /\ (snd1 || snd2 = true -> setnd (st' b f) = snd2).
Proof.
  intros Sh. unfold set_consistent_flags. set (st0 := if snd1 || snd2 then zero_nd nb st else st).
  assert (Z0 : forall b f, st0 b f = with_nd (setnd (st0 b f)) (st b f)). { intros b f. unfold st0, zero_nd. destruct (snd1 || snd2); [destruct ((b <? nb) && (f <? 6))%nat|]; auto; destruct (st b f); reflexivity. }
  assert (ME : forall b f b2 f2, mutual st b f b2 f2 <-> mutual st0 b f b2 f2). { intros. unfold mutual. rewrite (Z0 b f), (Z0 b2 f2). reflexivity. }
  destruct (flags_loop (snd1 || snd2) snd2 nb st0) with (l := all_faces nb) (pre := @nil (nat * nat)) (st := st0) as (st' & E & Fr & D).
  - intros b f [Hb Hf]. destruct (Sh b f Hb Hf) as [H|[H|[H|(b2 & f2 & ? & ? & M)]]]; [left|right; left|right; right; left|right; right; right; exists b2, f2; split; [auto|now apply ME]]; rewrite (Z0 b f); exact H.
  - intros ->. apply orb_true_r.
  - reflexivity.
  - intros b f. destruct (st0 b f); reflexivity.
  - intros b f b2 f2 [Hb Hf] [Hb2 Hf2] L M. split; [intros []|]. intros _ H. unfold st0. rewrite H. unfold zero_nd. destruct (Nat.ltb_spec b nb), (Nat.ltb_spec f 6), (Nat.ltb_spec b2 nb), (Nat.ltb_spec f2 6); try lia. auto.
  - exists st'. split; auto. split. { intros b f. rewrite (Fr b f) at 1. rewrite (Z0 b f). reflexivity. }
    intros b f b2 f2 Hb Hf Hb2 Hf2 L M. destruct (D b f b2 f2 (conj Hb Hf) (conj Hb2 Hf2) L (proj1 (ME _ _ _ _) M)) as [D1 _]. apply D1. cbn [app]. now apply all_faces_in.
Qed.

(** *** what happens with boxes that are not numbered from 0, and with faces of different numbers of points *)
Section Keep.
Variable grid : nat -> gbox.
Variable b0 : nat.
Hypothesis pos : forall b f, plane_pts (grid b) f <> [].
Definition keeps (s s' : faces) : Prop := forall b f, (0 <= ob (s b f))%Z -> s' b f = s b f.
Lemma keeps_trans a b c : keeps a b -> keeps b c -> keeps a c.
Proof. intros H1 H2 x f H. rewrite <- (H1 x f H). apply H2. now rewrite (H1 x f H). Qed.
Lemma try_keep b b2 fi fi2 st : (ob (st (b0 + b)%nat fi) < 0)%Z -> (ob (st (b0 + b2)%nat fi2) < 0)%Z -> exists st' m, try_pair grid b0 b b2 fi fi2 st = Ok (st', m) /\ keeps st st'.
Proof.
  intros H1 H2. unfold try_pair. rewrite scan_ok. assert (P := pos (b0 + b) fi). destruct (plane_pts (grid (b0 + b)%nat) fi) as [|p l] eqn:E; [congruence|]. cbn [fpts with_fpts].
  assert (K : forall x y, keeps st (fset (fset st (b0 + b) fi x) (b0 + b2) fi2 y)). { intros x y c g Hc. rewrite !fset_other; auto; intros X; injection X as -> ->; lia. }
  cbn [app_fpts]. destruct (app_fpts (fpts (st (b0 + b2)%nat fi2)) _); cbn [rbind npts]; [destruct (Nat.eqb _ _) in |- *|]; try (eexists; eexists; split; [reflexivity|apply K]).
  all: destruct (_ =? _)%nat; eexists; eexists; split; [reflexivity|apply K|reflexivity|apply K].
Qed.
Lemma fi2_keep b b2 fi : forall l (s : faces * nat), (ob (fst s (b0 + b)%nat fi) < 0)%Z -> exists s', fi2_loop grid b0 b b2 fi l s = Ok s' /\ keeps (fst s) (fst s').
Proof.
  induction l as [|f l IH]; intros s H; cbn [fi2_loop]. { exists s. split; auto. intros ? ? ?; auto. }
  destruct (Z.leb_spec 0 (ob (fst s (b0 + b2)%nat f))); [now apply IH|].
  destruct (try_keep b b2 fi f (fst s)) as (st' & m & E & K); auto. rewrite E. cbn [rbind]. destruct m. { exists (st', S (snd s)). auto. }
  assert (ob (st' (b0 + b)%nat fi) < 0)%Z.
  { revert E. unfold try_pair. destruct (fold_left _ _ _) as [x1 x2] eqn:E1. rewrite scan_ok in E1. injection E1 as <- <-. destruct (match fpts _ with None => _ | _ => _ end) as [[]| |]; cbn [rbind]; intros E; try discriminate. injection E as <-.
    unfold fset. destruct ((b0 + b =? b0 + b2) && (fi =? f))%nat eqn:Q. - apply andb_prop in Q. destruct Q as [Q1 Q2]. apply Nat.eqb_eq in Q1, Q2. cbn. lia. - rewrite !Nat.eqb_refl. cbn. lia. }
  destruct (IH (st', snd s)) as (s' & E' & K'); auto. exists s'. split; auto. eapply keeps_trans; eauto.
Qed.
Lemma fi_keep b b2 : forall l (s : faces * nat), exists s', fi_loop grid b0 b b2 l s = Ok s' /\ keeps (fst s) (fst s').
Proof.
  induction l as [|f l IH]; intros s; cbn [fi_loop]. { exists s. split; auto. intros ? ? ?; auto. }
  destruct (Z.leb_spec 0 (ob (fst s (b0 + b)%nat f))); cbn [rbind]; [apply IH|]. destruct (fi2_keep b b2 f (seq 0 6) s) as (s1 & -> & K1); auto. cbn [rbind].
  destruct (IH s1) as (s' & E & K). exists s'. split; auto. eapply keeps_trans; eauto.
Qed.
Lemma b2_keep b : forall l (s : faces * nat), exists s', b2_loop grid b0 b l s = Ok s' /\ keeps (fst s) (fst s').
Proof.
  induction l as [|f l IH]; intros s; cbn [b2_loop]. { exists s. split; auto. intros ? ? ?; auto. }
  destruct (f =? b)%nat; cbn [rbind]; [apply IH|]. destruct (fi_keep b f (seq 0 6) s) as (s1 & -> & K1); auto. cbn [rbind]. destruct (IH s1) as (s' & E & K). exists s'. split; auto. eapply keeps_trans; eauto.
Qed.
Lemma b_keep nb : forall l (s : faces * nat), exists s', b_loop grid b0 nb l s = Ok s' /\ keeps (fst s) (fst s').
Proof.
  induction l as [|f l IH]; intros s; cbn [b_loop]. { exists s. split; auto. intros ? ? ?; auto. }
  destruct (b2_keep f (seq 0 nb) s) as (s1 & -> & K1); auto. cbn [rbind]. destruct (IH s1) as (s' & E & K). exists s'. split; auto. eapply keeps_trans; eauto.
Qed.
Lemma first_pair st st1 : try_pair grid b0 0 1 0 0 (init_faces b0 2 st) = Ok (st1, true) -> exists st' k, set_touching grid b0 2 st = Ok (st', k) /\ keeps st1 st'.
Proof.
  intros E. unfold set_touching. change (seq 0 2) with [0; 1]%nat. cbn [b_loop]. change (seq 0 2) with [0; 1]%nat. cbn [b2_loop Nat.eqb rbind]. change (seq 0 6) with (0 :: seq 1 5)%nat. cbn [fi_loop fst].
  assert (V : forall c, (c < 2)%nat -> init_faces b0 2 st (b0 + c)%nat 0%nat = empty_bface). { intros c Hc. unfold init_faces. destruct (Nat.leb_spec b0 (b0 + c)), (Nat.ltb_spec (b0 + c) (b0 + 2)); try lia. reflexivity. }
  rewrite V by lia. cbn [empty_bface ob Z.leb Z.compare]. change (seq 0 6) with (0 :: seq 1 5)%nat. cbn [fi2_loop fst snd]. rewrite V by lia. cbn [empty_bface ob Z.leb Z.compare]. rewrite E. cbn [rbind].
  destruct (fi_keep 0 1 (seq 1 5) (st1, 1%nat)) as (s1 & -> & K1). cbn [rbind b2_loop]. destruct (b_keep 2 [1%nat] s1) as ([st' k] & E2 & K2). exists st', k. split; [exact E2|]. eapply keeps_trans; eauto.
Qed.
End Keep.

(** The boxes start at b0 = 1: the faces of two boxes are paired although one has two points and the other one.  The two lists then have
    different lengths, so that the second point of the first list has no partner. *)
Definition grid_off (b : nat) : gbox := if (b =? 1)%nat then GBox 1 2 1 (fun p => (INR p, 0, 0)) else GBox 1 1 1 (fun _ => (0, 0, 0)).
Lemma plane_ne (grid : nat -> gbox) : (forall b, (1 <= g1 (grid b) /\ 1 <= g2 (grid b) /\ 1 <= g3 (grid b))%nat) -> forall b f, plane_pts (grid b) f <> [].
Proof.
  intros Hp b f. destruct (Hp b) as (A1 & A2 & A3). assert (NE : forall a n (F : nat -> nat -> nat) m, (1 <= n)%nat -> (1 <= m)%nat -> flat_map (fun k => map (fun j => F k j) (seq a n)) (seq 0 m) <> []).
  { intros a n F m H1 H2. destruct n as [|n], m as [|m]; try lia. cbn. discriminate. } unfold plane_pts. destruct (f / 2)%nat as [|[|]]; apply NE; auto.
Qed.
Theorem C100_offset_refuted : exists (grid : nat -> gbox) st' k l l2, (forall b, (1 <= g1 (grid b) /\ 1 <= g2 (grid b) /\ 1 <= g3 (grid b))%nat) /\
  set_touching grid 1 2 (fun _ _ => empty_bface) = Ok (st', k) /\ ob (st' 1%nat 0%nat) = 2%Z /\ ob (st' 2%nat 0%nat) = 1%Z /\ same_fpts (st' 1%nat 0%nat) = true /\
  fpts (st' 1%nat 0%nat) = Some l /\ fpts (st' 2%nat 0%nat) = Some l2 /\ List.length l <> List.length l2 /\ ~ covered (grid 1%nat) (grid 2%nat) 0 0.
Proof.
  assert (Hp : forall b, (1 <= g1 (grid_off b) /\ 1 <= g2 (grid_off b) /\ 1 <= g3 (grid_off b))%nat) by (intros b; unfold grid_off; destruct (b =? 1)%nat; cbn; lia).
  assert (Pl1 : plane_pts (grid_off 1) 0 = [0; 1]%nat) by reflexivity. assert (Pl2 : plane_pts (grid_off 2) 0 = [0]%nat) by reflexivity.
  assert (D0 : same_place (grid_off 1) (grid_off 2) 0 0) by (unfold same_place, dist2, grid_off, dequaleps; cbn; lra).
  assert (D1 : ~ same_place (grid_off 1) (grid_off 2) 1 0) by (unfold same_place, dist2, grid_off, dequaleps; cbn; lra).
  assert (H0 : hit (grid_off 1) (grid_off 2) 0 0 = [0]%nat). { destruct (hit_ok (grid_off 1) (grid_off 2) 0 0) as [(q & -> & I & _)|(_ & N)]; [now rewrite Pl2|rewrite Pl2 in I; destruct I as [<-|[]]; auto|]. destruct (N 0%nat); auto. rewrite Pl2. now left. }
  assert (H1 : hit (grid_off 1) (grid_off 2) 0 1 = []). { destruct (hit_ok (grid_off 1) (grid_off 2) 0 1) as [(q & -> & I & S)|(-> & N)]; [now rewrite Pl2|rewrite Pl2 in I; destruct I as [<-|[]]; tauto|auto]. }
  destruct (first_pair grid_off 1 (plane_ne _ Hp) (fun _ _ => empty_bface)) with (st1 := fset (fset (init_faces 1 2 (fun _ _ => empty_bface)) 1 0 (with_pair 2 0 (with_fpts (Some [0; 1]%nat) empty_bface))) 2 0 (with_nd true (with_pair 1 0 (with_fpts (Some [0]%nat) empty_bface)))) as (st' & k & E & K).
  { unfold try_pair. change (1 + 0)%nat with 1%nat. change (1 + 1)%nat with 2%nat. rewrite scan_ok, Pl1. cbn [flat_map]. rewrite H0, H1. reflexivity. }
  exists grid_off, st', k, [0; 1]%nat, [0]%nat. split; auto. split; auto. rewrite !K by (cbn; lia). repeat (split; [reflexivity|]). split; [cbn; lia|].
  assert (NC : ~ covered (grid_off 1) (grid_off 2) 0 0). { intros C. destruct (C 1%nat) as (q & I & S). { rewrite Pl1. cbn. auto. } rewrite Pl2 in I. destruct I as [<-|[]]. auto. }
  auto.
Qed.
(** Numbering from 0: a face of one point that lies on a face of two points is paired with it; the face is called touching with the same
    points, but the second point of the larger face is in no list and so gets no condition at all. *)
Definition grid_sub (b : nat) : gbox := if (b =? 0)%nat then GBox 1 1 1 (fun _ => (0, 0, 0)) else GBox 1 2 1 (fun p => (INR p, 0, 0)).
Theorem C100_subset_refuted : exists (grid : nat -> gbox) st' k l2 p, (forall b, (1 <= g1 (grid b) /\ 1 <= g2 (grid b) /\ 1 <= g3 (grid b))%nat) /\
  set_touching grid 0 2 (fun _ _ => empty_bface) = Ok (st', k) /\ pair grid st' 1 0 0 0 /\ fpts (set_outer grid 0 2 st' 1%nat 0%nat) = Some l2 /\ In p (plane_pts (grid 1%nat) 0) /\ ~ In p l2.
Proof.
  assert (Hp : forall b, (1 <= g1 (grid_sub b) /\ 1 <= g2 (grid_sub b) /\ 1 <= g3 (grid_sub b))%nat) by (intros b; unfold grid_sub; destruct (b =? 0)%nat; cbn; lia).
  assert (Pl1 : plane_pts (grid_sub 1) 0 = [0; 1]%nat) by reflexivity. assert (Pl0 : plane_pts (grid_sub 0) 0 = [0]%nat) by reflexivity.
  assert (D0 : same_place (grid_sub 0) (grid_sub 1) 0 0) by (unfold same_place, dist2, grid_sub, dequaleps; cbn; lra).
  assert (D1 : ~ same_place (grid_sub 0) (grid_sub 1) 0 1) by (unfold same_place, dist2, grid_sub, dequaleps; cbn; lra).
  assert (H0 : hit (grid_sub 0) (grid_sub 1) 0 0 = [0]%nat). { destruct (hit_ok (grid_sub 0) (grid_sub 1) 0 0) as [(q & -> & I & S)|(_ & N)]; [now rewrite Pl1|rewrite Pl1 in I; destruct I as [<-|[<-|[]]]; tauto|]. destruct (N 0%nat); auto. rewrite Pl1. now left. }
  destruct (first_pair grid_sub 0 (plane_ne _ Hp) (fun _ _ => empty_bface)) with (st1 := fset (fset (init_faces 0 2 (fun _ _ => empty_bface)) 0 0 (with_pair 1 0 (with_fpts (Some [0]%nat) empty_bface))) 1 0 (with_nd true (with_pair 0 0 (with_fpts (Some [0]%nat) empty_bface)))) as (st' & k & E & K).
  { unfold try_pair. change (0 + 0)%nat with 0%nat. change (0 + 1)%nat with 1%nat. rewrite scan_ok, Pl0. cbn [flat_map]. rewrite H0. reflexivity. }
  assert (V0 := K 0%nat 0%nat ltac:(cbn; lia)). assert (V1 := K 1%nat 0%nat ltac:(cbn; lia)).
  exists grid_sub, st', k, [0]%nat, 1%nat. split; auto. split; auto. split; [|split; [|split]].
  - apply pair_sym. unfold pair. rewrite V0, V1. repeat (split; [reflexivity || discriminate|]). exists [0]%nat, [0]%nat. split; [reflexivity|]. split; [reflexivity|]. split; [constructor; [exact D0|constructor]|]. split; [intros x [<-|[]]; cbn; auto|]. split; [intros x [<-|[]]; cbn; auto|left; reflexivity].
  - unfold set_outer. rewrite V1. reflexivity.
  - rewrite Pl1. cbn. auto.
  - intros [X|[]]. discriminate.
Qed.
(** Two cubes side by side: the hypotheses hold, and at least one pair is found. *)
Definition grid_two (b : nat) : gbox := GBox 2 2 2 (fun p => (INR (b + p mod 2), INR (p / 2 mod 2), INR (p / 4))).
Example C100_nontrivial : (forall b, (b < 2)%nat -> (1 <= g1 (grid_two b) /\ 1 <= g2 (grid_two b) /\ 1 <= g3 (grid_two b))%nat) /\ covered (grid_two 0) (grid_two 1) 1 0 /\
  forall st' k, set_touching grid_two 0 2 (fun _ _ => empty_bface) = Ok (st', k) -> (exists b f b2 f2, pair grid_two st' b f b2 f2).
Proof.
  assert (H : forall b, (b < 2)%nat -> (1 <= g1 (grid_two b) /\ 1 <= g2 (grid_two b) /\ 1 <= g3 (grid_two b))%nat) by (intros; cbn; lia).
  assert (C : covered (grid_two 0) (grid_two 1) 1 0).
  { intros p Hp. cbn in Hp. assert (Q : forall q, (q < 8)%nat -> (p = S q)%nat -> (q mod 2 = 0)%nat -> same_place (grid_two 0) (grid_two 1) p q).
    { intros q Hq -> Hm. unfold same_place, dist2, grid_two. cbn [xyz]. assert (E : forall a, (a < 8)%nat -> (a mod 2 = 0)%nat -> (S a mod 2 = 1 /\ S a / 2 = a / 2 /\ S a / 4 = a / 4)%nat) by (intros a Ha Hm'; do 8 (destruct a as [|a]; [try discriminate Hm'; repeat split; reflexivity|]); lia).
      destruct (E q Hq Hm) as (-> & -> & ->). rewrite Hm. unfold dequaleps. cbn [Nat.add]. replace (INR 1 - INR 1) with 0 by ring. lra. }
    destruct Hp as [<-|[<-|[<-|[<-|[]]]]]; [exists 0%nat|exists 2%nat|exists 4%nat|exists 6%nat]; (split; [cbn; tauto|apply Q; [lia|reflexivity|reflexivity]]). }
  split; auto. split; auto. intros st' k E. destruct (C100_pairs grid_two 2 (fun _ _ => empty_bface) H) as (st1 & k1 & E1 & A & B & _). rewrite E in E1. injection E1 as <- <-.
  destruct (A 0%nat 1%nat) as [[U0 _]|(b2 & f2 & _ & _ & P)]; try lia; [|eauto]. destruct (A 1%nat 0%nat) as [[U1 _]|(b2 & f2 & _ & _ & P)]; try lia; [|eauto]. destruct (B 0%nat 1%nat 1%nat 0%nat); auto; lia.
Qed.
(** *** faces with the same number of points *)
Lemma nodup_grid (F : nat -> nat -> nat) n m : (forall k j k' j', (j < n)%nat -> (j' < n)%nat -> (k < m)%nat -> (k' < m)%nat -> F k j = F k' j' -> k = k' /\ j = j') ->
  NoDup (flat_map (fun k => map (fun j => F k j) (seq 0 n)) (seq 0 m)).
Proof.
  intros H. assert (G : forall l, NoDup l -> (forall x, In x l -> (x < m)%nat) -> NoDup (flat_map (fun k => map (fun j => F k j) (seq 0 n)) l)).
  { induction l as [|k l IH]; intros N B; cbn [flat_map]; [constructor|]. inversion N as [|? ? N1 N2]; subst. 
    assert (AppND : forall (l l' : list nat), NoDup l -> NoDup l' -> (forall x, In x l -> ~ In x l') -> NoDup (l ++ l')).
    { clear. induction l as [|a l IH]; intros l' H1 H2 H3; auto. inversion H1; subst. cbn. constructor. - rewrite in_app_iff. intros [?|?]; auto. apply (H3 a); auto. now left. - apply IH; auto. intros x Hx. apply H3. now right. }
    apply AppND.
    - assert (Q : forall l', NoDup l' -> (forall x, In x l' -> (x < n)%nat) -> NoDup (map (fun j => F k j) l')).
      { induction l' as [|j l' IH']; intros M B'; cbn; constructor. - inversion M as [|? ? M1 M2]; subst. intros I. apply in_map_iff in I. destruct I as (j' & E & I). destruct (H k j' k j) as [_ ->]; auto; try (apply B'; cbn; auto); apply B; now left. - inversion M; subst. apply IH'; auto. intros x Hx. apply B'. now right. }
      apply Q; [apply seq_NoDup|]. intros x Hx. apply in_seq in Hx. lia.
    - apply IH; auto. intros x Hx. apply B. now right.
    - intros x I1 I2. apply in_map_iff in I1. destruct I1 as (j & <- & Hj). apply in_flat_map in I2. destruct I2 as (k' & Hk & I2). apply in_map_iff in I2. destruct I2 as (j' & E & Hj'). apply in_seq in Hj, Hj'. destruct (H k' j' k j) as [-> _]; auto; try lia; apply B; cbn; auto. }
  apply G; [apply seq_NoDup|]. intros x Hx. apply in_seq in Hx. lia.
Qed.
Lemma digits a n x y x' y' : (x < n)%nat -> (x' < n)%nat -> (a * (x + n * y) = a * (x' + n * y'))%nat -> (1 <= a)%nat -> x = x' /\ y = y'.
Proof.
  intros H1 H2 E Ha. assert (E' : (x + n * y = x' + n * y')%nat) by nia. destruct (Nat.lt_trichotomy y y') as [L|[->|L]]; [exfalso; nia| |exfalso; nia]. split; lia.
Qed.
Lemma plane_nodup g f : (1 <= g1 g)%nat -> (1 <= g2 g)%nat -> NoDup (plane_pts g f).
Proof.
  intros A1 A2. unfold plane_pts. destruct (f / 2)%nat as [|[|]]; apply nodup_grid; intros k j k' j' Hj Hj' Hk Hk' E; unfold gidx in E.
  - destruct (digits (g1 g) (g2 g) j k j' k'); auto. lia.
  - set (q := (f mod 2 * (g2 g - 1))%nat) in *. destruct (digits 1 (g1 g) j (q + g2 g * k) j' (q + g2 g * k')) as [-> X]; auto; try lia. destruct (digits (g2 g) 1 0 k 0 k') as [_ ->]; auto; lia.
  - set (q := (f mod 2 * (g3 g - 1))%nat) in *. destruct (digits 1 (g1 g) j (k + g2 g * q) j' (k' + g2 g * q)) as [-> X]; auto; lia.
Qed.
(** points of one face are further apart than twice the tolerance *)
Definition separated (g : gbox) (f : nat) : Prop := forall p q, In p (plane_pts g f) -> In q (plane_pts g f) -> p <> q -> 4 * dequaleps < dist2 (xyz g p) (xyz g q).
Lemma near_near g1 g2 p p' q : same_place g1 g2 p q -> same_place g1 g2 p' q -> dist2 (xyz g1 p) (xyz g1 p') <= 4 * dequaleps.
Proof.
  unfold same_place, dist2. destruct (xyz g1 p) as [[a b] c], (xyz g1 p') as [[a' b'] c'], (xyz g2 q) as [[x y] z]. intros H1 H2.
  assert (T : forall u v w, (u - v) * (u - v) <= 2 * ((u - w) * (u - w)) + 2 * ((v - w) * (v - w))). { intros u v w. assert (P := Rle_0_sqr ((u - w) + (v - w))). unfold Rsqr in P. nra. }
  assert (X := T a a' x). assert (Y := T b b' y). assert (Z := T c c' z). lra.
Qed.
Lemma near_perm G1 G2 f l l2 L2 : l = plane_pts G1 f -> NoDup l -> separated G1 f -> Forall2 (same_place G1 G2) l l2 -> incl l2 L2 -> List.length l = List.length L2 -> Permutation.Permutation l2 L2.
Proof.
  intros E ND Sep F2 I Len. assert (N2 : NoDup l2).
  { assert (Il : incl l (plane_pts G1 f)) by (rewrite E; apply incl_refl). clear E Len I. induction F2 as [|p q l l2 S F2 IH]; [constructor|]. inversion ND as [|? ? N1 N2]; subst. constructor; [|apply IH; auto; intros x Hx; apply Il; now right].
    intros Hq. assert (exists p', In p' l /\ same_place G1 G2 p' q) as (p' & Ip' & Sp').
    { clear - F2 Hq. induction F2 as [|x y l l2 S F2 IH]; [destruct Hq|]. destruct Hq as [->|Hq]; [exists x; split; auto; now left|]. destruct (IH Hq) as (p' & ? & ?). exists p'. split; auto. now right. }
    assert (X := near_near _ _ _ _ _ S Sp'). assert (p <> p') by congruence. specialize (Sep p p' (Il p (or_introl eq_refl)) (Il p' (or_intror Ip')) H). lra. }
  apply Permutation.NoDup_Permutation_bis; auto. rewrite <- Len. clear - F2. induction F2; cbn [List.length]; lia.
Qed.
(** If the two faces have equally many points, and the points on each are well apart, both lists are the whole faces. *)
Theorem C100_whole_faces grid st b f b2 f2 : (1 <= g1 (grid b))%nat -> (1 <= g2 (grid b))%nat -> (1 <= g1 (grid b2))%nat -> (1 <= g2 (grid b2))%nat -> pair grid st b f b2 f2 ->
  List.length (plane_pts (grid b) f) = List.length (plane_pts (grid b2) f2) -> separated (grid b) f -> separated (grid b2) f2 ->
  exists l l2, fpts (st b f) = Some l /\ fpts (st b2 f2) = Some l2 /\ Permutation.Permutation l (plane_pts (grid b) f) /\ Permutation.Permutation l2 (plane_pts (grid b2) f2).
Proof.
  intros A1 A2 A3 A4 P Len S1 S2. destruct P as (_ & _ & _ & _ & _ & _ & _ & _ & _ & _ & l & l2 & B1 & B2 & B3 & B4 & B5 & B6). exists l, l2. split; auto. split; auto. destruct B6 as [-> | ->].
  - split; auto. apply (near_perm (grid b) (grid b2) f (plane_pts (grid b) f)); auto. now apply plane_nodup.
  - split; auto. apply (near_perm (grid b2) (grid b) f2 (plane_pts (grid b2) f2)); auto. + now apply plane_nodup. + clear - B3. induction B3; constructor; auto. unfold same_place in *. now rewrite dist2_sym.
Qed.
Print Assumptions C100_pairs.
Print Assumptions C100_outer.
Print Assumptions C100_flags.
Print Assumptions C100_offset_refuted.
Print Assumptions C100_subset_refuted.
Print Assumptions C100_whole_faces.

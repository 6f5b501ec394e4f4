(** Lemmas for Cartesian derivatives. *)
From Coq Require Import Permutation.
From Verif Require Import Rutil Base Loops Sparse_model Arrays Coord_model Coord_spec Cart_model Cart_spec.
Local Open Scope R_scope.
Lemma ld_ok v i n k : len v i n -> (k < n)%nat -> ld v i k = Ok (cell v i k).
Proof.
  intros (a & E & L) H. unfold ld, deref, cell. rewrite E. cbn [rbind]. unfold rd. subst n.
  destruct (nth_error a k) eqn:En. - f_equal. symmetry. now apply nth_error_nth. - apply nth_error_None in En. lia.
Qed.
Lemma st_ok v i n k x : len v i n -> (k < n)%nat -> exists v', st v i k x = Ok v' /\ (forall j, j <> i -> v' j = v j) /\ len v' i n /\ cell v' i k = x /\ forall k', k' <> k -> cell v' i k' = cell v i k'.
Proof.
  intros (a & E & L) H. unfold st, deref. rewrite E. cbn [rbind]. rewrite wr_ok by lia. cbn [rbind]. eexists. split; [reflexivity|].
  assert (EE : vset v i (upd a k x) i = Some (upd a k x)) by (unfold vset; now rewrite Nat.eqb_refl).
  split. { intros j Hj. unfold vset. destruct (Nat.eqb_spec j i); [lia|reflexivity]. }
  split. { eexists. split; [apply EE|]. now rewrite upd_length. }
  unfold cell. rewrite EE, E. split. - apply nth_upd_eq. lia. - intros. apply nth_upd_ne. auto.
Qed.
(** several stores at the same point to different variables *)
Definition sts (ind : nat) (l : list (nat * R)) (v : vars) : res vars := forl l (fun p v => st v (fst p) ind (snd p)) v.
Lemma len_frame v v' i n : v' i = v i -> len v i n -> len v' i n.
Proof. unfold len. intros ->. auto. Qed.
Lemma cell_frame v v' i k : v' i = v i -> cell v' i k = cell v i k.
Proof. unfold cell. now intros ->. Qed.
Lemma sts_ok ind n l : forall v, (ind < n)%nat -> NoDup (map fst l) -> (forall p, In p l -> len v (fst p) n) ->
  exists v', sts ind l v = Ok v' /\ (forall j, ~ In j (map fst l) -> v' j = v j) /\
  (forall p, In p l -> len v' (fst p) n /\ cell v' (fst p) ind = snd p /\ forall k, k <> ind -> cell v' (fst p) k = cell v (fst p) k).
Proof.
  induction l as [|(i, x) l IH]; intros v Hi ND HL; cbn [map fst] in *.
  - exists v. split; [reflexivity|]. split; [auto|]. intros p [].
  - inversion ND as [|? ? N1 N2]; subst. destruct (st_ok v i n ind x) as (v1 & E1 & F1 & L1 & C1 & K1); auto. { apply (HL (i, x)). now left. }
    destruct (IH v1 Hi N2) as (v2 & E2 & F2 & K2).
    { intros p Hp. apply len_frame with v. - apply F1. intros H. apply N1. rewrite <- H. now apply in_map. - apply HL. now right. }
    exists v2. unfold sts in *. cbn [forl fst snd]. rewrite E1. cbn [rbind]. split; auto. split.
    + intros j Hj. rewrite F2. * apply F1. intros ->. apply Hj. now left. * intros H. apply Hj. now right.
    + intros p [<-|Hp]; cbn [fst snd].
      * assert (F := F2 _ N1). split; [now apply len_frame with v1|]. split; [now rewrite (cell_frame v1 v2)|]. intros k Hk. rewrite (cell_frame v1 v2) by auto. auto.
      * destruct (K2 p Hp) as (A & B & K). split; auto. split; auto. intros k Hk. rewrite K by auto. apply cell_frame, F1. intros H. apply N1. rewrite <- H. now apply in_map.
Qed.
Lemma rbind_ok {A} (m : res A) : (do x <- m; Ok x) = m.
Proof. now destruct m. Qed.
Lemma cell_list v i n a : len v i n -> (List.length a = n) -> (forall k, (k < n)%nat -> cell v i k = nth k a 0) -> v i = Some a.
Proof.
  intros (a' & E & L) La H. rewrite E. f_equal. apply list_eq_R; [congruence|]. intros k Hk. specialize (H k ltac:(lia)). unfold cell in H. now rewrite E in H.
Qed.

Lemma ix_lt i : (ix i < 3)%nat. Proof. destruct i; cbn; lia. Qed.
Lemma gX_in g i : In i [vX g; vY g; vZ g] -> In i (gvar_list g).
Proof. unfold gvar_list. cbn. tauto. Qed.
Lemma gd_in g k : (k < 9)%nat -> In (dXd g + k)%nat (gvar_list g).
Proof. intros H. unfold gvar_list. apply in_or_app. right. apply in_or_app. left. apply in_map_iff. exists k. split; auto. apply in_seq. lia. Qed.
Lemma gdd_in g k : (k < 18)%nat -> In (ddXdd g + k)%nat (gvar_list g).
Proof. intros H. unfold gvar_list. apply in_or_app. right. apply in_or_app. right. apply in_map_iff. exists k. split; auto. apply in_seq. lia. Qed.
Lemma gd0_in g : In (dXd g) (gvar_list g).
Proof. replace (dXd g) with (dXd g + 0)%nat by lia. apply gd_in. lia. Qed.
Lemma gdd0_in g : In (ddXdd g) (gvar_list g).
Proof. replace (ddXdd g) with (ddXdd g + 0)%nat by lia. apply gdd_in. lia. Qed.
(** w has the same coordinate variables as v *)
Definition sameg (g : gvars) (v w : vars) : Prop := forall c, In c (gvar_list g) -> w c = v c.
Lemma sameg_atX g v w F ind : sameg g v w -> atX g w F ind = atX g v F ind.
Proof. intros H. unfold atX. rewrite !(cell_frame v w); auto; apply H, gX_in; cbn; auto. Qed.
Lemma sameg_ready n g v w : sameg g v w -> ready n g v -> ready n g w.
Proof.
  intros H (A & B & C). split; [|split].
  - intros i Hi. apply (len_frame v w); auto. apply H. now apply gX_in.
  - intros Hd k Hk. apply (len_frame v w). + apply H. now apply gd_in. + apply B; auto. now rewrite <- (H _ (gd0_in g)).
  - intros Hd k Hk. apply (len_frame v w). + apply H. now apply gdd_in. + apply C; auto. now rewrite <- (H _ (gdd0_in g)).
Qed.
Lemma pair6_lt m n : (pair6 m n < 6)%nat. Proof. destruct m, n; cbn; lia. Qed.
Lemma sameg_tables n g C v w : sameg g v w -> tables_hold n g C v -> tables_hold n g C w.
Proof.
  intros H (A & B). split.
  - intros Hd i m ind Hi. rewrite (sameg_atX g v w) by auto. rewrite (cell_frame v w). + apply A; auto. now rewrite <- (H _ (gd0_in g)).
    + apply H. rewrite <- Nat.add_assoc. apply gd_in. pose proof (ix_lt i). pose proof (ix_lt m). lia.
  - intros Hd i m n' ind F L Hi E. rewrite (sameg_atX g v w) by auto. rewrite (cell_frame v w). + apply B; auto. now rewrite <- (H _ (gdd0_in g)).
    + apply H. rewrite <- Nat.add_assoc. apply gdd_in. pose proof (ix_lt i). pose proof (pair6_lt m n'). lia.
Qed.
Lemma point_ok n g v ind : ready n g v -> (ind < n)%nat -> point g v ind = Ok (cell v (vX g) ind, cell v (vY g) ind, cell v (vZ g) ind).
Proof. intros (A & _) H. unfold point. rewrite !(ld_ok v _ n); auto; apply A; cbn; auto. Qed.
Lemma coefX_ok n g C v stored i m ind : ready n g v -> tables_hold n g C v -> (ind < n)%nat -> (stored = true -> v (dXd g) <> None) ->
  coefX g C v stored i m ind = Ok (atX g v (dX_dx C i m) ind).
Proof.
  intros R T H S. unfold coefX. destruct stored.
  - destruct T as (T & _), R as (_ & R & _). unfold dX_ind. rewrite (ld_ok v _ n); auto. + rewrite T; auto.
    + rewrite <- Nat.add_assoc. apply R; auto. pose proof (ix_lt i). pose proof (ix_lt m). lia.
  - rewrite (point_ok n) by auto. reflexivity.
Qed.
Lemma ddX_ind_pair g i m n : d3_le m n -> ddX_ind g i m n = (ddXdd g + 6 * ix i + pair6 m n)%nat.
Proof. unfold d3_le. destruct m, n; cbn; lia. Qed.
Lemma coefXX_ok n g C v stored i m n' ind F : d3_le m n' -> ddX_dxdx C i m n' = Some F -> ready n g v -> tables_hold n g C v -> (ind < n)%nat -> (stored = true -> v (ddXdd g) <> None) ->
  coefXX g C v stored i m n' ind = Ok (atX g v F ind).
Proof.
  intros L EF R T H S. unfold coefXX. destruct stored.
  - destruct T as (_ & T), R as (_ & _ & R). rewrite ddX_ind_pair by auto. rewrite (ld_ok v _ n); auto. + erewrite T; eauto.
    + rewrite <- Nat.add_assoc. apply R; auto. pose proof (ix_lt i). pose proof (pair6_lt m n'). lia.
  - rewrite (point_ok n) by auto. cbn [rbind]. rewrite EF. reflexivity.
Qed.
Lemma cart_dv_ok n g C v stored du ind m : ready n g v -> tables_hold n g C v -> (ind < n)%nat -> (stored = true -> v (dXd g) <> None) -> (forall i, len v (du i) n) ->
  cart_dv g C stored du v ind m = Ok (S3 (fun i => atX g v (dX_dx C i m) ind * cell v (du i) ind)).
Proof.
  intros R T H S L. unfold cart_dv, dirs. cbn [forl]. rewrite !(coefX_ok n) by auto. cbn [rbind]. rewrite !(ld_ok v _ n) by auto. cbn [rbind]. unfold S3. do 2 f_equal. ring.
Qed.
Definition nd3 (du : d3 -> nat) : Prop := forall i j, du i = du j -> i = j.
Lemma cart_point_ok n g C w stored du ind : ready n g w -> tables_hold n g C w -> (ind < n)%nat -> (stored = true -> w (dXd g) <> None) -> (forall i, len w (du i) n) -> nd3 du ->
  exists w', cart_point g C stored du ind w = Ok w' /\ (forall j, (forall i, j <> du i) -> w' j = w j) /\
  forall m, len w' (du m) n /\ cell w' (du m) ind = S3 (fun i => atX g w (dX_dx C i m) ind * cell w (du i) ind) /\ forall k, k <> ind -> cell w' (du m) k = cell w (du m) k.
Proof.
  intros R T H S L ND. unfold cart_point. rewrite !(cart_dv_ok n) by auto. cbn [rbind].
  set (d := fun m => S3 (fun i => atX g w (dX_dx C i m) ind * cell w (du i) ind)).
  destruct (sts_ok ind n [(du D1, d D1); (du D2, d D2); (du D3, d D3)] w H) as (w' & E & F & K).
  { cbn. repeat constructor; cbn; intuition; repeat match goal with A : du _ = du _ |- _ => apply ND in A; discriminate end. }
  { intros p Hp. cbn in Hp. intuition subst; cbn; auto. }
  exists w'. split. { rewrite <- E. unfold sts. cbn [forl fst snd]. unfold d. destruct st; cbn [rbind]; auto. destruct st; cbn [rbind]; auto. now rewrite rbind_ok. }
  split. { intros j Hj. apply F. cbn. intuition; eapply Hj; eauto. }
  intros m. apply (K (du m, d m)). destruct m; cbn; auto.
Qed.
Lemma deriv1_ok D j iu ij v u : v iu = Some u -> v ij <> None -> deriv1 D j iu ij v = Ok (vset v ij (D j u)).
Proof. intros E H. unfold deriv1, deref. rewrite E. cbn [rbind]. destruct (v ij) eqn:E2; [reflexivity|congruence]. Qed.
Lemma vset_eq v i a : vset v i a i = Some a. Proof. unfold vset. now rewrite Nat.eqb_refl. Qed.
Lemma vset_ne v i a j : j <> i -> vset v i a j = v j. Proof. intros H. unfold vset. destruct (Nat.eqb_spec j i); congruence. Qed.
Lemma nth_map_seq (f : nat -> R) n k : (k < n)%nat -> nth k (map f (seq 0 n)) 0 = f k.
Proof. intros H. rewrite (nth_indep _ 0 (f 0%nat)) by (rewrite map_length, seq_length; lia). rewrite map_nth. now rewrite seq_nth by lia. Qed.
Definition hold (b : tbox) (g : gvars) (v : vars) : Prop := match coord b with Some C => tables_hold (nnodes b) g C v | None => True end.
Lemma alloc_true v i : allocated v i = true -> v i <> None.
Proof. unfold allocated. destruct (v i); congruence. Qed.
Lemma cart_partials_ok b g D iu i1 i2 i3 v u : let du := tab i1 i2 i3 in
  v iu = Some u -> (forall m, v (du m) <> None) -> (forall j a, List.length a = nnodes b -> List.length (D j a) = nnodes b) -> List.length u = nnodes b ->
  nd3 du -> (forall m, iu <> du m) -> (forall m, ~ In (du m) (gvar_list g)) -> ready (nnodes b) g v -> hold b g v ->
  exists v', cart_partials b g D iu i1 i2 i3 v = Ok v' /\ (forall m, v' (du m) = Some (cart_grad b g v D u m)) /\ (forall j, (forall m, j <> du m) -> v' j = v j).
Proof.
  intros du Eu Ha HD Lu ND Hu Hg R T. unfold cart_partials.
  assert (N12 : i2 <> i1). { intros H. specialize (ND D2 D1 H). discriminate. }
  assert (N13 : i3 <> i1). { intros H. specialize (ND D3 D1 H). discriminate. }
  assert (N23 : i3 <> i2). { intros H. specialize (ND D3 D2 H). discriminate. }
  assert (U1 := Hu D1). assert (U2 := Hu D2). assert (A1 := Ha D1). assert (A2 := Ha D2). assert (A3 := Ha D3). cbn [tab du] in U1, U2, A1, A2, A3.
  rewrite (deriv1_ok D D1 iu i1 v u) by auto. cbn [rbind]. rewrite (deriv1_ok D D2 iu i2 _ u) by (rewrite ?vset_ne by auto; auto). cbn [rbind].
  rewrite (deriv1_ok D D3 iu i3 _ u) by (rewrite ?vset_ne by auto; auto). cbn [rbind].
  set (w := vset (vset (vset v i1 (D D1 u)) i2 (D D2 u)) i3 (D D3 u)).
  assert (Wd : forall m, w (du m) = Some (D m u)). { intros []; unfold w, du; cbn [tab]; repeat (first [rewrite vset_eq; reflexivity | rewrite vset_ne by auto]). }
  assert (Wf : forall j, (forall m, j <> du m) -> w j = v j). { intros j Hj. unfold w. rewrite !vset_ne; auto. - apply (Hj D1). - apply (Hj D2). - apply (Hj D3). }
  assert (Wg : sameg g v w). { intros c Hc. apply Wf. intros m ->. now apply (Hg m). }
  unfold cart_grad, hold in *. destruct (coord b) as [C|]. 2: { exists w. auto. }
  set (n := nnodes b) in *. set (val := fun m ind => S3 (fun i => atX g v (dX_dx C i m) ind * nth ind (D i u) 0)).
  destruct (for_nat_inv (fun k x => (forall j, (forall m, j <> du m) -> x j = v j) /\
      forall m, len x (du m) n /\ forall ind, (ind < n)%nat -> cell x (du m) ind = if (ind <? k)%nat then val m ind else nth ind (D m u) 0)
    (cart_point g C (allocated w (dXd g)) du) 0 n w ltac:(lia)) as (v' & E & F & K).
  { split; auto. intros m. split. { exists (D m u). split; auto. } intros ind Hi. unfold cell. now rewrite Wd. }
  { intros ind x Hi (Fx & Kx). assert (Sx : sameg g v x). { intros c Hc. apply Fx. intros m ->. now apply (Hg m). }
    destruct (cart_point_ok n g C x (allocated w (dXd g)) du ind) as (x' & Ex & Fx' & Kx'); auto; try lia.
    { now apply sameg_ready with v. } { now apply sameg_tables with v. }
    { intros Hs. rewrite (Sx _ (gd0_in g)), <- (Wg _ (gd0_in g)). now apply alloc_true. } { intros i. apply Kx. }
    exists x'. split; auto. split. { intros j Hj. rewrite Fx'; auto. }
    intros m. destruct (Kx' m) as (L & C1 & C2). split; auto. intros k Hk. destruct (Nat.eq_dec k ind) as [->|NE].
    - destruct (Nat.ltb_spec ind (ind + 1)); [|lia]. rewrite C1. unfold val, S3. rewrite !(sameg_atX g v x) by auto.
      rewrite !(proj2 (Kx _) ind) by lia. destruct (Nat.ltb_spec ind ind); [lia|]. reflexivity.
    - rewrite C2 by auto. rewrite (proj2 (Kx m)) by auto. destruct (Nat.ltb_spec k ind), (Nat.ltb_spec k (ind + 1)); auto; lia. }
  exists v'. split; auto. split; auto. intros m. destruct (K m) as (L & Kc). apply cell_list with n; auto.
  - now rewrite map_length, seq_length.
  - intros k Hk. rewrite Kc by auto. destruct (Nat.ltb_spec k n); [|lia]. now rewrite nth_map_seq by auto.
Qed.
(** all second derivatives *)
Lemma cart_ddv_ok n g C v s1 s2 du ddu ind m n' : d3_le m n' -> has_second C -> ready n g v -> tables_hold n g C v -> (ind < n)%nat -> s1 = s2 -> (s1 = true -> v (dXd g) <> None) -> (s1 = true -> v (ddXdd g) <> None) ->
  (forall i, len v (du i) n) -> (forall i j, len v (ddu i j) n) ->
  cart_ddv g C s1 du ddu v ind m n' = Ok (S3 (fun i => match ddX_dxdx C i m n' with Some F => atX g v F ind | None => 0 end * cell v (du i) ind) +
    S3 (fun i => S3 (fun j => atX g v (dX_dx C i m) ind * atX g v (dX_dx C j n') ind * cell v (ddu i j) ind))).
Proof.
  intros L HS R T H _ S1 S2 Ld Ldd. unfold cart_ddv, dirs. cbn [forl].
  assert (X : forall i, coefXX g C v s1 i m n' ind = Ok (match ddX_dxdx C i m n' with Some F => atX g v F ind | None => 0 end)).
  { intros i. specialize (HS i m n' L). destruct (ddX_dxdx C i m n') as [F|] eqn:E; [|congruence]. now apply coefXX_ok with n. }
  rewrite !X. cbn [rbind]. rewrite !(ld_ok v _ n) by auto. cbn [rbind]. rewrite !(coefX_ok n) by auto. cbn [rbind]. unfold S3. rewrite ?rbind_ok. f_equal. ring.
Qed.
Lemma ddu_sym a i j : ddu_ind a i j = a (pair6 i j). Proof. now destruct i, j. Qed.
(** the nine variables written by cart_partial_all *)
Definition nine (du : d3 -> nat) (a : nat -> nat) : list nat := [du D1; du D2; du D3; a 0%nat; a 1%nat; a 2%nat; a 3%nat; a 4%nat; a 5%nat].
Lemma nine_du du a m : In (du m) (nine du a). Proof. unfold nine. destruct m; cbn; tauto. Qed.
Lemma nine_a du a i j : In (a (pair6 i j)) (nine du a). Proof. unfold nine. destruct i, j; cbn; tauto. Qed.
Definition ddval (n : nat) (g : gvars) (C : coords) (v : vars) (du : d3 -> R) (ddu : d3 -> d3 -> R) (ind : nat) (m n' : d3) : R :=
  S3 (fun i => match ddX_dxdx C i m n' with Some F => atX g v F ind | None => 0 end * du i) +
  S3 (fun i => S3 (fun j => atX g v (dX_dx C i m) ind * atX g v (dX_dx C j n') ind * ddu i j)).
(** the order of the nine stores *)
Lemma perm9 (x1 x2 x3 a0 a1 a2 a3 a4 a5 : nat) : Permutation [x1; x2; x3; a0; a1; a2; a3; a4; a5] [x1; a0; a1; a2; x2; a3; a4; x3; a5].
Proof.
  apply perm_skip. apply (Permutation_cons_app [a0; a1; a2] [a3; a4; x3; a5]). apply (Permutation_cons_app [a0; a1; a2; a3; a4] [a5]). apply Permutation_refl.
Qed.
Lemma cart_point_all_ok n g C w s du a ind : has_second C -> ready n g w -> tables_hold n g C w -> (ind < n)%nat -> (s = true -> w (dXd g) <> None) -> (s = true -> w (ddXdd g) <> None) ->
  (forall i, In i (nine du a) -> len w i n) -> NoDup (nine du a) ->
  exists w', cart_point_all g C s du (ddu_ind a) ind w = Ok w' /\ (forall j, ~ In j (nine du a) -> w' j = w j) /\
  (forall i, In i (nine du a) -> len w' i n /\ forall k, k <> ind -> cell w' i k = cell w i k) /\
  (forall m, cell w' (du m) ind = S3 (fun i => atX g w (dX_dx C i m) ind * cell w (du i) ind)) /\
  (forall m n', d3_le m n' -> cell w' (a (pair6 m n')) ind = ddval n g C w (fun i => cell w (du i) ind) (fun i j => cell w (a (pair6 i j)) ind) ind m n').
Proof.
  intros HS R T H S1 S2 L ND. unfold cart_point_all.
  assert (Ld : forall i, len w (du i) n) by (intros; apply L, nine_du). assert (Ldd : forall i j, len w (ddu_ind a i j) n) by (intros; rewrite ddu_sym; apply L, (nine_a du)).
  rewrite !(cart_dv_ok n) by auto. cbn [rbind].
  rewrite !(cart_ddv_ok n g C w s s) by (auto; unfold d3_le; cbn; lia). cbn [rbind].
  set (d := fun m => S3 (fun i => atX g w (dX_dx C i m) ind * cell w (du i) ind)).
  set (dd := ddval n g C w (fun i => cell w (du i) ind) (fun i j => cell w (a (pair6 i j)) ind) ind).
  assert (Edd : forall m n', S3 (fun i => match ddX_dxdx C i m n' with Some F => atX g w F ind | None => 0 end * cell w (du i) ind) +
    S3 (fun i => S3 (fun j => atX g w (dX_dx C i m) ind * atX g w (dX_dx C j n') ind * cell w (ddu_ind a i j) ind)) = dd m n').
  { intros. unfold dd, ddval, S3. now rewrite !ddu_sym. }
  rewrite !Edd. clear Edd. unfold ddu_ind.
  destruct (sts_ok ind n [(du D1, d D1); (a 0%nat, dd D1 D1); (a 1%nat, dd D1 D2); (a 2%nat, dd D1 D3); (du D2, d D2); (a 3%nat, dd D2 D2); (a 4%nat, dd D2 D3); (du D3, d D3); (a 5%nat, dd D3 D3)] w H) as (w' & E & F & K).
  { cbn [map fst]. apply (Permutation_NoDup (l := nine du a)); auto. apply perm9. }
  { intros p Hp. apply L. cbn in Hp. unfold nine. intuition subst; cbn; tauto. }
  exists w'. split.
  { rewrite <- E. unfold sts. cbn [forl fst snd]. unfold d. do 8 (match goal with |- context [st ?x ?y ?z ?t] => destruct (st x y z t); cbn [rbind]; auto end). now rewrite rbind_ok. }
  split. { intros j Hj. apply F. intros A. apply Hj. cbn in A. unfold nine. cbn. tauto. }
  assert (KK : forall i, In i (nine du a) -> exists x, In (i, x) [(du D1, d D1); (a 0%nat, dd D1 D1); (a 1%nat, dd D1 D2); (a 2%nat, dd D1 D3); (du D2, d D2); (a 3%nat, dd D2 D2); (a 4%nat, dd D2 D3); (du D3, d D3); (a 5%nat, dd D3 D3)]).
  { intros i Hi. cbn in Hi. intuition subst; eexists; cbn; eauto 12. }
  split. { intros i Hi. destruct (KK i Hi) as (x & Hx). destruct (K _ Hx) as (K1 & _ & K2). auto. }
  split. { intros m. apply (K (du m, d m)). destruct m; cbn; tauto. }
  intros m n' Hm. apply (K (a (pair6 m n'), dd m n')). unfold d3_le in Hm. destruct m, n'; cbn in *; try lia; tauto.
Qed.
Lemma alloc_set_ok i a v : v i <> None -> alloc_set i a v = Ok (vset v i a).
Proof. intros H. unfold alloc_set, deref. destruct (v i); [reflexivity|congruence]. Qed.
Lemma alloc_sets_ok l : forall v, NoDup (map fst l) -> (forall p, In p l -> v (fst p) <> None) ->
  exists w, forl l (fun p v => alloc_set (fst p) (snd p) v) v = Ok w /\ (forall p, In p l -> w (fst p) = Some (snd p)) /\ (forall j, ~ In j (map fst l) -> w j = v j).
Proof.
  induction l as [|(i, x) l IH]; intros v ND Ha; cbn [forl map fst snd] in *.
  - exists v. split; auto. split; auto. intros p [].
  - inversion ND as [|? ? N1 N2]; subst. rewrite alloc_set_ok by (apply (Ha (i, x)); now left). cbn [rbind].
    destruct (IH (vset v i x) N2) as (w & E & K & F).
    { intros p Hp. rewrite vset_ne. - apply Ha. now right. - intros H. apply N1. rewrite <- H. now apply in_map. }
    exists w. split; auto. split.
    + intros p [<-|Hp]; auto. cbn [fst snd]. rewrite F by auto. apply vset_eq.
    + intros j Hj. rewrite F. * apply vset_ne. intros ->. apply Hj. now left. * intros H. apply Hj. now right.
Qed.
Lemma all_derivs_ok D DD iu du a v u : v iu = Some u -> (forall i, In i (nine du a) -> v i <> None) -> NoDup (nine du a) ->
  exists w, all_derivs D DD iu du (ddu_ind a) v = Ok w /\ (forall m, w (du m) = Some (D m u)) /\ (forall m n, d3_le m n -> w (a (pair6 m n)) = Some (DD m n u)) /\ (forall j, ~ In j (nine du a) -> w j = v j).
Proof.
  intros Eu Ha ND. unfold all_derivs, deref. rewrite Eu. cbn [rbind ddu_ind].
  set (l := [(du D1, D D1 u); (du D2, D D2 u); (du D3, D D3 u); (a 0%nat, DD D1 D1 u); (a 1%nat, DD D1 D2 u); (a 2%nat, DD D1 D3 u); (a 3%nat, DD D2 D2 u); (a 4%nat, DD D2 D3 u); (a 5%nat, DD D3 D3 u)]).
  destruct (alloc_sets_ok l v) as (w & E & K & F); auto.
  { intros p Hp. apply Ha. change (nine du a) with (map fst l). now apply in_map. }
  exists w. split.
  { rewrite <- E. unfold l, ddu_ind. cbn [forl fst snd]. do 8 (match goal with |- rbind ?x _ = _ => destruct x; cbn [rbind]; auto end). now rewrite rbind_ok. }
  split; [|split]; auto.
  - intros m. apply (K (du m, D m u)). destruct m; cbn; tauto.
  - intros m n L. apply (K (a (pair6 m n), DD m n u)). unfold d3_le in L. destruct m, n; cbn in L |- *; try lia; tauto.
Qed.
Lemma cart_hess_some b g v D DD u m n C : coord b = Some C ->
  cart_hess b g v D DD u m n = map (fun ind => ddval (nnodes b) g C v (fun i => nth ind (D i u) 0) (fun i j => nth ind (if (d3_nat i <=? d3_nat j)%nat then DD i j u else DD j i u) 0) ind m n) (seq 0 (nnodes b)).
Proof. intros E. unfold cart_hess. now rewrite E. Qed.
Lemma pair6_comm i j : pair6 i j = pair6 j i. Proof. now destruct i, j. Qed.
Lemma d3_total i j : (d3_nat i <=? d3_nat j)%nat = true -> d3_le i j. Proof. intros H. now apply Nat.leb_le. Qed.
Lemma d3_total' i j : (d3_nat i <=? d3_nat j)%nat = false -> d3_le j i. Proof. intros H. apply Nat.leb_gt in H. unfold d3_le. lia. Qed.
Definition hold2 (b : tbox) (g : gvars) (v : vars) : Prop := match coord b with Some C => tables_hold (nnodes b) g C v /\ has_second C | None => True end.
Lemma d3_le_refl1 : d3_le D1 D1. Proof. unfold d3_le. lia. Qed.
Lemma cart_partial_all_ok b g D DD iu i1 i2 i3 a v u : let du := tab i1 i2 i3 in
  v iu = Some u -> (forall i, In i (nine du a) -> v i <> None) -> (forall j x, List.length x = nnodes b -> List.length (D j x) = nnodes b) -> (forall j k x, List.length x = nnodes b -> List.length (DD j k x) = nnodes b) -> List.length u = nnodes b ->
  NoDup (nine du a) -> (forall i, In i (nine du a) -> ~ In i (gvar_list g)) -> ready (nnodes b) g v -> hold2 b g v ->
  exists v', cart_partial_all b g D DD iu i1 i2 i3 a v = Ok v' /\ (forall m, v' (du m) = Some (cart_grad b g v D u m)) /\
  (forall m n, d3_le m n -> v' (a (pair6 m n)) = Some (cart_hess b g v D DD u m n)) /\ (forall j, ~ In j (nine du a) -> v' j = v j).
Proof.
  intros du Eu Ha HD HDD Lu ND Hg R T. unfold cart_partial_all. fold du.
  destruct (all_derivs_ok D DD iu du a v u Eu Ha ND) as (w & E & W1 & W2 & Wf). rewrite E. cbn [rbind].
  assert (Wg : sameg g v w). { intros c Hc. apply Wf. intros Hi. now apply (Hg c). }
  unfold hold2 in T. destruct (coord b) as [C|] eqn:EC.
  2: { exists w. unfold cart_grad, cart_hess. rewrite EC. auto. }
  destruct T as (T & HS). destruct (ddX_dxdx C D1 D1 D1) eqn:E1; [|exfalso; now apply (HS D1 D1 D1 d3_le_refl1)]. clear E1.
  set (n := nnodes b) in *. set (st := (allocated w (ddXdd g) && allocated w (dXd g))%bool).
  set (val := fun m ind => S3 (fun i => atX g v (dX_dx C i m) ind * nth ind (D i u) 0)).
  set (DS := fun i j => if (d3_nat i <=? d3_nat j)%nat then DD i j u else DD j i u).
  set (dval := fun m n' ind => ddval n g C v (fun i => nth ind (D i u) 0) (fun i j => nth ind (DS i j) 0) ind m n').
  assert (W2' : forall i j, w (a (pair6 i j)) = Some (DS i j)).
  { intros i j. unfold DS. destruct (d3_nat i <=? d3_nat j)%nat eqn:El. - apply W2. now apply d3_total. - rewrite pair6_comm. apply W2. now apply d3_total'. }
  assert (Ln : forall i, In i (nine du a) -> len w i n).
  { intros i Hi. cbn in Hi. assert (LD : forall i j, List.length (DS i j) = n) by (intros; unfold DS; destruct Nat.leb; auto).
    destruct Hi as [<-|[<-|[<-|[<-|[<-|[<-|[<-|[<-|[<-|[]]]]]]]]]].
    - exists (D D1 u). split; [apply (W1 D1)|auto]. - exists (D D2 u). split; [apply (W1 D2)|auto]. - exists (D D3 u). split; [apply (W1 D3)|auto].
    - exists (DS D1 D1). split; [apply (W2' D1 D1)|auto]. - exists (DS D1 D2). split; [apply (W2' D1 D2)|auto]. - exists (DS D1 D3). split; [apply (W2' D1 D3)|auto].
    - exists (DS D2 D2). split; [apply (W2' D2 D2)|auto]. - exists (DS D2 D3). split; [apply (W2' D2 D3)|auto]. - exists (DS D3 D3). split; [apply (W2' D3 D3)|auto]. }
  destruct (for_nat_inv (fun k x => (forall j, ~ In j (nine du a) -> x j = v j) /\ (forall i, In i (nine du a) -> len x i n) /\
      (forall m ind, (ind < n)%nat -> cell x (du m) ind = if (ind <? k)%nat then val m ind else nth ind (D m u) 0) /\
      (forall m n' ind, d3_le m n' -> (ind < n)%nat -> cell x (a (pair6 m n')) ind = if (ind <? k)%nat then dval m n' ind else nth ind (DS m n') 0))
    (cart_point_all g C st du (ddu_ind a)) 0 n w ltac:(lia)) as (v' & Ev & F & L & K1 & K2).
  { split; auto. split; auto. split. - intros m ind Hi. unfold cell. now rewrite W1. - intros m n' ind Hm Hi. unfold cell. now rewrite W2'. }
  { intros ind x Hi (Fx & Lx & K1 & K2). assert (Sx : sameg g v x). { intros c Hc. apply Fx. intros A. now apply (Hg c). }
    destruct (cart_point_all_ok n g C x st du a ind) as (x' & Ex & Fx' & Lx' & C1 & C2); auto; try lia.
    { now apply sameg_ready with v. } { now apply sameg_tables with v. }
    { intros Hs. rewrite (Sx _ (gd0_in g)), <- (Wg _ (gd0_in g)). apply andb_prop in Hs. now apply alloc_true. }
    { intros Hs. rewrite (Sx _ (gdd0_in g)), <- (Wg _ (gdd0_in g)). apply andb_prop in Hs. now apply alloc_true. }
    exists x'. split; auto. split. { intros j Hj. rewrite Fx'; auto. } split. { intros i Hi'. now apply Lx'. }
    assert (K2' : forall i j, cell x (a (pair6 i j)) ind = nth ind (DS i j) 0).
    { intros i j. destruct (d3_nat i <=? d3_nat j)%nat eqn:El.
      - rewrite K2 by (auto using d3_total; lia). destruct (Nat.ltb_spec ind ind); [lia|]. reflexivity.
      - rewrite pair6_comm, K2 by (auto using d3_total'; lia). destruct (Nat.ltb_spec ind ind); [lia|]. unfold DS. rewrite El. apply d3_total' in El. apply Nat.leb_le in El. now rewrite El. }
    split.
    - intros m k Hk. destruct (Nat.eq_dec k ind) as [->|NE].
      + destruct (Nat.ltb_spec ind (ind + 1)); [|lia]. rewrite C1. unfold val, S3. rewrite !(sameg_atX g v x) by auto. rewrite !K1 by lia. destruct (Nat.ltb_spec ind ind); [lia|]. reflexivity.
      + rewrite (proj2 (Lx' _ (nine_du du a m))) by auto. rewrite K1 by auto. destruct (Nat.ltb_spec k ind), (Nat.ltb_spec k (ind + 1)); auto; lia.
    - intros m n' k Hm Hk. destruct (Nat.eq_dec k ind) as [->|NE].
      + destruct (Nat.ltb_spec ind (ind + 1)); [|lia]. rewrite C2 by auto. unfold dval, ddval, S3. rewrite !K2', !K1 by lia. destruct (Nat.ltb_spec ind ind); [lia|].
        rewrite !(sameg_atX g v x) by auto. assert (Q : forall o : option fn3, match o with Some F => atX g x F ind | None => 0 end = match o with Some F => atX g v F ind | None => 0 end). { intros [F|]; auto. now apply sameg_atX. }
        rewrite !Q. reflexivity.
      + rewrite (proj2 (Lx' _ (nine_a du a m n'))) by auto. rewrite K2 by auto. destruct (Nat.ltb_spec k ind), (Nat.ltb_spec k (ind + 1)); auto; lia. }
  exists v'. split; auto. split; [|split]; auto.
  - intros m. unfold cart_grad. rewrite EC. apply cell_list with n; [apply L, nine_du|now rewrite map_length, seq_length|].
    intros k Hk. rewrite K1 by auto. destruct (Nat.ltb_spec k n); [|lia]. now rewrite nth_map_seq by auto.
  - intros m n' Hm. rewrite (cart_hess_some _ _ _ _ _ _ _ _ C EC). apply cell_list with n; [apply L, (nine_a du)|now rewrite map_length, seq_length|].
    intros k Hk. rewrite K2 by auto. destruct (Nat.ltb_spec k n); [|lia]. now rewrite nth_map_seq by auto.
Qed.

(** C102: the linearised equations of the Poisson2 and Poisson3 examples. *)
From Coq Require Import Psatz FunctionalExtensionality ZifyBool.
From Verif Require Import Rutil Base Bound_model Faces_model Bc_model Bc_spec Bc_props Poisson_model Poisson_spec Bc_rel.
Local Open Scope R_scope.

Section P.
Variable nb : nat.
Variable n1 n2 n3 : nat -> nat.
Variable bfaces : nat -> nat -> face.
Variable nf : nat -> nat.
Variable jac : nat -> nat -> option (nat -> v3).
Variable crd : nat -> Z -> nat -> R.
Variable bbox : nat -> nat -> R.
Variable interp3 : nat -> (nat -> R) -> R -> R -> R -> R.
Variable interp2 : nat -> nat -> nat -> (nat -> R) -> R -> R -> R.
Variable DS : nat -> nat -> (nat -> R) -> nat -> R.
Variable erf : R -> R.
Variable hasx : nat -> bool.
Variable xyz XYZ : nat -> nat -> R * R * R.
Notation nn := (nnod n1 n2 n3).
Notation setr := (set_row).
Notation drv := (derivs DS).
Notation F2' := (F2 nb n1 n2 n3 DS).
Notation J2' := (J2 nb n1 n2 n3 DS).
Notation F3' := (F3 nb n1 n2 n3 bfaces nf jac crd bbox interp3 interp2 DS erf hasx xyz XYZ).
Notation J3' := (J3 nb n1 n2 n3 bfaces nf jac crd bbox interp3 interp2 DS erf hasx xyz XYZ).

Lemma rows_val b id (g : nat -> nat -> R) i b' p : forall l u, fold_left (fun w m => setr w (id + m) b (g m)) l u (i, b', p) =
  if ((b' =? b) && existsb (fun m => i =? id + m) l)%nat then g (i - id)%nat p else u (i, b', p).
Proof.
  induction l as [|m l IH]; intros u; cbn [fold_left existsb]. { now rewrite andb_false_r. } rewrite IH. unfold set_row.
  destruct (b' =? b)%nat; [|now rewrite !andb_false_r]. rewrite !andb_true_r. cbn [andb].
  destruct (existsb _ l); [now rewrite orb_true_r|]. rewrite orb_false_r. destruct (i =? id + m)%nat eqn:E; [|reflexivity]. f_equal. apply Nat.eqb_eq in E. lia.
Qed.
Lemma derivs_val b iS id u i b' p : drv b iS id u (i, b', p) =
  if ((b' =? b) && ((id <=? i) && (i <? id + 9)))%nat then DS b (i - id) (fun q => u (iS, b, q)) p else u (i, b', p).
Proof.
  unfold derivs. rewrite (rows_val b id (fun m => DS b m (fun q => u (iS, b, q)))). replace (existsb (fun m => i =? id + m) (seq 0 9))%nat with ((id <=? i) && (i <? id + 9))%nat; [reflexivity|].
  symmetry. destruct ((id <=? i) && (i <? id + 9))%nat eqn:E.
  - apply andb_true_iff in E. destruct E as [E1 E2]. apply Nat.leb_le in E1. apply Nat.ltb_lt in E2. apply existsb_exists. exists (i - id)%nat. rewrite in_seq, Nat.eqb_eq. lia.
  - destruct (existsb _ _) eqn:X; [|reflexivity]. apply existsb_exists in X. destruct X as (m & I & X). apply in_seq in I. apply Nat.eqb_eq in X. apply andb_false_iff in E. rewrite Nat.leb_gt, Nat.ltb_ge in E. lia.
Qed.
(** values after a loop over the boxes each of which changes only its own box *)
Lemma fold_boxes (step : nat -> field -> field) (G : nat -> (nat -> nat -> R) -> nat -> nat -> R) :
  (forall b u i b' p, step b u (i, b', p) = if (b' =? b)%nat then G b (fun i p => u (i, b, p)) i p else u (i, b', p)) ->
  forall l u i b p, NoDup l -> fold_left (fun u b => step b u) l u (i, b, p) = if in_dec Nat.eq_dec b l then G b (fun i p => u (i, b, p)) i p else u (i, b, p).
Proof.
  intros H. induction l as [|c l IH]; intros u i b p N; cbn [fold_left]; [reflexivity|]. inversion N; subst. rewrite IH; auto. destruct (Nat.eq_dec b c) as [-> |Nb].
  - destruct (in_dec Nat.eq_dec c l) as [I|I]; [tauto|]. rewrite H, Nat.eqb_refl. destruct (in_dec _ c (c :: l)) as [_|I']; [reflexivity|exfalso; apply I'; now left].
  - assert (E : forall i p, step c u (i, b, p) = u (i, b, p)) by (intros; rewrite H; now rewrite (proj2 (Nat.eqb_neq b c) Nb)).
    destruct (in_dec Nat.eq_dec b l) as [I|I]; destruct (in_dec Nat.eq_dec b (c :: l)) as [I'|I'].
    + f_equal. extensionality j. extensionality q. apply E.
    + exfalso. apply I'. now right.
    + destruct I' as [-> |I']; tauto.
    + apply E.
Qed.
(** the values in one box after the equations were evaluated there *)
Definition dval (b : nat) (v : nat -> nat -> R) (o i p : nat) : R :=
  if ((o + 1 <=? i) && (i <? o + 10))%nat then DS b (i - (o + 1)) (v o) p else if ((o + 11 <=? i) && (i <? o + 20))%nat then DS b (i - (o + 11)) (v (o + 10)%nat) p else v i p.
Definition G2r (o : nat) (nonlin : bool) (b : nat) (v : nat -> nat -> R) (i p : nat) : R :=
    let d k := dval b v o (o + k) p in
    if (i =? o + 23)%nat then d 14%nat + d 17%nat + d 19%nat - (if nonlin then d 21%nat else 0) else if (i =? o + 22)%nat then d 4%nat + d 7%nat + d 9%nat - (if nonlin then d 20%nat else 0) else dval b v o i p.
Definition G3F (b : nat) (v : nat -> nat -> R) (i p : nat) : R :=
    let d k := dval b v 0 k p in
    if (i =? 23)%nat then d 14%nat + d 1%nat * d 17%nat + d 19%nat - d 21%nat else if (i =? 22)%nat then d 10%nat * d 4%nat + d 7%nat + d 10%nat * d 10%nat * d 9%nat - d 20%nat else dval b v 0 i p.
Definition G3J (b : nat) (v : nat -> nat -> R) (i p : nat) : R :=
    let d k := dval b v 24 (24 + k) p in
    if (i =? 47)%nat then d 14%nat + v 1%nat p * d 17%nat + d 1%nat * v 17%nat p + d 19%nat
    else if (i =? 46)%nat then v 10%nat p * d 4%nat + d 10%nat * v 4%nat p + d 7%nat + v 10%nat p * v 10%nat p * d 9%nat + 2 * d 10%nat * v 9%nat p else dval b v 24 i p.
Lemma derivs2_val b o u i b' p : drv b (o + 10) (o + 11) (drv b (o + 0) (o + 1) u) (i, b', p) = if (b' =? b)%nat then dval b (fun i p => u (i, b, p)) o i p else u (i, b', p).
Proof.
  rewrite !derivs_val. unfold dval. destruct (b' =? b)%nat eqn:Eb; cbn [andb]; [|reflexivity]. apply Nat.eqb_eq in Eb. subst b'.
  replace (o + 0)%nat with o by lia. replace (o + 1 + 9)%nat with (o + 10)%nat by lia. replace (o + 11 + 9)%nat with (o + 20)%nat by lia.
  destruct ((o + 11 <=? i) && (i <? o + 20))%nat eqn:E1; destruct ((o + 1 <=? i) && (i <? o + 10))%nat eqn:E2; try reflexivity; try lia.
  f_equal. extensionality q. rewrite derivs_val. replace ((o + 1 <=? o + 10) && (o + 10 <? o + 1 + 9))%nat with false by lia. now rewrite andb_false_r.
Qed.
Lemma rows2_val o nl b u i b' p : rows2 DS o nl b u (i, b', p) = if (b' =? b)%nat then G2r o nl b (fun i p => u (i, b, p)) i p else u (i, b', p).
Proof.
  unfold rows2. cbv zeta. unfold set_row at 1. unfold set_row at 1. rewrite !derivs2_val, Nat.eqb_refl. unfold G2r. destruct (b' =? b)%nat eqn:Eb; [|rewrite !andb_false_r; reflexivity].
  apply Nat.eqb_eq in Eb. subst b'. rewrite !andb_true_r. destruct nl; destruct (i =? o + 23)%nat; destruct (i =? o + 22)%nat; try reflexivity; lra.
Qed.
Lemma rows3F_val b u i b' p : rows3F DS b u (i, b', p) = if (b' =? b)%nat then G3F b (fun i p => u (i, b, p)) i p else u (i, b', p).
Proof.
  unfold rows3F. cbv zeta. change (drv b 10 11 (drv b 0 1 u)) with (drv b (0 + 10) (0 + 11) (drv b (0 + 0) (0 + 1) u)). unfold set_row at 1. unfold set_row at 1. rewrite !derivs2_val, Nat.eqb_refl. unfold G3F.
  destruct (b' =? b)%nat eqn:Eb; [|rewrite !andb_false_r; reflexivity]. apply Nat.eqb_eq in Eb. subst b'. rewrite !andb_true_r. destruct (i =? 23)%nat; destruct (i =? 22)%nat; reflexivity.
Qed.
Lemma rows3J_val b u i b' p : rows3J DS b u (i, b', p) = if (b' =? b)%nat then G3J b (fun i p => u (i, b, p)) i p else u (i, b', p).
Proof.
  unfold rows3J. cbv zeta. change (drv b 34 35 (drv b 24 25 u)) with (drv b (24 + 10) (24 + 11) (drv b (24 + 0) (24 + 1) u)). unfold set_row at 1. unfold set_row at 1. rewrite !derivs2_val, Nat.eqb_refl. unfold G3J.
  destruct (b' =? b)%nat eqn:Eb; [|rewrite !andb_false_r; reflexivity]. apply Nat.eqb_eq in Eb. subst b'. rewrite !andb_true_r. destruct (i =? 47)%nat; destruct (i =? 46)%nat; reflexivity.
Qed.
Lemma in_seq0 {A} b (x y : A) : (if in_dec Nat.eq_dec b (seq 0 nb) then x else y) = if (b <? nb)%nat then x else y.
Proof. destruct (in_dec _ _ _) as [I|I]; rewrite in_seq in I; destruct (b <? nb)%nat eqn:E; try reflexivity; lia. Qed.
Definition bulk2 o nl u := fold_left (fun u b => rows2 DS o nl b u) (seq 0 nb) u.
Definition bulk3F u := fold_left (fun u b => rows3F DS b u) (seq 0 nb) u.
Definition bulk3J u := fold_left (fun u b => rows3J DS b u) (seq 0 nb) u.
Lemma bulk2_val o nl u i b p : bulk2 o nl u (i, b, p) = if (b <? nb)%nat then G2r o nl b (fun i p => u (i, b, p)) i p else u (i, b, p).
Proof. unfold bulk2. rewrite (fold_boxes _ (G2r o nl)), in_seq0; [reflexivity|intros; apply rows2_val|apply seq_NoDup]. Qed.
Lemma bulk3F_val u i b p : bulk3F u (i, b, p) = if (b <? nb)%nat then G3F b (fun i p => u (i, b, p)) i p else u (i, b, p).
Proof. unfold bulk3F. rewrite (fold_boxes _ G3F), in_seq0; [reflexivity|intros; apply rows3F_val|apply seq_NoDup]. Qed.
Lemma bulk3J_val u i b p : bulk3J u (i, b, p) = if (b <? nb)%nat then G3J b (fun i p => u (i, b, p)) i p else u (i, b, p).
Proof. unfold bulk3J. rewrite (fold_boxes _ G3J), in_seq0; [reflexivity|intros; apply rows3J_val|apply seq_NoDup]. Qed.
(** only the residuals are changed by the conditions *)
Lemma bc3_face_only iF iP id obc fc u u' : bc3_face n1 n2 n3 bfaces jac crd bbox interp3 interp2 hasx xyz XYZ iF iP id obc fc u = Ok u' -> forall i b p, i <> iF -> u' (i, b, p) = u (i, b, p).
Proof.
  intros E i b p N. unfold bc3_face in E. destruct (0 <=? ob (fx fc))%Z.
  - destruct (bcb_only _ _ _ _ _ _ _ _ _ _ _ _ _ _ _ E) as [-> |(_ & l & _ & O)]; [reflexivity|]. apply O. tauto.
  - destruct (outerb (fx fc)); [|injection E as <-; reflexivity].
    assert (B : exists l, fpts (fx fc) = Some l /\ only iF (fb fc) l u u').
    { refine (for_only _ _ _ _ _ _ _ E). intros pi q w w' X. destruct (if hasx (fb fc) then _ else _) as [[x y] z]. destruct (rdv n1 n2 n3 w iP (fb fc) (Z.of_nat q)); try discriminate. cbn [rbind] in X. eapply wr_only; exact X. }
    destruct B as (l & _ & O). apply O. tauto.
Qed.
Lemma bc3_faces_only iF iP id obc : forall l u u', bc3_faces n1 n2 n3 bfaces jac crd bbox interp3 interp2 hasx xyz XYZ iF iP id obc l u = Ok u' -> forall i b p, i <> iF -> u' (i, b, p) = u (i, b, p).
Proof.
  induction l as [|fc l IH]; intros u u' E i b p N; cbn [bc3_faces] in E; [injection E as <-; reflexivity|].
  destruct (bc3_face _ _ _ _ _ _ _ _ _ _ _ _ iF iP id obc fc u) as [w| |] eqn:X; try discriminate. cbn [rbind] in E. rewrite (IH _ _ E); auto. eapply bc3_face_only; eauto.
Qed.
Lemma bc3_boxes_only bi iF iP id obc : forall l u u', bc3_boxes n1 n2 n3 bfaces nf jac crd bbox interp3 interp2 hasx xyz XYZ bi iF iP id obc l u = Ok u' -> forall i b p, i <> iF -> u' (i, b, p) = u (i, b, p).
Proof.
  induction l as [|c l IH]; intros u u' E i b p N; cbn [bc3_boxes] in E; [injection E as <-; reflexivity|].
  destruct (match bi with Some _ => _ | None => _ end).
  - destruct (bc3_faces _ _ _ _ _ _ _ _ _ _ _ _ iF iP id obc _ u) as [w| |] eqn:X; try discriminate. cbn [rbind] in E. rewrite (IH _ _ E); auto. eapply bc3_faces_only; eauto.
  - cbn [rbind] in E. eauto.
Qed.
Lemma bc3_only o nl blk u u' : bc3 nb n1 n2 n3 bfaces nf jac crd bbox interp3 interp2 erf hasx xyz XYZ o nl blk u = Ok u' -> forall i b p, i <> (o + 22)%nat -> i <> (o + 23)%nat -> u' (i, b, p) = u (i, b, p).
Proof.
  intros E i b p H0 H1. unfold bc3 in E. cbv zeta in E.
  match type of E with rbind ?m _ = _ => destruct m as [w| |] eqn:X; try discriminate end. cbn [rbind] in E. transitivity (w (i, b, p)).
  - destruct (match blk with Some _ => _ | None => _ end) in E; [eapply bc3_boxes_only; [exact E|lia]|injection E as <-; reflexivity].
  - destruct (match blk with Some _ => _ | None => _ end) in X; [eapply bc3_boxes_only; [exact X|lia]|injection X as <-; reflexivity].
Qed.

Hypothesis LD : linearD DS.
Lemma dval_moved s eps b i p : (i < 20)%nat -> dval b (fun i p => moved eps s (i, b, p)) 0 i p = dval b (fun i p => s (i, b, p)) 0 i p + eps * dval b (fun i p => s (i, b, p)) 24 (24 + i) p.
Proof.
  intros Hi. unfold dval. destruct ((0 + 1 <=? i) && (i <? 0 + 10))%nat eqn:E1.
  - replace ((24 + 1 <=? 24 + i) && (24 + i <? 24 + 10))%nat with true by lia. replace (24 + i - (24 + 1))%nat with (i - (0 + 1))%nat by lia.
    replace (fun p0 => moved eps s (0%nat, b, p0)) with (fun q => 1 * s (0%nat, b, q) + eps * s (24%nat, b, q)) by (extensionality q; cbn; ring). rewrite LD. ring.
  - replace ((24 + 1 <=? 24 + i) && (24 + i <? 24 + 10))%nat with false by lia. destruct ((0 + 11 <=? i) && (i <? 0 + 20))%nat eqn:E2.
    + replace ((24 + 11 <=? 24 + i) && (24 + i <? 24 + 20))%nat with true by lia. replace (24 + i - (24 + 11))%nat with (i - (0 + 11))%nat by lia.
      replace (fun p0 => moved eps s ((0 + 10)%nat, b, p0)) with (fun q => 1 * s (10%nat, b, q) + eps * s (34%nat, b, q)) by (extensionality q; cbn; ring). rewrite LD. cbn [Nat.add]. ring.
    + replace ((24 + 11 <=? 24 + i) && (24 + i <? 24 + 20))%nat with false by lia. assert (H : i = 0%nat \/ i = 10%nat) by lia. destruct H as [-> | ->]; cbn; ring.
Qed.
Lemma dval_l s t b i p : (forall j q, (24 <= j)%nat -> t (j, b, q) = s (j, b, q)) -> (24 <= i)%nat -> dval b (fun i p => t (i, b, p)) 24 i p = dval b (fun i p => s (i, b, p)) 24 i p.
Proof.
  intros H Hi. unfold dval. replace (fun p0 => t (24%nat, b, p0)) with (fun p0 => s (24%nat, b, p0)) by (extensionality q; rewrite H; [reflexivity|lia]).
  replace (fun p0 => t ((24 + 10)%nat, b, p0)) with (fun p0 => s ((24 + 10)%nat, b, p0)) by (extensionality q; rewrite H; [reflexivity|lia]). now rewrite H.
Qed.
Lemma dval_rh b v i p : i = 20%nat \/ i = 21%nat -> dval b v 0 i p = v i p. Proof. now intros [-> | ->]. Qed.
Definition sh (k : option R) : nat := match k with Some _ => 0%nat | None => 24%nat end.
Definition affine (x : option R -> R) : Prop := forall eps, x (Some eps) = x (Some 0) + eps * x None.
Lemma affine_lin (L : (nat -> R) -> R) f : (forall a c f g, L (fun q => a * f q + c * g q) = a * L f + c * L g) -> (forall q, affine (fun k => f k q)) -> affine (fun k => L (f k)).
Proof.
  intros HL H eps. replace (f (Some eps)) with (fun q => 1 * f (Some 0) q + eps * f None q) by (extensionality q; rewrite (H q eps); ring). rewrite HL. ring.
Qed.
(** Poisson2.  The residuals are affine in the fields and the linearised equations are their linear part: moving Psi and Chi by eps times
    the direction changes each residual, at each point of each box, by eps times what J gives. *)
Theorem C102_poisson2 sph s t eps vind b p : (forall i c q, (24 <= i)%nat -> t (i, c, q) = s (i, c, q)) -> (vind < 2)%nat -> (b < nb)%nat ->
  F2' sph (moved eps s) (22 + vind, b, p)%nat = F2' sph s (22 + vind, b, p)%nat + eps * J2' sph t (46 + vind, b, p)%nat.
Proof.
  intros Ht Hv Hb. set (st := fun k => match k with Some e => bulk2 0 true (moved e s) | None => bulk2 24 false t end).
  set (V := fun i (c _ : nat) => (c < nb /\ i < 24 /\ i <> 20 /\ i <> 21)%nat).
  assert (E : affine (fun k => bc2 nb n1 n2 n3 sph (sh k) (match k with Some _ => 1 | None => 0 end) (st k) (sh k + (22 + vind), b, p)%nat)).
  { refine (bc2_rel n1 n2 n3 (option R) affine _ _ _ (fun k i => (sh k + i)%nat) _ V nb sph sh (fun k => match k with Some _ => 1 | None => 0 end) st _ _ _ _ _ (22 + vind)%nat b p _).
    - intros x y Hx Hy e. rewrite (Hx e), (Hy e). ring.
    - intros r x Hx e. rewrite (Hx e). ring.
    - intros x y H Hx e. rewrite <- !H. apply Hx.
    - intros k i j. lia.
    - intros k i. reflexivity.
    - intros e. ring.
    - intros c q Hc. unfold V. lia.
    - intros c q Hc. unfold V. lia.
    - intros i c q (Hc & Hi & H20 & H21) e. unfold st, sh. rewrite !bulk2_val. replace (c <? nb)%nat with true by lia. unfold G2r. cbn [Nat.add]. cbv zeta.
      destruct (i =? 23)%nat eqn:E1; [|destruct (i =? 22)%nat eqn:E2].
      + apply Nat.eqb_eq in E1. subst i. cbn [Nat.eqb]. rewrite !(dval_rh _ _ 21) by auto. rewrite !dval_moved by lia. rewrite !(dval_l s t) by (auto; lia). cbn [Nat.add]. unfold moved. cbn [Nat.eqb orb]. ring.
      + apply Nat.eqb_eq in E2. subst i. cbn [Nat.eqb]. rewrite !(dval_rh _ _ 20) by auto. rewrite !dval_moved by lia. rewrite !(dval_l s t) by (auto; lia). cbn [Nat.add]. unfold moved. cbn [Nat.eqb orb]. ring.
      + match goal with |- context [if (?x =? 47)%nat then _ else _] => replace (x =? 47)%nat with false by lia; replace (x =? 46)%nat with false by lia; change x with (24 + i)%nat end. rewrite !dval_moved by lia. rewrite !(dval_l s t) by (auto; lia). ring.
    - unfold V. lia. }
  specialize (E eps). unfold st, sh in E. cbn [Nat.add] in E. unfold F2, J2. fold (bulk2 0 true (moved eps s)) (bulk2 0 true s) (bulk2 24 false t). cbn [Nat.add].
  replace (moved 0 s) with s in E. { exact E. } extensionality l. destruct l as [[i c] q]. unfold moved. destruct (_ || _); ring.
Qed.
(** the linearised equations are linear in the direction *)
Lemma dval_lin a c (x y z : field) b i p : (forall j q, (24 <= j)%nat -> z (j, b, q) = a * x (j, b, q) + c * y (j, b, q)) -> (24 <= i)%nat ->
  dval b (fun i p => z (i, b, p)) 24 i p = a * dval b (fun i p => x (i, b, p)) 24 i p + c * dval b (fun i p => y (i, b, p)) 24 i p.
Proof.
  intros H Hi. unfold dval. destruct ((24 + 1 <=? i) && (i <? 24 + 10))%nat.
  - replace (fun p0 => z (24%nat, b, p0)) with (fun q => a * x (24%nat, b, q) + c * y (24%nat, b, q)) by (extensionality q; rewrite H; [reflexivity|lia]). apply LD.
  - destruct ((24 + 11 <=? i) && (i <? 24 + 20))%nat; [|now apply H]. replace (fun p0 => z ((24 + 10)%nat, b, p0)) with (fun q => a * x (34%nat, b, q) + c * y (34%nat, b, q)) by (extensionality q; cbn [Nat.add]; rewrite H; [reflexivity|lia]). apply LD.
Qed.
Definition three (a c : R) (f : nat -> R) : Prop := f 2%nat = a * f 0%nat + c * f 1%nat.
Definition pick (x y z : field) (k : nat) : field := match k with 0%nat => x | 1%nat => y | _ => z end.
Lemma three_lin a c (L : (nat -> R) -> R) f : (forall a c f g, L (fun q => a * f q + c * g q) = a * L f + c * L g) -> (forall q, three a c (fun k => f k q)) -> three a c (fun k => L (f k)).
Proof. intros HL H. unfold three. replace (f 2%nat) with (fun q => a * f 0%nat q + c * f 1%nat q) by (extensionality q; now rewrite (H q)). apply HL. Qed.
Lemma three_add a c x y : three a c x -> three a c y -> three a c (fun k => x k + y k). Proof. unfold three. intros -> ->. ring. Qed.
Lemma three_scal a c r x : three a c x -> three a c (fun k => r * x k). Proof. unfold three. intros ->. ring. Qed.
Lemma three_ext a c x y : (forall k : nat, x k = y k) -> three a c x -> three a c y. Proof. unfold three. intros H. now rewrite !H. Qed.
Theorem C102_poisson2_linear sph a c x y z : comb a c x y z -> forall vind b p, (vind < 2)%nat -> (b < nb)%nat ->
  J2' sph z (46 + vind, b, p)%nat = a * J2' sph x (46 + vind, b, p)%nat + c * J2' sph y (46 + vind, b, p)%nat.
Proof.
  intros H vind b p Hv Hb. set (st := fun k => bulk2 24 false (pick x y z k)).
  assert (E : three a c (fun k => bc2 nb n1 n2 n3 sph 24 0 (st k) (24 + (22 + vind), b, p)%nat)).
  { refine (bc2_rel n1 n2 n3 nat (three a c) (three_add a c) (three_scal a c) (three_ext a c) (fun _ i => (24 + i)%nat) _ (fun _ _ _ => True) nb sph (fun _ => 24%nat) (fun _ => 0) st _ _ _ _ _ (22 + vind)%nat b p I).
    - intros k i j. lia.
    - intros k i. reflexivity.
    - unfold three. ring.
    - intros ? ? ?. exact I.
    - intros ? ? ?. exact I.
    - intros i e q _. unfold three, st. rewrite !bulk2_val. unfold pick. assert (H' : forall e j q, (24 <= j)%nat -> z (j, e, q) = a * x (j, e, q) + c * y (j, e, q)) by (intros e' j q' Hj; specialize (H j e' q'); now rewrite (proj2 (Nat.ltb_ge j 24) Hj) in H).
      destruct (e <? nb)%nat; [|apply H'; lia]. unfold G2r. cbv zeta. destruct (24 + i =? 24 + 23)%nat; [|destruct (24 + i =? 24 + 22)%nat]; rewrite ?(dval_lin a c x y z) by (auto; lia); ring. }
  exact E.
Qed.
Theorem C102_poisson3_linear blk a c x y z : linear3 interp3 -> linear2 interp2 -> faces_ok nb nf bfaces -> comb a c x y z ->
  match J3' blk x, J3' blk y, J3' blk z with
  | Ok x', Ok y', Ok z' => comb a c x' y' z'
  | Err, Err, Err => True
  | UB, UB, UB => True
  | _, _, _ => False
  end.
Proof.
  intros L3 L2 Hok H. set (st := fun k => bulk3J (pick x y z k)).
  assert (H' : forall e j q, (24 <= j)%nat -> z (j, e, q) = a * x (j, e, q) + c * y (j, e, q)) by (intros e' j q' Hj; specialize (H j e' q'); now rewrite (proj2 (Nat.ltb_ge j 24) Hj) in H).
  assert (H0 : forall e j q, (j < 24)%nat -> x (j, e, q) = z (j, e, q) /\ y (j, e, q) = z (j, e, q)) by (intros e' j q' Hj; specialize (H j e' q'); now rewrite (proj2 (Nat.ltb_lt j 24) Hj) in H).
  assert (E : RG nat (three a c) (fun _ i => (24 + i)%nat) (fun _ _ _ => True) (fun k => bc3 nb n1 n2 n3 bfaces nf jac crd bbox interp3 interp2 erf hasx xyz XYZ 24 false blk (st k))).
  { refine (bc3_rel n1 n2 n3 bfaces jac crd bbox interp3 interp2 nat (three a c) (three_add a c) (three_scal a c) (three_ext a c) _ _ (fun _ i => (24 + i)%nat) _ (fun _ _ _ => True) nb nf hasx xyz XYZ erf (fun _ => 24%nat) (fun _ => false) blk st _ _ _ _ Hok _).
    - intros o f X Y Z' Hf. apply (three_lin a c (fun g => interp3 o g X Y Z') f); auto.
    - intros o n q f X Y Hf. apply (three_lin a c (fun g => interp2 o n q g X Y) f); auto.
    - intros k i j. lia.
    - intros k i. reflexivity.
    - intros. unfold three, outer_0. ring.
    - intros. unfold three, outer_0. ring.
    - intros i _ ? ? ?. exact I.
    - intros i e q _. unfold three, st. rewrite !bulk3J_val. unfold pick.
      destruct (e <? nb)%nat; [|apply H'; lia]. unfold G3J. cbv zeta. destruct (24 + i =? 47)%nat; [|destruct (24 + i =? 46)%nat]; rewrite ?(dval_lin a c x y z) by (auto; lia);
        repeat match goal with |- context [x (?j, e, q)] => rewrite (proj1 (H0 e j q ltac:(lia))) end; repeat match goal with |- context [y (?j, e, q)] => rewrite (proj2 (H0 e j q ltac:(lia))) end; ring. }
  unfold J3. fold (bulk3J x) (bulk3J y) (bulk3J z). destruct E as [(w & Hw & FGw)|[Hw|Hw]]; pose proof (Hw 0%nat) as W0; pose proof (Hw 1%nat) as W1; pose proof (Hw 2%nat) as W2; unfold st, pick in W0, W1, W2; rewrite W0, W1, W2; [|exact I|exact I].
  intros i b p. destruct (i <? 24)%nat eqn:Ei.
  - rewrite (bc3_only _ _ _ _ _ W0), (bc3_only _ _ _ _ _ W1), (bc3_only _ _ _ _ _ W2) by lia. rewrite !bulk3J_val. destruct (H0 b i p ltac:(lia)) as [A B]. destruct (b <? nb)%nat; [|auto]. unfold G3J. cbv zeta.
    replace (i =? 47)%nat with false by lia. replace (i =? 46)%nat with false by lia. unfold dval. replace (24 + 1 <=? i)%nat with false by lia. replace (24 + 11 <=? i)%nat with false by lia. cbn [andb]. auto.
  - pose proof (FGw (i - 24)%nat b p I) as X. unfold three in X. replace (24 + (i - 24))%nat with i in X by lia. exact X.
Qed.
Definition c2 (x : option R -> R) : R := (x (Some 1) + x (Some (-1))) / 2 - x (Some 0).
Definition c3 (x : option R -> R) : R := x (Some 1) - x (Some 0) - x None - c2 x.
Definition cubic (x : option R -> R) : Prop := forall e, x (Some e) = x (Some 0) + e * x None + e * e * c2 x + e * e * e * c3 x.
Lemma cubic_intro x k0 k2 k3 : (forall e, x (Some e) = k0 + e * x None + e * e * k2 + e * e * e * k3) -> cubic x.
Proof. intros H e. unfold c3, c2. rewrite (H 0), (H 1), (H (-1)), (H e). field. Qed.
Lemma cubic_add x y : cubic x -> cubic y -> cubic (fun k => x k + y k). Proof. intros Hx Hy e. rewrite (Hx e), (Hy e). unfold c3, c2. field. Qed.
Lemma cubic_scal r x : cubic x -> cubic (fun k => r * x k). Proof. intros Hx e. rewrite (Hx e). unfold c3, c2. field. Qed.
Lemma cubic_ext x y : (forall k, x k = y k) -> cubic x -> cubic y. Proof. intros H Hx e. unfold c3, c2. rewrite <- !H. apply Hx. Qed.
Lemma cubic_lin (L : (nat -> R) -> R) f : (forall a c f g, L (fun q => a * f q + c * g q) = a * L f + c * L g) -> (forall q, cubic (fun k => f k q)) -> cubic (fun k => L (f k)).
Proof.
  intros HL H e.
  replace (f (Some e)) with (fun q => 1 * ((1 - e * e) * f (Some 0) q + (e - e * e * e) * f None q) + 1 * ((e * e / 2 + e * e * e / 2) * f (Some 1) q + (e * e / 2 - e * e * e / 2) * f (Some (-1)) q)).
  - rewrite HL, (HL (1 - e * e)), (HL (e * e / 2 + e * e * e / 2)). unfold c3, c2. field.
  - extensionality q. rewrite (H q e). unfold c3, c2. field.
Qed.
Lemma cubic_deriv F k0 y k2 k3 : (forall e, F e = k0 + e * y + e * e * k2 + e * e * e * k3) -> derivable_pt_lim F 0 y.
Proof.
  intros H eps He. assert (P : 0 < 1 + Rabs k2 + Rabs k3) by (pose proof (Rabs_pos k2); pose proof (Rabs_pos k3); lra).
  assert (Q : 0 < Rmin 1 (eps / (1 + Rabs k2 + Rabs k3))) by (apply Rmin_glb_lt; [lra|]; apply Rdiv_lt_0_compat; lra).
  exists (mkposreal _ Q). intros h Hh0 Hh. cbn in Hh. rewrite !H. match goal with |- Rabs ?x < _ => replace x with (h * (k2 + h * k3)) by (field; auto) end. rewrite Rabs_mult.
  assert (A : Rabs h < 1) by (eapply Rlt_le_trans; [exact Hh|apply Rmin_l]). assert (B : Rabs h < eps / (1 + Rabs k2 + Rabs k3)) by (eapply Rlt_le_trans; [exact Hh|apply Rmin_r]).
  assert (D : Rabs (k2 + h * k3) <= Rabs k2 + Rabs k3). { eapply Rle_trans; [apply Rabs_triang|]. rewrite Rabs_mult. pose proof (Rabs_pos k3). pose proof (Rabs_pos h). nra. }
  apply (Rmult_lt_compat_r (1 + Rabs k2 + Rabs k3)) in B; [|exact P]. replace (eps / (1 + Rabs k2 + Rabs k3) * (1 + Rabs k2 + Rabs k3)) with eps in B by (field; lra). pose proof (Rabs_pos h). pose proof (Rabs_pos (k2 + h * k3)). nra.
Qed.
(** Poisson3.  If F was evaluated at the fields of s and J with the derivatives it left behind, then J is the derivative of F: for Chi at
    every point of every box, those at the boundary included; for Psi at every point at which (Chi - 1) lChi Psizz is zero.  Missing is Psi
    at the other points, where the C code has lost a factor Chi: see C102_poisson3_refuted. *)
Theorem C102_poisson3_partial blk blk' s s1 s2 : linear3 interp3 -> linear2 interp2 -> faces_ok nb nf bfaces -> F3' blk' s = Ok s1 -> J3' blk s1 = Ok s2 ->
  forall vind b p, (vind < 2)%nat -> (b < nb)%nat -> (vind = 0%nat -> (s (10, b, p)%nat - 1) * s (34, b, p)%nat * DS b 8 (fun q => s (0%nat, b, q)) p = 0) ->
  exists F, (forall eps, exists w, F3' blk (moved eps s) = Ok w /\ w (22 + vind, b, p)%nat = F eps) /\ derivable_pt_lim F 0 (s2 (46 + vind, b, p)%nat).
Proof.
  intros L3 L2 Hok EF EJ vind b p Hv Hb Herr. set (st := fun k => match k with Some e => bulk3F (moved e s) | None => bulk3J s1 end).
  set (V := fun i c q => (c < nb /\ i < 24 /\ i <> 20 /\ i <> 21)%nat /\ (i = 22%nat -> (s (10, c, q)%nat - 1) * s (34, c, q)%nat * DS c 8 (fun q => s (0%nat, c, q)) q = 0)).
  assert (S1 : forall i c q, (c < nb)%nat -> (i < 20)%nat -> s1 (i, c, q) = dval c (fun i p => s (i, c, p)) 0 i q).
  { intros i c q Hc Hi. unfold F3 in EF. rewrite (bc3_only _ _ _ _ _ EF) by lia. fold (bulk3F s). rewrite bulk3F_val. replace (c <? nb)%nat with true by lia. unfold G3F. cbv zeta. replace (i =? 23)%nat with false by lia. now replace (i =? 22)%nat with false by lia. }
  assert (S2 : forall c j q, (24 <= j)%nat -> s1 (j, c, q) = s (j, c, q)).
  { intros c i q Hi. unfold F3 in EF. rewrite (bc3_only _ _ _ _ _ EF) by lia. fold (bulk3F s). rewrite bulk3F_val. destruct (c <? nb)%nat; [|reflexivity]. unfold G3F. cbv zeta. replace (i =? 23)%nat with false by lia. replace (i =? 22)%nat with false by lia.
    unfold dval. replace (i <? 0 + 10)%nat with false by lia. replace (i <? 0 + 20)%nat with false by lia. now rewrite !andb_false_r. }
  assert (E : RG (option R) cubic (fun k i => (sh k + i)%nat) V (fun k => bc3 nb n1 n2 n3 bfaces nf jac crd bbox interp3 interp2 erf hasx xyz XYZ (sh k) (match k with Some _ => true | None => false end) blk (st k))).
  { refine (bc3_rel n1 n2 n3 bfaces jac crd bbox interp3 interp2 (option R) cubic cubic_add cubic_scal cubic_ext _ _ (fun k i => (sh k + i)%nat) _ V nb nf hasx xyz XYZ erf sh (fun k => match k with Some _ => true | None => false end) blk st _ _ _ _ Hok _).
    - intros o f X Y Z' Hf. apply (cubic_lin (fun g => interp3 o g X Y Z') f); auto.
    - intros o n q f X Y Hf. apply (cubic_lin (fun g => interp2 o n q g X Y) f); auto.
    - intros k i j. lia.
    - intros k i. reflexivity.
    - intros x y z. apply (cubic_intro _ (outer_Psi erf x y z) 0 0). intros e. unfold outer_0. ring.
    - intros x y z. apply (cubic_intro _ 1 0 0). intros e. unfold outer_0, outer_1. ring.
    - intros i Hi c q Hc. unfold V. cbn in Hi. lia.
    - intros i c q ((Hc & Hi & H20 & H21) & Hq). unfold st, sh.
      set (x := fun j => dval c (fun i p => s (i, c, p)) 0 j q). set (l := fun j => dval c (fun i p => s (i, c, p)) 24 (24 + j) q).
      assert (X : forall e j, (j < 20)%nat -> dval c (fun i p => moved e s (i, c, p)) 0 j q = x j + e * l j) by (intros; now apply dval_moved).
      assert (Lx : forall j, dval c (fun i p => s1 (i, c, p)) 24 (24 + j) q = l j) by (intros; apply dval_l; [auto|lia]).
      assert (Sx : forall j, (j < 20)%nat -> s1 (j, c, q) = x j) by (intros; now apply S1).
      destruct (Nat.eq_dec i 23) as [-> |N23]; [|destruct (Nat.eq_dec i 22) as [-> |N22]].
      + apply (cubic_intro _ (x 14%nat + x 1%nat * x 17%nat + x 19%nat - s (21%nat, c, q)) (l 1%nat * l 17%nat) 0). intros e. rewrite bulk3F_val, bulk3J_val. replace (c <? nb)%nat with true by lia. unfold G3F, G3J. cbn [Nat.eqb Nat.add]. cbv zeta.
        pose proof (Lx 14%nat) as A1. pose proof (Lx 17%nat) as A2. pose proof (Lx 1%nat) as A3. pose proof (Lx 19%nat) as A4. cbn [Nat.add] in A1, A2, A3, A4. rewrite A1, A2, A3, A4, !Sx by lia. rewrite !X by lia. rewrite (dval_rh _ _ 21) by auto. unfold moved. cbn [Nat.eqb orb]. ring.
      + apply (cubic_intro _ (x 10%nat * x 4%nat + x 7%nat + x 10%nat * x 10%nat * x 9%nat - s (20%nat, c, q)) (l 10%nat * l 4%nat + l 10%nat * l 10%nat * x 9%nat + 2 * x 10%nat * l 10%nat * l 9%nat) (l 10%nat * l 10%nat * l 9%nat)).
        intros e. rewrite bulk3F_val, bulk3J_val. replace (c <? nb)%nat with true by lia. unfold G3F, G3J. cbn [Nat.eqb Nat.add]. cbv zeta.
        pose proof (Lx 4%nat) as A1. pose proof (Lx 7%nat) as A2. pose proof (Lx 9%nat) as A3. pose proof (Lx 10%nat) as A4. cbn [Nat.add] in A1, A2, A3, A4. rewrite A1, A2, A3, A4, !Sx by lia. rewrite !X by lia. rewrite (dval_rh _ _ 20) by auto. unfold moved. cbn [Nat.eqb orb].
        specialize (Hq eq_refl). change (s (10%nat, c, q)) with (x 10%nat) in Hq. change (s (34%nat, c, q)) with (l 10%nat) in Hq. change (DS c 8 _ q) with (x 9%nat) in Hq.
        assert (Hq' : x 10%nat * l 10%nat * x 9%nat = l 10%nat * x 9%nat) by lra.
        transitivity (x 10%nat * x 4%nat + x 7%nat + x 10%nat * x 10%nat * x 9%nat - s (20%nat, c, q) + e * (x 10%nat * l 4%nat + l 10%nat * x 4%nat + l 7%nat + x 10%nat * x 10%nat * l 9%nat + 2 * (x 10%nat * l 10%nat * x 9%nat)) + e * e * (l 10%nat * l 4%nat + l 10%nat * l 10%nat * x 9%nat + 2 * x 10%nat * l 10%nat * l 9%nat) + e * e * e * (l 10%nat * l 10%nat * l 9%nat)); [ring|]. rewrite Hq'. ring.
      + apply (cubic_intro _ (x i) 0 0). intros e. rewrite bulk3F_val, bulk3J_val. replace (c <? nb)%nat with true by lia. unfold G3F, G3J. cbv zeta. replace (0 + i =? 23)%nat with false by lia. replace (0 + i =? 22)%nat with false by lia. replace (24 + i =? 47)%nat with false by lia. replace (24 + i =? 46)%nat with false by lia. cbn [Nat.add] in *. rewrite X by lia. rewrite Lx. ring. }
  destruct E as [(w & Hw & FGw)|[Hw|Hw]]; [|specialize (Hw None); cbn in Hw; unfold J3 in EJ; fold (bulk3J s1) in EJ; congruence|specialize (Hw None); cbn in Hw; unfold J3 in EJ; fold (bulk3J s1) in EJ; congruence].
  exists (fun e => w (Some e) (22 + vind, b, p)%nat). split.
  - intros e. exists (w (Some e)). split; [|reflexivity]. specialize (Hw (Some e)). cbn in Hw. exact Hw.
  - assert (W : w None = s2) by (specialize (Hw None); cbn in Hw; unfold J3 in EJ; fold (bulk3J s1) in EJ; congruence).
    assert (HV : V (22 + vind)%nat b p). { unfold V. split; [lia|]. intros X. apply Herr. lia. }
    pose proof (FGw _ _ _ HV) as X. unfold cubic in X. cbn [sh] in X. rewrite W in X. replace (24 + (22 + vind))%nat with (46 + vind)%nat in X by lia. eapply cubic_deriv. intros e. cbn [Nat.add] in X |- *. exact (X e).
Qed.
(** what the residuals of Poisson2 mean *)
Lemma NoDup_two {A} (l m : list A) : NoDup l -> NoDup m -> (forall x, In x l -> ~ In x m) -> NoDup (l ++ m).
Proof.
  induction l as [|x l IH]; intros Hl Hm H; cbn [app]; [exact Hm|]. inversion Hl; subst. constructor.
  - rewrite in_app_iff. intros [I|I]; [tauto|]. apply (H x); [now left|exact I].
  - apply IH; auto. intros y I. apply H. now right.
Qed.
Lemma fold_setf_val iF iP b c i b' p : iP <> iF -> forall l u, fold_left (fun u p => setf u (iF, b, p) (u (iP, b, p) - c)) l u (i, b', p) = if ((i =? iF) && (b' =? b) && existsb (Nat.eqb p) l)%nat then u (iP, b, p) - c else u (i, b', p).
Proof.
  intros N. induction l as [|q l IH]; intros u; cbn [fold_left existsb]; [now rewrite andb_false_r|]. rewrite IH. destruct ((i =? iF) && (b' =? b))%nat eqn:E; cbn [andb].
  - assert (E' : i = iF /\ b' = b) by lia. destruct E' as [-> ->]. rewrite !setf_ne by (intros X; injection X; congruence). destruct (existsb (Nat.eqb p) l); [now rewrite orb_true_r|]. rewrite orb_false_r. destruct (p =? q)%nat eqn:Ep.
    + apply Nat.eqb_eq in Ep. subst q. now rewrite setf_eq.
    + apply setf_ne. intros X. injection X as ->. lia.
  - apply setf_ne. intros X. injection X as -> -> ->. lia.
Qed.
Definition bcval (sph : bool) (nl : R) (v b p : nat) (x psi : R) : R :=
  if sph then if existsb (Nat.eqb p) (plane1 n1 n2 n3 b (n1 b - 1)) then psi - / 2 * (INR v + 1) * nl else if existsb (Nat.eqb p) (plane1 n1 n2 n3 b 0) then psi - 1 * (INR v + 1) * nl else x else x.
Lemma bc2_box_val sph o nl v b u i b' p : (v < 2)%nat -> bc2_box n1 n2 n3 sph o nl v b u (i, b', p) =
  if ((i =? o + 22 + v) && (b' =? b))%nat then bcval sph nl v b p (u (i, b', p)) (u (o + 10 * v, b, p)%nat) else u (i, b', p).
Proof.
  intros Hv. unfold bc2_box, bcval. destruct sph; [|now destruct ((i =? o + 22 + v) && (b' =? b))%nat]. rewrite !fold_setf_val by lia. replace (o + 10 * v =? o + 22 + v)%nat with false by lia. cbn [andb].
  destruct ((i =? o + 22 + v) && (b' =? b))%nat; cbn [andb]; reflexivity.
Qed.
Lemma bc2_val sph o nl u v b p : (v < 2)%nat -> (b < nb)%nat -> bc2 nb n1 n2 n3 sph o nl u (o + 22 + v, b, p)%nat = bcval sph nl v b p (u (o + 22 + v, b, p)%nat) (u (o + 10 * v, b, p)%nat).
Proof.
  intros Hv Hb. unfold bc2. assert (Hl : forall vb, In vb (list_prod [0; 1]%nat (seq 0 nb)) -> (fst vb < 2)%nat). { intros [v' b'] I. apply in_prod_iff in I. destruct I as [I _]. cbn in I |- *. lia. }
  assert (N : NoDup (list_prod [0; 1]%nat (seq 0 nb))).
  { cbn [list_prod]. rewrite app_nil_r. apply NoDup_two; try (apply FinFun.Injective_map_NoDup; [intros x y X; congruence|apply seq_NoDup]). intros x X Y. apply in_map_iff in X, Y. destruct X as (? & <- & _). destruct Y as (? & X & _). congruence. }
  assert (I : In (v, b) (list_prod [0; 1]%nat (seq 0 nb))) by (apply in_prod_iff; split; [cbn; lia|apply in_seq; lia]).
  set (l := list_prod [0; 1]%nat (seq 0 nb)) in *. clearbody l.
  assert (Q : forall l u, (forall vb, In vb l -> (fst vb < 2)%nat) -> ~ In (v, b) l -> fold_left (fun u vb => bc2_box n1 n2 n3 sph o nl (fst vb) (snd vb) u) l u (o + 22 + v, b, p)%nat = u (o + 22 + v, b, p)%nat).
  { clear - Hv. induction l as [|[v' b'] l IH]; intros u Hl NI; cbn [fold_left fst snd]; [reflexivity|]. rewrite IH; [|intros; apply Hl; now right|intros X; apply NI; now right]. rewrite bc2_box_val by (apply (Hl (v', b')); now left).
    replace ((o + 22 + v =? o + 22 + v') && (b =? b'))%nat with false; [reflexivity|]. symmetry. destruct (_ && _) eqn:E; [|reflexivity]. exfalso. apply NI. left. f_equal; lia. }
  revert u. induction l as [|[v' b'] l IH]; intros u; [destruct I|]. inversion N as [|? ? Na Nb]; subst. cbn [fold_left fst snd]. assert (Hv' : (v' < 2)%nat) by (apply (Hl (v', b')); now left). destruct (Nat.eq_dec v v') as [<- |Nv].
  - destruct (Nat.eq_dec b b') as [<- |Nb']. { rewrite Q; [|intros; apply Hl; now right|exact Na]. rewrite bc2_box_val by lia. now rewrite !Nat.eqb_refl. }
    destruct I as [I|I]; [congruence|]. rewrite IH; auto; [|intros; apply Hl; now right]. rewrite !bc2_box_val by lia. replace (b =? b')%nat with false by lia. now rewrite !andb_false_r.
  - destruct I as [I|I]; [congruence|]. rewrite IH; auto; [|intros; apply Hl; now right]. rewrite !bc2_box_val by lia. replace (o + 22 + v =? o + 22 + v')%nat with false by lia. now replace (o + 10 * v =? o + 22 + v')%nat with false by lia.
Qed.
Lemma in_plane1 b i0 i j k : (i0 < n1 b)%nat -> (i < n1 b)%nat -> (j < n2 b)%nat -> (k < n3 b)%nat -> existsb (Nat.eqb (i + n1 b * (j + n2 b * k))) (plane1 n1 n2 n3 b i0) = (i =? i0)%nat.
Proof.
  intros H0 Hi Hj Hk. unfold plane1. destruct (i =? i0)%nat eqn:E.
  - apply Nat.eqb_eq in E. subst i0. apply existsb_exists. exists (i + n1 b * (j + n2 b * k))%nat. split; [|apply Nat.eqb_refl]. apply in_flat_map. exists k. split; [apply in_seq; lia|]. apply in_map_iff. exists j. split; [reflexivity|apply in_seq; lia].
  - destruct (existsb _ _) eqn:X; [|reflexivity]. exfalso. apply existsb_exists in X. destruct X as (q & I & Eq). apply in_flat_map in I. destruct I as (k' & _ & I). apply in_map_iff in I. destruct I as (j' & <- & _). apply Nat.eqb_eq in Eq.
    assert (A : (i = i0)%nat). { rewrite (Nat.mul_comm (n1 b)), (Nat.mul_comm (n1 b) (j' + _)) in Eq. apply (f_equal (fun x => x mod n1 b)%nat) in Eq. rewrite !Nat.mod_add, !Nat.mod_small in Eq; lia. } lia.
Qed.
(** On a shell (SphericalDF) the residual of field number vind (0 Psi, 1 Chi) is zero at a point of box b if and only if: on the inner sphere
    the field is vind + 1, on the outer sphere it is half of that, and elsewhere the sum of its second derivatives is the source. *)
Theorem C102_poisson2_solution s vind b i j k : (vind < 2)%nat -> (b < nb)%nat -> (2 <= n1 b)%nat -> (i < n1 b)%nat -> (j < n2 b)%nat -> (k < n3 b)%nat ->
  let p := (i + n1 b * (j + n2 b * k))%nat in let psi q := s (10 * vind, b, q)%nat in
  F2' true s (22 + vind, b, p)%nat = 0 <->
  if (i =? 0)%nat then psi p = INR (vind + 1) else if (i =? n1 b - 1)%nat then psi p = INR (vind + 1) / 2 else DS b 3 psi p + DS b 6 psi p + DS b 8 psi p = s (20 + vind, b, p)%nat.
Proof.
  intros Hv Hb Hn Hi Hj Hk p psi. assert (B : forall c, (c = 0 \/ c = 10)%nat -> bulk2 0 true s (c, b, p) = s (c, b, p)).
  { intros c Hc. rewrite bulk2_val. replace (b <? nb)%nat with true by lia. unfold G2r. cbv zeta. destruct Hc as [-> | ->]; reflexivity. }
  unfold F2. fold (bulk2 0 true s). change (22 + vind)%nat with (0 + 22 + vind)%nat. rewrite bc2_val by lia. unfold bcval, p. rewrite !in_plane1 by lia. fold p. rewrite B by lia. change (0 + 10 * vind)%nat with (10 * vind)%nat. fold (psi p). rewrite plus_INR. cbn [INR].
  destruct (i =? 0)%nat eqn:E0. { replace (i =? n1 b - 1)%nat with false by lia. split; lra. } destruct (i =? n1 b - 1)%nat; [split; lra|].
  rewrite bulk2_val. replace (b <? nb)%nat with true by lia. unfold psi. destruct vind as [|[|]]; [| |lia]; cbn; split; lra.
Qed.
End P.
(** J_Poisson3 is not the derivative of F_Poisson3: one box with three points in the z-direction, Psizz from finite differences, Psi = (0,0,1),
    Chi = 2, direction lChi = 1, lPsi = 0: the derivative of F is 4 and J gives 2. *)
Definition rDS (b m : nat) (f : nat -> R) (p : nat) : R := if (m =? 8)%nat then f 0%nat - 2 * f 1%nat + f 2%nat else 0.
Definition rs : field := fun l => let '(i, b, p) := l in if (i =? 0)%nat then if (p =? 2)%nat then 1 else 0 else if (i =? 10)%nat then 2 else if (i =? 34)%nat then 1 else 0.
Definition nofaces : nat -> nat -> face := fun b f => Face b f (BFace (-1) (-1) false false false false false false false false None) 0 0 0.
Theorem C102_poisson3_refuted : exists nb n1 n2 n3 bfaces nf jac crd bbox interp3 interp2 DS erf hasx xyz XYZ s s1 s2 F d,
  let F3' := F3 nb n1 n2 n3 bfaces nf jac crd bbox interp3 interp2 DS erf hasx xyz XYZ None in
  let J3' := J3 nb n1 n2 n3 bfaces nf jac crd bbox interp3 interp2 DS erf hasx xyz XYZ None in
  linearD DS /\ linear3 interp3 /\ linear2 interp2 /\ faces_ok nb nf bfaces /\ F3' s = Ok s1 /\ J3' s1 = Ok s2 /\ (0 < nb)%nat /\
  (forall eps, exists w, F3' (moved eps s) = Ok w /\ w (22, 0, 1)%nat = F eps) /\ derivable_pt_lim F 0 d /\ s2 (46, 0, 1)%nat <> d.
Proof.
  set (D := rDS). exists 1%nat, (fun _ => 1%nat), (fun _ => 1%nat), (fun _ => 3%nat), nofaces, (fun _ => 0%nat), (fun _ _ => None), (fun _ _ _ => 0), (fun _ _ => 0), (fun _ _ _ _ _ => 0), (fun _ _ _ _ _ _ => 0), D, (fun x => x), (fun _ => false), (fun _ _ => (0, 0, 0)), (fun _ _ => (0, 0, 0)), rs,
    (rows3F D 0 rs), (rows3J D 0 (rows3F D 0 rs)), (fun e => (2 + e) * (2 + e)), 4. cbv zeta.
  split; [intros b m a c f g p; unfold D, rDS; destruct (m =? 8)%nat; ring|]. split; [intros ? ? ? ? ? ? ? ?; ring|]. split; [intros ? ? ? ? ? ? ? ? ?; ring|]. split; [intros b f _ H; lia|].
  split; [reflexivity|]. split; [reflexivity|]. split; [lia|]. split; [|split].
  - intros e. exists (rows3F D 0 (moved e rs)). split; [reflexivity|]. rewrite rows3F_val. cbn. unfold D, rDS. cbn. ring.
  - apply (cubic_deriv _ 4 4 1 0). intros; ring.
  - rewrite rows3J_val. cbn [Nat.eqb]. replace (fun i p => rows3F D 0 rs (i, 0%nat, p)) with (fun i p => G3F D 0 (fun i p => rs (i, 0%nat, p)) i p) by (extensionality i; extensionality p; rewrite rows3F_val; reflexivity). cbn. unfold D, rDS. cbn. lra.
Qed.
(** the hypotheses of C102_poisson3_partial hold for a box with three points and an outer face made of the first and the last, with Chi = 1 *)
Definition eface : nat -> nat -> face := fun b f => Face b f (BFace (-1) (-1) false false false false false false false true (Some [0; 2]%nat)) 0 0 0.
Definition es : field := fun l => let '(i, b, p) := l in if (i =? 0)%nat then if (p =? 2)%nat then 1 else 0 else if (i =? 10)%nat then 1 else if (i =? 34)%nat then 1 else if (i =? 24)%nat then 5 else 0.
Example C102_nontrivial : exists s1 s2,
  let F3' := F3 1 (fun _ => 1%nat) (fun _ => 1%nat) (fun _ => 3%nat) eface (fun _ => 1%nat) (fun _ _ => None) (fun _ _ _ => 0) (fun _ _ => 0) (fun _ _ _ _ _ => 0) (fun _ _ _ _ _ _ => 0) rDS (fun x => x) (fun _ => true) (fun _ p => (INR p + 1, 0, 0)) (fun _ _ => (0, 0, 0)) None in
  let J3' := J3 1 (fun _ => 1%nat) (fun _ => 1%nat) (fun _ => 3%nat) eface (fun _ => 1%nat) (fun _ _ => None) (fun _ _ _ => 0) (fun _ _ => 0) (fun _ _ _ _ _ => 0) (fun _ _ _ _ _ _ => 0) rDS (fun x => x) (fun _ => true) (fun _ p => (INR p + 1, 0, 0)) (fun _ _ => (0, 0, 0)) None in
  linearD rDS /\ faces_ok 1 (fun _ => 1%nat) eface /\ F3' es = Ok s1 /\ J3' s1 = Ok s2 /\ s2 (46, 0, 0)%nat = 5 /\ s2 (46, 0, 1)%nat = 2 /\
  forall vind p, (vind < 2)%nat -> exists F, (forall eps, exists w, F3' (moved eps es) = Ok w /\ w (22 + vind, 0, p)%nat = F eps) /\ derivable_pt_lim F 0 (s2 (46 + vind, 0, p)%nat).
Proof.
  assert (L : linearD rDS) by (intros b m a c f g p; unfold rDS; destruct (m =? 8)%nat; ring).
  assert (Fo : faces_ok 1 (fun _ => 1%nat) eface) by (intros b f Hb Hf; cbn; split; [exact Hb|lia]).
  eexists. eexists. cbv zeta. split; [exact L|]. split; [exact Fo|]. split; [reflexivity|]. split; [reflexivity|]. split; [|split].
  - cbn. unfold outer_0, rDS, setf, set_row, loc_eqb. cbn. unfold rDS, setf, set_row, loc_eqb; cbn. lra.
  - cbn. unfold outer_0, rDS, setf, set_row, loc_eqb. cbn. unfold rDS, setf, set_row, loc_eqb; cbn. lra.
  - intros vind p Hv. eapply (C102_poisson3_partial 1 _ _ _ _ _ _ _ _ _ _ _ _ _ _ _ L None None); [intros ? ? ? ? ? ? ? ?; ring|intros ? ? ? ? ? ? ? ? ?; ring|exact Fo|reflexivity|reflexivity|exact Hv|lia|].
    intros _. cbn. ring.
Qed.
Print Assumptions C102_poisson2.
Print Assumptions C102_poisson2_linear.
Print Assumptions C102_poisson2_solution.
Print Assumptions C102_poisson3_linear.
Print Assumptions C102_poisson3_partial.
Print Assumptions C102_poisson3_refuted.

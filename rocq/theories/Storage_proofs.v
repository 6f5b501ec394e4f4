(** Proofs for variable storage (C11). *)
From Verif Require Import Base Storage_model Storage_spec.
Section P.
Variable V : Type.
Variable zero : V.
Notation world := (world V).
Notation ast := (ast V).
Implicit Types (w : world) (s : ast).

Definition sh_ok (og : option (option sgrid)) (os : option (option (nat * list nat))) : Prop :=
  match og, os with
  | None, None => True
  | Some None, Some None => True
  | Some (Some gr), Some (Some (nv, sz)) =>
      nvars gr = nv /\ map nn (boxes gr) = sz /\ forall bx, In bx (boxes gr) -> List.length (v bx) = nv
  | _, _ => False
  end.
Record Inv w s : Prop := {
  I_sh : forall g, sh_ok (nth_error (grids V w) g) (nth_error (shape V s) g);
  I_none : forall g b i, ~ here V s g b i -> val V s g b i = None;
  I_val : forall g b i, match get_v V w g b i with
     | Ok None => val V s g b i = None
     | Ok (Some p) => exists d, nth_error (heap V w) p = Some (Some d) /\ val V s g b i = Some d /\ List.length d = size V s g b
     | _ => True end;
  I_inj : forall g b i g' b' i' p, get_v V w g b i = Ok (Some p) -> get_v V w g' b' i' = Ok (Some p) -> g = g' /\ b = b' /\ i = i';
  I_own : forall p d, nth_error (heap V w) p = Some (Some d) -> exists g b i, get_v V w g b i = Ok (Some p);
  I_cnt : nen V w = Z.of_nat (live V w) }.

Lemma here_get w s g b i : (forall g, sh_ok (nth_error (grids V w) g) (nth_error (shape V s) g)) ->
  here V s g b i <-> exists p, get_v V w g b i = Ok p.
Proof.
  intros H. specialize (H g). unfold here, get_v, get_box, get_grid, sh_ok in *.
  destruct (nth_error (grids V w) g) as [[gr|]|]; destruct (nth_error (shape V s) g) as [[[nv sz]|]|]; try contradiction.
  2-3: split; [intros (? & ? & E & _); discriminate|intros (p & E); discriminate].
  destruct H as (A & B & C). cbn [rbind]. split.
  - intros (nv' & sz' & E & Hb & Hi). injection E as <- <-. rewrite <- B, map_length in Hb.
    destruct (nth_error (boxes gr) b) as [bx|] eqn:Eb. 2:{ apply nth_error_None in Eb. lia. }
    cbn [rbind]. destruct (nth_error (v bx) i) as [p|] eqn:Ei. { eauto. }
    apply nth_error_None in Ei. rewrite (C bx) in Ei by (eapply nth_error_In; eauto). lia.
  - intros (p & E). exists nv, sz. split; auto. destruct (nth_error (boxes gr) b) as [bx|] eqn:Eb; [|discriminate].
    cbn [rbind] in E. destruct (nth_error (v bx) i) as [q|] eqn:Ei; [|discriminate]. split.
    + rewrite <- B, map_length. apply nth_error_Some. congruence.
    + rewrite <- (C bx) by (eapply nth_error_In; eauto). apply nth_error_Some. congruence.
Qed.
Lemma get_v_heap w g b i h n : get_v V {| heap := h; nen := n; grids := grids V w |} g b i = get_v V w g b i.
Proof. reflexivity. Qed.
Lemma nth_upd {A} (l : list A) i j x : nth_error (upd l i x) j =
  if (i =? j) then match nth_error l j with Some _ => Some x | None => None end else nth_error l j.
Proof.
  destruct (Nat.eqb_spec i j) as [->|NE].
  - destruct (nth_error l j) eqn:E.
    + apply nth_error_upd_eq. apply nth_error_Some. congruence.
    + apply nth_error_None. rewrite upd_length. now apply nth_error_None.
  - now apply nth_error_upd_ne.
Qed.
Definition eq3 (g b i g' b' i' : nat) : bool := (g =? g') && (b =? b') && (i =? i').
Lemma eq3_spec g b i g' b' i' : reflect (g = g' /\ b = b' /\ i = i') (eq3 g b i g' b' i').
Proof.
  unfold eq3. destruct (Nat.eqb_spec g g'), (Nat.eqb_spec b b'), (Nat.eqb_spec i i'); simpl; constructor; tauto.
Qed.
Lemma get_set w g b i q g' b' i' : (exists p, get_v V w g b i = Ok p) ->
  get_v V (set_v V w g b i q) g' b' i' = if eq3 g b i g' b' i' then Ok q else get_v V w g' b' i'.
Proof.
  intros (p & E). unfold set_v, eq3. unfold get_v, get_box, get_grid in *.
  destruct (nth_error (grids V w) g) as [[gr|]|] eqn:Eg; try discriminate. cbn [rbind] in E.
  destruct (nth_error (boxes gr) b) as [bx|] eqn:Eb; try discriminate. cbn [rbind] in E.
  destruct (nth_error (v bx) i) as [p'|] eqn:Ei; try discriminate.
  cbn [grids]. rewrite nth_upd. destruct (Nat.eqb_spec g g') as [<-|]; cbn [andb]; auto.
  rewrite Eg. cbn [rbind boxes]. rewrite nth_upd. destruct (Nat.eqb_spec b b') as [<-|]; cbn [andb]; auto.
  rewrite Eb. cbn [rbind v]. rewrite nth_upd. destruct (Nat.eqb_spec i i') as [<-|]; auto. now rewrite Ei.
Qed.
Lemma sh_set w g b i q g' os : sh_ok (nth_error (grids V w) g') os -> sh_ok (nth_error (grids V (set_v V w g b i q)) g') os.
Proof.
  unfold set_v. intros H. destruct (nth_error (grids V w) g) as [[gr|]|] eqn:Eg; auto.
  destruct (nth_error (boxes gr) b) as [bx|] eqn:Eb; auto. cbn [grids]. rewrite nth_upd.
  destruct (Nat.eqb_spec g g') as [<-|]; auto. rewrite Eg in *. unfold sh_ok in *.
  destruct os as [[[nv sz]|]|]; try contradiction. destruct H as (A & B & C). cbn [nvars boxes]. repeat split; auto.
  - rewrite <- B. clear - Eb. revert b Eb. induction (boxes gr) as [|x l IH]; intros [|b] E; simpl in *; try discriminate.
    + injection E as <-. reflexivity.
    + f_equal. auto.
  - intros bx' Hin. apply In_nth_error in Hin. destruct Hin as (j & Ej). rewrite nth_upd in Ej.
    destruct (Nat.eqb_spec b j) as [Ebj|]; [rewrite <- Ebj in Ej|].
    + rewrite Eb in Ej. injection Ej as <-. cbn [v]. rewrite upd_length. apply C. eapply nth_error_In; eauto.
    + apply C. eapply nth_error_In; eauto.
Qed.
Lemma heap_set w g b i q : heap V (set_v V w g b i q) = heap V w.
Proof. unfold set_v. destruct (nth_error (grids V w) g) as [[gr|]|]; auto. destruct (nth_error (boxes gr) b); auto. Qed.
Lemma nen_set w g b i q : nen V (set_v V w g b i q) = nen V w.
Proof. unfold set_v. destruct (nth_error (grids V w) g) as [[gr|]|]; auto. destruct (nth_error (boxes gr) b); auto. Qed.

(** pointwise update of the abstract data *)
Definition put s g b i (x : option (list V)) : ast :=
  {| shape := shape V s; val := fun g' b' i' => if eq3 g b i g' b' i' then x else val V s g' b' i' |}.
Definition same s s' : Prop := shape V s = shape V s' /\ forall g b i, val V s g b i = val V s' g b i.
Lemma Inv_same w s s' : Inv w s -> same s s' -> Inv w s'.
Proof.
  intros [A B C D E F] [S1 S2]. assert (Hh : forall g b i, here V s g b i <-> here V s' g b i) by (unfold here; rewrite S1; tauto).
  constructor; auto.
  - now rewrite <- S1.
  - intros g b i H. rewrite <- S2. apply B. now rewrite Hh.
  - intros g b i. specialize (C g b i). destruct (get_v V w g b i) as [[p|]| |]; auto.
    + destruct C as (d & C1 & C2 & C3). exists d. rewrite <- S2. unfold size in *. rewrite <- S1. auto.
    + now rewrite <- S2.
Qed.
Lemma box_size w s g b bx : Inv w s -> get_box V w g b = Ok bx -> nn bx = size V s g b.
Proof.
  intros I E. pose proof (I_sh _ _ I g) as H. unfold get_box, get_grid, size, sh_ok in *.
  destruct (nth_error (grids V w) g) as [[gr|]|]; try discriminate. cbn [rbind] in E.
  destruct (nth_error (shape V s) g) as [[[nv sz]|]|]; try contradiction. destruct H as (_ & <- & _).
  destruct (nth_error (boxes gr) b) as [bx'|] eqn:Eb; try discriminate. injection E as ->.
  symmetry. apply nth_error_nth. now rewrite nth_error_map, Eb.
Qed.
Lemma live_app w x g n : live V {| heap := heap V w ++ [Some x]; nen := n; grids := g |} = S (live V w).
Proof. unfold live. cbn [heap]. rewrite filter_app, app_length. simpl. lia. Qed.
Lemma live_upd_none l q (d : list V) : nth_error l q = Some (Some d) ->
  S (List.length (filter (fun x : option (list V) => match x with Some _ => true | None => false end) (upd l q None))) =
  List.length (filter (fun x => match x with Some _ => true | None => false end) l).
Proof.
  revert q. induction l as [|y l IH]; intros [|q] E; simpl in *; try discriminate.
  - injection E as ->. reflexivity.
  - destruct y; simpl; rewrite <- (IH q E); reflexivity.
Qed.
Lemma live_upd_some l q (d d' : list V) : nth_error l q = Some (Some d) ->
  List.length (filter (fun x : option (list V) => match x with Some _ => true | None => false end) (upd l q (Some d'))) =
  List.length (filter (fun x => match x with Some _ => true | None => false end) l).
Proof.
  revert q. induction l as [|y l IH]; intros [|q] E; simpl in *; try discriminate.
  - injection E as ->. reflexivity.
  - destruct y; simpl; rewrite <- (IH q E); reflexivity.
Qed.

Definition ensel s (sel : nat -> nat -> nat -> bool) := enable V zero s sel.
Lemma en_ok w s g b i : Inv w s -> here V s g b i ->
  exists w', enablevarcomp_inbox V zero g b i w = Ok w' /\ Inv w' (enable V zero s (eq3 g b i)).
Proof.
  intros I H. pose proof (proj1 (here_get w s g b i (I_sh _ _ I)) H) as (p & Ep).
  unfold enablevarcomp_inbox. assert (exists bx, get_box V w g b = Ok bx) as (bx & Eb).
  { unfold get_v in Ep. destruct (get_box V w g b); try discriminate. eauto. }
  rewrite Eb, Ep. cbn [rbind]. pose proof (I_val _ _ I g b i) as Hv. rewrite Ep in Hv. destruct p as [p|].
  - exists w. split; auto. apply (Inv_same w s); auto. split; auto. intros g' b' i'. simpl.
    destruct (eq3_spec g b i g' b' i') as [(<- & <- & <-)|]; auto. destruct Hv as (d & _ & -> & _). reflexivity.
  - eexists. split; [reflexivity|]. set (w1 := {| heap := _; nen := _; grids := _ |}).
    assert (Ep1 : exists p, get_v V w1 g b i = Ok p) by (exists None; exact Ep).
    assert (fresh : forall g b i, get_v V w g b i <> Ok (Some (List.length (heap V w)))).
    { intros g1 b1 i1 E1. pose proof (I_val _ _ I g1 b1 i1) as Q. rewrite E1 in Q. destruct Q as (d & Q & _).
      assert (List.length (heap V w) < List.length (heap V w)) by (apply nth_error_Some; congruence). lia. }
    constructor.
    + intros g'. apply sh_set. apply (I_sh _ _ I).
    + intros g' b' i' N. simpl. destruct (eq3_spec g b i g' b' i') as [(<- & <- & <-)|]; [contradiction|]. now apply (I_none _ _ I).
    + intros g' b' i'. rewrite get_set by auto. rewrite heap_set. simpl.
      destruct (eq3_spec g b i g' b' i') as [(<- & <- & <-)|].
      * rewrite Hv. exists (repeat zero (nn bx)). rewrite nth_error_app2, Nat.sub_diag by lia. simpl.
        rewrite (box_size w s g b bx I Eb). rewrite repeat_length. auto.
      * change (get_v V w1 g' b' i') with (get_v V w g' b' i'). pose proof (I_val _ _ I g' b' i') as Q.
        destruct (get_v V w g' b' i') as [[p|]| |]; auto. destruct Q as (d & Q1 & Q2 & Q3). exists d. split; auto.
        rewrite nth_error_app1; auto. apply nth_error_Some. congruence.
    + intros g1 b1 i1 g2 b2 i2 p. rewrite !get_set by auto. change (get_v V w1) with (get_v V w).
      destruct (eq3_spec g b i g1 b1 i1) as [(<- & <- & <-)|], (eq3_spec g b i g2 b2 i2) as [(<- & <- & <-)|]; auto.
      * intros E1 E2. injection E1 as <-. apply fresh in E2. contradiction.
      * intros E1 E2. injection E2 as <-. apply fresh in E1. contradiction.
      * apply (I_inj _ _ I).
    + intros p d. rewrite heap_set. cbn [heap w1]. intros E. destruct (Nat.eq_dec p (List.length (heap V w))) as [->|NE].
      * exists g, b, i. rewrite get_set by auto. destruct (eq3_spec g b i g b i) as [|C]; auto. exfalso. apply C. auto.
      * rewrite nth_error_app1 in E.
        2:{ assert (p < List.length (heap V w ++ [Some (repeat zero (nn bx))])) by (apply nth_error_Some; congruence).
            rewrite app_length in H0. simpl in H0. lia. }
        destruct (I_own _ _ I p d E) as (g1 & b1 & i1 & E1). exists g1, b1, i1. rewrite get_set by auto.
        destruct (eq3_spec g b i g1 b1 i1) as [(<- & <- & <-)|]; auto. congruence.
    + rewrite nen_set. unfold live. rewrite heap_set. pose proof (live_app w (repeat zero (nn bx)) (grids V w) (nen V w + 1)) as L.
      unfold live in L. cbn [heap w1 nen] in *. rewrite L. pose proof (I_cnt _ _ I) as Q. unfold live in Q. lia.
Qed.
Lemma dis_ok w s g b i : Inv w s -> here V s g b i ->
  exists w', disablevarcomp_inbox V g b i w = Ok w' /\ Inv w' (disable V s (eq3 g b i)).
Proof.
  intros I H. pose proof (proj1 (here_get w s g b i (I_sh _ _ I)) H) as (p & Ep).
  unfold disablevarcomp_inbox. rewrite Ep. cbn [rbind]. pose proof (I_val _ _ I g b i) as Hv. rewrite Ep in Hv. destruct p as [p|].
  - destruct Hv as (d & Hp & Hv & Hl). rewrite Hp. eexists. split; [reflexivity|]. set (w1 := {| heap := _; nen := _; grids := _ |}).
    assert (Ep1 : exists p, get_v V w1 g b i = Ok p) by (exists (Some p); exact Ep).
    constructor.
    + intros g'. apply sh_set. apply (I_sh _ _ I).
    + intros g' b' i' N. simpl. destruct (eq3_spec g b i g' b' i'); auto. now apply (I_none _ _ I).
    + intros g' b' i'. rewrite get_set by auto. rewrite heap_set. simpl.
      destruct (eq3_spec g b i g' b' i') as [(<- & <- & <-)|NE]; auto.
      change (get_v V w1 g' b' i') with (get_v V w g' b' i'). pose proof (I_val _ _ I g' b' i') as Q.
      destruct (get_v V w g' b' i') as [[p'|]| |] eqn:E'; auto. destruct Q as (d' & Q1 & Q2 & Q3). exists d'. split; auto.
      rewrite nth_error_upd_ne; auto. intros ->. apply NE. apply (I_inj _ _ I _ _ _ _ _ _ _ Ep E').
    + intros g1 b1 i1 g2 b2 i2 q. rewrite !get_set by auto. change (get_v V w1) with (get_v V w).
      destruct (eq3_spec g b i g1 b1 i1) as [(<- & <- & <-)|], (eq3_spec g b i g2 b2 i2) as [(<- & <- & <-)|]; auto; try discriminate.
      apply (I_inj _ _ I).
    + intros q d'. rewrite heap_set. cbn [heap w1]. rewrite nth_upd. destruct (Nat.eqb_spec p q) as [<-|NE].
      { rewrite Hp. discriminate. }
      intros E. destruct (I_own _ _ I q d' E) as (g1 & b1 & i1 & E1). exists g1, b1, i1. rewrite get_set by auto.
      destruct (eq3_spec g b i g1 b1 i1) as [(<- & <- & <-)|]; auto. congruence.
    + rewrite nen_set. unfold live. rewrite heap_set. cbn [heap w1 nen]. pose proof (live_upd_none _ _ _ Hp) as L.
      pose proof (I_cnt _ _ I) as Q. unfold live in Q. lia.
  - exists w. split; auto. apply (Inv_same w s); auto. split; auto. intros g' b' i'. simpl.
    destruct (eq3_spec g b i g' b' i') as [(<- & <- & <-)|]; auto.
Qed.

(** operations that enable / disable a set *)
Definition EnSpec (sh : list (option (nat * list nat))) (P : ast -> Prop) (f : world -> res world) (S : nat -> nat -> nat -> bool) : Prop :=
  forall w s, Inv w s -> shape V s = sh -> P s -> exists w', f w = Ok w' /\ Inv w' (enable V zero s S) /\ P (enable V zero s S).
Definition DisSpec (sh : list (option (nat * list nat))) (f : world -> res world) (S : nat -> nat -> nat -> bool) : Prop :=
  forall w s, Inv w s -> shape V s = sh -> exists w', f w = Ok w' /\ Inv w' (disable V s S).
Definition Pext (P : ast -> Prop) : Prop := forall s s', P s -> same s s' -> P s'.
Lemma en_each {X} sh P (f : X -> world -> res world) (S : X -> nat -> nat -> nat -> bool) (l : list X) : Pext P ->
  (forall x, In x l -> EnSpec sh P (f x) (S x)) -> EnSpec sh P (each V l f) (fun g b i => existsb (fun x => S x g b i) l).
Proof.
  intros PE. induction l as [|x l IH]; intros H w s I Hs HP; cbn [each].
  - exists w. split; auto. assert (same s (enable V zero s (fun g b i => existsb (fun x => S x g b i) []))).
    { split; auto. } split; [eapply Inv_same; eauto|eapply PE; eauto].
  - destruct (H x (or_introl eq_refl) w s I Hs HP) as (w1 & -> & I1 & P1). cbn [rbind].
    destruct (IH (fun y Hy => H y (or_intror Hy)) w1 _ I1 Hs P1) as (w2 & E2 & I2 & P2). exists w2. split; auto.
    assert (SM : same (enable V zero (enable V zero s (S x)) (fun g b i => existsb (fun x => S x g b i) l))
                      (enable V zero s (fun g b i => existsb (fun x => S x g b i) (x :: l)))).
    { split; auto. intros g b i. simpl. unfold size. simpl.
      destruct (S x g b i), (existsb (fun x0 => S x0 g b i) l); simpl; auto; destruct (val V s g b i); auto. }
    split; [eapply Inv_same; eauto|eapply PE; eauto].
Qed.
Lemma dis_each {X} sh (f : X -> world -> res world) (S : X -> nat -> nat -> nat -> bool) (l : list X) :
  (forall x, In x l -> DisSpec sh (f x) (S x)) -> DisSpec sh (each V l f) (fun g b i => existsb (fun x => S x g b i) l).
Proof.
  induction l as [|x l IH]; intros H w s I Hs; cbn [each].
  - exists w. split; auto. eapply Inv_same; eauto. split; auto.
  - destruct (H x (or_introl eq_refl) w s I Hs) as (w1 & -> & I1). cbn [rbind].
    destruct (IH (fun y Hy => H y (or_intror Hy)) w1 _ I1 Hs) as (w2 & E2 & I2). exists w2. split; auto.
    eapply Inv_same; eauto. split; auto. intros g b i. simpl.
    destruct (S x g b i), (existsb (fun x0 => S x0 g b i) l); simpl; auto.
Qed.
Definition T1 : ast -> Prop := fun _ => True.
Lemma T1e : Pext T1. Proof. intros ? ? ? ?. exact I. Qed.
Definition hereS (sh : list (option (nat * list nat))) g b i : Prop :=
  exists nv sz, nth_error sh g = Some (Some (nv, sz)) /\ b < List.length sz /\ i < nv.
Lemma en_prim sh g b i : hereS sh g b i -> EnSpec sh T1 (enablevarcomp_inbox V zero g b i) (eq3 g b i).
Proof.
  intros H w s I Hs _. destruct (en_ok w s g b i I) as (w' & E & I'). { unfold here. rewrite Hs. exact H. }
  exists w'. split; auto. split; auto. exact Logic.I.
Qed.
Lemma dis_prim sh g b i : hereS sh g b i -> DisSpec sh (disablevarcomp_inbox V g b i) (eq3 g b i).
Proof. intros H w s I Hs. destruct (dis_ok w s g b i I) as (w' & E & I'); eauto. unfold here. rewrite Hs. exact H. Qed.
Lemma ext_en sh P f S S' : Pext P -> EnSpec sh P f S -> (forall g b i, S g b i = S' g b i) -> EnSpec sh P f S'.
Proof.
  intros PE H E w s I Hs HP. destruct (H w s I Hs HP) as (w' & E1 & I1 & P1). exists w'. split; auto.
  assert (same (enable V zero s S) (enable V zero s S')). { split; auto. intros. simpl. now rewrite E. }
  split; [eapply Inv_same; eauto|eapply PE; eauto].
Qed.
Lemma ext_dis sh f S S' : DisSpec sh f S -> (forall g b i, S g b i = S' g b i) -> DisSpec sh f S'.
Proof.
  intros H E w s I Hs. destruct (H w s I Hs) as (w' & E1 & I1). exists w'. split; auto.
  eapply Inv_same; eauto. split; auto. intros. simpl. now rewrite E.
Qed.
Lemma grid_shape w s g nv sz : Inv w s -> nth_error (shape V s) g = Some (Some (nv, sz)) ->
  exists gr, get_grid V w g = Ok gr /\ nvars gr = nv /\ List.length (boxes gr) = List.length sz.
Proof.
  intros I E. pose proof (I_sh _ _ I g) as H. rewrite E in H. unfold sh_ok, get_grid in *.
  destruct (nth_error (grids V w) g) as [[gr|]|]; try contradiction. destruct H as (A & B & _). exists gr.
  repeat split; auto. rewrite <- B. now rewrite map_length.
Qed.
Lemma existsb_boxes n (p q : bool) b : existsb (fun b' => p && (b' =? b) && q) (seq 0 n) = p && (b <? n) && q.
Proof.
  destruct p; cbn [andb]. 2:{ induction (seq 0 n); simpl; auto. }
  destruct q. 2:{ rewrite andb_false_r. induction (seq 0 n) as [|x l IH]; simpl; auto. now rewrite andb_false_r. }
  rewrite andb_true_r. destruct (Nat.ltb_spec b n).
  - apply existsb_exists. exists b. rewrite Nat.eqb_refl. split; auto. apply in_seq. lia.
  - apply not_true_is_false. intros C. apply existsb_exists in C. destruct C as (x & Hx & C). apply in_seq in Hx.
    rewrite andb_true_r in C. apply Nat.eqb_eq in C. lia.
Qed.
Lemma en_comp sh g i nv sz : nth_error sh g = Some (Some (nv, sz)) -> i < nv ->
  EnSpec sh T1 (enablevarcomp V zero g i) (fun g' b' i' => (g =? g') && (b' <? List.length sz) && (i =? i')).
Proof.
  intros E Hi w s I Hs HP. unfold enablevarcomp.
  destruct (grid_shape w s g nv sz I) as (gr & -> & Ev & El). { now rewrite Hs. } cbn [rbind]. rewrite El.
  revert w s I Hs HP. apply (ext_en sh T1 _ (fun g' b' i' => existsb (fun b => eq3 g b i g' b' i') (seq 0 (List.length sz)))); auto using T1e.
  - apply en_each; auto using T1e. intros b Hb. apply in_seq in Hb. apply en_prim. exists nv, sz. repeat split; auto; lia.
  - intros g' b' i'. unfold eq3. apply existsb_boxes.
Qed.
Lemma dis_comp sh g i nv sz : nth_error sh g = Some (Some (nv, sz)) -> i < nv ->
  DisSpec sh (disablevarcomp V g i) (fun g' b' i' => (g =? g') && (b' <? List.length sz) && (i =? i')).
Proof.
  intros E Hi w s I Hs. unfold disablevarcomp.
  destruct (grid_shape w s g nv sz I) as (gr & -> & Ev & El). { now rewrite Hs. } cbn [rbind]. rewrite El.
  revert w s I Hs. apply (ext_dis sh _ (fun g' b' i' => existsb (fun b => eq3 g b i g' b' i') (seq 0 (List.length sz)))); auto.
  - apply dis_each. intros b Hb. apply in_seq in Hb. apply dis_prim. exists nv, sz. repeat split; auto; lia.
  - intros g' b' i'. unfold eq3. apply existsb_boxes.
Qed.
Lemma existsb_range i n (p : bool) i' : existsb (fun j => p && (i + j =? i')) (seq 0 n) = p && (i <=? i') && (i' <? i + n).
Proof.
  destruct p; cbn [andb]. 2:{ induction (seq 0 n); simpl; auto. }
  destruct (Nat.leb_spec i i'), (Nat.ltb_spec i' (i + n)); cbn [andb].
  - apply existsb_exists. exists (i' - i). split; [apply in_seq; lia|]. apply Nat.eqb_eq. lia.
  - apply not_true_is_false. intros C. apply existsb_exists in C. destruct C as (x & Hx & C). apply in_seq in Hx. apply Nat.eqb_eq in C. lia.
  - apply not_true_is_false. intros C. apply existsb_exists in C. destruct C as (x & Hx & C). apply Nat.eqb_eq in C. lia.
  - apply not_true_is_false. intros C. apply existsb_exists in C. destruct C as (x & Hx & C). apply Nat.eqb_eq in C. lia.
Qed.
Lemma existsb_list l (p : bool) i' : existsb (fun i => p && (i =? i')) l = p && existsb (Nat.eqb i') l.
Proof.
  induction l as [|x l IH]; simpl. { now rewrite andb_false_r. }
  rewrite IH, (Nat.eqb_sym x i'). destruct p; auto.
Qed.

Lemma step_ok w s o : Inv w s -> valid V s o -> exists w', sstep V zero o w = Ok w' /\ Inv w' (post V zero s o).
Proof.
  intros I Hv. destruct o; cbn [sstep post valid] in *.
  - (* NewGrid *)
    eexists. split; [reflexivity|]. unfold new_grid.
    assert (Lg : List.length (grids V w) = List.length (shape V s)).
    { pose proof (I_sh _ _ I) as Q. destruct (Nat.lt_trichotomy (List.length (grids V w)) (List.length (shape V s))) as [L|[L|L]]; auto; exfalso.
      - specialize (Q (List.length (grids V w))). rewrite (proj2 (nth_error_None _ _)) in Q by lia.
        destruct (nth_error (shape V s) _) eqn:E; auto. apply nth_error_None in E. lia.
      - specialize (Q (List.length (shape V s))). rewrite (proj2 (nth_error_None (shape V s) _)) in Q by lia.
        destruct (nth_error (grids V w) _) as [[|]|] eqn:E; auto. apply nth_error_None in E. lia. }
    set (G := {| nvars := n; boxes := _ |}).
    assert (Hget : forall g b i, get_v V {| heap := heap V w; nen := nen V w; grids := grids V w ++ [Some G] |} g b i =
       if g =? List.length (grids V w) then match nth_error sizes b with Some _ => if i <? n then Ok None else UB | None => UB end else get_v V w g b i).
    { intros g b i. unfold get_v, get_box, get_grid. cbn [grids]. destruct (Nat.eqb_spec g (List.length (grids V w))) as [->|NE].
      - rewrite nth_error_app2, Nat.sub_diag by lia. simpl. rewrite nth_error_map. destruct (nth_error sizes b); cbn [option_map rbind v]; auto.
        destruct (Nat.ltb_spec i n). { now rewrite nth_error_repeat. }
        rewrite (proj2 (nth_error_None _ _)); auto. rewrite repeat_length. lia.
      - destruct (Nat.lt_ge_cases g (List.length (grids V w))). { now rewrite nth_error_app1. }
        rewrite (proj2 (nth_error_None (grids V w) g)) by lia. rewrite (proj2 (nth_error_None _ _)); auto. rewrite app_length. simpl. lia. }
    assert (Hold : forall g b i, here V s g b i -> g < List.length (grids V w)).
    { intros g b i (nv & sz & E & _). rewrite Lg. apply nth_error_Some. congruence. }
    constructor; cbn [shape val].
    + intros g. cbn [grids]. destruct (Nat.lt_trichotomy g (List.length (grids V w))) as [L|[->|L]].
      * rewrite !nth_error_app1 by lia. apply (I_sh _ _ I).
      * rewrite nth_error_app2, Nat.sub_diag by lia. rewrite Lg, nth_error_app2, Nat.sub_diag by lia. simpl. repeat split.
        -- rewrite map_map. simpl. apply map_id.
        -- intros bx Hb. apply in_map_iff in Hb. destruct Hb as (z & <- & _). simpl. apply repeat_length.
      * rewrite !(proj2 (nth_error_None _ _)); try (rewrite app_length; simpl; lia). exact Logic.I.
    + intros g b i N. apply (I_none _ _ I). intros (nv & sz & E & Q). apply N. exists nv, sz. split; auto. cbn [shape].
      rewrite nth_error_app1; auto. apply nth_error_Some. congruence.
    + intros g b i. rewrite Hget. destruct (Nat.eqb_spec g (List.length (grids V w))) as [->|NE].
      * destruct (nth_error sizes b); auto. destruct (i <? n); auto. apply (I_none _ _ I). intros Q. apply Hold in Q. lia.
      * pose proof (I_val _ _ I g b i) as Q. destruct (get_v V w g b i) as [[p|]| |] eqn:E; auto. destruct Q as (d & Q1 & Q2 & Q3).
        exists d. cbn [heap]. split; auto. split; auto. rewrite Q3. unfold size. cbn [shape]. rewrite nth_error_app1; auto.
        rewrite <- Lg. assert (here V s g b i) as Q by (apply (here_get w s g b i (I_sh _ _ I)); eauto). now apply Hold in Q.
    + intros g b i g' b' i' p. rewrite !Hget. destruct (g =? _), (g' =? _); try apply (I_inj _ _ I);
        destruct (nth_error sizes b); try destruct (i <? n); try discriminate; destruct (nth_error sizes b'); try destruct (i' <? n); discriminate.
    + intros p d E. destruct (I_own _ _ I p d E) as (g & b & i & E1). exists g, b, i. rewrite Hget.
      destruct (Nat.eqb_spec g (List.length (grids V w))) as [->|NE]; auto.
      assert (here V s (List.length (grids V w)) b i) as Q by (apply (here_get w s _ b i (I_sh _ _ I)); eauto). apply Hold in Q. lia.
    + exact (I_cnt _ _ I).
  - (* FreeGrid *)
    destruct Hv as ([nv sz] & E). unfold free_grid. destruct (grid_shape w s g nv sz I E) as (gr & -> & Ev & El). cbn [rbind].
    rewrite Ev, El.
    assert (D : DisSpec (shape V s) (each V (seq 0 (List.length sz)) (fun b => each V (seq 0 nv) (fun i => disablevarcomp_inbox V g b i)))
       (fun g' b' i' => existsb (fun b => existsb (fun i => eq3 g b i g' b' i') (seq 0 nv)) (seq 0 (List.length sz)))).
    { apply dis_each. intros b Hb. apply in_seq in Hb. apply dis_each. intros i Hi. apply in_seq in Hi. apply dis_prim. exists nv, sz.
      repeat split; auto; lia. }
    destruct (D w s I eq_refl) as (w1 & -> & I1). cbn [rbind]. eexists. split; [reflexivity|].
    assert (N1 : forall b i, get_v V w1 g b i = Ok None \/ forall p, get_v V w1 g b i <> Ok p).
    { intros b i. destruct (get_v V w1 g b i) as [[p|]| |] eqn:Eg; auto; try (right; intros; discriminate). exfalso.
      pose proof (I_val _ _ I1 g b i) as Q. rewrite Eg in Q. destruct Q as (d & _ & Q & _). cbn [disable val] in Q.
      assert (here V s g b i) as (nv' & sz' & E' & Hb & Hi).
      { apply (here_get w1 (disable V s (fun g' b' i' => existsb (fun b => existsb (fun i => eq3 g b i g' b' i') (seq 0 nv)) (seq 0 (List.length sz)))) g b i (I_sh _ _ I1)). eauto. }
      assert (nv' = nv /\ sz' = sz) as [-> ->] by (split; congruence).
      assert (existsb (fun b0 => existsb (fun i0 => eq3 g b0 i0 g b i) (seq 0 nv)) (seq 0 (List.length sz)) = true) as C.
      { apply existsb_exists. exists b. split; [apply in_seq; lia|]. apply existsb_exists. exists i. split; [apply in_seq; lia|].
        destruct (eq3_spec g b i g b i) as [|C]; [reflexivity|exfalso; apply C; auto]. }
      rewrite C in Q. discriminate. }
    set (w2 := {| heap := _; nen := _; grids := _ |}).
    assert (G2 : forall g' b i, g' <> g -> get_v V w2 g' b i = get_v V w1 g' b i).
    { intros g' b i NE. unfold get_v, get_box, get_grid. cbn [grids w2]. rewrite nth_error_upd_ne; auto. }
    assert (G3 : forall b i p, get_v V w2 g b i <> Ok p).
    { intros b i p. unfold get_v, get_box, get_grid. cbn [grids w2]. rewrite nth_upd, Nat.eqb_refl.
      destruct (nth_error (grids V w1) g); simpl; discriminate. }
    assert (Gs : forall g', g' <> g -> nth_error (upd (shape V s) g None) g' = nth_error (shape V s) g') by (intros; rewrite nth_error_upd_ne; auto).
    constructor; cbn [shape val disable].
    + intros g'. cbn [grids w2]. rewrite !nth_upd. pose proof (I_sh _ _ I1 g') as Q. cbn [disable shape] in Q.
      destruct (Nat.eqb_spec g g') as [<-|]; auto. rewrite E in *. unfold sh_ok in Q. destruct (nth_error (grids V w1) g) as [[|]|]; try contradiction. exact Logic.I.
    + intros g' b i N. cbn [selected]. destruct (Nat.eqb_spec g' g) as [->|NE]; auto. apply (I_none _ _ I). intros (nv' & sz' & E' & Q). apply N.
      exists nv', sz'. cbn [shape]. rewrite Gs; auto.
    + intros g' b i. cbn [selected]. destruct (Nat.eqb_spec g' g) as [->|NE].
      * destruct (get_v V w2 g b i) eqn:E2; auto. exfalso. now apply (G3 b i a).
      * rewrite G2 by auto. pose proof (I_val _ _ I1 g' b i) as Q. cbn [disable val] in Q.
        assert (existsb (fun b0 => existsb (fun i0 => eq3 g b0 i0 g' b i) (seq 0 nv)) (seq 0 (List.length sz)) = false) as C.
        { apply not_true_is_false. intros C. apply existsb_exists in C. destruct C as (b0 & _ & C). apply existsb_exists in C. destruct C as (i0 & _ & C).
          destruct (eq3_spec g b0 i0 g' b i) as [(? & _)|]; congruence. }
        rewrite C in Q. destruct (get_v V w1 g' b i) as [[p|]| |]; auto. destruct Q as (d & Q1 & Q2 & Q3). exists d. split; auto. split; auto.
        rewrite Q3. unfold size. cbn [shape disable]. now rewrite Gs.
    + intros g1 b1 i1 g2 b2 i2 p. destruct (Nat.eq_dec g1 g) as [->|N1']. { intros C. now apply G3 in C. }
      destruct (Nat.eq_dec g2 g) as [->|N2']. { intros _ C. now apply G3 in C. } rewrite !G2 by auto. apply (I_inj _ _ I1).
    + intros p d Ep. destruct (I_own _ _ I1 p d Ep) as (g' & b & i & Eg). exists g', b, i. rewrite G2; auto. intros ->.
      destruct (N1 b i) as [C|C]; [congruence|]. now apply C in Eg.
    + exact (I_cnt _ _ I1).
  - (* ReallocVars *)
    destruct Hv as (nv & sz & E & Hn). unfold realloc_gridvariables. destruct (grid_shape w s g nv sz I E) as (gr & Eg & Ev & El). rewrite Eg. cbn [rbind].
    eexists. split; [reflexivity|]. rewrite E. pose proof (I_sh _ _ I g) as Qg. rewrite E in Qg.
    unfold get_grid in Eg. destruct (nth_error (grids V w) g) as [[gr'|]|] eqn:Eg'; try discriminate. injection Eg as ->.
    destruct Qg as (_ & Qsz & Qv).
    set (w2 := {| heap := _; nen := _; grids := _ |}).
    assert (G2 : forall g' b i, get_v V w2 g' b i = match get_v V w g' b i with Ok p => Ok p
       | r => if (g' =? g) && (b <? List.length sz) && (nv <=? i) && (i <? n) then Ok None else r end).
    { intros g' b i. unfold get_v, get_box, get_grid. cbn [grids w2]. rewrite nth_upd, (Nat.eqb_sym g' g). destruct (Nat.eqb_spec g g') as [<-|]; cbn [andb].
      2:{ destruct (nth_error (grids V w) g') as [[gr2|]|]; cbn [rbind]; auto. destruct (nth_error (boxes gr2) b) as [bz|]; cbn [rbind]; auto. destruct (nth_error (v bz) i); auto. }
      rewrite Eg'. cbn [rbind boxes]. rewrite nth_error_map. destruct (nth_error (boxes gr) b) as [bx|] eqn:Eb; cbn [option_map rbind].
      2:{ apply nth_error_None in Eb. replace (b <? List.length sz) with false by (symmetry; apply Nat.ltb_ge; lia). reflexivity. }
      replace (b <? List.length sz) with true. 2:{ symmetry. apply Nat.ltb_lt. rewrite <- El. apply nth_error_Some. congruence. }
      assert (Lb : List.length (v bx) = nv) by (apply Qv; eapply nth_error_In; eauto).
      cbn [v andb]. rewrite Ev. rewrite firstn_all2 by lia. destruct (nth_error (v bx) i) as [p|] eqn:Ei.
      - rewrite nth_error_app1, Ei; auto. apply nth_error_Some. congruence.
      - apply nth_error_None in Ei. rewrite nth_error_app2 by lia. replace (nv <=? i) with true by (symmetry; apply Nat.leb_le; lia). cbn [andb].
        destruct (Nat.ltb_spec i n). { rewrite nth_error_repeat by lia. reflexivity. }
        rewrite (proj2 (nth_error_None _ _)); auto. rewrite repeat_length. lia. }
    assert (Gp : forall g' b i p, get_v V w2 g' b i = Ok (Some p) <-> get_v V w g' b i = Ok (Some p)).
    { intros. rewrite G2. destruct (get_v V w g' b i) as [q| |]; [tauto| |]; destruct ((g' =? g) && (b <? List.length sz) && (nv <=? i) && (i <? n)); split; congruence. }
    constructor; cbn [shape val].
    + intros g'. cbn [grids w2]. rewrite !nth_upd. destruct (Nat.eqb_spec g g') as [<-|]; [|apply (I_sh _ _ I)]. rewrite Eg', E. simpl.
      repeat split; auto.
      * rewrite map_map. simpl. auto.
      * intros bx Hb. apply in_map_iff in Hb. destruct Hb as (bx0 & <- & Hb). simpl. rewrite app_length, firstn_length, repeat_length, (Qv bx0 Hb). lia.
    + intros g' b i N. apply (I_none _ _ I). intros (nv' & sz' & E' & Hb & Hi). apply N. unfold here. cbn [shape]. rewrite nth_upd.
      destruct (Nat.eqb_spec g g') as [<-|]; [|exists nv', sz'; auto]. rewrite E' in *. injection E as -> ->. exists n, sz. repeat split; auto. lia.
    + intros g' b i. pose proof (I_val _ _ I g' b i) as Q. specialize (Gp g' b i).
      assert (SZ : forall d : list V, size V {| shape := upd (shape V s) g (Some (n, sz)); val := val V s |} g' b = size V s g' b).
      { intros _. unfold size. cbn [shape]. rewrite nth_upd. destruct (Nat.eqb_spec g g') as [<-|]; auto. rewrite E. reflexivity. }
      destruct (get_v V w2 g' b i) as [[p|]| |] eqn:E2; auto.
      * rewrite (proj1 (Gp p) eq_refl) in Q. destruct Q as (d & Q1 & Q2 & Q3). exists d. rewrite SZ; auto.
      * destruct (get_v V w g' b i) as [[p|]| |] eqn:E3; auto.
        -- specialize (proj2 (Gp p) eq_refl). discriminate.
        -- apply (I_none _ _ I). intros C. apply (here_get w s g' b i (I_sh _ _ I)) in C. destruct C as (? & C). congruence.
        -- apply (I_none _ _ I). intros C. apply (here_get w s g' b i (I_sh _ _ I)) in C. destruct C as (? & C). congruence.
    + intros g1 b1 i1 g2 b2 i2 p. rewrite !Gp. apply (I_inj _ _ I).
    + intros p d Ep. destruct (I_own _ _ I p d Ep) as (g' & b & i & Q). exists g', b, i. now apply Gp.
    + exact (I_cnt _ _ I).
  - (* EnBoxComp *)
    destruct (en_ok w s g b i I Hv) as (w' & E & I'). exists w'. split; auto. eapply Inv_same; eauto. split; auto.
    intros g' b' i'. simpl. unfold eq3. rewrite (Nat.eqb_sym g' g), (Nat.eqb_sym b' b), (Nat.eqb_sym i' i). reflexivity.
  - destruct (dis_ok w s g b i I Hv) as (w' & E & I'). exists w'. split; auto. eapply Inv_same; eauto. split; auto.
    intros g' b' i'. simpl. unfold eq3. rewrite (Nat.eqb_sym g' g), (Nat.eqb_sym b' b), (Nat.eqb_sym i' i). reflexivity.
  - (* EnBoxVar *)
    assert (D : EnSpec (shape V s) T1 (enablevar_inbox V zero g b i n) (selected V s (EnBoxVar V g b i n))).
    { apply (ext_en _ _ _ (fun g' b' i' => existsb (fun j => eq3 g b (i + j) g' b' i') (seq 0 n))); auto using T1e.
      - apply en_each; auto using T1e. intros j Hj. apply in_seq in Hj. apply en_prim. apply Hv. lia.
      - intros g' b' i'. unfold eq3. cbn [selected]. rewrite (Nat.eqb_sym g' g), (Nat.eqb_sym b' b). apply existsb_range. }
    destruct (D w s I eq_refl Logic.I) as (w' & E & I' & _). eauto.
  - assert (D : DisSpec (shape V s) (disablevar_inbox V g b i n) (selected V s (DisBoxVar V g b i n))).
    { apply (ext_dis _ _ (fun g' b' i' => existsb (fun j => eq3 g b (i + j) g' b' i') (seq 0 n))); auto.
      - apply dis_each. intros j Hj. apply in_seq in Hj. apply dis_prim. apply Hv. lia.
      - intros g' b' i'. unfold eq3. cbn [selected]. rewrite (Nat.eqb_sym g' g), (Nat.eqb_sym b' b). apply existsb_range. }
    destruct (D w s I eq_refl) as (w' & E & I'). eauto.
  - (* EnComp *)
    destruct Hv as (nv & sz & E & Hi).
    destruct (en_comp _ g i nv sz E Hi w s I eq_refl Logic.I) as (w' & E' & I' & _). exists w'. split; auto. eapply Inv_same; eauto. split; auto.
    intros g' b' i'. cbn [enable val selected nb]. unfold nb. rewrite E, (Nat.eqb_sym g' g), (Nat.eqb_sym i' i). reflexivity.
  - destruct Hv as (nv & sz & E & Hi).
    destruct (dis_comp _ g i nv sz E Hi w s I eq_refl) as (w' & E' & I'). exists w'. split; auto. eapply Inv_same; eauto. split; auto.
    intros g' b' i'. cbn [disable val selected nb]. unfold nb. rewrite E, (Nat.eqb_sym g' g), (Nat.eqb_sym i' i). reflexivity.
  - (* EnVar *)
    destruct Hv as (nv & sz & E & Hi).
    assert (D : EnSpec (shape V s) T1 (enablevar V zero g i n) (selected V s (EnVar V g i n))).
    { apply (ext_en _ _ _ (fun g' b' i' => existsb (fun j => (g =? g') && (b' <? List.length sz) && (i + j =? i')) (seq 0 n))); auto using T1e.
      - apply en_each; auto using T1e. intros j Hj. apply in_seq in Hj. apply (en_comp _ g (i + j) nv sz); auto. lia.
      - intros g' b' i'. cbn [selected]. unfold nb. rewrite E, (Nat.eqb_sym g' g). apply existsb_range. }
    destruct (D w s I eq_refl Logic.I) as (w' & E' & I' & _). eauto.
  - destruct Hv as (nv & sz & E & Hi).
    assert (D : DisSpec (shape V s) (disablevar V g i n) (selected V s (DisVar V g i n))).
    { apply (ext_dis _ _ (fun g' b' i' => existsb (fun j => (g =? g') && (b' <? List.length sz) && (i + j =? i')) (seq 0 n))); auto.
      - apply dis_each. intros j Hj. apply in_seq in Hj. apply (dis_comp _ g (i + j) nv sz); auto. lia.
      - intros g' b' i'. cbn [selected]. unfold nb. rewrite E, (Nat.eqb_sym g' g). apply existsb_range. }
    destruct (D w s I eq_refl) as (w' & E' & I'). eauto.
  - (* EnList *)
    destruct Hv as (nv & sz & E & Hi).
    assert (D : EnSpec (shape V s) T1 (enablevarlist V zero g l) (selected V s (EnList V g l))).
    { apply (ext_en _ _ _ (fun g' b' i' => existsb (fun i => (g =? g') && (b' <? List.length sz) && (i =? i')) l)); auto using T1e.
      - apply en_each; auto using T1e. intros j Hj. apply (en_comp _ g j nv sz); auto.
      - intros g' b' i'. cbn [selected]. unfold nb. rewrite E, (Nat.eqb_sym g' g). apply existsb_list. }
    destruct (D w s I eq_refl Logic.I) as (w' & E' & I' & _). eauto.
  - destruct Hv as (nv & sz & E & Hi).
    assert (D : DisSpec (shape V s) (disablevarlist V g l) (selected V s (DisList V g l))).
    { apply (ext_dis _ _ (fun g' b' i' => existsb (fun i => (g =? g') && (b' <? List.length sz) && (i =? i')) l)); auto.
      - apply dis_each. intros j Hj. apply (dis_comp _ g j nv sz); auto.
      - intros g' b' i'. cbn [selected]. unfold nb. rewrite E, (Nat.eqb_sym g' g). apply existsb_list. }
    destruct (D w s I eq_refl) as (w' & E' & I'). eauto.
  - (* EnSame *)
    destruct Hv as (nv & sz & sz2 & E1 & E2 & El). unfold enablesamevars.
    destruct (grid_shape w s g nv sz I E1) as (gr & -> & Ev & L1). cbn [rbind].
    destruct (grid_shape w s g2 nv sz2 I E2) as (gr2 & -> & Ev2 & L2). cbn [rbind].
    rewrite Ev, Ev2, L1, L2, El, !Nat.eqb_refl. cbn [negb].
    set (C := fun b i => match val V s g b i with Some _ => true | None => false end).
    set (P := fun s' : ast => forall b i, match val V s' g b i with Some _ => true | None => false end = C b i).
    assert (PE : Pext P). { intros s1 s2 H [_ Q] b i. rewrite <- Q. apply H. }
    assert (D : EnSpec (shape V s) P (each V (seq 0 nv) (fun i => each V (seq 0 (List.length sz2)) (fun b w =>
        do p <- get_v V w g b i; match p with Some _ => enablevarcomp_inbox V zero g2 b i w | None => Ok w end)))
      (selected V s (EnSame V g g2))).
    { apply (ext_en _ _ _ (fun g' b' i' => existsb (fun i => existsb (fun b => C b i && eq3 g2 b i g' b' i') (seq 0 (List.length sz2))) (seq 0 nv))); auto.
      - apply en_each; auto. intros i Hi. apply en_each; auto. intros b Hb. apply in_seq in Hi, Hb.
        assert (Hh1 : hereS (shape V s) g b i) by (exists nv, sz; repeat split; auto; lia).
        assert (Hh2 : hereS (shape V s) g2 b i) by (exists nv, sz2; repeat split; auto; lia).
        intros w1 s1 I1 Hs1 HP. assert (Hh : here V s1 g b i) by (unfold here; rewrite Hs1; exact Hh1).
        pose proof (proj1 (here_get w1 s1 g b i (I_sh _ _ I1)) Hh) as (p & Ep). rewrite Ep. cbn [rbind].
        pose proof (I_val _ _ I1 g b i) as Q. rewrite Ep in Q. pose proof (HP b i) as HC. destruct p as [p|].
        + destruct Q as (d & _ & Q & _). rewrite Q in HC.
          destruct (en_ok w1 s1 g2 b i I1) as (w2 & E & I2). { unfold here. rewrite Hs1. exact Hh2. }
          exists w2. split; auto.
          assert (SM : same (enable V zero s1 (eq3 g2 b i)) (enable V zero s1 (fun g' b' i' => C b i && eq3 g2 b i g' b' i'))).
          { split; auto. intros. simpl. rewrite <- HC. reflexivity. }
          split; [eapply Inv_same; eauto|]. apply (PE (enable V zero s1 (eq3 g2 b i))); auto. intros b' i'. simpl.
          destruct (eq3_spec g2 b i g b' i') as [(-> & <- & <-)|]; [|apply HP]. rewrite Q, <- HC. reflexivity.
        + rewrite Q in HC. exists w1. split; auto.
          assert (SM : same s1 (enable V zero s1 (fun g' b' i' => C b i && eq3 g2 b i g' b' i'))).
          { split; auto. intros. simpl. rewrite <- HC. reflexivity. }
          split; [eapply Inv_same; eauto|]. eapply PE; eauto.
      - intros g' b' i'. cbn [selected]. unfold nb. rewrite E2. fold (C b' i').
        destruct ((g' =? g2) && (b' <? List.length sz2) && C b' i') eqn:Q.
        + apply andb_prop in Q. destruct Q as [Q Q3]. apply andb_prop in Q. destruct Q as [Q1 Q2]. apply Nat.eqb_eq in Q1. apply Nat.ltb_lt in Q2. subst g'.
          assert (Hi : i' < nv).
          { destruct (Nat.lt_ge_cases i' nv); auto. exfalso. unfold C in Q3. rewrite (I_none _ _ I) in Q3; [discriminate|].
            intros (nv' & sz' & E' & _ & Hi). assert (nv' = nv) by congruence. lia. }
          apply existsb_exists. exists i'. split; [apply in_seq; lia|]. apply existsb_exists. exists b'. split; [apply in_seq; lia|].
          rewrite Q3. destruct (eq3_spec g2 b' i' g2 b' i') as [|N]; [reflexivity|exfalso; apply N; auto].
        + apply not_true_is_false. intros X. apply existsb_exists in X. destruct X as (i & Hi & X). apply existsb_exists in X. destruct X as (b & Hb & X).
          apply andb_prop in X. destruct X as [X1 X2]. destruct (eq3_spec g2 b i g' b' i') as [(<- & <- & <-)|]; try discriminate.
          apply in_seq in Hb. rewrite Nat.eqb_refl, X1, andb_true_r in Q. cbn [andb] in Q. apply Nat.ltb_ge in Q. lia. }
    destruct (D w s I eq_refl) as (w' & E' & I' & _). { intros b i. reflexivity. } eauto.
  - (* Write *)
    destruct Hv as (d & Ed & Hk). unfold write.
    assert (Hh : here V s g b i). { destruct (get_v V w g b i) as [p| |] eqn:E.
      - apply (here_get w s g b i (I_sh _ _ I)). eauto.
      - exfalso. rewrite (I_none _ _ I) in Ed; [discriminate|]. intros C. apply (here_get w s g b i (I_sh _ _ I)) in C. destruct C; congruence.
      - exfalso. rewrite (I_none _ _ I) in Ed; [discriminate|]. intros C. apply (here_get w s g b i (I_sh _ _ I)) in C. destruct C; congruence. }
    pose proof (proj1 (here_get w s g b i (I_sh _ _ I)) Hh) as (p & Ep). rewrite Ep. cbn [rbind].
    pose proof (I_val _ _ I g b i) as Q. rewrite Ep in Q. destruct p as [p|]; [|congruence]. destruct Q as (d' & Q1 & Q2 & Q3).
    assert (d' = d) as -> by congruence. rewrite Q1. replace (k <? List.length d) with true by (symmetry; apply Nat.ltb_lt; lia).
    eexists. split; [reflexivity|]. constructor; cbn [shape val].
    + apply (I_sh _ _ I).
    + intros g' b' i' N. assert (val V s g' b' i' = None) as -> by (now apply (I_none _ _ I)). now destruct ((g' =? g) && (b' =? b) && (i' =? i)).
    + intros g' b' i'. change (get_v V {| heap := upd (heap V w) p (Some (upd d k x)); nen := nen V w; grids := grids V w |} g' b' i') with (get_v V w g' b' i').
      pose proof (I_val _ _ I g' b' i') as R. cbn [heap].
      assert (B : (g' =? g) && (b' =? b) && (i' =? i) = eq3 g b i g' b' i').
      { unfold eq3. now rewrite (Nat.eqb_sym g' g), (Nat.eqb_sym b' b), (Nat.eqb_sym i' i). }
      rewrite B. destruct (get_v V w g' b' i') as [[q|]| |] eqn:Eq; auto.
      * destruct R as (d1 & R1 & R2 & R3). destruct (eq3_spec g b i g' b' i') as [(<- & <- & <-)|NE].
        -- assert (q = p) as -> by congruence. exists (upd d k x). rewrite nth_error_upd_eq by (apply nth_error_Some; congruence).
           rewrite Ed. simpl. repeat split; auto. rewrite upd_length. exact Q3.
        -- exists d1. rewrite nth_error_upd_ne; auto. intros <-. apply NE. apply (I_inj _ _ I _ _ _ _ _ _ _ Ep Eq).
      * rewrite R. now destruct (eq3 g b i g' b' i').
    + apply (I_inj _ _ I).
    + intros q d1. cbn [heap]. rewrite nth_upd. intros E. destruct (Nat.eqb_spec p q) as [<-|].
      * exists g, b, i. exact Ep.
      * now apply (I_own _ _ I q d1).
    + unfold live. cbn [nen heap]. rewrite (live_upd_some _ _ _ _ Q1). apply (I_cnt _ _ I).
Qed.
Lemma Inv0 : Inv (w0 V) (s0 V).
Proof.
  constructor; simpl; auto.
  - intros g. now destruct g.
  - intros g b i. unfold get_v, get_box, get_grid. simpl. now destruct g.
  - intros g b i g' b' i' p E. unfold get_v, get_box, get_grid in E. simpl in E. destruct g; discriminate.
  - intros p d E. destruct p; discriminate.
Qed.
Lemma run_ok os : forall w s s', Inv w s -> hist V zero s os s' -> exists w', srun V zero os w = Ok w' /\ Inv w' s'.
Proof.
  induction os as [|o os IH]; intros w s s' I H; inversion H; subst; cbn [srun].
  - eauto.
  - destruct (step_ok w s o I H3) as (w1 & -> & I1). cbn [rbind]. eauto.
Qed.
(** counting *)
Fixpoint lives (h : list (option (list V))) (p : nat) : list nat :=
  match h with [] => [] | Some _ :: r => p :: lives r (S p) | None :: r => lives r (S p) end.
Lemma lives_len h : forall p, List.length (lives h p) = List.length (filter (fun x : option (list V) => match x with Some _ => true | None => false end) h).
Proof. induction h as [|[x|] h IH]; intros p; simpl; auto. Qed.
Lemma lives_In h : forall p q, In q (lives h p) <-> p <= q /\ exists d, nth_error h (q - p) = Some (Some d).
Proof.
  induction h as [|x h IH]; intros p q; simpl.
  - split; [tauto|]. intros (_ & d & E). destruct (q - p); discriminate.
  - assert (R : In q (lives h (S p)) <-> S p <= q /\ exists d, nth_error (x :: h) (q - p) = Some (Some d)).
    { rewrite IH. split; intros (L & d & E); split; auto; exists d.
      - replace (q - p) with (S (q - S p)) by lia. exact E.
      - replace (q - p) with (S (q - S p)) in E by lia. exact E. }
    destruct x as [x|]; simpl; rewrite ?R.
    + split.
      * intros [->|(L & Q)]; [|split; auto; lia]. split; auto. rewrite Nat.sub_diag. simpl. eauto.
      * intros (L & Q). destruct (Nat.eq_dec p q); auto. right. split; auto. lia.
    + split; intros (L & Q); split; auto; try lia. destruct (Nat.eq_dec p q) as [->|]; [|lia].
      rewrite Nat.sub_diag in Q. destruct Q as (d & Q). discriminate.
Qed.
Lemma lives_NoDup h : forall p, NoDup (lives h p).
Proof.
  induction h as [|[x|] h IH]; intros p; simpl; auto; constructor; auto. rewrite lives_In. lia.
Qed.
Lemma count_ok w s (L : list (nat * nat * nat)) : Inv w s -> NoDup L ->
  (forall g b i, In (g, b, i) L <-> exists d, val V s g b i = Some d) -> nen V w = Z.of_nat (List.length L).
Proof.
  intros I N H. rewrite (I_cnt _ _ I). f_equal. unfold live. rewrite <- (lives_len _ 0).
  set (ptr := fun t : nat * nat * nat => match get_v V w (fst (fst t)) (snd (fst t)) (snd t) with Ok (Some p) => p | _ => 0 end).
  assert (A : forall g b i, In (g, b, i) L -> exists p, get_v V w g b i = Ok (Some p)).
  { intros g b i Hin. apply H in Hin. destruct Hin as (d & E). pose proof (I_val _ _ I g b i) as Q.
    destruct (get_v V w g b i) as [[p|]| |] eqn:Eg; eauto; exfalso.
    - congruence.
    - rewrite (I_none _ _ I) in E; [discriminate|]. intros C. apply (here_get w s g b i (I_sh _ _ I)) in C. destruct C; congruence.
    - rewrite (I_none _ _ I) in E; [discriminate|]. intros C. apply (here_get w s g b i (I_sh _ _ I)) in C. destruct C; congruence. }
  rewrite <- (map_length ptr L). apply Nat.le_antisymm; apply NoDup_incl_length.
  - apply lives_NoDup.
  - intros p Hp. apply lives_In in Hp. destruct Hp as (_ & d & E). rewrite Nat.sub_0_r in E.
    destruct (I_own _ _ I p d E) as (g & b & i & Eg). apply in_map_iff. exists (g, b, i). split. { unfold ptr. simpl. now rewrite Eg. }
    apply H. pose proof (I_val _ _ I g b i) as Q. rewrite Eg in Q. destruct Q as (d' & _ & Q & _). eauto.
  - clear H. induction L as [|[[g b] i] L IH]; simpl; constructor.
    + inversion N; subst. intros C. apply in_map_iff in C. destruct C as ([[g' b'] i'] & E & Hin).
      destruct (A g b i (or_introl eq_refl)) as (p & Ep). destruct (A g' b' i' (or_intror Hin)) as (p' & Ep').
      unfold ptr in E. simpl in E. rewrite Ep, Ep' in E. subst p'. destruct (I_inj _ _ I _ _ _ _ _ _ _ Ep Ep') as (<- & <- & <-). contradiction.
    + inversion N; subst. apply IH; auto. intros. apply A. now right.
  - intros p Hp. apply in_map_iff in Hp. destruct Hp as ([[g b] i] & E & Hin). destruct (A g b i Hin) as (q & Eq).
    unfold ptr in E. simpl in E. rewrite Eq in E. subst q. apply lives_In. split; [lia|]. rewrite Nat.sub_0_r.
    pose proof (I_val _ _ I g b i) as Q. rewrite Eq in Q. destruct Q as (d & Q & _). eauto.
Qed.
End P.

(** Proofs about the double covering loops. *)
From Verif Require Import Rutil Base Loops Arrays Cart_model Dcov_model Dcov_spec.
Local Open Scope R_scope.
Notation pt3 := (nat * nat * nat)%type.

(** *** loops over three indices as one loop over a list of triples *)
Definition triples (ks js is : list nat) : list pt3 := flat_map (fun k => flat_map (fun j => map (fun i => (i, j, k)) is) js) ks.
Lemma triples_in ks js is i j k : In (i, j, k) (triples ks js is) <-> In k ks /\ In j js /\ In i is.
Proof.
  unfold triples. rewrite in_flat_map. split.
  - intros (k' & Hk & H). apply in_flat_map in H. destruct H as (j' & Hj & H). apply in_map_iff in H. destruct H as (i' & E & Hi). injection E as -> -> ->. auto.
  - intros (Hk & Hj & Hi). exists k. split; auto. apply in_flat_map. exists j. split; auto. apply in_map_iff. exists i. auto.
Qed.
Lemma forl_triples {S} (body : pt3 -> S -> res S) ks js is s :
  forl (triples ks js is) body s = forl ks (fun k => forl js (fun j => forl is (fun i => body (i, j, k)))) s.
Proof.
  unfold triples. rewrite forl_flat. apply forl_ext. intros k s1 _. rewrite forl_flat. apply forl_ext. intros j s2 _. now rewrite forl_map.
Qed.
Lemma loop3_ext {S} ks js is (f g : nat -> nat -> nat -> S -> res S) s :
  (forall i j k s, In k ks -> In j js -> In i is -> f k j i s = g k j i s) ->
  forl ks (fun k => forl js (fun j => forl is (f k j))) s = forl ks (fun k => forl js (fun j => forl is (g k j))) s.
Proof. intros E. apply forl_ext. intros k s1 Hk. apply forl_ext. intros j s2 Hj. apply forl_ext. intros i s3 Hi. auto. Qed.

(** *** the map to the partner point *)
Section Box.
Variable b : dims.
Hypothesis EV : even_dims b.
Definition ok (t : pt3) : Prop := let '(i, j, k) := t in inbox b i j k.
Definition ind (t : pt3) : nat := let '(i, j, k) := t in idx b i j k.
Definition sg (t : pt3) : pt3 := let '(i, j, k) := t in (i, (d2 b - 1 - j)%nat, ((k + d3n b / 2) mod d3n b)%nat).
Lemma half_k : (d3n b = 2 * (d3n b / 2))%nat.
Proof. destruct EV as [_ [h E]]. rewrite E at 2. rewrite (Nat.mul_comm 2 h), Nat.div_mul; lia. Qed.
Lemma half_j : (d2 b = 2 * (d2 b / 2))%nat.
Proof. destruct EV as [[h E] _]. rewrite E at 2. rewrite (Nat.mul_comm 2 h), Nat.div_mul; lia. Qed.
Lemma shift_lo k : (k < d3n b / 2)%nat -> ((k + d3n b / 2) mod d3n b = k + d3n b / 2)%nat.
Proof. intros. pose proof half_k. apply Nat.mod_small. lia. Qed.
Lemma shift_hi k : (d3n b / 2 <= k)%nat -> (k < d3n b)%nat -> ((k + d3n b / 2) mod d3n b = k - d3n b / 2)%nat.
Proof.
  intros. pose proof half_k. replace (k + d3n b / 2)%nat with (k - d3n b / 2 + 1 * d3n b)%nat by lia. rewrite Nat.mod_add by lia. apply Nat.mod_small. lia.
Qed.
Lemma sg_ok t : ok t -> ok (sg t).
Proof. destruct t as ((i, j), k). intros (A & B & C). cbn. repeat split; [auto|lia|apply Nat.mod_upper_bound; lia]. Qed.
Lemma sg_sg t : ok t -> sg (sg t) = t.
Proof.
  destruct t as ((i, j), k). intros (A & B & C). cbn [sg]. f_equal; [f_equal; lia|]. pose proof half_k.
  destruct (le_lt_dec (d3n b / 2) k).
  - rewrite (shift_hi k) by auto. rewrite shift_lo by lia. lia.
  - rewrite (shift_lo k) by auto. rewrite shift_hi by lia. lia.
Qed.
Lemma ind_inj t t' : ok t -> ok t' -> ind t = ind t' -> t = t'.
Proof.
  destruct t as ((i, j), k), t' as ((i', j'), k'). intros (A & B & C) (A' & B' & C') E. cbn [ind] in E. unfold idx in E.
  assert (i = i') as <-.
  { apply (f_equal (fun x => x mod d1 b)%nat) in E. rewrite !(Nat.mul_comm (d1 b)), !Nat.mod_add, !Nat.mod_small in E by lia. auto. }
  assert (E2 : (j + d2 b * k = j' + d2 b * k')%nat). { apply (Nat.mul_cancel_l _ _ (d1 b)); lia. }
  assert (j = j') as <-.
  { apply (f_equal (fun x => x mod d2 b)%nat) in E2. rewrite !(Nat.mul_comm (d2 b)), !Nat.mod_add, !Nat.mod_small in E2 by lia. auto. }
  assert (k = k') as <-. { apply (Nat.mul_cancel_l k k' (d2 b)); lia. } auto.
Qed.
Definition npts : nat := (d1 b * d2 b * d3n b)%nat.
Lemma ind_lt t : ok t -> (ind t < npts)%nat.
Proof. destruct t as ((i, j), k). intros (A & B & C). cbn [ind]. unfold idx, npts.
  assert (j + d2 b * k + 1 <= d2 b * d3n b)%nat by nia. rewrite <- Nat.mul_assoc. set (x := (j + d2 b * k)%nat) in *. set (y := (d2 b * d3n b)%nat) in *. nia. Qed.

Definition hit (l : list pt3) (t : pt3) : Prop := In t l \/ In (sg t) l.
(** *** averaging: the order and repetitions of the visited points do not matter *)
Lemma avg_loop (u0 : list R) : (npts <= List.length u0)%nat -> forall l, (forall t, In t l -> ok t) ->
  forall done u, List.length u = List.length u0 ->
  (forall t, ok t -> (hit done t -> u.[ind t] = mean u0.[ind t] u0.[ind (sg t)]) /\ (~ hit done t -> u.[ind t] = u0.[ind t])) ->
  exists u', forl l (fun t => average2 (ind t) (ind (sg t))) u = Ok u' /\ List.length u' = List.length u0 /\
  (forall t, ok t -> (hit (l ++ done) t -> u'.[ind t] = mean u0.[ind t] u0.[ind (sg t)]) /\ (~ hit (l ++ done) t -> u'.[ind t] = u0.[ind t])).
Proof.
  intros L l. induction l as [|t l IH]; intros OKL done u LU HU; cbn [forl].
  { exists u. repeat split; auto; intros; now apply HU. }
  assert (Ht : ok t) by (apply OKL; now left). pose proof (sg_ok t Ht) as Hs. pose proof (ind_lt t Ht). pose proof (ind_lt _ Hs).
  set (av := (u.[ind t] + u.[ind (sg t)]) * (1 / 2)).
  assert (AV : average2 (ind t) (ind (sg t)) u = Ok (upd (upd u (ind t) av) (ind (sg t)) av)).
  { unfold average2. rewrite (rd_ok u (ind t) 0), (rd_ok u (ind (sg t)) 0) by lia. cbn [rbind]. fold av. rewrite wr_ok by lia. cbn [rbind]. rewrite wr_ok; auto. rewrite upd_length. lia. }
  rewrite AV. cbn [rbind].
  assert (EAV : av = mean u0.[ind t] u0.[ind (sg t)]).
  { unfold av, mean. destruct (HU t Ht) as [H1 H2]. destruct (HU (sg t) Hs) as [H3 H4].
    assert (D : {hit done t} + {~ hit done t}).
    { unfold hit. assert (DT : forall x y : pt3, {x = y} + {x <> y}) by (repeat decide equality).
      destruct (in_dec DT t done); [left; now left|]. destruct (in_dec DT (sg t) done); [left; now right|]. right. now intros [?|?]. }
    destruct D as [D|D].
    - assert (D' : hit done (sg t)). { unfold hit in *. rewrite (sg_sg t Ht). tauto. }
      rewrite (H1 D), (H3 D'). rewrite (sg_sg t Ht). unfold mean. lra.
    - assert (D' : ~ hit done (sg t)). { unfold hit in *. rewrite (sg_sg t Ht). tauto. }
      rewrite (H2 D), (H4 D'). lra. }
  destruct (IH (fun t' Ht' => OKL t' (or_intror Ht')) (t :: done) (upd (upd u (ind t) av) (ind (sg t)) av)) as (u' & E & LU' & HU').
  { now rewrite !upd_length. }
  { intros t' Ht'. assert (DT : forall x y : pt3, {x = y} + {x <> y}) by (repeat decide equality).
    destruct (DT t' (sg t)) as [->|N1].
    { rewrite nth_upd_eq by (rewrite upd_length; lia). rewrite (sg_sg t Ht). split.
      - intros _. rewrite EAV. unfold mean. lra.
      - intros N. destruct N. right. rewrite (sg_sg t Ht). now left. }
    destruct (DT t' t) as [->|N2].
    { rewrite nth_upd_ne. 2:{ intros Q. apply ind_inj in Q; auto. }
      rewrite nth_upd_eq by lia. split; [now intros _|]. intros N. destruct N. left. now left. }
    rewrite nth_upd_ne. 2:{ intros Q. apply ind_inj in Q; auto. }
    rewrite nth_upd_ne. 2:{ intros Q. apply ind_inj in Q; auto. }
    destruct (HU t' Ht') as [P Q]. split.
    - intros [[C|C]|[C|C]]; [congruence|apply P; now left| |apply P; now right].
      apply (f_equal sg) in C. rewrite (sg_sg t' Ht') in C. congruence.
    - intros N. apply Q. intros [C|C]; apply N; [left|right]; now right. }
  exists u'. split; auto. split; auto. intros t' Ht'. destruct (HU' t' Ht') as [P Q].
  assert (I : hit (l ++ t :: done) t' <-> hit ((t :: l) ++ done) t').
  { unfold hit. cbn [app]. rewrite !in_app_iff. cbn [In]. rewrite !in_app_iff. tauto. }
  split; [intros K; apply P; now apply I|intros K; apply Q; intros K'; apply K; now apply I].
Qed.
(** the points the two loops visit *)
Definition visited (ks1 ks2 : list nat) : list pt3 :=
  triples ks1 (seq (d2 b / 2) (d2 b - d2 b / 2)) (seq 0 (d1 b - 0)) ++ triples ks2 (seq (d2 b / 2) (d2 b - d2 b / 2)) (seq 0 (d1 b - 0)).
Definition los (ks : list nat) : Prop := forall k, In k ks <-> (k < d3n b / 2)%nat.
Definition his (ks : list nat) : Prop := forall k, In k ks <-> (d3n b / 2 <= k < d3n b)%nat.
Lemma visited_in ks1 ks2 i j k : los ks1 -> his ks2 -> In (i, j, k) (visited ks1 ks2) <-> inbox b i j k /\ (d2 b / 2 <= j)%nat.
Proof.
  intros A B. unfold visited, inbox. rewrite in_app_iff, !triples_in, !in_seq. rewrite (A k), (B k). pose proof half_k. pose proof half_j. lia.
Qed.
Lemma two_loops (f : nat -> nat -> list R -> res (list R)) ks1 ks2 u : los ks1 -> his ks2 ->
  (do u <- forl ks1 (fun k => for_nat (d2 b / 2) (d2 b) (fun j => for_nat 0 (d1 b) (fun i => f (idx b i j k) (idx b i (d2 b - j - 1) (k + d3n b / 2))))) u;
   forl ks2 (fun k => for_nat (d2 b / 2) (d2 b) (fun j => for_nat 0 (d1 b) (fun i => f (idx b i j k) (idx b i (d2 b - j - 1) (k - d3n b / 2))))) u)
  = forl (visited ks1 ks2) (fun t => f (ind t) (ind (sg t))) u.
Proof.
  intros A B. unfold visited. rewrite forl_app, forl_triples. unfold for_nat.
  rewrite (loop3_ext ks1 _ _ _ (fun k j i => f (ind (i, j, k)) (ind (sg (i, j, k))))).
  2:{ intros i j k s Hk Hj Hi. cbn [ind sg]. rewrite (shift_lo k) by (now apply A). now replace (d2 b - 1 - j)%nat with (d2 b - j - 1)%nat by lia. }
  match goal with |- rbind ?X ?F = rbind ?X ?G => destruct X as [u1| |]; cbn [rbind]; auto end.
  rewrite forl_triples.
  apply loop3_ext. intros i j k s Hk Hj Hi. cbn [ind sg]. rewrite (shift_hi k) by (now apply B). now replace (d2 b - 1 - j)%nat with (d2 b - j - 1)%nat by lia.
Qed.
Lemma at_ind u i j k : at_ijk b u i j k = u.[ind (i, j, k)].
Proof. unfold at_ijk. cbn [ind]. unfold idx. f_equal. ring. Qed.
Lemma at_ind_partner u i j k : at_partner b u i j k = u.[ind (sg (i, j, k))].
Proof. unfold at_partner, partner. cbn [fst snd]. rewrite at_ind. reflexivity. Qed.
Lemma upper_hit ks1 ks2 t : los ks1 -> his ks2 -> ok t -> hit (visited ks1 ks2) t.
Proof.
  intros A B. destruct t as ((i, j), k). intros OK. pose proof (sg_ok _ OK) as OK'. pose proof half_j as HJ. unfold hit. cbn [sg] in *.
  destruct (le_lt_dec (d2 b / 2) j) as [L|L].
  - left. apply visited_in; auto.
  - right. apply visited_in; auto. split; auto. cbn [ok] in OK'. lia.
Qed.
Lemma lo_seq : los (seq 0 (d3n b / 2 - 0)).
Proof. intros k. rewrite in_seq. lia. Qed.
Lemma hi_seq : his (seq (d3n b / 2) (d3n b - d3n b / 2)).
Proof. intros k. rewrite in_seq. pose proof half_k. lia. Qed.
Lemma reset_array_ok u : (npts <= List.length u)%nat -> exists u', reset_array b u = Ok u' /\ averaged b u u' /\
  (forall n, (npts <= n)%nat -> u'.[n] = u.[n]).
Proof.
  intros L. assert (TL := two_loops average2 (seq 0 (d3n b / 2 - 0)) (seq (d3n b / 2) (d3n b - d3n b / 2)) u lo_seq hi_seq).
  change (reset_array b u = forl (visited (seq 0 (d3n b / 2 - 0)) (seq (d3n b / 2) (d3n b - d3n b / 2))) (fun t => average2 (ind t) (ind (sg t))) u) in TL. rewrite TL. clear TL.
  pose proof lo_seq as LO. pose proof hi_seq as HI. set (ks1 := seq 0 _) in *. set (ks2 := seq (d3n b / 2) _) in *.
  assert (OKL : forall t, In t (visited ks1 ks2) -> ok t). { intros ((i, j), k) H. apply visited_in in H; auto. apply H. }
  destruct (avg_loop u L (visited ks1 ks2) OKL [] u eq_refl) as (u' & E & LU & HU).
  { intros t Ht. split; auto. intros [[]|[]]. }
  exists u'. split; auto. split.
  - split; auto. intros i j k Hb. rewrite !at_ind, at_ind_partner. apply (HU (i, j, k) Hb). rewrite app_nil_r. now apply upper_hit.
  - intros n Hn. clear HU. revert E. assert (G : forall l u u', (forall t, In t l -> ok t) -> forl l (fun t => average2 (ind t) (ind (sg t))) u = Ok u' -> u'.[n] = u.[n]).
    { clear - Hn EV. induction l as [|t l IH]; intros u u' O E; cbn [forl] in E. { injection E as ->. auto. }
      destruct (average2 (ind t) (ind (sg t)) u) as [u1| |] eqn:A; try discriminate. cbn [rbind] in E. rewrite (IH u1 u') by (auto; intros; apply O; now right).
      unfold average2 in A. assert (Ht : ok t) by (apply O; now left). pose proof (ind_lt t Ht). pose proof (ind_lt _ (sg_ok t Ht)).
      destruct (rd u (ind t)); try discriminate. destruct (rd u (ind (sg t))); try discriminate. cbn [rbind] in A. unfold wr in A. destruct (nth_error u (ind t)); try discriminate. cbn [rbind] in A.
      match type of A with match ?X with _ => _ end = _ => destruct X; try discriminate end. injection A as <-. rewrite !nth_upd_ne; auto; lia. }
    intros E. eapply G; eauto.
Qed.
(** *** copying *)
Definition low (t : pt3) : Prop := let '(i, j, k) := t in (j < d2 b / 2)%nat.
Lemma copy_loop (u0 : list R) : (npts <= List.length u0)%nat -> forall l, (forall t, In t l -> ok t /\ ~ low t) ->
  forall done u, List.length u = List.length u0 ->
  (forall t, ok t -> (In t done -> u.[ind t] = u0.[ind (sg t)]) /\ (~ In t done -> u.[ind t] = u0.[ind t])) -> (forall t, In t done -> ~ low t) ->
  exists u', forl l (fun t => copy1 (ind t) (ind (sg t))) u = Ok u' /\ List.length u' = List.length u0 /\
  (forall t, ok t -> (In t (l ++ done) -> u'.[ind t] = u0.[ind (sg t)]) /\ (~ In t (l ++ done) -> u'.[ind t] = u0.[ind t])).
Proof.
  intros L l. induction l as [|t l IH]; intros OKL done u LU HU ND; cbn [forl].
  { exists u. repeat split; auto; intros; now apply HU. }
  destruct (OKL t (or_introl eq_refl)) as [Ht Hl]. pose proof (sg_ok t Ht) as Hs. pose proof (ind_lt t Ht). pose proof (ind_lt _ Hs).
  unfold copy1 at 1. rewrite (rd_ok u (ind (sg t)) 0) by lia. cbn [rbind]. rewrite wr_ok by lia. cbn [rbind].
  assert (LS : low (sg t)). { destruct t as ((i, j), k). cbn [low sg ok] in *. pose proof half_j. destruct Ht as (? & ? & ?). lia. }
  assert (VS : u.[ind (sg t)] = u0.[ind (sg t)]). { apply (HU _ Hs). intros C. apply (ND _ C LS). }
  destruct (IH (fun t' Ht' => OKL t' (or_intror Ht')) (t :: done) (upd u (ind t) u.[ind (sg t)])) as (u' & E & LU' & HU').
  { now rewrite upd_length. }
  { intros t' Ht'. assert (DT : forall x y : pt3, {x = y} + {x <> y}) by (repeat decide equality).
    destruct (DT t' t) as [->|N2].
    { rewrite nth_upd_eq by lia. split; [now intros _|]. intros N. destruct N. now left. }
    rewrite nth_upd_ne. 2:{ intros Q. apply ind_inj in Q; auto. }
    destruct (HU t' Ht') as [P Q]. split.
    - intros [C|C]; [congruence|auto].
    - intros N. apply Q. intros C. apply N. now right. }
  { intros t' [<-|C]; auto. }
  exists u'. split; auto. split; auto. intros t' Ht'. destruct (HU' t' Ht') as [P Q].
  assert (I : In t' (l ++ t :: done) <-> In t' ((t :: l) ++ done)).
  { cbn [app]. rewrite !in_app_iff. cbn [In]. rewrite !in_app_iff. tauto. }
  split; [intros K; apply P; now apply I|intros K; apply Q; intros K'; apply K; now apply I].
Qed.
End Box.

(** C113: one call of evolve. *)
From Coq Require Import FunctionalExtensionality QArith.
From Verif Require Import Rutil Base Rk_model Rk_spec Rk_props Evdrv_model.
Local Open Scope R_scope.
Section S.
Variable I : Type.
Variable F : vl I -> vec I.
Variable alg : option (vl I -> vl I -> vec I).
(** ** u_p keeps the old data *)
Lemma cond_P (m : mem I) r q : r <> P -> conditions I alg m r q P = m P.
Proof. intros H. unfold conditions. destruct alg; auto. (rewrite put_other; [reflexivity|congruence]). Qed.
Lemma adds_P dt c js : forall m : mem I, adds I dt c js m P = m P.
Proof. induction js as [|j js IH]; intros m; cbn [adds]; auto. rewrite IH. unfold vladd. (rewrite put_other; [reflexivity|congruence]). Qed.
Lemma stages_P dt T js : forall m : mem I, stages I F alg dt T js m P = m P.
Proof.
  induction js as [|j js IH]; intros m; cbn [stages]; auto. rewrite IH. unfold stage. cbv zeta. unfold rhs0. rewrite put_other by discriminate. rewrite cond_P by discriminate. rewrite adds_P.
  now destruct (Nat.eqb j 0).
Qed.
Lemma generic_P dt T (m : mem I) : evolve_rk_generic I F alg dt T m P = m C.
Proof. unfold evolve_rk_generic. cbv zeta. rewrite cond_P by discriminate. rewrite adds_P. unfold vlcopy at 1. rewrite put_other by discriminate. rewrite stages_P. unfold vlcopy. now rewrite put_same. Qed.
Lemma vladdto_P (m : mem I) r c a : r <> P -> vladdto I m r c a P = m P.
Proof. intros H. unfold vladdto. destruct (Req_EM_T c 0); auto. (rewrite put_other; [reflexivity|congruence]). Qed.
Lemma vladd_P (m : mem I) r ca a cb b : r <> P -> vladd I m r ca a cb b P = m P.
Proof. intros H. unfold vladd. (rewrite put_other; [reflexivity|congruence]). Qed.
Lemma rhs0_P (m : mem I) r q : r <> P -> rhs0 I F m r q P = m P.
Proof. intros H. unfold rhs0. (rewrite put_other; [reflexivity|congruence]). Qed.
Lemma rk4_P dt (m : mem I) : evolve_rk_rk4 I F alg dt m P = m C.
Proof. unfold evolve_rk_rk4. cbv zeta. repeat first [rewrite cond_P by discriminate|rewrite vladdto_P by discriminate|rewrite vladd_P by discriminate|rewrite rhs0_P by discriminate]. unfold vlcopy. now rewrite put_same. Qed.
Lemma icn_P dt (m : mem I) : evolve_icn I F alg dt m P = m C.
Proof.
  assert (A : forall m : mem I, icn_iter I F alg dt m P = m P). { intros m0. unfold icn_iter. cbv zeta. rewrite cond_P by discriminate. unfold rhs. rewrite put_other by discriminate. unfold vlaverage. (rewrite put_other; [reflexivity|congruence]). }
  unfold evolve_icn. rewrite !A. unfold vlcopy. now rewrite put_same.
Qed.
Lemma euler_P dt (m : mem I) : evolve_euler I F alg dt m P = m C.
Proof. unfold evolve_euler. cbv zeta. rewrite cond_P by discriminate. unfold rhs. rewrite put_other by discriminate. unfold vlcopy. now rewrite put_same. Qed.
Lemma step_P getm getrk dt e m e' m' : step I F alg getm getrk dt e m = Ok (e', m') -> m' P = m C.
Proof.
  unfold step. destruct (getm _); [destruct (_ && _)%bool; [intros [= <- <-]; apply icn_P|discriminate]|]. destruct (getm _); [destruct (has_p e); [intros [= <- <-]; apply euler_P|discriminate]|].
  destruct (getm _); [|discriminate]. destruct (pick getrk) as [T|]; [|discriminate]. cbv zeta. destruct (_ && _)%bool; [|discriminate]. intros [= <- <-].
  unfold evolve_rk. cbv zeta. destruct (takes_rk4 getrk); [rewrite rk4_P|rewrite generic_P]; reflexivity.
Qed.

(** ** Only u_c counts: u_p, u_q and u_k may contain anything *)
Definition agree (A : list reg) (m1 m2 : mem I) : Prop := (forall r, In r A -> m1 r = m2 r) /\ forall j, snd (m1 (K j)) = snd (m2 (K j)).
Lemma reg_dec (r s : reg) : r = s \/ r <> s. Proof. destruct r as [| | |i], s as [| | |j]; try (right; discriminate); try (now left). destruct (Nat.eq_dec i j); [left|right]; congruence. Qed.
Lemma agree_put A m1 m2 r x : agree A m1 m2 -> agree (r :: A) (put I m1 r x) (put I m2 r x).
Proof.
  intros (H1 & H2). split.
  - intros s Hs. destruct (reg_dec s r) as [->|N]; [now rewrite !put_same|]. rewrite !put_other by auto. destruct Hs as [<-|Hs]; [contradiction|auto].
  - intros j. destruct (reg_dec (K j) r) as [<-|N]; [now rewrite !put_same|]. rewrite !put_other by auto. auto.
Qed.
Lemma agree_copy A m1 m2 v u : agree A m1 m2 -> In u A -> agree (v :: A) (vlcopy I m1 v u) (vlcopy I m2 v u).
Proof. intros H Hu. unfold vlcopy. rewrite (proj1 H u Hu). now apply agree_put. Qed.
Lemma agree_sub A B m1 m2 : agree A m1 m2 -> (forall r, In r B -> In r A) -> agree B m1 m2.
Proof. intros (H1 & H2) HS. split; auto. Qed.
Lemma agree_cond A m1 m2 r q : agree A m1 m2 -> In r A -> In q A -> agree A (conditions I alg m1 r q) (conditions I alg m2 r q).
Proof. intros H Hr Hq. unfold conditions. destruct alg; auto. rewrite (proj1 H r Hr), (proj1 H q Hq). eapply agree_sub; [apply agree_put; exact H|]. intros. now right. Qed.
Lemma agree_rhs0 A m1 m2 i q : agree A m1 m2 -> In q A -> agree (K i :: A) (rhs0 I F m1 (K i) q) (rhs0 I F m2 (K i) q).
Proof. intros H Hq. unfold rhs0. rewrite (proj1 H q Hq), (proj2 H i). now apply agree_put. Qed.
Lemma agree_add A m1 m2 r ca a cb b : agree A m1 m2 -> In a A -> In b A -> agree (r :: A) (vladd I m1 r ca a cb b) (vladd I m2 r ca a cb b).
Proof. intros H Ha Hb. unfold vladd. rewrite (proj1 H a Ha), (proj1 H b Hb). now apply agree_put. Qed.
Lemma agree_addto A m1 m2 r c a : agree A m1 m2 -> In r A -> In a A -> agree A (vladdto I m1 r c a) (vladdto I m2 r c a).
Proof. intros H Hr Ha. unfold vladdto. destruct (Req_EM_T c 0); auto. rewrite (proj1 H r Hr), (proj1 H a Ha). eapply agree_sub; [apply agree_put; exact H|]. intros. now right. Qed.
Lemma agree_rk4 dt m1 m2 : agree [C] m1 m2 -> evolve_rk_rk4 I F alg dt m1 C = evolve_rk_rk4 I F alg dt m2 C.
Proof.
  intros H. unfold evolve_rk_rk4. cbv zeta.
  apply agree_copy with (v := P) (u := C) in H; [|cbn; tauto]. apply agree_cond with (r := C) (q := P) in H; [|cbn; tauto|cbn; tauto]. apply agree_rhs0 with (i := 0%nat) (q := C) in H; [|cbn; tauto].
  apply agree_addto with (r := C) (c := dt / 6) (a := K 0) in H; [|cbn; tauto|cbn; tauto].
  apply agree_add with (r := K 1) (ca := 1) (a := P) (cb := dt / 2) (b := K 0) in H; [|cbn; tauto|cbn; tauto]. apply agree_cond with (r := K 1) (q := P) in H; [|cbn; tauto|cbn; tauto]. apply agree_rhs0 with (i := 0%nat) (q := K 1) in H; [|cbn; tauto].
  apply agree_addto with (r := C) (c := dt / 3) (a := K 0) in H; [|cbn; tauto|cbn; tauto].
  apply agree_add with (r := K 1) (ca := 1) (a := P) (cb := dt / 2) (b := K 0) in H; [|cbn; tauto|cbn; tauto]. apply agree_cond with (r := K 1) (q := P) in H; [|cbn; tauto|cbn; tauto]. apply agree_rhs0 with (i := 0%nat) (q := K 1) in H; [|cbn; tauto].
  apply agree_addto with (r := C) (c := dt / 3) (a := K 0) in H; [|cbn; tauto|cbn; tauto].
  apply agree_add with (r := K 1) (ca := 1) (a := P) (cb := dt) (b := K 0) in H; [|cbn; tauto|cbn; tauto]. apply agree_cond with (r := K 1) (q := P) in H; [|cbn; tauto|cbn; tauto]. apply agree_rhs0 with (i := 0%nat) (q := K 1) in H; [|cbn; tauto].
  apply agree_addto with (r := C) (c := dt / 6) (a := K 0) in H; [|cbn; tauto|cbn; tauto]. apply agree_cond with (r := C) (q := P) in H; [|cbn; tauto|cbn; tauto].
  apply (proj1 H). cbn; tauto.
Qed.
Lemma agree_generic dt T m1 m2 : m1 C = m2 C -> (forall j, snd (m1 (K j)) = 1) -> (forall j, snd (m2 (K j)) = 1) -> evolve_rk_generic I F alg dt T m1 C = evolve_rk_generic I F alg dt T m2 C.
Proof.
  intros H K1 K2. destruct (generic_step I F alg dt T m1 K1) as (v & A1 & A2 & A3). destruct (generic_step I F alg dt T m2 K2) as (w & B1 & B2 & B3). cbv zeta in *. rewrite H in *.
  pose proof (rk_unique I _ _ _ _ _ _ _ _ _ A1 B1) as <-. rewrite (surjective_pairing (evolve_rk_generic I F alg dt T m1 C)), (surjective_pairing (evolve_rk_generic I F alg dt T m2 C)). now rewrite A3, B3, A2, B2.
Qed.
End S.

(** ** Which step is taken *)
Section T.
Variable I : Type.
Variable F : vl I -> vec I.
(** [ready]: a right-hand side and variables are registered, and either this is iteration 0, or the lists exist (with the number of auxiliary lists that the method needs) *)
Definition lists_ok (getm getrk : str -> bool) (iteration : Z) (e : drv) : Prop :=
  has_rhs e = true /\ has_vars e = true /\ (iteration = 0%Z \/ has_p e = true /\ (getm (S_ "icn") = true -> has_q e = true)) /\
  forall k T, n_k e = Some k -> pick getrk = Some T -> (lists_needed getrk T <= k)%nat.
(** The methods, in the order of precedence icn, euler, rk: after the call u_c is one step of the method from the old data at the time of the grid, whatever the lists u_p, u_q, u_k contained and whatever time the lists had; the variables NAME_change that are asked for hold new - old, the others are as before. *)
Definition method_step (getm getrk : str -> bool) (time dt : R) (old new : vec I) : Prop :=
  if getm (S_ "icn") then exists m, fst (m C) = old /\ snd (m C) = time /\ new = fst (evolve_icn I F None dt m C)
  else if getm (S_ "euler") then forall i, new i = old i + dt * F (old, time) i
  else exists T, pick getrk = Some T /\ explicit_rk (fun s y => F (y, s)) (nstages T) (fun i j => Q2R (aij T i j)) (fun j => Q2R (bj T j)) dt time old new.
Lemma pick_nominal getrk T : pick getrk = Some T -> exists p, In (T, p) nominal.
Proof. unfold pick. repeat (destruct (getrk _); [intros [= <-]; eexists; unfold nominal; cbn [In]; eauto 12|]). discriminate. Qed.
Lemma rk4_pick getrk T : pick getrk = Some T -> takes_rk4 getrk = true -> T = rk4.
Proof. unfold pick, takes_rk4. destruct (getrk (S_ "rk5")); [discriminate|]. destruct (getrk (S_ "rk4a")); [discriminate|]. destruct (getrk (S_ "rk4")); [|discriminate]. congruence. Qed.
Theorem C113_step getm getrk listed iteration time dt e m ch : lists_ok getm getrk iteration e -> (getm (S_ "icn") = true \/ getm (S_ "euler") = true \/ getm (S_ "rk") = true /\ pick getrk <> None) ->
  exists e' m' ch', evolve I F None getm getrk listed iteration time dt e m ch = Ok (e', m', ch') /\ method_step getm getrk time dt (fst (m C)) (fst (m' C)) /\
    (forall i, ch' i = if listed i then fst (m' C) i - fst (m C) i else ch i) /\ lists_ok getm getrk (iteration + 1) e'.
Proof.
  intros (E1 & E2 & EL & EK) HM. unfold evolve. rewrite E1, E2. cbn [negb].
  set (e1 := if (iteration =? 0)%Z then _ else e). cbv zeta.
  assert (R1 : has_rhs e1 = true /\ has_vars e1 = true /\ n_k e1 = n_k e) by (unfold e1; destruct (iteration =? 0)%Z; auto). destruct R1 as (R1 & R2 & R3).
  assert (P1 : (getm (S_ "icn") = true \/ getm (S_ "euler") = true \/ getm (S_ "rk") = true) -> has_p e1 = true).
  { intros H. unfold e1. destruct (Z.eqb_spec iteration 0) as [->|N]; [cbn [has_p]|destruct EL as [?|(? & ?)]; [contradiction|auto]]. destruct H as [ -> | [ -> | -> ] ]; rewrite ?Bool.orb_true_r; auto. }
  assert (Q1 : getm (S_ "icn") = true -> has_q e1 = true).
  { intros H. unfold e1. destruct (Z.eqb_spec iteration 0) as [->|N]; [cbn [has_q]; rewrite H; apply Bool.orb_true_r|destruct EL as [?|(? & ?)]; [contradiction|auto]]. }
  clearbody e1. set (m0 := set_time I time m). assert (M0 : m0 C = (fst (m C), time)) by reflexivity.
  assert (FIN : forall e' m', step I F None getm getrk dt e1 m0 = Ok (e', m') -> method_step getm getrk time dt (fst (m C)) (fst (m' C)) -> has_rhs e' = true -> has_vars e' = true -> has_p e' = true -> (getm (S_ "icn") = true -> has_q e' = true) ->
     (forall k T, n_k e' = Some k -> pick getrk = Some T -> (lists_needed getrk T <= k)%nat) ->
     exists e'' m'' ch', (do r <- step I F None getm getrk dt e1 m0; let '(e, m) := r in Ok (e, m, fun i => if listed i then fst (m C) i - fst (m P) i else ch i)) = Ok (e'', m'', ch') /\ method_step getm getrk time dt (fst (m C)) (fst (m'' C)) /\
      (forall i, ch' i = if listed i then fst (m'' C) i - fst (m C) i else ch i) /\ lists_ok getm getrk (iteration + 1) e'').
  { intros e' m' Es Hs r1 r2 r3 r4 r5. rewrite Es. cbn [rbind]. exists e', m', (fun i => if listed i then fst (m' C) i - fst (m' P) i else ch i). split; [reflexivity|]. split; [exact Hs|]. split.
    - intros i. pose proof (step_P I F None _ _ _ _ _ _ _ Es) as EP. rewrite EP, M0. reflexivity.
    - repeat split; auto. }
  destruct (getm (S_ "icn")) eqn:G1.
  { apply (FIN e1 (evolve_icn I F None dt m0)); auto.
    - unfold step. rewrite G1. rewrite P1, Q1 by auto. reflexivity.
    - unfold method_step. rewrite G1. exists m0. rewrite M0. auto.
    - rewrite R3. exact EK. }
  destruct (getm (S_ "euler")) eqn:G2.
  { apply (FIN e1 (evolve_euler I F None dt m0)); auto.
    - unfold step. rewrite G1, G2. rewrite P1 by auto. reflexivity.
    - unfold method_step. rewrite G1, G2. intros i. rewrite C54_euler. now rewrite M0.
    - rewrite R3. exact EK. }
  destruct HM as [?|[?|(G3 & HP)]]; [discriminate|discriminate|]. destruct (pick getrk) as [T|] eqn:EP; [|contradiction].
  set (k := match n_k e1 with None => lists_needed getrk T | Some k => k end).
  assert (Hk : (lists_needed getrk T <= k)%nat). { unfold k. rewrite R3. destruct (n_k e) as [k'|] eqn:EN; [now apply (EK k' T)|lia]. }
  apply (FIN (Drv (has_rhs e1) (has_vars e1) (has_p e1) (has_q e1) (Some k)) (evolve_rk I F None T (takes_rk4 getrk) dt m0)); auto.
  - unfold step. rewrite G1, G2, G3, EP. fold k. cbn [has_p]. rewrite P1 by auto. destruct (Nat.leb_spec (lists_needed getrk T) k); [reflexivity|lia].
  - unfold method_step. rewrite G1, G2. exists T. split; [exact EP|]. destruct (pick_nominal getrk T EP) as (p & HT).
    assert (A : explicit_rk (fun s y => F (y, s)) (nstages T) (fun i j => Q2R (aij T i j)) (fun j => Q2R (bj T j)) dt time (fst (m C)) (fst (evolve_rk I F None T false dt m0 C))).
    { destruct (C25_step T p HT I F dt m0) as (A & _). rewrite M0 in A. exact A. }
    destruct (takes_rk4 getrk) eqn:E4; [|exact A]. rewrite (rk4_pick getrk T EP E4) in *. rewrite C26_no_conditions. exact A.
  - cbn [n_k]. intros k' T' [= <-] [= <-]. exact Hk.
Qed.
Print Assumptions C113_step.
(** ** Whether storage is kept between steps makes no difference: two calls that start with the same u_c give the same u_c and the same NAME_change, whatever else the lists contain; with or without algebraic conditions *)
Lemma icn_agree alg dt (m1 m2 : mem I) : m1 C = m2 C -> evolve_icn I F alg dt m1 C = evolve_icn I F alg dt m2 C.
Proof.
  intros H. assert (A : forall a b : mem I, a C = b C -> a P = b P -> (icn_iter I F alg dt a C = icn_iter I F alg dt b C /\ icn_iter I F alg dt a P = icn_iter I F alg dt b P)).
  { intros a b HC HP. unfold icn_iter. cbv zeta. unfold rhs. set (a1 := vlaverage I a Q_ C P). set (b1 := vlaverage I b Q_ C P).
    assert (a1 C = b1 C /\ a1 P = b1 P /\ a1 Q_ = b1 Q_) as (E1 & E2 & E3). { unfold a1, b1, vlaverage. rewrite !put_same, !put_other by discriminate. rewrite HC, HP. auto. }
    clearbody a1 b1. rewrite E1, E2, E3. set (x := (_, snd (b1 C))).
    unfold conditions. destruct alg as [g|]; rewrite ?put_same, ?put_other by discriminate; rewrite ?put_same, ?put_other by discriminate; rewrite ?E2; auto. }
  unfold evolve_icn. set (a := vlcopy I m1 P C). set (b := vlcopy I m2 P C).
  assert (a C = b C /\ a P = b P) as (HC & HP). { unfold a, b, vlcopy. rewrite !put_same, !put_other by discriminate. auto. }
  destruct (A a b HC HP) as (HC1 & HP1). destruct (A _ _ HC1 HP1) as (HC2 & HP2). now destruct (A _ _ HC2 HP2).
Qed.
Lemma euler_agree alg dt (m1 m2 : mem I) : m1 C = m2 C -> evolve_euler I F alg dt m1 C = evolve_euler I F alg dt m2 C.
Proof.
  intros H. unfold evolve_euler. cbv zeta. set (a := vlcopy I m1 P C). set (b := vlcopy I m2 P C).
  assert (a C = b C /\ a P = b P) as (HC & HP). { unfold a, b, vlcopy. rewrite !put_same, !put_other by discriminate. auto. } clearbody a b.
  unfold rhs. rewrite HC, HP. set (x := (_, snd (b C))). unfold conditions. destruct alg as [g|]; rewrite ?put_same, ?put_other by discriminate; rewrite ?put_same, ?put_other by discriminate; rewrite ?HP; auto.
Qed.
Theorem C113_storage alg getm getrk listed iteration time dt e m1 m2 ch e1 n1 c1 : fst (m1 C) = fst (m2 C) -> has_rhs e = true -> evolve I F alg getm getrk listed iteration time dt e m1 ch = Ok (e1, n1, c1) ->
  exists n2, evolve I F alg getm getrk listed iteration time dt e m2 ch = Ok (e1, n2, c1) /\ n2 C = n1 C.
Proof.
  intros H E1. unfold evolve. rewrite E1. cbn [negb]. destruct (negb (has_vars e)); [discriminate|]. set (e0 := if (iteration =? 0)%Z then _ else e). cbv zeta. clearbody e0.
  set (a := set_time I time m1). set (b := set_time I time m2). assert (HC : a C = b C) by (unfold a, b; cbn [set_time]; now rewrite H).
  assert (ST : forall e' n, step I F alg getm getrk dt e0 a = Ok (e', n) -> exists n', step I F alg getm getrk dt e0 b = Ok (e', n') /\ n' C = n C).
  { intros e' n. unfold step. destruct (getm (S_ "icn")). { destruct (has_p e0 && has_q e0)%bool; [|discriminate]. intros [= <- <-]. eexists. split; [reflexivity|]. symmetry. now apply icn_agree. }
    destruct (getm (S_ "euler")). { destruct (has_p e0); [|discriminate]. intros [= <- <-]. eexists. split; [reflexivity|]. symmetry. now apply euler_agree. }
    destruct (getm _); [|discriminate]. destruct (pick getrk) as [T|]; [|discriminate]. cbv zeta. destruct (_ && _)%bool; [|discriminate]. intros [= <- <-]. eexists. split; [reflexivity|].
    unfold evolve_rk. cbv zeta. destruct (takes_rk4 getrk).
    - apply agree_rk4. split; [|reflexivity]. intros r [<-|[]]. symmetry. exact HC.
    - apply agree_generic; auto. }
  destruct (step I F alg getm getrk dt e0 a) as [(e', n)| |] eqn:Ea; cbn [rbind]; try discriminate. intros [= -> -> <-].
  destruct (ST _ _ eq_refl) as (n' & Eb & Hn). rewrite Eb. cbn [rbind]. exists n'. split; auto. do 2 f_equal. apply functional_extensionality. intros i.
  rewrite (step_P I F alg _ _ _ _ _ _ _ Ea), (step_P I F alg _ _ _ _ _ _ _ Eb), Hn, HC. reflexivity.
Qed.
Print Assumptions C113_storage.
(** ** No right-hand side: nothing happens.  No variables: the program stops. *)
Theorem C113_nothing alg getm getrk listed iteration time dt e m ch : (has_rhs e = false -> evolve I F alg getm getrk listed iteration time dt e m ch = Ok (e, m, ch)) /\
  (has_rhs e = true -> has_vars e = false -> evolve I F alg getm getrk listed iteration time dt e m ch = Err).
Proof. unfold evolve. split; [intros ->; reflexivity|intros -> ->; reflexivity]. Qed.
Print Assumptions C113_nothing.
(** ** The lists are only made in iteration 0, and u_k only in the first call: a first call in a later iteration, or a change of evolution_method_rk to a method with more stages during the run, uses lists that do not exist *)
Theorem C113_late_refuted alg getm getrk listed iteration time dt m ch : iteration <> 0%Z -> (getm (S_ "icn") = true \/ getm (S_ "euler") = true \/ getm (S_ "rk") = true /\ pick getrk <> None) ->
  evolve I F alg getm getrk listed iteration time dt (Drv true true false false None) m ch = UB.
Proof.
  intros N H. unfold evolve. cbn [has_rhs has_vars negb]. destruct (Z.eqb_spec iteration 0); [contradiction|]. cbv zeta. unfold step. cbn [has_p has_q n_k andb].
  destruct (getm _); [reflexivity|]. destruct (getm _); [reflexivity|]. destruct H as [?|[?|(-> & HP)]]; try discriminate. destruct (pick getrk); [reflexivity|contradiction].
Qed.
Print Assumptions C113_late_refuted.
Theorem C113_switch_refuted alg listed iteration time dt m ch : iteration <> 0%Z ->
  let rk := str_eqb (S_ "rk") in exists e n c, evolve I F alg rk (str_eqb (S_ "rk2")) listed 0 time dt (Drv true true false false None) m ch = Ok (e, n, c) /\
   evolve I F alg rk (str_eqb (S_ "rk3")) listed iteration (time + dt) dt e n c = UB.
Proof.
  intros N rk. unfold evolve at 1. cbn [has_rhs has_vars negb Z.eqb]. eexists _, _, _. split; [reflexivity|]. unfold evolve. cbn [has_rhs has_vars negb has_p has_q n_k]. destruct (Z.eqb_spec iteration 0); [contradiction|]. reflexivity.
Qed.
Print Assumptions C113_switch_refuted.
End T.
(** Example: u' = u with rk3 and the change asked for: new - old = 1 + 1/2 + 1/6 for dt = 1, u = 1. *)
Example C113_ex : exists e' m' ch', evolve unit (fun x => fst x) None (str_eqb (S_ "rk")) (str_eqb (S_ "rk3")) (fun _ => true) 0 0 1 (Drv true true false false None) (fun r => match r with C => (fun _ => 1, 77) | _ => (fun _ => 5, 5) end) (fun _ => 0) = Ok (e', m', ch') /\
  ch' tt = 1 + 1/2 + 1/6.
Proof.
  destruct (C113_step unit (fun x => fst x) (str_eqb (S_ "rk")) (str_eqb (S_ "rk3")) (fun _ => true) 0 0 1 (Drv true true false false None) (fun r => match r with C => (fun _ => 1, 77) | _ => (fun _ => 5, 5) end) (fun _ => 0)) as (e' & m' & ch' & E & S_ & Ch & _).
  - repeat split; auto. discriminate.
  - right. right. split; [reflexivity|discriminate].
  - exists e', m', ch'. split; [exact E|]. rewrite Ch. cbn [fst]. unfold method_step in S_. change (str_eqb _ _) with false in S_ at 1. change (str_eqb (Base.S_ "rk") (Base.S_ "euler")) with false in S_. destruct S_ as (T & ET & k & K1 & K2).
    assert (T = rk3) by (now injection ET). subst T. rewrite K2. cbn [fst]. unfold rsum, bj, aij in *. cbn [nstages rk3] in *. pose proof (K1 0%nat ltac:(lia) tt) as A. pose proof (K1 1%nat ltac:(lia) tt) as B. pose proof (K1 2%nat ltac:(lia) tt) as D.
    cbn [fst snd seq map fold_right nth a_ b_ rk3] in *. unfold Q2R in *. cbn [Qnum Qden] in *. rewrite D, B, A. field.
Qed.

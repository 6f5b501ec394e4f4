(** Lemmas for numerical dissipation. *)
From Verif Require Import Rutil Base Loops Coord_model Coord_spec Cart_model Cart_spec Cart_proofs Diss_model Diss_spec.
Local Open Scope R_scope.
Lemma sameg_grad b g v w D u m : sameg g v w -> cart_grad b g w D u m = cart_grad b g v D u m.
Proof.
  intros S_. unfold cart_grad. destruct (coord b) as [C|]; auto. apply map_ext. intros ind. unfold S3. now rewrite !(sameg_atX g v w) by auto.
Qed.
Lemma sameg_lap b g v w D u k : sameg g v w -> laplacian b g w D u k = laplacian b g v D u k.
Proof. intros S_. unfold laplacian, S3. now rewrite !(sameg_grad b g v w) by auto. Qed.
Lemma grad_len b g v D u m : (forall j a, List.length a = nnodes b -> List.length (D j a) = nnodes b) -> List.length u = nnodes b -> List.length (cart_grad b g v D u m) = nnodes b.
Proof. intros HD Lu. unfold cart_grad. destruct (coord b); auto. now rewrite map_length, seq_length. Qed.
Lemma sameg_hold b g v w : sameg g v w -> hold b g v -> hold b g w.
Proof. unfold hold. destruct (coord b); auto. apply sameg_tables. Qed.
(** the last loop *)
Lemma point_loop n t dt DF O in_ : forall v, len v in_ n -> len v (wxx t) n -> len v (wyy t) n -> len v (wzz t) n -> ~ In in_ [wxx t; wyy t; wzz t] ->
  exists v', for_nat 0 n (diss_point t dt DF O in_) v = Ok v' /\ (forall j, j <> in_ -> v' j = v j) /\ len v' in_ n /\
   forall k, (k < n)%nat -> cell v' in_ k = cell v in_ k + strength dt DF O * (cell v (wxx t) k + cell v (wyy t) k + cell v (wzz t) k).
Proof.
  intros v Li Lx Ly Lz N.
  destruct (for_nat_inv (fun i w => (forall j, j <> in_ -> w j = v j) /\ len w in_ n /\
     (forall k, (k < i)%nat -> cell w in_ k = cell v in_ k + strength dt DF O * (cell v (wxx t) k + cell v (wyy t) k + cell v (wzz t) k)) /\ (forall k, (i <= k)%nat -> cell w in_ k = cell v in_ k)) (diss_point t dt DF O in_) 0 n v) as (v' & E & F & L & K & _).
  - lia.
  - repeat split; auto. lia.
  - intros i w Hi (F & L & K1 & K2). cbn [In] in N.
    assert (Fx : w (wxx t) = v (wxx t)) by (apply F; tauto). assert (Fy : w (wyy t) = v (wyy t)) by (apply F; tauto). assert (Fz : w (wzz t) = v (wzz t)) by (apply F; tauto).
    unfold diss_point. rewrite (ld_ok w (wxx t) n i), (ld_ok w (wyy t) n i), (ld_ok w (wzz t) n i), (ld_ok w in_ n i) by (auto; try lia; eapply len_frame; eauto). cbn [rbind].
    set (x := cell w in_ i + strength dt DF O * (cell v (wxx t) i + cell v (wyy t) i + cell v (wzz t) i)).
    destruct (st_ok w in_ n i x) as (w' & E & F' & L' & C1 & C2); [auto|lia|].
    exists w'. split.
    { rewrite (cell_frame v w _ _ Fx), (cell_frame v w _ _ Fy), (cell_frame v w _ _ Fz). unfold x, strength in E. destruct (Req_EM_T dt 0); exact E. }
    split; [intros j Hj; rewrite F' by auto; auto|]. split; [auto|]. split.
    + intros k Hk. destruct (Nat.eq_dec k i) as [->|NE]; [rewrite C1; unfold x; rewrite K2 by lia; reflexivity|rewrite C2 by auto; apply K1; lia].
    + intros k Hk. rewrite C2 by lia. apply K2; lia.
  - exists v'. auto.
Qed.

(** one variable *)
Lemma diss_var_ok b g D t dt DF O ic in_ v u : v ic = Some u -> List.length u = nnodes b -> len v in_ (nnodes b) -> (forall i, In i (works t) -> v i <> None) -> NoDup (works t) ->
  (forall i, In i (works t) -> i <> ic /\ i <> in_ /\ ~ In i (gvar_list g)) -> ic <> in_ -> ~ In in_ (gvar_list g) -> (forall j a, List.length a = nnodes b -> List.length (D j a) = nnodes b) ->
  ready (nnodes b) g v -> hold b g v ->
  exists v', diss_var b g D t dt DF O ic in_ v = Ok v' /\ (forall j, j <> in_ -> ~ In j (works t) -> v' j = v j) /\ (forall i, In i (works t) -> v' i <> None) /\ len v' in_ (nnodes b) /\
   forall k, (k < nnodes b)%nat -> cell v' in_ k = cell v in_ k + strength dt DF O * laplacian b g v D u k.
Proof.
  intros Eu Lu Ln Ht ND Hf Hcn Hng HD Rd Hd.
  assert (IN : forall i, In i [wx t; wy t; wz t; wxx t; wxy t; wxz t; wyy t; wyz t; wzz t] -> In i (works t)) by (intros; auto).
  assert (NE : NoDup [wx t; wy t; wz t; wxx t; wxy t; wxz t; wyy t; wyz t; wzz t]) by exact ND.
  repeat match goal with H : NoDup (_ :: _) |- _ => inversion H; subst; clear H end. cbn [In] in *.
  unfold diss_var.
  assert (NG : forall w w' (a1 a2 a3 : nat), In a1 (works t) -> In a2 (works t) -> In a3 (works t) -> (forall j, (forall m, j <> tab a1 a2 a3 m) -> w' j = w j) -> sameg g w w').
  { intros w w' a1 a2 a3 I1 I2 I3 F c Hc. apply F. intros m ->. assert (I0 : In (tab a1 a2 a3 m) (works t)) by (now destruct m). now apply (proj2 (proj2 (Hf _ I0))). }
  assert (STEP : forall w i0 a1 a2 a3 x, sameg g v w -> w i0 = Some x -> List.length x = nnodes b -> (forall i, In i (works t) -> w i <> None) -> In a1 (works t) -> In a2 (works t) -> In a3 (works t) -> a1 <> a2 -> a1 <> a3 -> a2 <> a3 ->
     i0 <> a1 -> i0 <> a2 -> i0 <> a3 ->
     exists w', cart_partials b g D i0 a1 a2 a3 w = Ok w' /\ (forall m, w' (tab a1 a2 a3 m) = Some (cart_grad b g v D x m)) /\ (forall j, j <> a1 -> j <> a2 -> j <> a3 -> w' j = w j) /\ sameg g v w' /\ (forall i, In i (works t) -> w' i <> None)).
  { intros w i0 a1 a2 a3 x S_ Ex Lx Hw I1 I2 I3 N12 N13 N23 M1 M2 M3.
    destruct (cart_partials_ok b g D i0 a1 a2 a3 w x) as (w' & E & V & F); auto.
    - intros m. apply Hw. now destruct m.
    - intros m m'. destruct m, m'; cbn [tab]; intros; congruence.
    - intros m. now destruct m.
    - intros m. apply Hf. now destruct m.
    - eapply sameg_ready; eauto.
    - eapply sameg_hold; eauto.
    - exists w'. split; [auto|]. split; [intros m; rewrite V; f_equal; now apply sameg_grad|]. split; [intros j J1 J2 J3; apply F; now intros []|].
      assert (SW : sameg g v w') by (intros c Hc; rewrite (NG w w' a1 a2 a3 I1 I2 I3 F c Hc); auto). split; [exact SW|].
      pose proof (V D1) as B1. pose proof (V D2) as B2. pose proof (V D3) as B3. cbn [tab] in B1, B2, B3.
      intros i Hi. destruct (Nat.eq_dec i a1) as [->|]; [rewrite B1; discriminate|]. destruct (Nat.eq_dec i a2) as [->|]; [rewrite B2; discriminate|].
      destruct (Nat.eq_dec i a3) as [->|]; [rewrite B3; discriminate|]. rewrite F by (now intros []). auto. }
  destruct (STEP v ic (wx t) (wy t) (wz t) u) as (v1 & E1 & V1 & F1 & S1 & W1); auto; try (apply IN; tauto); try tauto; try (intro Q; symmetry in Q; revert Q; apply Hf; apply IN; tauto).
  { intros c _; reflexivity. }
  pose proof (V1 D1) as X1. pose proof (V1 D2) as Y1. pose proof (V1 D3) as Z1. cbn [tab] in X1, Y1, Z1.
  assert (GL : forall x m, List.length x = nnodes b -> List.length (cart_grad b g v D x m) = nnodes b) by (intros; now apply grad_len).
  rewrite E1. cbn [rbind].
  destruct (STEP v1 (wx t) (wxx t) (wxy t) (wxz t) _ S1 X1) as (v2 & E2 & V2 & F2 & S2 & W2); auto; try (apply IN; tauto); try tauto; try (intro Q; symmetry in Q; tauto).
  rewrite E2. cbn [rbind]. assert (Y2 : v2 (wy t) = Some (cart_grad b g v D u D2)) by (rewrite F2 by (try tauto; intro Q; symmetry in Q; tauto); auto).
  destruct (STEP v2 (wy t) (wxy t) (wyy t) (wyz t) _ S2 Y2) as (v3 & E3 & V3 & F3 & S3_ & W3); auto; try (apply IN; tauto); try tauto; try (intro Q; symmetry in Q; tauto).
  rewrite E3. cbn [rbind]. assert (Z3 : v3 (wz t) = Some (cart_grad b g v D u D3)) by (rewrite F3, F2 by (try tauto; intro Q; symmetry in Q; tauto); auto).
  destruct (STEP v3 (wz t) (wxz t) (wyz t) (wzz t) _ S3_ Z3) as (v4 & E4 & V4 & F4 & S4 & W4); auto; try (apply IN; tauto); try tauto; try (intro Q; symmetry in Q; tauto).
  rewrite E4. cbn [rbind].
  assert (A1 : v4 (wxx t) = Some (cart_grad b g v D (cart_grad b g v D u D1) D1)) by (rewrite F4, F3 by (try tauto; intro Q; symmetry in Q; tauto); apply (V2 D1)).
  assert (A2 : v4 (wyy t) = Some (cart_grad b g v D (cart_grad b g v D u D2) D2)) by (rewrite F4 by (try tauto; intro Q; symmetry in Q; tauto); apply (V3 D2)).
  assert (A3 : v4 (wzz t) = Some (cart_grad b g v D (cart_grad b g v D u D3) D3)) by apply (V4 D3).
  assert (FR : forall j, ~ In j (works t) -> v4 j = v j).
  { intros j Hj. unfold works in Hj. cbn [In] in Hj. rewrite F4, F3, F2, F1 by (intro; subst; tauto). reflexivity. }
  assert (IN4 : v4 in_ = v in_) by (apply FR; intros Hi; destruct (Hf _ Hi) as (_ & Q & _); now apply Q).
  destruct (point_loop (nnodes b) t dt DF O in_ v4) as (v5 & E5 & F5 & L5 & K5).
  { eapply len_frame; eauto. }
  { eexists. split; [exact A1|]. auto. } { eexists. split; [exact A2|]. auto. } { eexists. split; [exact A3|]. auto. }
  { intros Hi. assert (Hi' : In in_ (works t)) by (apply IN; cbn [In] in Hi; tauto). destruct (Hf _ Hi') as (_ & Q & _). now apply Q. }
  exists v5. split; [exact E5|]. split; [intros j J1 J2; rewrite F5 by auto; auto|]. split; [intros i Hi; rewrite F5; [auto|now apply Hf]|]. split; [auto|].
  intros k Hk. rewrite K5 by auto. rewrite (cell_frame v v4 in_ k IN4). f_equal. f_equal. unfold laplacian, S3, cell. now rewrite A1, A2, A3.
Qed.
(** all variables of a box *)
Lemma set_up_tail b g D t ic in_ ucs uns v w : set_up b g D t (ic :: ucs) (in_ :: uns) v -> (forall j, j <> in_ -> ~ In j (works t) -> w j = v j) -> (forall i, In i (works t) -> w i <> None) -> set_up b g D t ucs uns w.
Proof.
  intros [a1 a2 a3 a4 a5 a6 a7 a8 a9 a10 a11 a12] F W.
  assert (SG : sameg g v w). { intros c Hc. apply F. { intros ->. apply (a9 in_); [now left|auto]. } intros Hw. now apply (a8 c Hw). }
  constructor; auto.
  - intros i Hi. apply (len_frame v); [|apply a2; now right]. apply F. { intros ->. apply (a5 in_); [now right|now left]. } intros Hw. destruct (a8 i Hw) as (Q & _). apply Q. now right.
  - intros i Hi. apply (len_frame v); [|apply a3; now right]. apply F. { intros ->. inversion a4; auto. } intros Hw. destruct (a8 i Hw) as (_ & Q & _). apply Q. now right.
  - now inversion a4.
  - intros i Hi Hn. apply (a5 i); now right.
  - intros i Hi. destruct (a8 i Hi) as (Q1 & Q2 & Q3). repeat split; auto; intros Q; [apply Q1|apply Q2]; now right.
  - intros i Hi. apply a9. now right.
  - eapply sameg_ready; eauto.
  - intros C EC. eapply sameg_tables; eauto.
Qed.
Lemma diss_box_ok b g D t dt DF O : forall ucs uns v, set_up b g D t ucs uns v ->
  exists v', diss_box b g D t dt DF O ucs uns v = Ok v' /\ (forall j, ~ In j uns -> ~ In j (works t) -> v' j = v j) /\
   forall j ic in_ u k, nth_error ucs j = Some ic -> nth_error uns j = Some in_ -> v ic = Some u -> (k < nnodes b)%nat -> cell v' in_ k = cell v in_ k + strength dt DF O * laplacian b g v D u k.
Proof.
  induction ucs as [|ic ucs IH]; intros uns v SU.
  - exists v. split; [now destruct uns|]. split; auto. intros [|j]; discriminate.
  - destruct uns as [|in_ uns]; [pose proof (su_len _ _ _ _ _ _ _ SU); discriminate|].
    destruct (su_c _ _ _ _ _ _ _ SU ic) as (u & Eu & Lu); [now left|].
    destruct (diss_var_ok b g D t dt DF O ic in_ v u) as (w & E & F & W & Lw & K); auto; try (destruct SU; auto; fail).
    + apply (su_n _ _ _ _ _ _ _ SU). now left.
    + intros i Hi. destruct (su_free _ _ _ _ _ _ _ SU i Hi) as (Q1 & Q2 & Q3). repeat split; auto; intros ->; [apply Q1|apply Q2]; now left.
    + intros ->. apply (su_cn _ _ _ _ _ _ _ SU in_); now left.
    + apply (su_ng _ _ _ _ _ _ _ SU). now left.
    + unfold hold. pose proof (su_tab _ _ _ _ _ _ _ SU) as Q. destruct (coord b); auto.
    + pose proof (set_up_tail _ _ _ _ _ _ _ _ _ w SU F W) as SU'.
      destruct (IH uns w SU') as (v' & E' & F' & K').
      assert (NDn : ~ In in_ uns) by (pose proof (su_nd _ _ _ _ _ _ _ SU) as Q; now inversion Q).
      assert (NT : ~ In in_ (works t)). { intros Hi. destruct (su_free _ _ _ _ _ _ _ SU in_ Hi) as (_ & Q & _). apply Q. now left. }
      assert (SG : sameg g v w). { intros c Hc. apply F. { intros ->. apply (su_ng _ _ _ _ _ _ _ SU in_); [now left|auto]. } intros Hw. now apply (su_free _ _ _ _ _ _ _ SU c Hw). }
      exists v'. split; [cbn [diss_box]; rewrite E; exact E'|]. split.
      { intros j J1 J2. rewrite F' by (auto; intros Q; apply J1; now right). apply F; auto. intros ->. apply J1. now left. }
      intros [|j] ic' in' u' k N1 N2 Eu' Hk; cbn [nth_error] in N1, N2.
      * injection N1 as <-. injection N2 as <-. rewrite Eu in Eu'. injection Eu' as <-. rewrite (cell_frame w v' in_ k) by (apply F'; auto). now apply K.
      * pose proof (nth_error_In _ _ N1) as I1. pose proof (nth_error_In _ _ N2) as I2.
        assert (T1 : ~ In ic' (works t)). { intros Hi. destruct (su_free _ _ _ _ _ _ _ SU ic' Hi) as (Q & _). apply Q. now right. }
        assert (T2 : ~ In in' (works t)). { intros Hi. destruct (su_free _ _ _ _ _ _ _ SU in' Hi) as (_ & Q & _). apply Q. now right. }
        assert (C1 : w ic' = v ic'). { apply F; auto. intros ->. apply (su_cn _ _ _ _ _ _ _ SU in_); [now right|now left]. }
        assert (C2 : w in' = v in'). { apply F; auto. intros ->. auto. }
        rewrite (K' j ic' in' u' k N1 N2) by (auto; congruence). rewrite (cell_frame v w in' k C2). now rewrite (sameg_lap b g v w).
Qed.

(** C42 and C50: derivatives and transforms along the directions of a box. *)
From Verif Require Import Arrays Mat_model Mat_spec Mat_proofs Dir_model Dir_spec Dir_props Lines_model Lines_spec Lines_proofs Lines_kernel.
Local Open Scope R_scope.

(** a schedule exists: the sequential one *)
Definition sequential (b : sbox) (d : dir) : sched :=
  let z := repeat 0 (nn b d) in {| s_order := seq 0 (n_outer b d); s_alloc := fun _ => (z, z); s_alloc3 := fun _ => (z, z, z) |}.
Lemma sequential_schedule b d : schedule b d (sequential b d).
Proof. split; [apply Permutation_refl|]. split; intros; cbn; rewrite !repeat_length; auto. Qed.

(** ** Every line is transformed by the 1d operation, whatever the schedule, the old contents of du, and whether du is u.
    The result at p depends only on the line through p. *)
Theorem C42_deriv1 b d F u : deriv_of (bd b d) F -> List.length u = npoints b ->
  exists du, List.length du = npoints b /\ (forall p, inbox b p -> val b du p = (F (line b d u p)).[comp d p]) /\
    (forall sc old, schedule b d sc -> List.length old = npoints b -> spec_Deriv1 b sc d false u old = Ok du) /\
    (forall sc, schedule b d sc -> b_T (bd b d) = true \/ d <> X1 -> spec_Deriv1 b sc d true u u = Ok du).
Proof.
  intros HF Lu. destruct (deriv1_ok b (sequential b d) d false u u F) as (du & E & A); auto using sequential_schedule; try discriminate.
  exists du. destruct A as [L V]. repeat split; auto.
  - intros sc old Sc Lo. destruct (deriv1_ok b sc d false u old F) as (du' & E' & A'); auto; try discriminate. rewrite E'. f_equal. apply (along_unique b d F u); auto. split; auto.
  - intros sc Sc T. destruct (deriv1_ok b sc d true u u F) as (du' & E' & A'); auto. rewrite E'. f_equal. apply (along_unique b d F u); auto. split; auto.
Qed.
Theorem C42_deriv2 b d F u : deriv2_of (bd b d) F -> List.length u = npoints b ->
  exists du, List.length du = npoints b /\ (forall p, inbox b p -> val b du p = (F (line b d u p)).[comp d p]) /\
    (forall sc old, schedule b d sc -> List.length old = npoints b -> spec_Deriv2 b sc d false u old = Ok du) /\
    (forall sc, schedule b d sc -> b_T (bd b d) = true \/ d <> X1 -> spec_Deriv2 b sc d true u u = Ok du).
Proof.
  intros HF Lu. destruct (deriv2_ok b (sequential b d) d false u u F) as (du & E & A); auto using sequential_schedule; try discriminate.
  exists du. destruct A as [L V]. repeat split; auto.
  - intros sc old Sc Lo. destruct (deriv2_ok b sc d false u old F) as (du' & E' & A'); auto; try discriminate. rewrite E'. f_equal. apply (along_unique b d F u); auto. split; auto.
  - intros sc Sc T. destruct (deriv2_ok b sc d true u u F) as (du' & E' & A'); auto. rewrite E'. f_equal. apply (along_unique b d F u); auto. split; auto.
Qed.
(** the derivative at p depends only on the values on the line through p *)
Theorem C42_locality b d sc F u v du dv old p : deriv_of (bd b d) F -> List.length u = npoints b -> List.length v = npoints b -> List.length old = npoints b -> schedule b d sc -> inbox b p ->
  (forall m, (m < nn b d)%nat -> val b u (setc d p m) = val b v (setc d p m)) ->
  spec_Deriv1 b sc d false u old = Ok du -> spec_Deriv1 b sc d false v old = Ok dv -> val b du p = val b dv p.
Proof.
  intros HF Lu Lv Lo Sc Ip H Eu Ev. destruct (C42_deriv1 b d F u HF Lu) as (du' & _ & V1 & S1 & _). destruct (C42_deriv1 b d F v HF Lv) as (dv' & _ & V2 & S2 & _).
  rewrite S1 in Eu by auto. rewrite S2 in Ev by auto. injection Eu as <-. injection Ev as <-. rewrite V1, V2 by auto. do 2 f_equal. unfold line. apply map_ext_in. intros m Hm. apply in_seq in Hm. apply H. lia.
Qed.
(** ** On directions set up by the library, the derivative at each point is the derivative of the function through the data on the line *)
Theorem C42_exact bs b d u : built bs (bd b d) -> List.length u = npoints b -> let X := coord bs (b_lo (bd b d)) (b_hi (bd b d)) (nn b d) in
  exists du, (forall sc old, schedule b d sc -> List.length old = npoints b -> spec_Deriv1 b sc d false u old = Ok du) /\
    forall p, inbox b p -> exists c, let f := expansion bs (b_lo (bd b d)) (b_hi (bd b d)) (nn b d) c in List.length c = nn b d /\
      (forall m, (m < nn b d)%nat -> f (X m) = val b u (setc d p m)) /\ derivable_pt_lim f (X (comp d p)) (val b du p).
Proof.
  intros Hb Lu X. destruct (built_ops bs (bd b d) Hb) as (A & B & E & HA & HB & HE & Inv & _ & _ & HD & _). fold (nn b d) in *.
  destruct (C42_deriv1 b d _ u HD Lu) as (du & Ld & V & Sq & _). exists du. split; auto. intros p Ip. destruct Hb as (Hs & Hab & Hn & _). fold (nn b d) in Hn.
  set (a := b_lo (bd b d)) in *. set (e := b_hi (bd b d)) in *. set (n := nn b d) in *. set (l := line b d u p) in *. assert (Ll : List.length l = n) by apply line_length.
  exists (apply n A l). cbv zeta. split; [apply apply_length|]. split.
  - intros m Hm. destruct (eval_is_expansion bs a e n (apply n A l) l) as (v & Ev & _ & Vv); auto. { apply apply_length. } rewrite HE in Ev by (auto; apply apply_length). rewrite Inv in Ev by auto. injection Ev as <-.
    unfold X. rewrite <- Vv by auto. unfold l. now rewrite line_nth.
  - assert (Lc := apply_length n A l). assert (Ed := HB (apply n A l) l Lc Ll). destruct (deriv_exact bs a e n (apply n A l) l _ Hs Hab Hn Lc Ll Ed) as (D & _). specialize (D (comp d p) (Ip d)). fold X in D.
    rewrite V by auto. fold l n. replace (apply n (compose n E (compose n B A)) l).[comp d p] with (expansion bs a e n (apply n B (apply n A l)) (X (comp d p))); auto.
    destruct (eval_is_expansion bs a e n (apply n B (apply n A l)) l) as (v & Ev & _ & Vv); auto. { apply apply_length. } rewrite HE in Ev by (auto; apply apply_length). injection Ev as <-. unfold X. rewrite <- Vv by apply Ip.
    now rewrite (apply_apply n B A), (apply_apply n E).
Qed.
(** ** In place, direction 1 with matrices overwrites values it still needs: u = (1,2), D exchanges the two values *)
Definition bad_dir (n : nat) (D : list R) : bdir := {| b_n := n; b_lo := 0; b_hi := 1; b_T := false; b_f := through_box (funs_from_pars ChebExtrema 0 1); b_m := {| m_D := D; m_DD := D; m_F := D; m_coeffs := D; m_eval := D; m_Int := D |} |}.
Definition bad_box : sbox := {| bd1 := bad_dir 2 [0; 1; 1; 0]; bd2 := bad_dir 1 [1]; bd3 := bad_dir 1 [1] |}.
Theorem C42_in_place_refuted : exists b F u du, deriv_of (bd b X1) F /\ List.length u = npoints b /\ spec_Deriv1 b (sequential b X1) X1 true u u = Ok du /\ inbox b (1, 0, 0)%nat /\ val b du (1, 0, 0)%nat <> (F (line b X1 u (1, 0, 0)%nat)).[1].
Proof.
  exists bad_box, (apply 2 (mat 2 [0; 1; 1; 0])), [1; 2], [0 + 0 * 1 + 1 * 2; 0 + 1 * (0 + 0 * 1 + 1 * 2) + 0 * 2].
  split. { split; auto. } split; auto. split; [reflexivity|]. split. { intros []; cbn; lia. } cbn. lra.
Qed.
Example C42_built_example : exists D, built ChebExtrema D /\ b_T D = false /\ b_n D = 3%nat.
Proof.
  destruct (setup_kernels ChebExtrema 0 1 3 0) as (m & _ & _ & _ & _ & _ & E & _); [reflexivity|lia|lia|].
  exists {| b_n := 3; b_lo := 0; b_hi := 1; b_T := false; b_f := through_box (funs_from_pars ChebExtrema 0 1); b_m := m |}. repeat split; auto; cbn [b_lo b_hi b_n b_m]; try lra; try lia.
  exists 0%Z. split; [lia|exact E].
Qed.

(** ** spec_allDerivs: first and second derivatives as above, and the same mixed derivatives for all six orders of the directions *)
Definition sum2 (b : sbox) (d e : dir) (K : dir -> nat -> nat -> R) (u : list R) (p : point) : R :=
  Sig (nn b d) (fun m => Sig (nn b e) (fun l => K d (comp d p) m * K e (comp e p) l * val b u (setc e (setc d p m) l))).
Lemma sum2_kap b d e K u : d <> e -> forall p, inbox b p -> val b (kap b d (K d) (kap b e (K e) u)) p = sum2 b d e K u p.
Proof.
  intros N p Ip. rewrite kap_val by auto. apply Sig_ext. intros m Hm. rewrite kap_val by (now apply inbox_setc). rewrite comp_setc_ne by auto. rewrite <- Sig_scal. apply Sig_ext. intros. ring.
Qed.
Lemma kap_of_lines b d F K x y : (forall l, List.length l = nn b d -> F l = apply (nn b d) K l) -> List.length y = npoints b -> (forall p, inbox b p -> line b d y p = F (line b d x p)) -> y = kap b d K x.
Proof. intros HF Ly H. apply (along_kap b d K F); auto. split; auto. intros p Ip. rewrite <- H by auto. now rewrite line_self. Qed.
Lemma same_of_lines b d x y : List.length x = npoints b -> List.length y = npoints b -> (forall p, inbox b p -> line b d y p = line b d x p) -> y = x.
Proof. intros Lx Ly H. apply (arr_ext b); auto. intros p Ip. rewrite <- !(line_self b d) by auto. now rewrite H. Qed.
(** one pass in terms of kernels *)
Lemma dpass_kap b sc fft d more F F2 K K2 s : schedule b d sc -> deriv_of (bd b d) F -> deriv2_of (bd b d) F2 ->
  (forall l, List.length l = nn b d -> F l = apply (nn b d) K l) -> (forall l, List.length l = nn b d -> F2 l = apply (nn b d) K2 l) ->
  (fft = false -> b_T (bd b d) = false) -> (forall a, List.length (s a) = npoints b) ->
  let ud := match d with X1 => U1 | X2 => U2 | X3 => U3 end in let udd := match d with X1 => U11 | X2 => U22 | X3 => U33 end in
  (forall x y, In (x, y) more -> ~ In y [U; ud; udd; x] /\ ~ In x [ud; udd] /\ forall x' y', In (x', y') more -> y <> x' /\ (y = y' -> x = x')) ->
  exists s', dpass b sc fft d more s = Ok s' /\ (forall a, List.length (s' a) = npoints b) /\
    s' ud = kap b d K (s U) /\ s' udd = kap b d K2 (s U) /\ (forall x y, In (x, y) more -> s' y = kap b d K (s x)) /\
    (forall a, a <> ud -> a <> udd -> ~ In a (map snd more) -> s' a = s a).
Proof.
  intros Sc HF HF2 FK FK2 Hf W ud udd Hm. destruct (dpass_ok b sc fft d more F F2 s Sc HF HF2 Hf W) as (s' & E & W' & V). fold ud udd in V.
  exists s'. split; auto. split; auto.
  assert (G1 : forall r (L : arr -> list R) a, ~ In a (map snd r) -> effs F r L a = L a).
  { induction r as [|[x y] r IH]; intros L a Ha; cbn [effs]; auto. cbn [map snd] in Ha. rewrite IH by (intros C; apply Ha; now right). unfold eff. destruct (arr_eqb_spec y a); auto. exfalso. apply Ha. now left. }
  assert (G2 : forall r (L : arr -> list R) x y, In (x, y) r -> (forall x1 y1, In (x1, y1) r -> forall x2 y2, In (x2, y2) r -> y1 <> x2 /\ (y1 = y2 -> x1 = x2)) -> effs F r L y = F (L x)).
  { induction r as [|[x0 y0] r IH]; intros L x y Hin Hd; [destruct Hin|]. cbn [effs].
    destruct (in_dec (fun p q : arr * arr => ltac:(decide equality; decide equality)) (x, y) r) as [I|NI].
    - rewrite (IH _ x y I). 2:{ intros x1 y1 I1 x2 y2 I2. apply Hd; now right. } unfold eff. destruct (arr_eqb_spec y0 x) as [->|]; auto. exfalso. destruct (Hd x0 x (or_introl eq_refl) x y (or_intror I)). congruence.
    - destruct Hin as [Q|Q]; [|contradiction]. injection Q as -> ->. rewrite G1. { unfold eff. destruct (arr_eqb_spec y y); congruence. }
      intros C. apply in_map_iff in C. destruct C as ([x' y'] & Q & I). cbn in Q. subst y'. destruct (Hd x y (or_introl eq_refl) x' y (or_intror I)) as [_ C]. rewrite <- (C eq_refl) in I. contradiction. }
  assert (Nd : ud <> udd /\ U <> ud /\ U <> udd) by (unfold ud, udd; destruct d; repeat split; discriminate). destruct Nd as (Nd & NU & NU2).
  assert (Hnot : forall a, In a [U; ud; udd] -> ~ In a (map snd more)).
  { intros a Ia C. apply in_map_iff in C. destruct C as ([x y] & Q & I). cbn in Q. subst y. destruct (Hm x a I) as [H _]. apply H. cbn in *. tauto. }
  repeat split.
  - apply (kap_of_lines b d F); auto. intros p Ip. rewrite V, G1 by (auto; apply Hnot; cbn; auto). unfold eff. destruct (arr_eqb_spec udd ud); [congruence|]. destruct (arr_eqb_spec ud ud); [|congruence]. reflexivity.
  - apply (kap_of_lines b d F2); auto. intros p Ip. rewrite V, G1 by (auto; apply Hnot; cbn; auto). unfold eff. destruct (arr_eqb_spec udd udd); [|congruence]. destruct (arr_eqb_spec ud U); [congruence|]. reflexivity.
  - intros x y I. apply (kap_of_lines b d F); auto. intros p Ip. rewrite V, (G2 _ _ x y) by (auto; intros; eapply Hm; eauto). destruct (Hm x y I) as (_ & H & _). unfold eff. destruct (arr_eqb_spec udd x) as [->|]; [exfalso; apply H; cbn; auto|]. destruct (arr_eqb_spec ud x) as [->|]; [exfalso; apply H; cbn; auto|]. reflexivity.
  - intros a N1 N2 N3. apply (same_of_lines b d); auto. intros p Ip. rewrite V, G1 by auto. unfold eff. destruct (arr_eqb_spec udd a); [congruence|]. destruct (arr_eqb_spec ud a); [congruence|]. reflexivity.
Qed.
Ltac side := let x := fresh in let y := fresh in let I := fresh in cbv zeta; intros x y I; cbn [In] in I; repeat (destruct I as [I|I]; [injection I as <- <-|]); try contradiction;
    (split; [cbn; intuition discriminate|]; split; [cbn; intuition discriminate|]; let x' := fresh in let y' := fresh in let I' := fresh in intros x' y' I'; cbn [In] in I'; repeat (destruct I' as [I'|I']; [injection I' as <- <-|]); try contradiction; split; (discriminate || auto || (intros; discriminate))).
Ltac keeps := (discriminate || (cbn; intuition discriminate)).
Tactic Notation "pass" constr(P) constr(fft) constr(d) constr(more) constr(s0) ident(s1) ident(E) ident(W1) ident(A1) ident(A2) ident(A3) ident(A4) constr(W0) :=
  destruct (P fft d more s0) as (s1 & E & W1 & A1 & A2 & A3 & A4); [congruence|exact W0|side|]; cbv zeta in A1, A2, A4; rewrite E; cbn [rbind].
Theorem C42_allDerivs b sc o F F2 K K2 s : (forall d, schedule b d (sc d) /\ deriv_of (bd b d) (F d) /\ deriv2_of (bd b d) (F2 d) /\ (o = o123 \/ b_T (bd b d) = false)) ->
  (forall d l, List.length l = nn b d -> F d l = apply (nn b d) (K d) l /\ F2 d l = apply (nn b d) (K2 d) l) -> (forall a, List.length (s a) = npoints b) ->
  exists s', spec_allDerivs b sc o s = Ok s' /\ s' U = s U /\ (forall a, List.length (s' a) = npoints b) /\
    along b X1 (F X1) (s U) (s' U1) /\ along b X2 (F X2) (s U) (s' U2) /\ along b X3 (F X3) (s U) (s' U3) /\
    along b X1 (F2 X1) (s U) (s' U11) /\ along b X2 (F2 X2) (s U) (s' U22) /\ along b X3 (F2 X3) (s U) (s' U33) /\
    forall p, inbox b p -> val b (s' U12) p = sum2 b X1 X2 K (s U) p /\ val b (s' U13) p = sum2 b X1 X3 K (s U) p /\ val b (s' U23) p = sum2 b X2 X3 K (s U) p.
Proof.
  intros H HK W.
  assert (KF : forall d l, List.length l = nn b d -> F d l = apply (nn b d) (K d) l) by (intros; now apply HK).
  assert (KF2 : forall d l, List.length l = nn b d -> F2 d l = apply (nn b d) (K2 d) l) by (intros; now apply HK).
  assert (P : forall fft d more s0, (fft = false -> o <> o123) -> (forall a, List.length (s0 a) = npoints b) ->
    (let ud := match d with X1 => U1 | X2 => U2 | X3 => U3 end in let udd := match d with X1 => U11 | X2 => U22 | X3 => U33 end in
     forall x y, In (x, y) more -> ~ In y [U; ud; udd; x] /\ ~ In x [ud; udd] /\ forall x' y', In (x', y') more -> y <> x' /\ (y = y' -> x = x')) ->
    let ud := match d with X1 => U1 | X2 => U2 | X3 => U3 end in let udd := match d with X1 => U11 | X2 => U22 | X3 => U33 end in
    exists s', dpass b (sc d) fft d more s0 = Ok s' /\ (forall a, List.length (s' a) = npoints b) /\
      s' ud = kap b d (K d) (s0 U) /\ s' udd = kap b d (K2 d) (s0 U) /\ (forall x y, In (x, y) more -> s' y = kap b d (K d) (s0 x)) /\
      (forall a, a <> ud -> a <> udd -> ~ In a (map snd more) -> s' a = s0 a)).
  { intros fft d more s0 Hf W0 Hm. destruct (H d) as (H1 & H2 & H3 & H4). apply (dpass_kap b (sc d) fft d more (F d) (F2 d)); auto. intros Q. destruct H4; auto. exfalso. now apply Hf. }
  assert (Fin : forall s', s' U = s U -> (forall a, List.length (s' a) = npoints b) -> s' U1 = kap b X1 (K X1) (s U) -> s' U2 = kap b X2 (K X2) (s U) -> s' U3 = kap b X3 (K X3) (s U) ->
    s' U11 = kap b X1 (K2 X1) (s U) -> s' U22 = kap b X2 (K2 X2) (s U) -> s' U33 = kap b X3 (K2 X3) (s U) ->
    s' U12 = kap b X1 (K X1) (kap b X2 (K X2) (s U)) -> s' U13 = kap b X1 (K X1) (kap b X3 (K X3) (s U)) -> s' U23 = kap b X2 (K X2) (kap b X3 (K X3) (s U)) ->
    s' U = s U /\ (forall a, List.length (s' a) = npoints b) /\ along b X1 (F X1) (s U) (s' U1) /\ along b X2 (F X2) (s U) (s' U2) /\ along b X3 (F X3) (s U) (s' U3) /\
    along b X1 (F2 X1) (s U) (s' U11) /\ along b X2 (F2 X2) (s U) (s' U22) /\ along b X3 (F2 X3) (s U) (s' U33) /\
    forall p, inbox b p -> val b (s' U12) p = sum2 b X1 X2 K (s U) p /\ val b (s' U13) p = sum2 b X1 X3 K (s U) p /\ val b (s' U23) p = sum2 b X2 X3 K (s U) p).
  { intros s' A0 AW A1 A2 A3 A4 A5 A6 A7 A8 A9. rewrite A1, A2, A3, A4, A5, A6, A7, A8, A9.
    assert (AL : forall d, along b d (F d) (s U) (kap b d (K d) (s U))) by (intros d; apply (along_ext b d (apply (nn b d) (K d))); [intros; symmetry; now apply KF|apply kap_along]).
    assert (AL2 : forall d, along b d (F2 d) (s U) (kap b d (K2 d) (s U))) by (intros d; apply (along_ext b d (apply (nn b d) (K2 d))); [intros; symmetry; now apply KF2|apply kap_along]).
    repeat (split; auto). all: apply sum2_kap; auto; discriminate. }
  assert (IN : forall (x y : arr) r, In (x, y) ((x, y) :: r)) by (intros; now left). assert (IN2 : forall (x y : arr) q r, In (x, y) (q :: (x, y) :: r)) by (intros; right; now left).
  assert (C12 : forall v, kap b X2 (K X2) (kap b X1 (K X1) v) = kap b X1 (K X1) (kap b X2 (K X2) v)) by (intros; apply kap_comm; discriminate).
  assert (C13 : forall v, kap b X3 (K X3) (kap b X1 (K X1) v) = kap b X1 (K X1) (kap b X3 (K X3) v)) by (intros; apply kap_comm; discriminate).
  assert (C23 : forall v, kap b X3 (K X3) (kap b X2 (K X2) v) = kap b X2 (K X2) (kap b X3 (K X3) v)) by (intros; apply kap_comm; discriminate).
  unfold spec_allDerivs. cbv zeta.
  destruct o.
  - pass P true X1 (@nil (arr * arr)) s s1 E1 W1 A1 A2 A3 A4 W. pass P true X2 [(U1, U12)] s1 s2 E2 W2 B1 B2 B3 B4 W1. pass P true X3 [(U1, U13); (U2, U23)] s2 s3 E3 W3 D1 D2 D3 D4 W2.
    exists s3. split; auto. assert (Q1 : s1 U = s U) by (apply A4; keeps). assert (Q2 : s2 U = s U) by (rewrite B4 by keeps; auto).
    apply Fin; auto.
    + rewrite D4 by keeps; auto. + rewrite D4, B4 by keeps; auto. + rewrite D4, B1 by keeps. now rewrite Q1. + now rewrite D1, Q2. + rewrite D4, B4 by keeps; auto. + rewrite D4, B2 by keeps; now rewrite Q1. + now rewrite D2, Q2.
    + rewrite D4 by keeps. rewrite (B3 U1 U12) by auto. now rewrite A1, C12. + rewrite (D3 U1 U13) by auto. rewrite B4 by keeps. now rewrite A1, C13. + rewrite (D3 U2 U23) by auto. rewrite B1, Q1. now rewrite C23.
  - pass P false X1 (@nil (arr * arr)) s s1 E1 W1 A1 A2 A3 A4 W. pass P false X3 [(U1, U13)] s1 s2 E2 W2 B1 B2 B3 B4 W1. pass P false X2 [(U1, U12); (U3, U23)] s2 s3 E3 W3 D1 D2 D3 D4 W2.
    exists s3. split; auto. assert (Q1 : s1 U = s U) by (apply A4; keeps). assert (Q2 : s2 U = s U) by (rewrite B4 by keeps; auto).
    apply Fin; auto.
    + rewrite D4 by keeps; auto. + rewrite D4, B4 by keeps; auto. + now rewrite D1, Q2. + rewrite D4, B1 by keeps. now rewrite Q1. + rewrite D4, B4 by keeps; auto. + now rewrite D2, Q2. + rewrite D4, B2 by keeps; now rewrite Q1.
    + rewrite (D3 U1 U12) by auto. rewrite B4 by keeps. now rewrite A1, C12. + rewrite D4 by keeps. rewrite (B3 U1 U13) by auto. now rewrite A1, C13. + rewrite (D3 U3 U23) by auto. now rewrite B1, Q1.
  - pass P false X2 (@nil (arr * arr)) s s1 E1 W1 A1 A2 A3 A4 W. pass P false X1 [(U2, U12)] s1 s2 E2 W2 B1 B2 B3 B4 W1. pass P false X3 [(U1, U13); (U2, U23)] s2 s3 E3 W3 D1 D2 D3 D4 W2.
    exists s3. split; auto. assert (Q1 : s1 U = s U) by (apply A4; keeps). assert (Q2 : s2 U = s U) by (rewrite B4 by keeps; auto).
    apply Fin; auto.
    + rewrite D4 by keeps; auto. + rewrite D4, B1 by keeps; now rewrite Q1. + rewrite D4, B4 by keeps; auto. + now rewrite D1, Q2. + rewrite D4, B2 by keeps; now rewrite Q1. + rewrite D4, B4 by keeps; auto. + now rewrite D2, Q2.
    + rewrite D4 by keeps. rewrite (B3 U2 U12) by auto. now rewrite A1. + rewrite (D3 U1 U13) by auto. now rewrite B1, Q1, C13. + rewrite (D3 U2 U23) by auto. rewrite B4 by keeps. now rewrite A1, C23.
  - pass P false X2 (@nil (arr * arr)) s s1 E1 W1 A1 A2 A3 A4 W. pass P false X3 [(U2, U23)] s1 s2 E2 W2 B1 B2 B3 B4 W1. pass P false X1 [(U2, U12); (U3, U13)] s2 s3 E3 W3 D1 D2 D3 D4 W2.
    exists s3. split; auto. assert (Q1 : s1 U = s U) by (apply A4; keeps). assert (Q2 : s2 U = s U) by (rewrite B4 by keeps; auto).
    apply Fin; auto.
    + rewrite D4 by keeps; auto. + now rewrite D1, Q2. + rewrite D4, B4 by keeps; auto. + rewrite D4, B1 by keeps; now rewrite Q1. + now rewrite D2, Q2. + rewrite D4, B4 by keeps; auto. + rewrite D4, B2 by keeps; now rewrite Q1.
    + rewrite (D3 U2 U12) by auto. rewrite B4 by keeps. now rewrite A1. + rewrite (D3 U3 U13) by auto. now rewrite B1, Q1. + rewrite D4 by keeps. rewrite (B3 U2 U23) by auto. now rewrite A1, C23.
  - pass P false X3 (@nil (arr * arr)) s s1 E1 W1 A1 A2 A3 A4 W. pass P false X1 [(U3, U13)] s1 s2 E2 W2 B1 B2 B3 B4 W1. pass P false X2 [(U1, U12); (U3, U23)] s2 s3 E3 W3 D1 D2 D3 D4 W2.
    exists s3. split; auto. assert (Q1 : s1 U = s U) by (apply A4; keeps). assert (Q2 : s2 U = s U) by (rewrite B4 by keeps; auto).
    apply Fin; auto.
    + rewrite D4 by keeps; auto. + rewrite D4, B1 by keeps; now rewrite Q1. + now rewrite D1, Q2. + rewrite D4, B4 by keeps; auto. + rewrite D4, B2 by keeps; now rewrite Q1. + now rewrite D2, Q2. + rewrite D4, B4 by keeps; auto.
    + rewrite (D3 U1 U12) by auto. now rewrite B1, Q1, C12. + rewrite D4 by keeps. rewrite (B3 U3 U13) by auto. now rewrite A1. + rewrite (D3 U3 U23) by auto. rewrite B4 by keeps. now rewrite A1.
  - pass P false X3 (@nil (arr * arr)) s s1 E1 W1 A1 A2 A3 A4 W. pass P false X2 [(U3, U23)] s1 s2 E2 W2 B1 B2 B3 B4 W1. pass P false X1 [(U2, U12); (U3, U13)] s2 s3 E3 W3 D1 D2 D3 D4 W2.
    exists s3. split; auto. assert (Q1 : s1 U = s U) by (apply A4; keeps). assert (Q2 : s2 U = s U) by (rewrite B4 by keeps; auto).
    apply Fin; auto.
    + rewrite D4 by keeps; auto. + now rewrite D1, Q2. + rewrite D4, B1 by keeps; now rewrite Q1. + rewrite D4, B4 by keeps; auto. + now rewrite D2, Q2. + rewrite D4, B2 by keeps; now rewrite Q1. + rewrite D4, B4 by keeps; auto.
    + rewrite (D3 U2 U12) by auto. now rewrite B1, Q1. + rewrite (D3 U3 U13) by auto. rewrite B4 by keeps. now rewrite A1. + rewrite D4 by keeps. rewrite (B3 U3 U23) by auto. now rewrite A1.
Qed.
(** hence all orders give the same ten arrays *)
Theorem C42_orders b sc sc' o o' F F2 K K2 s s1 s2 : (forall d, schedule b d (sc d) /\ schedule b d (sc' d) /\ deriv_of (bd b d) (F d) /\ deriv2_of (bd b d) (F2 d) /\ b_T (bd b d) = false) ->
  (forall d l, List.length l = nn b d -> F d l = apply (nn b d) (K d) l /\ F2 d l = apply (nn b d) (K2 d) l) -> (forall a, List.length (s a) = npoints b) ->
  spec_allDerivs b sc o s = Ok s1 -> spec_allDerivs b sc' o' s = Ok s2 -> forall a, s1 a = s2 a.
Proof.
  intros H HK W E1 E2.
  destruct (C42_allDerivs b sc o F F2 K K2 s) as (s1' & E1' & A0 & AW & A1 & A2 & A3 & A4 & A5 & A6 & A7); auto. { intros d. destruct (H d) as (?&?&?&?&?). auto. }
  destruct (C42_allDerivs b sc' o' F F2 K K2 s) as (s2' & E2' & B0 & BW & B1 & B2 & B3 & B4 & B5 & B6 & B7); auto. { intros d. destruct (H d) as (?&?&?&?&?). auto. }
  assert (s1' = s1) by congruence. assert (s2' = s2) by congruence. subst s1' s2'.
  intros []; try congruence; try (eapply along_unique; eassumption); apply (arr_ext b); auto; intros p Ip; destruct (A7 p Ip) as (X & Y & Z); destruct (B7 p Ip) as (X' & Y' & Z'); congruence.
Qed.
(** and mixed derivatives are derivatives of derivatives *)
Theorem C42_mixed b sc sc1 sc2 o F F2 K K2 s s' d e x old1 old2 du ddu : (d = X1 /\ e = X2 /\ x = U12) \/ (d = X1 /\ e = X3 /\ x = U13) \/ (d = X2 /\ e = X3 /\ x = U23) ->
  (forall d, schedule b d (sc d) /\ deriv_of (bd b d) (F d) /\ deriv2_of (bd b d) (F2 d) /\ (o = o123 \/ b_T (bd b d) = false)) ->
  (forall d l, List.length l = nn b d -> F d l = apply (nn b d) (K d) l /\ F2 d l = apply (nn b d) (K2 d) l) -> (forall a, List.length (s a) = npoints b) ->
  schedule b d sc1 -> schedule b e sc2 -> List.length old1 = npoints b -> List.length old2 = npoints b ->
  spec_allDerivs b sc o s = Ok s' -> spec_Deriv1 b sc1 d false (s U) old1 = Ok du -> spec_Deriv1 b sc2 e false du old2 = Ok ddu -> s' x = ddu.
Proof.
  intros Hx H HK W Sc1 Sc2 L1 L2 E E1 E2.
  destruct (C42_allDerivs b sc o F F2 K K2 s) as (s1 & E' & A0 & AW & A1 & A2 & A3 & A4 & A5 & A6 & A7); auto. assert (s1 = s') by congruence. subst s1.
  assert (HF : forall d, deriv_of (bd b d) (F d)) by (intros d0; apply H).
  assert (N : d <> e) by (destruct Hx as [(-> & -> & _)|[(-> & -> & _)|(-> & -> & _)]]; discriminate).
  destruct (deriv1_ok b sc1 d false (s U) old1 (F d)) as (du' & Q1 & Al1); auto; try discriminate. assert (du' = du) by congruence. subst du'.
  destruct (deriv1_ok b sc2 e false du old2 (F e)) as (ddu' & Q2 & Al2); auto; try discriminate. { apply Al1. } assert (ddu' = ddu) by congruence. subst ddu'.
  apply (along_kap b d (K d)) in Al1; [|intros; now apply HK]. apply (along_kap b e (K e)) in Al2; [|intros; now apply HK]. subst du ddu. rewrite kap_comm by auto.
  apply (arr_ext b); auto. { apply kap_length. } intros p Ip. rewrite sum2_kap by auto. destruct (A7 p Ip) as (V1 & V2 & V3). destruct Hx as [(-> & -> & ->)|[(-> & -> & ->)|(-> & -> & ->)]]; auto.
Qed.
(** the FFT branch exists only for the order 123: with other orders a box with a TransformType ends the program *)
Theorem C42_fft_order b sc o F F2 s d : o <> o123 -> b_T (bd b d) = true -> (forall d, schedule b d (sc d) /\ deriv_of (bd b d) (F d) /\ deriv2_of (bd b d) (F2 d)) -> (forall a, List.length (s a) = npoints b) ->
  spec_allDerivs b sc o s = Err.
Proof.
  intros No T H W.
  assert (P : forall d more s, (forall a, List.length (s a) = npoints b) -> b_T (bd b d) = true /\ dpass b (sc d) false d more s = Err \/ b_T (bd b d) = false /\ exists s', dpass b (sc d) false d more s = Ok s' /\ forall a, List.length (s' a) = npoints b).
  { intros e more s0 W0. destruct (b_T (bd b e)) eqn:Te.
    - left. split; auto. unfold dpass. now rewrite Te.
    - right. split; auto. destruct (H e) as (H1 & H2 & H3). destruct (dpass_ok b (sc e) false e more (F e) (F2 e) s0) as (s' & E & L & _); auto. exists s'. auto. }
  assert (G : forall d1 m1 d2 m2 d3 m3, (d = d1 \/ d = d2 \/ d = d3) -> (do s <- dpass b (sc d1) false d1 m1 s; do s <- dpass b (sc d2) false d2 m2 s; dpass b (sc d3) false d3 m3 s) = Err).
  { intros d1 m1 d2 m2 d3 m3 Hd. destruct (P d1 m1 s W) as [[T1 E1]|[T1 (s1 & E1 & W1)]]; rewrite E1; cbn [rbind]; auto. destruct (P d2 m2 s1 W1) as [[T2 E2]|[T2 (s2 & E2 & W2)]]; rewrite E2; cbn [rbind]; auto.
    destruct (P d3 m3 s2 W2) as [[T3 E3]|[T3 _]]; auto. exfalso. destruct Hd as [->|[->| ->]]; congruence. }
  unfold spec_allDerivs. cbv zeta. destruct o; try congruence; apply G; destruct d; auto.
Qed.

(** ** C50: the three-dimensional transforms *)
(** each transform acts along its direction, in any schedule, also in place *)
Theorem C50_analysis b d F u : analysis_of (bd b d) F -> List.length u = npoints b ->
  exists c, along b d F u c /\ forall sc alias old, schedule b d sc -> List.length old = npoints b -> (alias = true -> old = u) -> spec_analysis1 b sc d alias u old = Ok c.
Proof.
  intros HF Lu. destruct (analysis_ok b (sequential b d) d false u u F) as (c & E & A); auto using sequential_schedule. exists c. split; auto.
  intros sc alias old Sc Lo Ha. destruct (analysis_ok b sc d alias u old F) as (c' & E' & A'); auto. rewrite E'. f_equal. now apply (along_unique b d F u).
Qed.
Theorem C50_synthesis b d F c : synthesis_of (bd b d) F -> List.length c = npoints b ->
  exists u, along b d F c u /\ forall sc alias old, schedule b d sc -> List.length old = npoints b -> (alias = true -> old = c) -> spec_synthesis1 b sc d alias old c = Ok u.
Proof.
  intros HF Lu. destruct (synthesis_ok b (sequential b d) d false c c F) as (u & E & A); auto using sequential_schedule. exists u. split; auto.
  intros sc alias old Sc Lo Ha. destruct (synthesis_ok b sc d alias old c F) as (c' & E' & A'); auto. rewrite E'. f_equal. now apply (along_unique b d F c).
Qed.
Lemma coeffs_kap b sc A u c : (forall d, schedule b d (sc d) /\ analysis_of (bd b d) (apply (nn b d) (A d))) -> List.length u = npoints b -> List.length c = npoints b ->
  spec_Coeffs b sc u c = Ok (kap b X3 (A X3) (kap b X2 (A X2) (kap b X1 (A X1) u))).
Proof.
  intros H Lu Lc. unfold spec_Coeffs.
  destruct (analysis_ok b (sc X1) X1 false u c _ (proj1 (H X1)) (proj2 (H X1))) as (c1 & E1 & A1); auto; try discriminate. rewrite E1. cbn [rbind]. destruct (along_kap b X1 (A X1) _ u c1 (fun l _ => eq_refl) A1).
  destruct (analysis_ok b (sc X2) X2 true c1 c1 _ (proj1 (H X2)) (proj2 (H X2))) as (c2 & E2 & A2); auto; try apply A1. rewrite E2. cbn [rbind]. destruct (along_kap b X2 (A X2) _ c1 c2 (fun l _ => eq_refl) A2).
  destruct (analysis_ok b (sc X3) X3 true c2 c2 _ (proj1 (H X3)) (proj2 (H X3))) as (c3 & E3 & A3); auto; try apply A2. rewrite E3. destruct (along_kap b X3 (A X3) _ c2 c3 (fun l _ => eq_refl) A3). reflexivity.
Qed.
Lemma eval_kap b sc E u c : (forall d, schedule b d (sc d) /\ synthesis_of (bd b d) (apply (nn b d) (E d))) -> List.length u = npoints b -> List.length c = npoints b ->
  spec_Eval b sc u c = Ok (kap b X3 (E X3) (kap b X2 (E X2) (kap b X1 (E X1) c))).
Proof.
  intros H Lu Lc. unfold spec_Eval.
  destruct (synthesis_ok b (sc X1) X1 false u c _ (proj1 (H X1)) (proj2 (H X1))) as (c1 & E1 & A1); auto; try discriminate. rewrite E1. cbn [rbind]. destruct (along_kap b X1 (E X1) _ c c1 (fun l _ => eq_refl) A1).
  destruct (synthesis_ok b (sc X2) X2 true c1 c1 _ (proj1 (H X2)) (proj2 (H X2))) as (c2 & E2 & A2); auto; try apply A1. rewrite E2. cbn [rbind]. destruct (along_kap b X2 (E X2) _ c1 c2 (fun l _ => eq_refl) A2).
  destruct (synthesis_ok b (sc X3) X3 true c2 c2 _ (proj1 (H X3)) (proj2 (H X3))) as (c3 & E3 & A3); auto; try apply A2. rewrite E3. destruct (along_kap b X3 (E X3) _ c2 c3 (fun l _ => eq_refl) A3). reflexivity.
Qed.
(** spec_Eval undoes spec_Coeffs whenever each 1d evaluation undoes its 1d transform (both linear) *)
Theorem C50_inverse b sc sc' A E u c0 u0 : (forall d, schedule b d (sc d) /\ schedule b d (sc' d) /\ analysis_of (bd b d) (apply (nn b d) (A d)) /\ synthesis_of (bd b d) (apply (nn b d) (E d))) ->
  (forall d l, List.length l = nn b d -> apply (nn b d) (E d) (apply (nn b d) (A d) l) = l) -> List.length u = npoints b -> List.length c0 = npoints b -> List.length u0 = npoints b ->
  exists c, spec_Coeffs b sc u c0 = Ok c /\ spec_Eval b sc' u0 c = Ok u.
Proof.
  intros H Inv Lu Lc Lu0. eexists. split. { apply (coeffs_kap b sc A); auto. intros d. destruct (H d) as (?&?&?&?). auto. }
  rewrite (eval_kap b sc' E); auto; [|intros d; destruct (H d) as (?&?&?&?); auto|apply kap_length]. f_equal.
  rewrite (kap_comm b X1 X3), (kap_comm b X1 X2), (kap_comm b X2 X3) by discriminate.
  rewrite !kap_inverse; auto; try apply kap_length; rewrite kap_inverse; auto.
Qed.
(** and the directions commute *)
Theorem C50_commute b d e scd sce scd' sce' A u c0 c0' c1 c2 c1' c2' : d <> e -> analysis_of (bd b d) (apply (nn b d) (A d)) -> analysis_of (bd b e) (apply (nn b e) (A e)) ->
  schedule b d scd -> schedule b e sce -> schedule b d scd' -> schedule b e sce' -> List.length u = npoints b -> List.length c0 = npoints b -> List.length c0' = npoints b ->
  spec_analysis1 b scd d false u c0 = Ok c1 -> spec_analysis1 b sce e true c1 c1 = Ok c2 ->
  spec_analysis1 b sce' e false u c0' = Ok c1' -> spec_analysis1 b scd' d true c1' c1' = Ok c2' -> c2 = c2'.
Proof.
  intros N Hd He S1 S2 S3 S4 Lu L0 L0' E1 E2 E3 E4.
  destruct (analysis_ok b scd d false u c0 _ S1 Hd) as (x1 & Q1 & A1); auto; try discriminate. assert (x1 = c1) by congruence. subst x1.
  destruct (analysis_ok b sce e true c1 c1 _ S2 He) as (x2 & Q2 & A2); auto; try apply A1. assert (x2 = c2) by congruence. subst x2.
  destruct (analysis_ok b sce' e false u c0' _ S4 He) as (x3 & Q3 & A3); auto; try discriminate. assert (x3 = c1') by congruence. subst x3.
  destruct (analysis_ok b scd' d true c1' c1' _ S3 Hd) as (x4 & Q4 & A4); auto; try apply A3. assert (x4 = c2') by congruence. subst x4.
  apply (along_kap b d (A d)) in A1; auto. apply (along_kap b e (A e)) in A2; auto. apply (along_kap b e (A e)) in A3; auto. apply (along_kap b d (A d)) in A4; auto. subst. symmetry. now apply kap_comm.
Qed.
(** ** boxes set up by the library satisfy the hypotheses *)
Theorem C50_built bs b sc sc' u c0 u0 : (forall d, built (bs d) (bd b d) /\ schedule b d (sc d) /\ schedule b d (sc' d)) -> List.length u = npoints b -> List.length c0 = npoints b -> List.length u0 = npoints b ->
  exists c, spec_Coeffs b sc u c0 = Ok c /\ spec_Eval b sc' u0 c = Ok u.
Proof.
  intros H Lu Lc Lu0.
  assert (P : forall d, exists K, analysis_of (bd b d) (apply (nn b d) (fst K)) /\ synthesis_of (bd b d) (apply (nn b d) (snd K)) /\ forall l, List.length l = nn b d -> apply (nn b d) (snd K) (apply (nn b d) (fst K) l) = l).
  { intros d. destruct (H d) as (Hb & _). destruct (built_ops _ _ Hb) as (A & B & E & _ & _ & _ & Inv & HA & HE & _). exists (A, E). auto. }
  destruct (P X1) as ([A1 E1] & P1). destruct (P X2) as ([A2 E2] & P2). destruct (P X3) as ([A3 E3] & P3). cbn [fst snd] in *.
  apply (C50_inverse b sc sc' (fun d => match d with X1 => A1 | X2 => A2 | X3 => A3 end) (fun d => match d with X1 => E1 | X2 => E2 | X3 => E3 end)); auto.
  - intros []; destruct (H X1) as (_&?&?), (H X2) as (_&?&?), (H X3) as (_&?&?); tauto. - intros []; tauto.
Qed.
Print Assumptions C42_deriv1.
Print Assumptions C42_deriv2.
Print Assumptions C42_locality.
Print Assumptions C42_exact.
Print Assumptions C42_in_place_refuted.
Print Assumptions C42_allDerivs.
Print Assumptions C42_orders.
Print Assumptions C42_mixed.
Print Assumptions C42_fft_order.
Print Assumptions C50_analysis.
Print Assumptions C50_synthesis.
Print Assumptions C50_inverse.
Print Assumptions C50_commute.
Print Assumptions C50_built.

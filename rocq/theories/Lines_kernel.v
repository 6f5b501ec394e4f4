(** Linear operations along the directions of a box as kernels.  Proof library; no code is modelled here. *)
From Verif Require Import Arrays Mat_model Mat_spec Mat_proofs Mat_props Dir_model Dir_spec Dir_props Lines_model Lines_spec Lines_proofs.
Local Open Scope R_scope.

Definition kap (b : sbox) (d : dir) (K : nat -> nat -> R) (u : list R) : list R :=
  table b (fun p => Sig (nn b d) (fun m => K (comp d p) m * val b u (setc d p m))).
Lemma kap_length b d K u : List.length (kap b d K u) = npoints b. Proof. apply table_length. Qed.
Lemma kap_val b d K u p : inbox b p -> val b (kap b d K u) p = Sig (nn b d) (fun m => K (comp d p) m * val b u (setc d p m)).
Proof. intros H. unfold kap. now rewrite table_val. Qed.
Lemma along_kap b d K F u u' : (forall l, List.length l = nn b d -> F l = apply (nn b d) K l) -> along b d F u u' -> u' = kap b d K u.
Proof.
  intros HF [L V]. apply (arr_ext b); auto. { apply kap_length. } intros p Ip. rewrite kap_val, V, HF by (auto; apply line_length). rewrite apply_nth by apply Ip.
  apply Sig_ext. intros m Hm. now rewrite line_nth.
Qed.
Lemma kap_along b d K u : along b d (apply (nn b d) K) u (kap b d K u).
Proof. split; [apply kap_length|]. intros p Ip. rewrite kap_val by auto. rewrite apply_nth by apply Ip. apply Sig_ext. intros m Hm. now rewrite line_nth. Qed.
Lemma setc_comm d e p x y : d <> e -> setc d (setc e p y) x = setc e (setc d p x) y.
Proof. intros N. destruct p as [[i j] k]. destruct d, e; try reflexivity; congruence. Qed.
Lemma comp_setc_ne d e p x : d <> e -> comp d (setc e p x) = comp d p.
Proof. intros N. destruct p as [[i j] k]. destruct d, e; try reflexivity; congruence. Qed.
Lemma setc_setc d p x y : setc d (setc d p x) y = setc d p y. Proof. destruct p as [[i j] k]. now destruct d. Qed.
Lemma setc_comp d p : setc d p (comp d p) = p. Proof. destruct p as [[i j] k]. now destruct d. Qed.
Lemma kap_comm b d e K K' u : d <> e -> kap b d K (kap b e K' u) = kap b e K' (kap b d K u).
Proof.
  intros N. apply (arr_ext b); try apply kap_length. intros p Ip. rewrite !kap_val by auto.
  rewrite (Sig_ext (nn b d) _ (fun m => Sig (nn b e) (fun l => K (comp d p) m * (K' (comp e p) l * val b u (setc e (setc d p m) l))))).
  2:{ intros m Hm. rewrite kap_val by (now apply inbox_setc). rewrite comp_setc_ne by auto. now rewrite Sig_scal. }
  rewrite (Sig_ext (nn b e) _ (fun l => Sig (nn b d) (fun m => K (comp d p) m * (K' (comp e p) l * val b u (setc e (setc d p m) l))))).
  2:{ intros l Hl. rewrite kap_val by (now apply inbox_setc). rewrite comp_setc_ne by auto. rewrite <- Sig_scal. apply Sig_ext. intros m Hm. rewrite setc_comm by auto. ring. }
  apply Sig_swap.
Qed.
(** K then L in the same direction *)
Lemma kap_inverse b d A E u : List.length u = npoints b -> (forall l, List.length l = nn b d -> apply (nn b d) E (apply (nn b d) A l) = l) -> kap b d E (kap b d A u) = u.
Proof.
  intros Lu H. apply (arr_ext b); auto. { apply kap_length. } intros p Ip.
  destruct (kap_along b d E (kap b d A u)) as [_ V]. rewrite V by auto. rewrite (along_line b d (apply (nn b d) A) u) by (auto using kap_along, apply_length). rewrite H by apply line_length. now apply line_self.
Qed.
Lemma realises_computes n f K : computes n f K -> realises n f (apply n K).
Proof. intros H i o Li Lo. split; [now apply H|apply apply_length]. Qed.
Lemma realises_lin n f F : linear_fn n f -> realises n f F -> exists K, computes n f K /\ forall l, List.length l = n -> F l = apply n K l.
Proof. intros [K H] R. exists K. split; auto. intros l Hl. destruct (R l l Hl Hl) as [E _]. rewrite H in E by auto. congruence. Qed.

Lemma by_matrix_ismat n M K : ismat n M K -> by_matrix n M (apply n K).
Proof. intros [L V]. split; auto. intros l. apply apply_ext. intros i j Hi Hj. unfold mat. now rewrite V. Qed.

(** its four linear maps, the same with and without TransformType *)
Lemma built_ops bs D : built bs D -> let n := b_n D in let f := funs_from_pars bs (b_lo D) (b_hi D) in
  exists A B E, computes n (swap (f_coeffs f)) A /\ computes n (f_deriv f) B /\ computes n (f_eval f) E /\
    (forall l, List.length l = n -> apply n E (apply n A l) = l) /\
    analysis_of D (apply n A) /\ synthesis_of D (apply n E) /\ deriv_of D (apply n (compose n E (compose n B A))) /\ deriv2_of D (apply n (compose n E (compose n B (compose n B A)))).
Proof.
  intros (Hs & Hab & Hn & Hf & filt & Hfi & Em) n f. destruct (setup_kernels bs (b_lo D) (b_hi D) n filt Hs Hn Hfi) as (m & A & B & E & J & KF & Em' & HA & HB & HE & _ & M1 & M2 & M3 & M4 & _). fold f in HA, HB, HE.
  assert (m = b_m D) by (unfold n in Em'; congruence). subst m.
  exists A, B, E. split; auto. split; auto. split; auto.
  assert (Inv : forall l, List.length l = n -> apply n E (apply n A l) = l).
  { intros l Hl. assert (C := coeffs_inverse bs (b_lo D) (b_hi D) n l l (apply n A l) Hs Hab Hn Hl Hl (apply_length _ _ _)). fold f in C. specialize (C (HA l l Hl Hl)). rewrite HE in C by (auto; apply apply_length). congruence. }
  split; auto. unfold analysis_of, synthesis_of, deriv_of, deriv2_of. rewrite Hf. fold n. unfold through_box. cbn [f_coeffs f_deriv f_eval]. fold f.
  destruct (b_T D).
  - split; [now apply realises_computes|]. split; [now apply realises_computes|]. split.
    + exists (apply n A), (apply n B), (apply n E). repeat (split; [now apply realises_computes|]). intros l. now rewrite (apply_apply n B A), (apply_apply n E).
    + exists (apply n A), (apply n B), (apply n E). repeat (split; [now apply realises_computes|]). intros l. now rewrite (apply_apply n B A), (apply_apply n B), (apply_apply n E).
  - repeat (split; [now apply by_matrix_ismat|]). now apply by_matrix_ismat.
Qed.

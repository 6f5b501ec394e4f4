(** Proofs about the search for extrema. *)
From Coq Require Import Lra Lia FunctionalExtensionality.
From Verif Require Import Base Rutil Rsum Arrays Loops Sparse_model Mat_model Mat_spec Mat_proofs Cheb_model Cheb_spec Cheb_proofs Cheb_props Four_model Four_spec Four_proofs Four_props
  Dir_model Dir_spec Dir_props Lines_model Lines_spec Lines_proofs Lines_kernel Lines_props Integ_spec Integ_props Interp_props Lu_model Lu_spec Lsrch_model Lsrch_spec Lsrch_props Root_model Root_spec Root_props Extr_model Extr_spec.
Local Open Scope R_scope.

Lemma dSig n (f : nat -> R -> R) (d : nat -> R) x : (forall i, (i < n)%nat -> derivable_pt_lim (f i) x (d i)) -> derivable_pt_lim (fun t => Sig n (fun i => f i t)) x (Sig n d).
Proof. apply Cheb_props.derivable_pt_lim_Sig. Qed.
(** ** Sums over a box *)
Definition sum3 (b : sbox) (c : list R) (w : dir -> nat -> R) : R :=
  Sig (nn b X3) (fun k => Sig (nn b X2) (fun j => Sig (nn b X1) (fun i => val b c (i, j, k) * w X1 i * w X2 j * w X3 k))).
Definition setw (d : dir) (w : dir -> nat -> R) (g : nat -> R) : dir -> nat -> R := fun e => match d, e with X1, X1 | X2, X2 | X3, X3 => g | _, _ => w e end.
Lemma sum3_ext b c w w' : (forall d m, (m < nn b d)%nat -> w d m = w' d m) -> sum3 b c w = sum3 b c w'.
Proof. intros H. unfold sum3. apply Sig_ext. intros k Hk. apply Sig_ext. intros j Hj. apply Sig_ext. intros i Hi. now rewrite !H. Qed.
(** linear in the weights of each direction *)
Lemma sum3_lin b c d w : exists Q, forall g, sum3 b c (setw d w g) = Sig (nn b d) (fun m => Q m * g m).
Proof.
  destruct d.
  - exists (fun m => Sig (nn b X3) (fun k => Sig (nn b X2) (fun j => val b c (m, j, k) * w X2 j * w X3 k))). intros g. unfold sum3. cbn [setw].
    rewrite (Sig_ext (nn b X1) _ (fun m => Sig (nn b X3) (fun k => Sig (nn b X2) (fun j => val b c (m, j, k) * g m * w X2 j * w X3 k)))).
    2:{ intros m Hm. rewrite <- Sig_scal_r. apply Sig_ext. intros k Hk. rewrite <- Sig_scal_r. apply Sig_ext. intros; ring. }
    symmetry. rewrite Sig_swap. apply Sig_ext. intros k Hk. now rewrite Sig_swap.
  - exists (fun m => Sig (nn b X3) (fun k => Sig (nn b X1) (fun i => val b c (i, m, k) * w X1 i * w X3 k))). intros g. unfold sum3. cbn [setw].
    rewrite (Sig_ext (nn b X2) _ (fun m => Sig (nn b X3) (fun k => Sig (nn b X1) (fun i => val b c (i, m, k) * w X1 i * g m * w X3 k)))).
    2:{ intros m Hm. rewrite <- Sig_scal_r. apply Sig_ext. intros k Hk. rewrite <- Sig_scal_r. apply Sig_ext. intros; ring. }
    now rewrite Sig_swap.
  - exists (fun m => Sig (nn b X2) (fun j => Sig (nn b X1) (fun i => val b c (i, j, m) * w X1 i * w X2 j))). intros g. unfold sum3. cbn [setw].
    apply Sig_ext. intros m Hm. rewrite <- Sig_scal_r. apply Sig_ext. intros j Hj. rewrite <- Sig_scal_r. apply Sig_ext. intros; ring.
Qed.
(** a kernel along d moved to the weights *)
Lemma sum3_kap b c d K w : sum3 b (kap b d K c) w = sum3 b c (setw d w (fun m => Sig (nn b d) (fun l => K l m * w d l))).
Proof.
  unfold sum3. destruct d; cbn [setw].
  - apply Sig_ext. intros k Hk. apply Sig_ext. intros j Hj.
    rewrite (Sig_ext (nn b X1) _ (fun i => Sig (nn b X1) (fun m => K i m * val b c (m, j, k) * w X1 i * w X2 j * w X3 k))).
    2:{ intros i Hi. rewrite kap_val by (intros []; cbn; auto). cbn [comp setc]. rewrite <- !Sig_scal_r. reflexivity. }
    rewrite Sig_swap. apply Sig_ext. intros m Hm. rewrite (Sig_ext _ _ (fun i => val b c (m, j, k) * w X2 j * w X3 k * (K i m * w X1 i))) by (intros; ring). rewrite Sig_scal. ring.
  - apply Sig_ext. intros k Hk.
    rewrite (Sig_ext (nn b X2) _ (fun j => Sig (nn b X2) (fun m => Sig (nn b X1) (fun i => K j m * val b c (i, m, k) * w X1 i * w X2 j * w X3 k)))).
    2:{ intros j Hj. rewrite Sig_swap. apply Sig_ext. intros i Hi. rewrite kap_val by (intros []; cbn; auto). cbn [comp setc]. rewrite <- !Sig_scal_r. reflexivity. }
    rewrite Sig_swap. apply Sig_ext. intros m Hm. rewrite Sig_swap. apply Sig_ext. intros i Hi.
    rewrite (Sig_ext _ _ (fun j => val b c (i, m, k) * w X1 i * w X3 k * (K j m * w X2 j))) by (intros; ring). rewrite Sig_scal. ring.
  - rewrite (Sig_ext (nn b X3) _ (fun k => Sig (nn b X3) (fun m => Sig (nn b X2) (fun j => Sig (nn b X1) (fun i => K k m * val b c (i, j, m) * w X1 i * w X2 j * w X3 k))))).
    2:{ intros k Hk. rewrite (Sig_swap (nn b X3)). apply Sig_ext. intros j Hj. rewrite (Sig_swap (nn b X3)). apply Sig_ext. intros i Hi. rewrite kap_val by (intros []; cbn; auto). cbn [comp setc]. rewrite <- !Sig_scal_r. reflexivity. }
    rewrite Sig_swap. apply Sig_ext. intros m Hm. rewrite Sig_swap. apply Sig_ext. intros j Hj. rewrite Sig_swap. apply Sig_ext. intros i Hi.
    rewrite (Sig_ext _ _ (fun k => val b c (i, j, m) * w X1 i * w X2 j * (K k m * w X3 k))) by (intros; ring). rewrite Sig_scal. ring.
Qed.
Lemma sum3_deriv b c d w (g : nat -> R -> R) (g' : nat -> R) x : (forall m, (m < nn b d)%nat -> derivable_pt_lim (g m) x (g' m)) ->
  derivable_pt_lim (fun t => sum3 b c (setw d w (fun m => g m t))) x (sum3 b c (setw d w g')).
Proof.
  intros H. destruct (sum3_lin b c d w) as [Q HQ]. rewrite HQ. replace (fun t => sum3 b c (setw d w (fun m => g m t))) with (fun t => Sig (nn b d) (fun m => Q m * g m t)) by (apply functional_extensionality; intros; now rewrite HQ).
  apply (dSig (nn b d) (fun m t => Q m * g m t) (fun m => Q m * g' m)). intros m Hm. apply (derivable_pt_lim_scal (g m)). auto.
Qed.
(** ** One direction *)
Definition phi (bs : dir -> basis) (b : sbox) (d : dir) (k : nat) (x : R) : R := expansion (bs d) (lo b d) (hi b d) (nn b d) (unit (nn b d) k) x.
Lemma tpoly_basis n c t : List.length c = n -> tpoly c n t = Sig n (fun k => c.[k] * tpoly (unit n k) n t).
Proof.
  intros Lc. unfold tpoly. apply Sig_ext. intros k Hk. rewrite (Sig_single n k); auto. { rewrite unit_nth, Nat.eqb_refl by auto. ring. }
  intros i Hi Ni. rewrite unit_nth by auto. destruct (Nat.eqb_spec i k); [contradiction|ring].
Qed.
Lemma series_basis n c y : (1 <= n)%nat -> List.length c = n -> series c (n - 1) y = Sig n (fun k => c.[k] * series (unit n k) (n - 1) y).
Proof.
  intros Hn Lc. unfold series. rewrite (Sig_ext n _ (fun k => c.[k] * ((unit n k).[0] / 2) + Sig (n - 1) (fun i => c.[k] * ((unit n k).[i + 1] * T (i + 1) y)))) by (intros k _; rewrite Sig_scal; ring).
  rewrite Sig_plus. f_equal.
  - rewrite (Sig_single n 0); [|lia|]. { rewrite unit_nth by lia. cbn [Nat.eqb]. field. } intros i Hi Ni. rewrite unit_nth by auto. destruct (Nat.eqb_spec 0 i); [congruence|field].
  - rewrite Sig_swap. apply Sig_ext. intros i Hi. rewrite (Sig_single n (i + 1)); [|lia|]. { rewrite unit_nth, Nat.eqb_refl by lia. ring. } intros k Hk Nk. rewrite unit_nth by auto. destruct (Nat.eqb_spec (i + 1) k); [congruence|ring].
Qed.
Lemma expansion_basis bs b d c t : (1 <= nn b d)%nat -> List.length c = nn b d -> expansion (bs d) (lo b d) (hi b d) (nn b d) c t = Sig (nn b d) (fun k => c.[k] * phi bs b d k t).
Proof. intros Hn Lc. unfold phi, expansion. destruct (bs d); (now apply tpoly_basis) || (now apply series_basis). Qed.
Section Ops.
  Variables (bs : dir -> basis) (b : sbox).
  Hypothesis HB : forall d, built (bs d) (bd b d).
  Lemma ndir d : (2 <= nn b d)%nat /\ lo b d <> hi b d /\ spectral (bs d) = true.
  Proof. destruct (HB d) as (H1 & H2 & H3 & _). auto. Qed.
  Definition ops d (K : (nat -> nat -> R) * (nat -> nat -> R) * (nat -> nat -> R)) : Prop := let '(A, B, E) := K in
    (forall l, List.length l = nn b d -> apply (nn b d) E (apply (nn b d) A l) = l) /\ (forall l, List.length l = nn b d -> apply (nn b d) A (apply (nn b d) E l) = l) /\
    analysis_of (bd b d) (apply (nn b d) A) /\ deriv_of (bd b d) (apply (nn b d) (compose (nn b d) E (compose (nn b d) B A))) /\
    (forall i k, (i < nn b d)%nat -> (k < nn b d)%nat -> E i k = phi bs b d k (coord (bs d) (lo b d) (hi b d) (nn b d) i)) /\
    (has_lone_cosine (bs d) (nn b d) = false -> forall k x, (k < nn b d)%nat -> derivable_pt_lim (phi bs b d k) x (Sig (nn b d) (fun l => B l k * phi bs b d l x))).
  Lemma ops_ex d : exists K, ops d K.
  Proof.
    destruct (ndir d) as (Hn & Hab & Hs). destruct (built_ops _ _ (HB d)) as (A & B & E & HA & HBk & HE & Inv & An & _ & De & _). fold (nn b d) in *.
    assert (VE : forall c, List.length c = nn b d -> forall i, (i < nn b d)%nat -> (apply (nn b d) E c).[i] = expansion (bs d) (lo b d) (hi b d) (nn b d) c (coord (bs d) (lo b d) (hi b d) (nn b d) i)).
    { intros c Lc i Hi. destruct (eval_is_expansion (bs d) (lo b d) (hi b d) (nn b d) c c Hs Hab Hn Lc Lc) as (v & Ev & _ & Vv). rewrite HE in Ev by auto. injection Ev as <-. now apply Vv. }
    exists (A, B, E). split; auto. split; [|split; auto; split; auto; split].
    - intros l Hl. apply (expansion_unique (bs d) (lo b d) (hi b d) (nn b d)); auto using apply_length. intros m Hm. rewrite <- !VE by (auto using apply_length). now rewrite Inv by apply apply_length.
    - intros i k Hi Hk. unfold phi. rewrite <- VE by (auto using unit_length). now rewrite apply_unit.
    - intros Hc k x Hk. assert (Ed := HBk (unit (nn b d) k) (unit (nn b d) k) (unit_length _ _) (unit_length _ _)).
      destruct (deriv_exact (bs d) (lo b d) (hi b d) (nn b d) _ _ _ Hs Hab Hn (unit_length _ _) (unit_length _ _) Ed) as (_ & D & _).
      replace (Sig (nn b d) (fun l => B l k * phi bs b d l x)) with (expansion (bs d) (lo b d) (hi b d) (nn b d) (apply (nn b d) B (unit (nn b d) k)) x). { apply D. intros; congruence. }
      rewrite expansion_basis by (auto using apply_length; lia). apply Sig_ext. intros l Hl. now rewrite apply_unit.
  Qed.
End Ops.
Lemma kap_compose b d K K' u : kap b d K (kap b d K' u) = kap b d (compose (nn b d) K K') u.
Proof.
  apply (arr_ext b); try apply kap_length. intros p Ip. rewrite !kap_val by auto. unfold compose.
  rewrite (Sig_ext _ _ (fun m => Sig (nn b d) (fun l => K (comp d p) m * K' m l * val b u (setc d p l)))).
  - rewrite Sig_swap. apply Sig_ext. intros l Hl. now rewrite Sig_scal_r.
  - intros m Hm. rewrite kap_val by now apply inbox_setc. rewrite <- Sig_scal. apply Sig_ext. intros l Hl. rewrite comp_setc. replace (setc d (setc d p m) l) with (setc d p l) by (destruct p as [[? ?] ?]; destruct d; reflexivity). ring.
Qed.
Lemma in_place_kap b sc A c : (forall d, schedule b d (sc d) /\ analysis_of (bd b d) (apply (nn b d) (A d))) -> List.length c = npoints b ->
  coeffs_in_place b sc c = Ok (kap b X3 (A X3) (kap b X2 (A X2) (kap b X1 (A X1) c))).
Proof.
  intros H Lc. unfold coeffs_in_place.
  destruct (analysis_ok b (sc X1) X1 true c c _ (proj1 (H X1)) (proj2 (H X1))) as (c1 & E1 & A1); auto. rewrite E1. cbn [rbind]. destruct (along_kap b X1 (A X1) _ c c1 (fun l _ => eq_refl) A1).
  destruct (analysis_ok b (sc X2) X2 true c1 c1 _ (proj1 (H X2)) (proj2 (H X2))) as (c2 & E2 & A2); auto; try apply A1. rewrite E2. cbn [rbind]. destruct (along_kap b X2 (A X2) _ c1 c2 (fun l _ => eq_refl) A2).
  destruct (analysis_ok b (sc X3) X3 true c2 c2 _ (proj1 (H X3)) (proj2 (H X3))) as (c3 & E3 & A3); auto; try apply A2. rewrite E3. destruct (along_kap b X3 (A X3) _ c2 c3 (fun l _ => eq_refl) A3). reflexivity.
Qed.
(** ** The function through the data *)
Definition tensor (bs : dir -> basis) (b : sbox) (c : list R) (P : pos) : R := sum3 b c (fun d k => phi bs b d k (P d)).
(** what the code computes from coefficients c at P *)
Definition basis_at (b : sbox) (d : dir) (k : nat) (x : R) : R := match f_basis (b_f (bd b d)) with Some f => f k (nn b d) x | None => 0 end.
Definition code_value (b : sbox) (c : list R) (P : pos) : R := sum3 b c (fun d k => basis_at b d k (P d)).
Lemma tensor_move bs b c d P t : tensor bs b c (move d P t) = sum3 b c (setw d (fun e k => phi bs b e k (P e)) (fun k => phi bs b d k t)).
Proof. apply sum3_ext. intros e m _. destruct d, e; reflexivity. Qed.
(** ** Coordinates close to the ends *)
Definition csnap (a b X : R) : R := snap ChebExtrema a b X.
Lemma dequal_end a b X e s : a < b -> ((X - a) + (X - b)) / (a - b) - s = 2 * (X - e) / (a - b) -> (dequal (((X - a) + (X - b)) / (a - b)) s = true <-> 2 * Rabs (X - e) <= 1 / 10 ^ 10 * Rabs (b - a)).
Proof.
  intros L E. rewrite dequal_true, E. assert (W : 0 < Rabs (b - a)) by (apply Rabs_pos_lt; lra). unfold Rdiv at 1. rewrite Rabs_mult, Rabs_inv by lra. rewrite Rabs_mult, (Rabs_pos_eq 2) by lra. replace (Rabs (a - b)) with (Rabs (b - a)) by apply Rabs_minus_sym.
  replace dequaleps with (1 / 10 ^ 10) by (unfold dequaleps; lra). split; intros H.
  - apply Rmult_le_compat_r with (r := Rabs (b - a)) in H; [|lra]. rewrite Rmult_assoc, Rinv_l, Rmult_1_r in H by lra. exact H.
  - apply Rmult_le_reg_r with (Rabs (b - a)); auto. rewrite Rmult_assoc, Rinv_l, Rmult_1_r by lra. exact H.
Qed.
Lemma not_dequal x y : ~ (dequal x y = true) -> dequal x y = false. Proof. now destruct (dequal x y). Qed.
Lemma end_a a b X : a < b -> dequal (((X - a) + (X - b)) / (a - b)) 1 = true <-> 2 * Rabs (X - a) <= 1 / 10 ^ 10 * Rabs (b - a).
Proof. intros L. apply dequal_end; auto. field. lra. Qed.
Lemma end_b a b X : a < b -> dequal (((X - a) + (X - b)) / (a - b)) (-1) = true <-> 2 * Rabs (X - b) <= 1 / 10 ^ 10 * Rabs (b - a).
Proof. intros L. apply dequal_end; auto. field. lra. Qed.
Lemma zero_close a b : a < b -> 2 * Rabs (a - a) <= 1 / 10 ^ 10 * Rabs (b - a).
Proof. intros L. rewrite Rminus_diag_eq, Rabs_R0 by auto. pose proof (Rabs_pos (b - a)). lra. Qed.
Lemma ends_apart a b : a < b -> ~ 2 * Rabs (b - a) <= 1 / 10 ^ 10 * Rabs (b - a).
Proof. intros L. assert (W : 0 < Rabs (b - a)) by (apply Rabs_pos_lt; lra). lra. Qed.
Lemma csnap_basis a b k X : a < b -> cheb_basisfunc a b k X = cheb_basisfunc a b k (csnap a b X).
Proof.
  intros L. unfold cheb_basisfunc, csnap, snap. destruct (k =? 0)%nat; auto. destruct (Rle_dec (2 * Rabs (X - a)) _) as [H|H].
  - rewrite (proj2 (end_a a b X L) H), (proj2 (end_a a b a L)); auto. now apply zero_close.
  - rewrite (not_dequal _ _ (fun E => H (proj1 (end_a a b X L) E))). destruct (Rle_dec (2 * Rabs (X - b)) _) as [H'|H'].
    + rewrite (proj2 (end_b a b X L) H'). rewrite not_dequal. 2:{ intros E. apply end_a in E; auto. now apply (ends_apart a b L). }
      rewrite (proj2 (end_b a b b L)); auto. rewrite Rminus_diag_eq, Rabs_R0 by auto. pose proof (Rabs_pos (b - a)). lra.
    + rewrite (not_dequal _ _ (fun E => H (proj1 (end_a a b X L) E))). now rewrite (not_dequal _ _ (fun E => H' (proj1 (end_b a b X L) E))).
Qed.
Lemma snap_near bs a b X : a < b -> a <= X <= b -> a <= snap bs a b X <= b /\ Rabs (snap bs a b X - X) <= / 10 ^ 10 * (b - a) / 2.
Proof.
  intros L IX. unfold snap. assert (W : Rabs (b - a) = b - a) by (apply Rabs_pos_eq; lra). rewrite W.
  assert (G : Rabs (X - X) <= / 10 ^ 10 * (b - a) / 2) by (rewrite Rminus_diag_eq, Rabs_R0 by auto; lra).
  destruct bs; (split; [|]); auto; repeat match goal with |- context [Rle_dec ?x ?y] => destruct (Rle_dec x y) end; auto; try lra; try (rewrite Rabs_minus_sym; lra).
Qed.
Lemma csnap_faithful a b X : a < b -> a <= X <= b -> let y := yof a b (csnap a b X) in y = 1 \/ y = -1 \/ Rabs y < 1 - dequaleps.
Proof.
  intros L IX y. unfold csnap, snap in y. destruct (Rle_dec (2 * Rabs (X - a)) _) as [H|H]; [left; unfold y, yof; field; lra|]. destruct (Rle_dec (2 * Rabs (X - b)) _) as [H'|H']; [right; left; unfold y, yof; field; lra|].
  right. right. rewrite (Rabs_pos_eq (b - a)) in * by lra. rewrite (Rabs_pos_eq (X - a)) in H by lra. rewrite Rabs_minus_sym, (Rabs_pos_eq (b - X)) in H' by lra.
  unfold y, yof. replace ((2 * X - a - b) / (a - b)) with ((a + b - 2 * X) * / (b - a)) by (field; lra). rewrite Rabs_mult, Rabs_inv, (Rabs_pos_eq (b - a)) by lra.
  apply Rmult_lt_reg_r with (b - a); [lra|]. rewrite Rmult_assoc, Rinv_l, Rmult_1_r by lra. unfold dequaleps. apply Rabs_def1; lra.
Qed.
Section Built.
  Variables (bs : dir -> basis) (b : sbox).
  Hypothesis HB : forall d, built (bs d) (bd b d).
  Lemma basis_ok d : exists f, f_basis (b_f (bd b d)) = Some f.
  Proof. destruct (HB d) as (Hs & _ & _ & -> & _). destruct (bs d); try discriminate Hs; eexists; reflexivity. Qed.
  Hypothesis HS : searchable bs b.
  Lemma code_tensor c P : within b P -> code_value b c P = tensor bs b c (snap3 bs b P).
  Proof.
    intros HP. apply sum3_ext. intros d m Hm. destruct (ndir bs b HB d) as (Hn & Hab & Hs). destruct (HB d) as (_ & _ & _ & Ef & _). destruct (HS d) as (L & HF). specialize (HP d).
    assert (Hf : faithful (bs d) (lo b d) (hi b d) (snap3 bs b P d)). { unfold snap3, faithful. destruct (bs d) eqn:Eb; try discriminate Hs; try (now apply (csnap_faithful (lo b d) (hi b d) (P d))). now apply HF. }
    destruct (faithful_basis (bs d) (lo b d) (hi b d) (nn b d) (snap3 bs b P d) Hs Hab Hn Hf) as (f & E & V). unfold basis_at. rewrite Ef. unfold lo, hi in E. rewrite E. unfold phi. rewrite <- V by apply unit_length.
    rewrite (Sig_single _ m); auto. 2:{ intros i _ N. rewrite unit_nth by auto. destruct (Nat.eqb_spec i m); [contradiction|ring]. } rewrite unit_nth, Nat.eqb_refl by auto. rewrite Rmult_1_l.
    revert E. unfold snap3. destruct (bs d) eqn:Eb; try discriminate Hs; cbn [funs_from_pars through_box f_basis]; intros [= <-]; try reflexivity; now apply csnap_basis.
  Qed.
  Lemma interp_ok en q c X Y Z : eenv_ok b en -> List.length c = npoints b -> interp b en q c X Y Z = Ok (code_value b c (at3 X Y Z)).
  Proof.
    intros (_ & _ & HE) Lc. unfold interp. specialize (HE q X Y Z). destruct (e_int en q X Y Z) as [[[ks B1] B2] B3]. destruct HE as (P & L1 & L2 & L3).
    destruct (basis_ok X1) as [f1 E1]. destruct (basis_ok X2) as [f2 E2]. destruct (basis_ok X3) as [f3 E3]. rewrite (C39_interpolate b ks f1 f2 f3); auto. f_equal. unfold code_value, sum3, basis_at. rewrite E1, E2, E3. reflexivity.
  Qed.
  Lemma data_ok u : List.length u = npoints b -> exists (c : list R) (cd : dir -> list R), List.length c = npoints b /\ (forall d, List.length (cd d) = npoints b) /\
    interpolant bs b u (tensor bs b c) /\ (forall d P, has_lone_cosine (bs d) (nn b d) = false -> partial d (tensor bs b c) P (tensor bs b (cd d) P)) /\ (forall d P t, has_lone_cosine (bs d) (nn b d) = false -> continuity_pt (fun t => tensor bs b (cd d) (move d P t)) t) /\
    (forall sc old, (forall d, schedule b d (sc d)) -> List.length old = npoints b -> spec_Coeffs b sc u old = Ok c) /\
    forall d sc old sc', schedule b d sc -> List.length old = npoints b -> (forall d, schedule b d (sc' d)) -> exists du, spec_Deriv1 b sc d false u old = Ok du /\ coeffs_in_place b sc' du = Ok (cd d).
  Proof.
    intros Lu. destruct (ops_ex bs b HB X1) as [[[A1 B1] E1] O1]. destruct (ops_ex bs b HB X2) as [[[A2 B2] E2] O2]. destruct (ops_ex bs b HB X3) as [[[A3 B3] E3] O3].
    set (A := fun d => match d with X1 => A1 | X2 => A2 | X3 => A3 end). set (B := fun d => match d with X1 => B1 | X2 => B2 | X3 => B3 end). set (E := fun d => match d with X1 => E1 | X2 => E2 | X3 => E3 end).
    assert (O : forall d, ops bs b d (A d, B d, E d)) by (intros []; assumption). clear O1 O2 O3.
    set (c := kap b X3 (A X3) (kap b X2 (A X2) (kap b X1 (A X1) u))). exists c, (fun d => kap b d (B d) c). split; [apply kap_length|]. split; [intros; apply kap_length|].
    assert (DD : forall d P t w, has_lone_cosine (bs d) (nn b d) = false -> derivable_pt_lim (fun t => tensor bs b w (move d P t)) t (sum3 b w (setw d (fun e k => phi bs b e k (P e)) (fun m => Sig (nn b d) (fun l => B d l m * phi bs b d l t))))).
    { intros d P t w Hc. destruct (O d) as (_ & _ & _ & _ & _ & D). specialize (D Hc).
      replace (fun t => tensor bs b w (move d P t)) with (fun t => sum3 b w (setw d (fun e k => phi bs b e k (P e)) (fun k => phi bs b d k t))) by (apply functional_extensionality; intros; now rewrite tensor_move).
      apply (sum3_deriv b w d (fun e k => phi bs b e k (P e)) (fun k t => phi bs b d k t)). intros m Hm. now apply D. }
    split; [split|split; [|split; [|split]]].
    - intros d P. destruct (sum3_lin b c d (fun e k => phi bs b e k (P e))) as [Q HQ]. exists (map Q (seq 0 (nn b d))). split; [now rewrite map_length, seq_length|]. intros t. destruct (ndir bs b HB d) as (Hn & _).
      rewrite tensor_move, HQ, expansion_basis by (try lia; now rewrite map_length, seq_length). apply Sig_ext. intros m Hm. now rewrite map_seq_nth.
    - intros p Ip. assert (G : tensor bs b c (gridpos bs b p) = val b (kap b X3 (E X3) (kap b X2 (E X2) (kap b X1 (E X1) c))) p).
      { rewrite kap_val by auto. unfold tensor, sum3. apply Sig_ext. intros k Hk. assert (Ik := inbox_setc b X3 p k Ip Hk). rewrite kap_val by auto. rewrite <- Sig_scal. apply Sig_ext. intros j Hj. assert (Ij := inbox_setc b X2 _ j Ik Hj). rewrite kap_val by auto. rewrite <- !Sig_scal. apply Sig_ext. intros i Hi.
        assert (V : forall d m, (m < nn b d)%nat -> E d (comp d p) m = phi bs b d m (gridpos bs b p d)). { intros d m Hm. destruct (O d) as (_ & _ & _ & _ & V & _). apply V; auto. }
        rewrite <- !V by auto. destruct p as [[x y] z]. cbn [comp setc]. ring. }
      rewrite G. unfold c. assert (II : forall d x, List.length x = npoints b -> kap b d (E d) (kap b d (A d) x) = x) by (intros d x Lx; apply kap_inverse; auto; apply O).
      rewrite (kap_comm b X1 X3 (E X1) (A X3)), (kap_comm b X1 X2 (E X1) (A X2)), (kap_comm b X2 X3 (E X2) (A X3)) by discriminate. rewrite (II X1) by auto. rewrite (II X2) by auto. now rewrite (II X3) by auto.
    - intros d P Hc. unfold partial. unfold tensor at 2. rewrite sum3_kap. now apply DD.
    - intros d P t Hc. apply derivable_continuous_pt. eexists. now apply DD.
    - intros sc old Sc Lo. unfold c. apply coeffs_kap; auto. intros d. split; auto. apply O.
    - intros d sc old sc' Sc Lo Sc'. destruct (O d) as (Inv & Inv' & An & De & _). destruct (C42_deriv1 b d _ u De Lu) as (du & Ld & V & Sq & _). exists du. split; [now apply Sq|].
      assert (Edu : du = kap b d (E d) (kap b d (B d) (kap b d (A d) u))). { rewrite (kap_compose b d (B d) (A d)), kap_compose. apply (arr_ext b); auto; try apply kap_length. intros p Ip. rewrite V by auto. rewrite kap_val, apply_nth by (auto; apply Ip). apply Sig_ext. intros m Hm. now rewrite line_nth. }
      rewrite (in_place_kap b sc' A) by (auto; intros e; split; auto; apply O). f_equal. rewrite Edu. unfold c.
      assert (II : forall x, List.length x = npoints b -> kap b d (A d) (kap b d (E d) x) = x) by (intros x Lx; now apply kap_inverse).
      destruct d.
      + rewrite II by apply kap_length. now rewrite (kap_comm b X2 X1), (kap_comm b X3 X1) by discriminate.
      + rewrite !(kap_comm b X1 X2) by discriminate. rewrite II by apply kap_length. now rewrite (kap_comm b X3 X2) by discriminate.
      + rewrite !(kap_comm b X1 X3), !(kap_comm b X2 X3) by discriminate. now rewrite II by apply kap_length.
  Qed.
End Built.

(** ** The function given to the search *)
Lemma into_box_nearest l h x : l < h -> into_box l h x = (if Rlt_dec x l then true else false, if Rlt_dec h x then true else false, Rmax l (Rmin h x)).
Proof. intros L. unfold into_box, Rmax, Rmin. repeat destruct (Rlt_dec _ _); repeat destruct (Rle_dec _ _); try lra; repeat f_equal; lra. Qed.
Lemma continued_factor b d x f : lo b d < hi b d -> continued (if Rlt_dec x (lo b d) then true else false) (if Rlt_dec (hi b d) x then true else false) (lo b d) (hi b d) x f = f * factor b d x.
Proof. intros L. unfold continued, factor. repeat destruct (Rlt_dec _ _); lra. Qed.
Lemma nearest_within b P : (forall d, lo b d < hi b d) -> within b (nearest b P).
Proof. intros H d. specialize (H d). unfold nearest, Rmax, Rmin. repeat destruct (Rle_dec _ _); lra. Qed.
Lemma nearest_at3 b x y z : nearest b (at3 x y z) = at3 (Rmax (lo b X1) (Rmin (hi b X1) x)) (Rmax (lo b X2) (Rmin (hi b X2) y)) (Rmax (lo b X3) (Rmin (hi b X3) z)).
Proof. apply functional_extensionality. intros []; reflexivity. Qed.
Lemma f3vec_ok bs b en cd : (forall d, built (bs d) (bd b d)) -> searchable bs b -> eenv_ok b en -> (forall d, List.length (cd d) = npoints b) ->
  (fun v => match f3vec b en (cd X1) (cd X2) (cd X3) v with Ok w => w | _ => [] end) = continuation b (fun d P => tensor bs b (cd d) (snap3 bs b P)) /\
  forall x y z w, f3vec b en (cd X1) (cd X2) (cd X3) (x :: y :: z :: w) = Ok (continuation b (fun d P => tensor bs b (cd d) (snap3 bs b P)) (x :: y :: z :: w)).
Proof.
  intros HB HS HE Lc. assert (L : forall d, lo b d < hi b d) by (intros d; apply HS).
  assert (K : forall x y z w, f3vec b en (cd X1) (cd X2) (cd X3) (x :: y :: z :: w) = Ok (continuation b (fun d P => tensor bs b (cd d) (snap3 bs b P)) (x :: y :: z :: w))).
  { intros x y z w. unfold f3vec. rewrite (rd_ok _ 0 0), (rd_ok _ 1 0), (rd_ok _ 2 0) by (cbn [List.length]; lia). cbn [rbind nth]. fold (lo b X1) (hi b X1) (lo b X2) (hi b X2) (lo b X3) (hi b X3). rewrite !into_box_nearest by auto.
    rewrite !(interp_ok bs b HB en) by auto. cbn [rbind]. rewrite <- nearest_at3. rewrite !(code_tensor bs b HB HS) by now apply nearest_within. rewrite !continued_factor by auto. reflexivity. }
  split; auto. apply functional_extensionality. intros v. destruct v as [|x [|y [|z w]]]; try reflexivity. now rewrite K.
Qed.
Lemma flags_outside b P : (forall d, lo b d < hi b d) -> (- (flag (if Rlt_dec (hi b X1) (P X1) then true else false) 8 + flag (if Rlt_dec (hi b X2) (P X2) then true else false) 16 + flag (if Rlt_dec (hi b X3) (P X3) then true else false) 32 +
   flag (if Rlt_dec (P X1) (lo b X1) then true else false) 1 + flag (if Rlt_dec (P X2) (lo b X2) then true else false) 2 + flag (if Rlt_dec (P X3) (lo b X3) then true else false) 4))%Z = (- outside b P)%Z.
Proof. intros _. unfold outside, flag. repeat destruct (Rlt_dec _ _); reflexivity. Qed.
(** ** NumericUtils' zbrent *)
Lemma nr_move a b c fa fb fc d e tol1 : 0 < tol1 -> ~ Rabs (0.5 * (c - b)) <= tol1 -> inside b c (brent_move b (fst (nr_step a b c fa fb fc d e (0.5 * (c - b)) tol1)) (0.5 * (c - b)) tol1).
Proof.
  intros Ht Hx. set (xm := 0.5 * (c - b)) in *. assert (Ec : c = b + 2 * xm) by (unfold xm; lra).
  assert (B : forall dd, 0 <= dd * xm -> Rabs dd <= 2 * Rabs xm -> inside b c (brent_move b dd xm tol1)).
  { intros dd S M. apply inside_iff. unfold brent_move. clearbody xm. subst c. revert Hx M. unfold Rabs. destruct (Rcase_abs dd), (Rcase_abs xm), (Rlt_dec tol1 _), (Rle_dec 0 xm); intros; try lra; try (exfalso; nra). }
  assert (Bx : inside b c (brent_move b xm xm tol1)). { apply B; [nra|]. pose proof (Rabs_pos xm). lra. }
  unfold nr_step. destruct (_ && _); auto. cbv zeta. match goal with |- context [Rabs (fst ?pq)] => set (pq0 := pq) end. set (q := if Rlt_dec 0 (fst pq0) then - snd pq0 else snd pq0). set (p := Rabs (fst pq0)).
  destruct (Rlt_dec (2 * p) _) as [H|H]; auto. cbn [fst]. assert (H1 : 2 * p < 3 * xm * q - Rabs (tol1 * q)) by (eapply Rlt_le_trans; [exact H|apply Rmin_l]). assert (Hp : 0 <= p) by apply Rabs_pos. clearbody p q. clear H.
  rewrite Rabs_mult, (Rabs_pos_eq tol1) in H1 by lra. assert (Nq : q <> 0). { intros ->. rewrite Rabs_R0 in H1. lra. } assert (Aq := Rabs_pos_lt q Nq).
  assert (Pq : 0 < xm * q) by nra. apply B.
  - replace (p / q * xm) with (p * (xm * q) * / (q * q)) by (field; auto). apply Rmult_le_pos; [nra|]. apply Rlt_le, Rinv_0_lt_compat. nra.
  - unfold Rdiv. rewrite Rabs_mult, Rabs_inv, (Rabs_pos_eq p) by auto. apply Rmult_le_reg_r with (Rabs q); auto. rewrite Rmult_assoc, Rinv_l, Rmult_1_r by lra. assert (xm * q = Rabs xm * Rabs q) by (rewrite <- Rabs_mult; symmetry; apply Rabs_pos_eq; lra). nra.
Qed.
Lemma nr_loop_ok f x1 x2 tol n : 0 < tol -> forall j a b c d e, inside x1 x2 a -> inside x1 x2 b -> inside x1 x2 c -> (0 < f b * f c -> f a * f b <= 0) ->
  match nr_loop f tol n j a b c (f a) (f b) (f c) d e with
  | (Some x, k) => (j <= k < j + Z.of_nat n)%Z /\ inside x1 x2 x /\ exists y, inside x1 x2 y /\ f x * f y <= 0 /\ (f x = 0 \/ Rabs (y - x) <= tol + 4 * DOUBLE_EPS * Rabs x)
  | (None, k) => k = (- (j + Z.of_nat n) - 1)%Z end.
Proof.
  intros Ht. induction n as [|n IH]; intros j a b c d e Ha Hb Hc Hs; cbn [nr_loop].
  - lia.
  - assert (P1 : exists c' d' e', (if same_sign (f b) (f c) then (a, f a, b - a, b - a) else (c, f c, d, e)) = (c', f c', d', e') /\ inside x1 x2 c' /\ f b * f c' <= 0).
    { destruct (same_sign (f b) (f c)) eqn:E. - apply same_sign_iff in E. do 3 eexists. split; [reflexivity|]. split; auto. specialize (Hs E). lra. - do 3 eexists. split; [reflexivity|]. split; auto. destruct (Rle_dec (f b * f c) 0); auto. exfalso. rewrite (proj2 (same_sign_iff _ _)) in E by lra. discriminate. }
    destruct P1 as (c' & d' & e' & E1 & Hc' & S1). rewrite E1. cbv beta iota.
    assert (P2 : exists a2 b2 c2, (if Rlt_dec (Rabs (f c')) (Rabs (f b)) then (b, c', b, f b, f c', f b) else (a, b, c', f a, f b, f c')) = (a2, b2, c2, f a2, f b2, f c2) /\ inside x1 x2 a2 /\ inside x1 x2 b2 /\ inside x1 x2 c2 /\ f b2 * f c2 <= 0 /\ Rabs (f b2) <= Rabs (f c2)).
    { destruct (Rlt_dec (Rabs (f c')) (Rabs (f b))). - exists b, c', b. repeat (split; auto). lra. lra. - exists a, b, c'. repeat (split; auto). lra. }
    destruct P2 as (a2 & b2 & c2 & E2 & Ia & Ib & Ic & S2 & L2). rewrite E2. cbv beta iota zeta. set (tol1 := 2 * DOUBLE_EPS * Rabs b2 + 0.5 * tol). set (xm := 0.5 * (c2 - b2)).
    assert (EP := DOUBLE_EPS_pos). assert (AP := Rabs_pos b2). assert (T0 : 0 < tol1). { unfold tol1. assert (0 <= 2 * DOUBLE_EPS * Rabs b2) by (apply Rmult_le_pos; lra). lra. }
    destruct (Rle_dec (Rabs xm) tol1) as [T|T]; cbn [orb].
    + split; [lia|]. split; auto. exists c2. split; auto. split; auto. right. assert (Rabs (c2 - b2) <= 2 * tol1). { replace (c2 - b2) with (2 * xm) by (unfold xm; lra). rewrite Rabs_mult, (Rabs_pos_eq 2) by lra. lra. } unfold tol1 in *. lra.
    + destruct (Req_EM_T (f b2) 0) as [Z|NZ].
      * split; [lia|]. split; auto. exists c2. auto.
      * assert (Hn := nr_move a2 b2 c2 (f a2) (f b2) (f c2) d' e' tol1 T0 T). fold xm in Hn. destruct (nr_step _ _ _ _ _ _ _ _ _ _) as [d3 e3]. cbn [fst] in Hn. set (bn := brent_move b2 d3 xm tol1) in *.
        specialize (IH (j + 1)%Z b2 bn c2 d3 e3 Ib (inside_trans x1 x2 b2 c2 bn Ib Ic Hn) Ic).
        destruct (nr_loop _ _ _ _ _ _ _ _ _ _ _ _) as [[x|] k]; [destruct IH as (I1 & I2)|].
        { intros Q. assert (N2 : f c2 <> 0). { intros Z. rewrite Z, Rabs_R0 in L2. apply Rabs_pos_lt in NZ. lra. } assert (0 < f c2 \/ f c2 < 0) as [W|W] by lra; nra. }
        { split; [lia|auto]. }
        { rewrite IH; [lia|]. intros Q. assert (N2 : f c2 <> 0). { intros Z. rewrite Z, Rabs_R0 in L2. apply Rabs_pos_lt in NZ. lra. } assert (0 < f c2 \/ f c2 < 0) as [W|W] by lra; nra. }
Qed.

(** C39: interpolation in a box. *)
From Verif Require Import Arrays Mat_model Mat_spec Mat_proofs Cheb_model Cheb_spec Cheb_proofs Cheb_props Four_model Four_spec Four_proofs Four_props
  Dir_model Dir_spec Dir_props Lines_model Lines_spec Lines_proofs Lines_kernel Lines_props.
Local Open Scope R_scope.

Lemma forl_sum {A} (l : list A) (body : A -> R -> res R) (g : A -> R) s : (forall x s, In x l -> body x s = Ok (s + g x)) -> forl l body s = Ok (s + lsum g l).
Proof.
  revert s. induction l as [|x l IH]; intros s H; cbn [forl]. { rewrite lsum_nil. f_equal. ring. }
  rewrite H by (now left). cbn [rbind]. rewrite IH by (intros; apply H; now right). rewrite lsum_cons. f_equal. ring.
Qed.
Lemma lsum_perm {A} (f : A -> R) l l' : Permutation l l' -> lsum f l = lsum f l'.
Proof. induction 1; rewrite ?lsum_cons; auto; try lra. Qed.
Lemma lsum_seq f n : lsum f (seq 0 n) = Sig n f.
Proof. induction n as [|n IH]; auto. rewrite seq_S, lsum_app, IH, lsum_cons, lsum_nil, Sig_S. simpl. ring. Qed.
Lemma lsum_perm_seq f l n : Permutation l (seq 0 n) -> lsum f l = Sig n f. Proof. intros P. rewrite (lsum_perm f l _ P). apply lsum_seq. Qed.
Lemma rev_seq_perm n : Permutation (rev (seq 0 n)) (seq 0 n). Proof. apply Permutation_sym, Permutation_rev. Qed.

Lemma basis_values_ok f n X B : List.length B = n -> exists B', basis_values f n X B = Ok B' /\ List.length B' = n /\ forall i, (i < n)%nat -> B'.[i] = f i n X.
Proof.
  intros L. unfold basis_values.
  assert (G : forall l B, (forall i, In i l -> (i < n)%nat) -> List.length B = n -> exists B', forl l (fun i B => wr B i (f i n X)) B = Ok B' /\ List.length B' = n /\ forall i, B'.[i] = if existsb (Nat.eqb i) l then f i n X else B.[i]).
  { induction l as [|i l IH]; intros B0 H L0; cbn [forl]. { exists B0. auto. }
    rewrite wr_ok by (rewrite L0; apply H; now left). cbn [rbind]. destruct (IH (upd B0 i (f i n X))) as (B' & E & L' & V). { intros; apply H; now right. } { now rewrite upd_length. }
    exists B'. split; auto. split; auto. intros j. rewrite V. cbn [existsb]. destruct (existsb (Nat.eqb j) l). { now rewrite orb_true_r. } rewrite orb_false_r. destruct (Nat.eqb_spec j i) as [->|N].
    - rewrite nth_upd_eq; auto. rewrite L0. apply H. now left. - now rewrite nth_upd_ne by auto. }
  destruct (G (rev (seq 0 n)) B) as (B' & E & L' & V); auto. { intros i Hi. apply in_rev, in_seq in Hi. lia. } exists B'. split; auto. split; auto. intros i Hi. rewrite V.
  replace (existsb (Nat.eqb i) (rev (seq 0 n))) with true; auto. symmetry. apply existsb_exists. exists i. split; [apply in_rev; rewrite rev_involutive; apply in_seq; lia|apply Nat.eqb_refl].
Qed.
(** ** spec_interpolate returns the sum of all coefficients times products of basis functions, in whatever order the parallel loop adds *)
Theorem C39_interpolate b ks f1 f2 f3 B1 B2 B3 c X Y Z : f_basis (b_f (bd b X1)) = Some f1 -> f_basis (b_f (bd b X2)) = Some f2 -> f_basis (b_f (bd b X3)) = Some f3 ->
  List.length B1 = nn b X1 -> List.length B2 = nn b X2 -> List.length B3 = nn b X3 -> List.length c = npoints b -> Permutation ks (seq 0 (nn b X3)) ->
  spec_interpolate b ks B1 B2 B3 c X Y Z =
    Ok (Sig (nn b X3) (fun k => Sig (nn b X2) (fun j => Sig (nn b X1) (fun i => val b c (i, j, k) * f1 i (nn b X1) X * f2 j (nn b X2) Y * f3 k (nn b X3) Z)))).
Proof.
  intros H1 H2 H3 L1 L2 L3 Lc P. unfold spec_interpolate. cbn [bd] in H1, H2, H3. rewrite H1, H2, H3.
  destruct (basis_values_ok f1 (nn b X1) X B1 L1) as (B1' & E1 & M1 & V1). destruct (basis_values_ok f2 (nn b X2) Y B2 L2) as (B2' & E2 & M2 & V2). destruct (basis_values_ok f3 (nn b X3) Z B3 L3) as (B3' & E3 & M3 & V3).
  rewrite E1. cbn [rbind]. rewrite E2. cbn [rbind]. rewrite E3. cbn [rbind].
  rewrite (forl_sum ks _ (fun k => Sig (nn b X2) (fun j => Sig (nn b X1) (fun i => val b c (i, j, k) * f1 i (nn b X1) X * f2 j (nn b X2) Y * f3 k (nn b X3) Z)))).
  - rewrite (lsum_perm_seq _ ks _ P). f_equal. ring.
  - intros k s Hk. apply (Permutation_in _ P), in_seq in Hk.
    rewrite (forl_sum _ _ (fun j => Sig (nn b X1) (fun i => val b c (i, j, k) * f1 i (nn b X1) X * f2 j (nn b X2) Y * f3 k (nn b X3) Z))). { now rewrite (lsum_perm_seq _ _ _ (rev_seq_perm _)). }
    intros j s1 Hj. apply in_rev, in_seq in Hj.
    rewrite (forl_sum _ _ (fun i => val b c (i, j, k) * f1 i (nn b X1) X * f2 j (nn b X2) Y * f3 k (nn b X3) Z)). { now rewrite (lsum_perm_seq _ _ _ (rev_seq_perm _)). }
    intros i s2 Hi. apply in_rev, in_seq in Hi.
    assert (Ip : inbox b (i, j, k)) by (apply (inbox_pt b X1 i j k); cbn; lia).
    rewrite (rd_ok c _ 0) by (rewrite Lc; apply (Ixp_lt b (i, j, k) Ip)). cbn [rbind]. rewrite (rd_ok B1' _ 0), (rd_ok B2' _ 0), (rd_ok B3' _ 0) by lia. cbn [rbind]. rewrite V1, V2, V3 by lia. now rewrite val_Ix.
Qed.
(** a NULL basis function ends the program *)
Theorem C39_null b ks B1 B2 B3 c X Y Z : (exists d, f_basis (b_f (bd b d)) = None) -> spec_interpolate b ks B1 B2 B3 c X Y Z = Err.
Proof.
  intros [d H]. unfold spec_interpolate. destruct d; cbn [bd] in H; rewrite H; auto. - destruct (f_basis (b_f (bd1 b))); auto. - destruct (f_basis (b_f (bd1 b))); auto. destruct (f_basis (b_f (bd2 b))); auto.
Qed.

(** coordinates at which the basis functions of a direction are those of its expansion: Chebyshev away from the ends by more than the
    tolerance or exactly at them; Fourier on boxes whose left end is a multiple of their width *)
Definition faithful (bs : basis) (a b X : R) : Prop :=
  match bs with Fourier => exists m, a = INR m * (b - a) | _ => yof a b X = 1 \/ yof a b X = -1 \/ Rabs (yof a b X) < 1 - dequaleps end.
Lemma faithful_basis bs a b n X : spectral bs = true -> a <> b -> (2 <= n)%nat -> faithful bs a b X ->
  exists f, f_basis (through_box (funs_from_pars bs a b)) = Some f /\ forall c, List.length c = n -> Sig n (fun k => c.[k] * f k n X) = expansion bs a b n c X.
Proof.
  intros Hs Hab Hn Hf. destruct bs; try discriminate Hs; cbn [funs_from_pars through_box f_basis expansion] in *; eexists; (split; [reflexivity|]); intros c Lc.
  - rewrite (Sig_ext n _ (fun k => c.[k] * (if (k =? 0)%nat then / 2 else T k (yof a b X)))). 2:{ intros k _. now rewrite C35_basis. }
    destruct n as [|n]; [lia|]. rewrite Sig_S_l. unfold series. replace (S n - 1)%nat with n by lia. cbn [Nat.eqb]. unfold Rdiv. f_equal. apply Sig_ext. intros i _. replace (S i) with (i + 1)%nat by lia. destruct (Nat.eqb_spec (i + 1) 0); [lia|auto].
  - rewrite (Sig_ext n _ (fun k => c.[k] * (if (k =? 0)%nat then / 2 else T k (yof a b X)))). 2:{ intros k _. now rewrite C35_basis. }
    destruct n as [|n]; [lia|]. rewrite Sig_S_l. unfold series. replace (S n - 1)%nat with n by lia. cbn [Nat.eqb]. unfold Rdiv. f_equal. apply Sig_ext. intros i _. replace (S i) with (i + 1)%nat by lia. destruct (Nat.eqb_spec (i + 1) 0); [lia|auto].
  - destruct Hf as [m Ha]. unfold tpoly. apply Sig_ext. intros i Hi. rewrite C39_four_basis by auto.
    replace (2 * PI / (b - a) * X) with (phase_at a b X + 2 * INR m * PI). { rewrite mode_period. ring. } unfold phase_at. rewrite Ha at 1. field. lra.
Qed.
(** ** Interpolating the coefficients of u to a grid point returns the value of u there *)
Theorem C39_grid_values_partial bs b sc u c0 ks B1 B2 B3 p : (forall d, built (bs d) (bd b d) /\ schedule b d (sc d)) -> List.length u = npoints b -> List.length c0 = npoints b ->
  List.length B1 = nn b X1 -> List.length B2 = nn b X2 -> List.length B3 = nn b X3 -> Permutation ks (seq 0 (nn b X3)) -> inbox b p ->
  let X d := coord (bs d) (b_lo (bd b d)) (b_hi (bd b d)) (nn b d) (comp d p) in
  (forall d, faithful (bs d) (b_lo (bd b d)) (b_hi (bd b d)) (X d)) ->
  exists c, spec_Coeffs b sc u c0 = Ok c /\ spec_interpolate b ks B1 B2 B3 c (X X1) (X X2) (X X3) = Ok (val b u p).
Proof.
  intros H Lu Lc L1 L2 L3 P Ip X HX.
  assert (Q : forall d, exists K f, analysis_of (bd b d) (apply (nn b d) (fst K)) /\ f_basis (b_f (bd b d)) = Some f /\ (forall k, (k < nn b d)%nat -> f k (nn b d) (X d) = snd K (comp d p) k) /\
    forall l, List.length l = nn b d -> apply (nn b d) (snd K) (apply (nn b d) (fst K) l) = l).
  { intros d. destruct (H d) as (Hb & _). destruct (built_ops _ _ Hb) as (A & B & E & HA & HB & HE & Inv & An & _). destruct Hb as (Hs & Hab & Hn & Hf & _).
    destruct (faithful_basis (bs d) (b_lo (bd b d)) (b_hi (bd b d)) (nn b d) (X d) Hs Hab Hn (HX d)) as (f & Ef & Vf). exists (A, E), f. cbn [fst snd]. rewrite Hf. repeat split; auto.
    intros k Hk. rewrite <- (apply_unit (nn b d) E (comp d p) k) by (auto; apply Ip).
    destruct (eval_is_expansion (bs d) (b_lo (bd b d)) (b_hi (bd b d)) (nn b d) (unit (nn b d) k) (unit (nn b d) k)) as (v & Ev & _ & Vv); auto using unit_length. fold (nn b d) in HE. rewrite HE in Ev by auto using unit_length. injection Ev as <-.
    rewrite Vv by apply Ip. fold (X d). rewrite <- Vf by apply unit_length. rewrite (Sig_single _ k); auto. { rewrite unit_nth, Nat.eqb_refl by auto. ring. } intros i _ N. rewrite unit_nth by auto. destruct (Nat.eqb_spec i k); [congruence|ring]. }
  destruct (Q X1) as ([A1 E1] & f1 & An1 & Ef1 & V1 & I1). destruct (Q X2) as ([A2 E2] & f2 & An2 & Ef2 & V2 & I2). destruct (Q X3) as ([A3 E3] & f3 & An3 & Ef3 & V3 & I3). cbn [fst snd] in *.
  set (A := fun d => match d with X1 => A1 | X2 => A2 | X3 => A3 end).
  exists (kap b X3 (A X3) (kap b X2 (A X2) (kap b X1 (A X1) u))). split. { apply coeffs_kap; auto. intros []; (split; [apply H|assumption]). }
  set (c := kap b X3 _ _). assert (Lc' : List.length c = npoints b) by apply kap_length. rewrite (C39_interpolate b ks f1 f2 f3); auto. f_equal.
  assert (G : val b (kap b X3 E3 (kap b X2 E2 (kap b X1 E1 c))) p = val b u p).
  { unfold c, A. rewrite (kap_comm b X1 X3), (kap_comm b X1 X2), (kap_comm b X2 X3) by discriminate. rewrite !kap_inverse; auto; try apply kap_length; rewrite kap_inverse; auto. }
  rewrite <- G. rewrite kap_val by auto. apply Sig_ext. intros k Hk. assert (Ik := inbox_setc b X3 p k Ip Hk). rewrite kap_val by auto. rewrite <- Sig_scal. apply Sig_ext. intros j Hj. assert (Ij := inbox_setc b X2 _ j Ik Hj). rewrite kap_val by auto. rewrite <- !Sig_scal. apply Sig_ext. intros i Hi.
  rewrite V1, V2, V3 by auto. destruct p as [[x y] z]. cbn [comp setc]. ring.
Qed.
Example C39_faithful_example : forall m, (m < 3)%nat -> faithful ChebExtrema 0 1 (coord ChebExtrema 0 1 3 m).
Proof.
  intros m Hm. cbn [faithful]. rewrite coord_extremum, yof_Xof by (lia || lra). unfold extremum. replace (INR (3 - 1)) with 2 by (simpl; lra).
  destruct m as [|[|[|m]]]; [left| |right; left|lia].
  - simpl (INR 0). replace (0 * PI / 2) with 0 by field. apply cos_0.
  - right. right. simpl (INR 1). replace (1 * PI / 2) with (PI / 2) by field. rewrite cos_PI2, Rabs_R0. unfold dequaleps. lra.
  - simpl (INR 2). replace ((1 + 1) * PI / 2) with PI by field. apply cos_PI.
Qed.
Print Assumptions C39_interpolate.
Print Assumptions C39_null.
Print Assumptions C39_grid_values_partial.

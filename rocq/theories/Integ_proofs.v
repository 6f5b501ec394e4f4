(** Proof library for integrals; no code is modelled here. *)
From Verif Require Import Arrays Mat_model Mat_spec Mat_proofs Cheb_model Cheb_spec Cheb_proofs Cheb_props Four_model Four_spec Four_proofs Four_props
  Dir_model Dir_spec Dir_props Lines_model Lines_spec Lines_proofs Lines_kernel Integ_spec.
Local Open Scope R_scope.

(** ** one dimension *)
(** the value computed from the coefficients *)
Definition int1d (kind : ikind) (L : R) (n : nat) (c : list R) : R :=
  match kind with
  | chebmeth => 0.5 * c.[0] * L + Sig ((n - 1) / 2) (fun h => c.[2 + 2 * h] * L / (1.0 - INR ((2 + 2 * h) * (2 + 2 * h))))
  | _ => c.[0] * L / INR n
  end.
(** antiderivatives of the Chebyshev polynomials *)
Definition intT (k : nat) (y : R) : R := match k with 0%nat => y | 1%nat => T 2 y / 4 | _ => (T (k + 1) y / INR (k + 1) - T (k - 1) y / INR (k - 1)) / 2 end.
Lemma intT_deriv k y : derivable_pt_lim (intT k) y (T k y).
Proof.
  destruct k as [|[|k]].
  - apply (derivable_pt_lim_ext id); [reflexivity|]. rewrite T_0. apply derivable_pt_lim_id.
  - apply (derivable_pt_lim_ext (mult_real_fct (/ 4) (T 2))). { intros z. unfold mult_real_fct, intT. lra. }
    replace (T 1 y) with (/ 4 * (INR 2 * U' 2 y)). { apply derivable_pt_lim_scal, T_deriv. } rewrite (U'_SS 0), U'_1, U'_0, T_1. simpl. lra.
  - set (m := S (S k)). assert (Hm : (2 <= m)%nat) by (unfold m; lia).
    apply (derivable_pt_lim_ext (fun z => / (2 * INR (m + 1)) * T (m + 1) z - / (2 * INR (m - 1)) * T (m - 1) z)).
    { intros z. assert (Q : intT m z = (T (m + 1) z / INR (m + 1) - T (m - 1) z / INR (m - 1)) / 2) by (unfold m; reflexivity). rewrite Q. field. split; apply not_0_INR; lia. }
    replace (T m y) with (/ (2 * INR (m + 1)) * (INR (m + 1) * U' (m + 1) y) - / (2 * INR (m - 1)) * (INR (m - 1) * U' (m - 1) y)).
    + apply derivable_pt_lim_minus; apply derivable_pt_lim_scal, T_deriv.
    + assert (TU := T_U (m - 1) y). replace (m - 1 + 1)%nat with m in TU by lia. replace (m - 1 + 2)%nat with (m + 1)%nat in TU by lia.
      replace (/ (2 * INR (m + 1)) * (INR (m + 1) * U' (m + 1) y) - / (2 * INR (m - 1)) * (INR (m - 1) * U' (m - 1) y)) with ((U' (m + 1) y - U' (m - 1) y) / 2) by (field; split; apply not_0_INR; lia). lra.
Qed.
Lemma intT_ends k : intT k 1 - intT k (-1) = if Nat.even k then 2 / (1 - INR (k * k)) else 0.
Proof.
  destruct k as [|[|k]].
  - simpl. field.
  - unfold intT. rewrite T_at_1, T_at_m1. simpl. field.
  - set (m := S (S k)). assert (Hm : (2 <= m)%nat) by (unfold m; lia).
    assert (Q : forall z, intT m z = (T (m + 1) z / INR (m + 1) - T (m - 1) z / INR (m - 1)) / 2) by (intros; unfold m; reflexivity). rewrite !Q, !T_at_1, !T_at_m1.
    assert (P : (-1) ^ (m + 1) = (-1) ^ (m - 1)). { replace (m + 1)%nat with (2 + (m - 1))%nat by lia. rewrite pow_add. simpl. ring. } rewrite P.
    assert (N1 : INR (m + 1) = INR m + 1) by (rewrite plus_INR; simpl; ring). assert (N2 : INR (m - 1) = INR m - 1) by (rewrite minus_INR by lia; simpl; ring). rewrite N1, N2, mult_INR.
    assert (B : 2 <= INR m) by (change 2 with (INR 2); now apply le_INR).
    destruct (Nat.even m) eqn:Ev.
    + assert (O : (-1) ^ (m - 1) = -1). { apply Nat.even_spec in Ev. destruct Ev as [h Eh]. replace (m - 1)%nat with (S (2 * (h - 1))) by lia. apply pow_1_odd. } rewrite O. field. repeat split; nra.
    + assert (O : (-1) ^ (m - 1) = 1). { assert (Od : Nat.odd m = true) by (unfold Nat.odd; now rewrite Ev). apply Nat.odd_spec in Od. destruct Od as [h Eh]. replace (m - 1)%nat with (2 * h)%nat by lia. apply pow_1_even. } rewrite O. field. split; nra.
Qed.
(** sum over the even indices *)
Lemma Sig_even n (g : nat -> R) : Sig n (fun i => if Nat.even (i + 1) then g (i + 1)%nat else 0) = Sig (n / 2) (fun h => g (2 + 2 * h)%nat).
Proof.
  induction n as [n IH] using (well_founded_induction lt_wf). destruct n as [|[|n]]; auto.
  - simpl. ring.
  - replace (S (S n) / 2)%nat with (S (n / 2)). 2:{ replace (S (S n)) with (n + 1 * 2)%nat by lia. rewrite Nat.div_add by lia. lia. }
    rewrite (Sig_S (n / 2)), <- IH by lia. rewrite !Sig_S. destruct (Nat.even n) eqn:E.
    + replace (Nat.even (n + 1)) with false by (now rewrite Nat.even_add, E). replace (Nat.even (S n + 1)) with true by (replace (S n + 1)%nat with (n + 2)%nat by lia; now rewrite Nat.even_add, E).
      apply Nat.even_spec in E. destruct E as [h ->]. replace (2 * h / 2)%nat with h by (now rewrite Nat.mul_comm, Nat.div_mul). replace (S (2 * h) + 1)%nat with (2 + 2 * h)%nat by lia. ring.
    + replace (Nat.even (n + 1)) with true by (now rewrite Nat.even_add, E). replace (Nat.even (S n + 1)) with false by (replace (S n + 1)%nat with (n + 2)%nat by lia; now rewrite Nat.even_add, E).
      assert (Od : Nat.odd n = true) by (unfold Nat.odd; now rewrite E). apply Nat.odd_spec in Od. destruct Od as [h ->]. replace ((2 * h + 1) / 2)%nat with h. 2:{ rewrite Nat.add_comm, (Nat.mul_comm 2 h), Nat.div_add by lia. reflexivity. }
      replace (2 * h + 1 + 1)%nat with (2 + 2 * h)%nat by lia. ring.
Qed.
Lemma cheb_integral a b n c : a <> b -> (1 <= n)%nat -> integral (fun X => series c (n - 1) (yof a b X)) a b (int1d chebmeth (b - a) n c).
Proof.
  intros Hab Hn. set (P := fun y => c.[0] / 2 * intT 0 y + Sig (n - 1) (fun i => c.[i + 1] * intT (i + 1) y)).
  exists (fun X => (a - b) / 2 * P (yof a b X)). split.
  - intros X. replace (series c (n - 1) (yof a b X)) with ((a - b) / 2 * (series c (n - 1) (yof a b X) * (2 / (a - b)))) by (field; lra).
    apply (derivable_pt_lim_scal (fun X => P (yof a b X))). apply (derivable_pt_lim_comp (yof a b) P); [apply yof_deriv|]. unfold P, series.
    apply derivable_pt_lim_plus. { apply (lin_deriv (c.[0] / 2)). }
    apply derivable_pt_lim_Sig. intros i _. apply (derivable_pt_lim_scal (intT (i + 1))), intT_deriv.
  - assert (Ya : yof a b a = 1) by (unfold yof; field; lra). assert (Yb : yof a b b = -1) by (unfold yof; field; lra). rewrite Ya, Yb. unfold P, int1d.
    replace ((a - b) / 2 * (c.[0] / 2 * intT 0 (-1) + Sig (n - 1) (fun i => c.[i + 1] * intT (i + 1) (-1))) - (a - b) / 2 * (c.[0] / 2 * intT 0 1 + Sig (n - 1) (fun i => c.[i + 1] * intT (i + 1) 1)))
      with ((b - a) / 2 * (c.[0] / 2 * (intT 0 1 - intT 0 (-1)) + (Sig (n - 1) (fun i => c.[i + 1] * intT (i + 1) 1) - Sig (n - 1) (fun i => c.[i + 1] * intT (i + 1) (-1))))) by (unfold Rdiv; ring).
    rewrite <- Sig_minus. rewrite (Sig_ext (n - 1) _ (fun i => if Nat.even (i + 1) then c.[i + 1] * (2 / (1 - INR ((i + 1) * (i + 1)))) else 0)).
    2:{ intros i _. rewrite <- Rmult_minus_distr_l, intT_ends. destruct (Nat.even (i + 1)); ring. }
    rewrite (Sig_even (n - 1) (fun i => c.[i] * (2 / (1 - INR (i * i))))). rewrite Rmult_plus_distr_l, <- Sig_scal. f_equal.
    + change (intT 0 1) with 1. change (intT 0 (-1)) with (-1). lra.
    + apply Sig_ext. intros h _. replace (1.0 - INR ((2 + 2 * h) * (2 + 2 * h))) with (1 - INR ((2 + 2 * h) * (2 + 2 * h))) by lra. unfold Rdiv. lra.
Qed.
Lemma imode_period i : (1 <= i)%nat -> imode i (2 * PI) = imode i 0.
Proof.
  intros Hi. destruct (Nat.even i) eqn:E.
  - apply Nat.even_spec in E. destruct E as [j ->]. rewrite !imode_even by lia. replace (mode (2 * j - 1) (2 * PI)) with (mode (2 * j - 1) 0); auto. rewrite <- (mode_period _ 0 1). f_equal. simpl. ring.
  - assert (O : Nat.odd i = true) by (unfold Nat.odd; now rewrite E). apply Nat.odd_spec in O. destruct O as [j ->]. replace (2 * j + 1)%nat with (2 * (j + 1) - 1)%nat by lia. rewrite !imode_odd by lia.
    replace (mode (2 * (j + 1)) (2 * PI)) with (mode (2 * (j + 1)) 0); auto. rewrite <- (mode_period _ 0 1). f_equal. simpl. ring.
Qed.
Lemma four_integral a b n c : a <> b -> (1 <= n)%nat -> integral (fun X => tpoly c n (phase_at a b X)) a b (int1d fourmeth (b - a) n c).
Proof.
  intros Hab Hn. assert (PP := PI_RGT_0). assert (N0 : INR n <> 0) by (apply not_0_INR; lia).
  set (P := fun t => c.[0] / INR n * t + Sig (n - 1) (fun i => weight n (i + 1) * c.[i + 1] * imode (i + 1) t)).
  exists (fun X => (b - a) / (2 * PI) * P (phase_at a b X)). split.
  - intros X. replace (tpoly c n (phase_at a b X)) with ((b - a) / (2 * PI) * (tpoly c n (phase_at a b X) * (2 * PI / (b - a)))) by (field; split; lra).
    apply (derivable_pt_lim_scal (fun X => P (phase_at a b X))). apply (derivable_pt_lim_comp (phase_at a b) P); [apply phase_at_deriv|]. unfold P, tpoly.
    destruct n as [|m]; [lia|]. rewrite Sig_S_l. replace (S m - 1)%nat with m by lia. apply derivable_pt_lim_plus.
    + rewrite mode_0. replace (weight (S m) 0 * c.[0] * 1) with (c.[0] / INR (S m)). { apply lin_deriv. } unfold weight. cbn [Nat.eqb orb]. field. auto.
    + rewrite (Sig_ext m _ (fun i => weight (S m) (i + 1) * c.[i + 1] * mode (i + 1) (phase_at a b X))). 2:{ intros i _. now replace (S i) with (i + 1)%nat by lia. }
      apply derivable_pt_lim_Sig. intros i _. apply (derivable_pt_lim_scal (imode (i + 1))). apply imode_deriv. lia.
  - assert (Pa : phase_at a b a = 0) by (unfold phase_at; field; lra). assert (Pb : phase_at a b b = 2 * PI) by (unfold phase_at; field; lra). rewrite Pa, Pb. unfold P, int1d.
    rewrite (Sig_ext (n - 1) (fun i => weight n (i + 1) * c.[i + 1] * imode (i + 1) (2 * PI)) (fun i => weight n (i + 1) * c.[i + 1] * imode (i + 1) 0)). 2:{ intros i _. rewrite imode_period by lia. reflexivity. }
    field. split; lra.
Qed.
Lemma int1d_exact bs a b n c : spectral bs = true -> a <> b -> (2 <= n)%nat -> integral (expansion bs a b n c) a b (int1d (imethod bs) (b - a) n c).
Proof. intros Hs Hab Hn. destruct bs; try discriminate Hs; cbn [imethod expansion]; [apply cheb_integral|apply cheb_integral|apply four_integral]; auto; lia. Qed.

(** ** sequential loops over lines with persistent buffers *)
Lemma lines_seq {S B A : Type} (ar : S -> A -> list R) (bok : B -> Prop) b d body G s bu : extl (A:=A) G -> does ar bok b d body G -> wf ar b s -> bok bu ->
  exists s' bu', for_nat 0 (n_outer b d) (fun k r => for_nat 0 (n_inner b d) (fun j r => body j k r) r) (s, bu) = Ok (s', bu') /\ wf ar b s' /\
    forall j k a, (j < n_inner b d)%nat -> (k < n_outer b d)%nat -> lns ar b d s' j k a = G j k (lns ar b d s j k) a.
Proof.
  intros XG Db W Bu.
  destruct (for_nat_inv (fun m r => wf ar b (fst r) /\ bok (snd r) /\ forall j k a, (j < n_inner b d)%nat -> (k < n_outer b d)%nat -> lns ar b d (fst r) j k a = if (k <? m)%nat then G j k (lns ar b d s j k) a else lns ar b d s j k a)
    (fun k r => for_nat 0 (n_inner b d) (fun j r => body j k r) r) 0 (n_outer b d) (s, bu)) as ([s' bu'] & E & W' & _ & V).
  - lia.
  - cbn [fst snd]. auto.
  - intros m [s1 bu1] Hm (W1 & B1 & V1). cbn [fst snd] in *. destruct (inner_loop ar bok b d body G m s1 bu1) as (s2 & bu2 & E2 & W2 & B2 & V2); auto; [lia|].
    exists (s2, bu2). split; auto. cbn [fst snd]. repeat split; auto. intros j k a Hj Hk. rewrite V2 by auto. destruct (Nat.eqb_spec m k) as [->|N].
    + destruct (Nat.ltb_spec k (k + 1)); [|lia]. apply XG. intros a'. rewrite V1 by auto. destruct (Nat.ltb_spec k k); [lia|auto].
    + rewrite V1 by auto. destruct (Nat.ltb_spec k m), (Nat.ltb_spec k (m + 1)); auto; lia.
  - exists s', bu'. split; auto. split; auto. intros j k a Hj Hk. cbn [fst] in V. rewrite V by auto. destruct (Nat.ltb_spec k (n_outer b d)); [auto|lia].
Qed.
(** the same for bodies that change one array and have no buffers *)
Lemma forl_pair {X} (l : list X) (f : X -> list R -> res (list R)) s : forl l (fun x (r : list R * Datatypes.unit) => do v <- f x (fst r); Ok (v, tt)) (s, tt) = do v <- forl l f s; Ok (v, tt).
Proof. revert s. induction l as [|x l IH]; intros s; cbn [forl rbind]; auto. cbn [fst]. destruct (f x s); cbn [rbind]; auto. Qed.
Lemma lines_fill b d body (F : nat -> nat -> list R -> list R) s : List.length s = npoints b ->
  (forall j k s, (j < n_inner b d)%nat -> (k < n_outer b d)%nat -> List.length s = npoints b -> exists s', body j k s = Ok s' /\ List.length s' = npoints b /\
    forall j' k', (j' < n_inner b d)%nat -> (k' < n_outer b d)%nat -> ln b d s' j' k' = if same j k j' k' then F j k (ln b d s j k) else ln b d s j' k') ->
  exists s', for_nat 0 (n_outer b d) (fun k s => for_nat 0 (n_inner b d) (fun j s => body j k s) s) s = Ok s' /\ List.length s' = npoints b /\
    forall j k, (j < n_inner b d)%nat -> (k < n_outer b d)%nat -> ln b d s' j k = F j k (ln b d s j k).
Proof.
  intros Ls H.
  destruct (lines_seq one (fun _ : Datatypes.unit => True) b d (fun j k r => do v <- body j k (fst r); Ok (v, tt)) (fun j k L _ => F j k (L tt)) s tt) as (s' & [] & E & W & V); auto.
  - intros j k L L' a Q. now rewrite Q.
  - intros j k s1 [] Hj Hk W _. destruct (H j k s1 Hj Hk (W tt)) as (s2 & E2 & L2 & V2). exists s2, tt. cbn [fst]. rewrite E2. cbn [rbind]. split; auto. split; [intros x; exact L2|]. split; auto. intros j' k' x Hj' Hk'. unfold lns, one. now apply V2.
  - intros x. exact Ls.
  - exists s'. split; [|split; [apply (W tt)|intros j k Hj Hk; exact (V j k tt Hj Hk)]].
    assert (G : for_nat 0 (n_outer b d) (fun k r => for_nat 0 (n_inner b d) (fun j (r : list R * Datatypes.unit) => do v <- body j k (fst r); Ok (v, tt)) r) (s, tt) = do v <- for_nat 0 (n_outer b d) (fun k s => for_nat 0 (n_inner b d) (fun j s => body j k s) s) s; Ok (v, tt)).
    { unfold for_nat at 1 3. rewrite <- forl_pair. apply forl_ext. intros k [r []] _. unfold for_nat. now rewrite <- forl_pair. }
    rewrite G in E. destruct (for_nat 0 (n_outer b d) _ s); cbn [rbind] in E; congruence.
Qed.
Lemma fill_line_ok b d s j k x : List.length s = npoints b -> (j < n_inner b d)%nat -> (k < n_outer b d)%nat ->
  exists s', fill_line b d s j k x = Ok s' /\ List.length s' = npoints b /\
    forall j' k', (j' < n_inner b d)%nat -> (k' < n_outer b d)%nat -> ln b d s' j' k' = if same j k j' k' then repeat x (nn b d) else ln b d s j' k'.
Proof.
  intros Ls Hj Hk. destruct (put_memline_ok b s (repeat x (nn b d)) d j k Ls (repeat_length _ _) Hj Hk) as (s' & E & L & V). exists s'. split; auto. rewrite <- E. unfold fill_line, put_memline.
  unfold for_nat. apply forl_ext. intros i s0 Hi. apply in_seq in Hi. rewrite (rd_ok _ _ 0) by (rewrite repeat_length; lia). cbn [rbind]. f_equal. rewrite (nth_indep _ 0 x) by (rewrite repeat_length; lia). now rewrite nth_repeat.
Qed.
(** the effect of spec_Integral1 on every line *)
Lemma integral1_ok b sc kind d alias u Uu A : schedule b d sc -> analysis_of (bd b d) A -> (forall l, List.length l = nn b d -> List.length (A l) = nn b d) -> kind <> nometh -> (1 <= nn b d)%nat -> List.length u = npoints b -> List.length Uu = npoints b -> (alias = true -> Uu = u) ->
  exists V, spec_Integral1 b sc kind d alias u Uu = Ok V /\ along b d (fun l => repeat (int1d kind (b_hi (bd b d) - b_lo (bd b d)) (nn b d) (A l)) (nn b d)) u V.
Proof.
  intros Sc HA LA Hk Hn Lu LU Ha. unfold spec_Integral1. destruct (analysis_ok b sc d alias u Uu A Sc HA Lu LU Ha) as (c & E & Al). rewrite E. cbn [rbind]. cbv zeta. set (L := b_hi (bd b d) - b_lo (bd b d)). set (n := nn b d) in *.
  assert (Lc : List.length c = npoints b) by apply Al.
  assert (RD : forall s i j k, List.length s = npoints b -> (i < n)%nat -> (j < n_inner b d)%nat -> (k < n_outer b d)%nat -> rd s (base b d j k + i * stride b d) = Ok (ln b d s j k).[i]).
  { intros s i j k Ls Hi Hj Hkk. rewrite cell_Ix. assert (Ip : inbox b (pt d i j k)) by (apply inbox_pt; fold n; lia). rewrite (rd_ok _ _ 0) by (rewrite Ls; now apply Ixp_lt). rewrite ln_nth by auto. now rewrite val_Ix. }
  assert (Fin : exists V, match kind with
    | chebmeth => for_nat 0 (n_outer b d) (fun k Uu => for_nat 0 (n_inner b d) (fun j Uu => do x0 <- rd Uu (base b d j k + 0 * stride b d);
        do sum <- for_nat 0 ((n - 1) / 2) (fun h sum => do x <- rd Uu (base b d j k + (2 + 2 * h) * stride b d); Ok (sum + x * L / (1.0 - INR ((2 + 2 * h) * (2 + 2 * h))))) (0.5 * x0 * L); fill_line b d Uu j k sum) Uu) c
    | fourmeth => for_nat 0 (n_outer b d) (fun k Uu => for_nat 0 (n_inner b d) (fun j Uu => do x0 <- rd Uu (base b d j k + 0 * stride b d); fill_line b d Uu j k (x0 * L / INR n)) Uu) c
    | nometh => Err end = Ok V /\ List.length V = npoints b /\ forall j k, (j < n_inner b d)%nat -> (k < n_outer b d)%nat -> ln b d V j k = repeat (int1d kind L n (ln b d c j k)) n).
  { destruct kind; [| |congruence].
    - apply (lines_fill b d _ (fun _ _ l => repeat (int1d chebmeth L n l) n) c Lc). intros j k s Hj Hkk Ls.
      rewrite RD by (auto; lia). cbn [rbind]. rewrite (sum_loop 0 ((n - 1) / 2) _ (fun h => (ln b d s j k).[2 + 2 * h] * L / (1.0 - INR ((2 + 2 * h) * (2 + 2 * h))))).
      + cbn [rbind]. destruct (fill_line_ok b d s j k (int1d chebmeth L n (ln b d s j k)) Ls Hj Hkk) as (s' & E' & L' & V'). exists s'. split; auto. rewrite <- E'. f_equal. unfold int1d. f_equal. rewrite Nat.sub_0_r. apply Sig_ext. intros. reflexivity.
      + intros h sum Hh. rewrite RD by (auto; assert (Q := Nat.mul_div_le (n - 1) 2 ltac:(lia)); lia). reflexivity.
    - apply (lines_fill b d _ (fun _ _ l => repeat (int1d fourmeth L n l) n) c Lc). intros j k s Hj Hkk Ls.
      rewrite RD by (auto; lia). cbn [rbind]. apply fill_line_ok; auto. }
  destruct Fin as (V & EV & LV & VV). exists V. split. { destruct kind; auto. }
  apply along_of_lines; auto. intros j k Hj Hkk. rewrite VV by auto. f_equal. f_equal. destruct (n =? 0)%nat eqn:Z; [apply Nat.eqb_eq in Z; lia|].
  assert (Ip : inbox b (pt d 0 j k)) by (apply inbox_pt; fold n; lia). assert (Q := along_line b d A u c (pt d 0 j k) Ip Al). rewrite !line_ln in Q. destruct (pt_comps d 0 j k) as (_ & Q2 & Q3). rewrite Q2, Q3 in Q. apply Q. apply LA, ln_length.
Qed.

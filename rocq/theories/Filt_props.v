(** C96: filters in the azimuthal direction; C97: 2/3-rule filters. *)
From Verif Require Import Base Rutil Rsum Arrays Loops Params_model Params_spec Params_props Output_model Mat_model Mat_spec Mat_proofs Cheb_spec Four_model Four_spec Four_proofs Four_props
  Dir_model Dir_spec Dir_props Lines_model Lines_spec Lines_proofs Lines_kernel Lines_props Integ_spec Integ_proofs Integ_props Sphere_props Filt_model Filt_spec.
Local Open Scope R_scope.

(** ** facts about filtered lines *)
Lemma line_filtered_det bs D keep l l1 l2 : spectral bs = true -> b_lo D <> b_hi D -> (2 <= b_n D)%nat -> (forall j, keep j \/ ~ keep j) ->
  List.length l1 = b_n D -> List.length l2 = b_n D -> line_filtered bs D keep l l1 -> line_filtered bs D keep l l2 -> l1 = l2.
Proof.
  intros Hs Hab Hn Dk L1 L2 (c & cf & Lc & Lf & V & K & W) (c' & cf' & Lc' & Lf' & V' & K' & W').
  assert (c = c'). { apply (expansion_unique bs (b_lo D) (b_hi D) (b_n D)); auto. intros m Hm. now rewrite V, V' by auto. } subst c'.
  assert (cf = cf'). { apply list_eq_R; [lia|]. intros j Hj. rewrite Lf in Hj. destruct (K j Hj) as [Q1 Q2], (K' j Hj) as [Q1' Q2']. destruct (Dk j) as [Y|N]; [rewrite Q1, Q1' by auto|rewrite Q2, Q2' by auto]; reflexivity. } subst cf'.
  apply list_eq_R; [lia|]. intros j Hj. rewrite L1 in Hj. now rewrite <- W, <- W' by auto.
Qed.
Lemma line_filtered_idem bs D keep l l' : spectral bs = true -> b_lo D <> b_hi D -> (2 <= b_n D)%nat -> line_filtered bs D keep l l' -> line_filtered bs D keep l' l'.
Proof.
  intros Hs Hab Hn (c & cf & Lc & Lf & V & K & W). exists cf, cf. repeat split; auto. now apply K.
Qed.
Lemma line_filtered_ext bs D keep keep' l l' : (forall j, (j < b_n D)%nat -> keep j <-> keep' j) -> line_filtered bs D keep l l' -> line_filtered bs D keep' l l'.
Proof.
  intros H (c & cf & Lc & Lf & V & K & W). exists c, cf. repeat split; auto; intros; apply K; auto; firstorder.
Qed.
Lemma line_filtered_all bs D (keep : nat -> Prop) l l' : List.length l = b_n D -> List.length l' = b_n D -> (2 <= b_n D)%nat -> (forall j, (j < b_n D)%nat -> keep j) -> line_filtered bs D keep l l' -> l' = l.
Proof.
  intros L L' Hn H (c & cf & Lc & Lf & V & K & W). apply list_eq_R; [lia|]. intros m Hm. rewrite L' in Hm. rewrite <- V, <- W by auto. apply expansion_ext; auto. intros j Hj. apply K; auto.
Qed.

(** ** one variable: analysis, change of the coefficients, synthesis *)
Section OneVar.
  Variables (bs : basis) (b : sbox) (d : dir).
  Hypothesis (HB : built bs (bd b d)).
  Lemma one_var sc scs clear keep t iu v : schedule b d sc -> schedule b d scs -> iu <> t -> List.length (v iu) = npoints b -> List.length (v t) = npoints b ->
    (forall c, List.length c = npoints b -> exists c', clear c = Ok c' /\ List.length c' = npoints b /\ forall p, inbox b p -> val b c' p = if keep p : bool then val b c p else 0) ->
    exists v', through_coeffs (fun al u c => spec_analysis1 b sc d al u c) (fun al u c => spec_synthesis1 b scs d al u c) clear t iu v = Ok v' /\
      (forall w, w <> iu -> w <> t -> v' w = v w) /\ List.length (v' iu) = npoints b /\ List.length (v' t) = npoints b /\
      forall p, inbox b p -> line_filtered bs (bd b d) (fun j => keep (setc d p j) = true) (line b d (v iu) p) (line b d (v' iu) p).
  Proof.
    intros S1 S2 Nt Lu Lt Hc. assert (HB' := HB). destruct HB' as (Hs & Hab & Hn & Hf & _). destruct (built_ops _ _ HB) as (A & B & E & CA & CB & CE & Inv & HA & HE & _). set (n := b_n (bd b d)) in *. assert (Nn : nn b d = n) by reflexivity.
    destruct (analysis_ok b sc d false (v iu) (v t) _ S1 HA) as (c & EC & AC); auto; try discriminate. destruct AC as [Lc VC].
    destruct (Hc c Lc) as (c' & Ecl & Lc' & Vc').
    destruct (synthesis_ok b scs d false (v iu) c' _ S2 HE) as (u' & ES & AS); auto; try discriminate. assert (Lu' := proj1 AS).
    unfold through_coeffs. destruct (Nat.eqb_spec iu t) as [|_]; [contradiction|]. rewrite EC. cbn [rbind]. cbv zeta. unfold setv at 1. rewrite Nat.eqb_refl. rewrite Ecl. cbn [rbind].
    unfold setv at 1 2 3. rewrite Nat.eqb_refl. destruct (Nat.eqb_spec iu t) as [|_]; [contradiction|]. rewrite ES. cbn [rbind].
    eexists. split; [reflexivity|]. split. { intros w N1 N2. unfold setv. destruct (Nat.eqb_spec w iu); [contradiction|]. destruct (Nat.eqb_spec w t); [contradiction|reflexivity]. }
    assert (Q : forall x y, setv (setv x t y) iu u' iu = u') by (intros; unfold setv; now rewrite Nat.eqb_refl). rewrite Q. split; auto. split. { unfold setv. rewrite Nat.eqb_refl. destruct (Nat.eqb_spec t iu); [congruence|auto]. }
    intros p Ip. assert (Ln := along_line b d _ _ _ p Ip AS (apply_length _ _ _)).
    assert (Lnc := along_line b d _ _ _ p Ip (conj Lc VC) (apply_length _ _ _)).
    exists (line b d c p), (line b d c' p). split; [apply line_length|]. split; [apply line_length|]. cbv zeta.
    assert (Ex : forall cc m, List.length cc = n -> (m < n)%nat -> expansion bs (b_lo (bd b d)) (b_hi (bd b d)) n cc (coord bs (b_lo (bd b d)) (b_hi (bd b d)) n m) = (apply n E cc).[m]).
    { intros cc m Lcc Hm. destruct (eval_is_expansion bs (b_lo (bd b d)) (b_hi (bd b d)) n cc cc) as (w & Ew & _ & Vw); auto. rewrite (CE cc cc) in Ew by auto. injection Ew as <-. now rewrite Vw. }
    split. { intros m Hm. fold n. rewrite Ex by (auto; apply line_length). rewrite Lnc. change (nn b d) with n. rewrite Inv; auto. apply line_length. }
    split. { intros j Hj. change (nth j (line b d c' p) 0) with ((line b d c' p).[j]). rewrite !line_nth by auto. rewrite Vc' by (apply inbox_setc; auto). split; intros K; destruct (keep (setc d p j)); congruence. }
    intros m Hm. fold n. rewrite Ex by (auto; apply line_length). rewrite Ln. reflexivity.
  Qed.

  (** all variables of the list; [spare v v'] : nothing the thresholds depend on has changed *)
  Lemma all_vars sc scs (clear : arrays -> list R -> res (list R)) keep t idx v : (forall vi, schedule b d (sc vi)) -> (forall vi, schedule b d (scs vi)) -> NoDup idx -> ~ In t idx ->
    (forall w, In w (t :: idx) -> List.length (v w) = npoints b) ->
    (forall v', (forall w, ~ In w (t :: idx) -> v' w = v w) -> forall c, List.length c = npoints b -> exists c', clear v' c = Ok c' /\ List.length c' = npoints b /\ forall p, inbox b p -> val b c' p = if keep p : bool then val b c p else 0) ->
    exists v', for_vars idx (fun vi iu v => through_coeffs (fun al u c => spec_analysis1 b (sc vi) d al u c) (fun al u c => spec_synthesis1 b (scs vi) d al u c) (clear v) t iu v) v = Ok v' /\
      (forall w, ~ In w (t :: idx) -> v' w = v w) /\
      forall iu, In iu idx -> List.length (v' iu) = npoints b /\ forall p, inbox b p -> line_filtered bs (bd b d) (fun j => keep (setc d p j) = true) (line b d (v iu) p) (line b d (v' iu) p).
  Proof.
    intros S1 S2 Nd Nt Lv Hc. unfold for_vars.
    destruct (for_nat_inv (fun m v' => (forall w, ~ In w (t :: idx) -> v' w = v w) /\ List.length (v' t) = npoints b /\
       (forall i, (m <= i < List.length idx)%nat -> v' (nth i idx 0%nat) = v (nth i idx 0%nat)) /\
       forall i, (i < m)%nat -> (i < List.length idx)%nat -> List.length (v' (nth i idx 0%nat)) = npoints b /\ forall p, inbox b p -> line_filtered bs (bd b d) (fun j => keep (setc d p j) = true) (line b d (v (nth i idx 0%nat)) p) (line b d (v' (nth i idx 0%nat)) p))
      (fun vi v => through_coeffs (fun al u c => spec_analysis1 b (sc vi) d al u c) (fun al u c => spec_synthesis1 b (scs vi) d al u c) (clear v) t (nth vi idx 0%nat) v) 0 (List.length idx) v) as (v' & Ev & P1 & _ & _ & P4).
    - lia.
    - split; auto. split; [apply Lv; now left|]. split; auto. intros; lia.
    - intros m w Hm (Q1 & Q2 & Q3 & Q4). assert (Im : In (nth m idx 0%nat) idx) by (apply nth_In; lia).
      assert (Nm : nth m idx 0%nat <> t) by (intros Q; rewrite Q in Im; contradiction).
      destruct (one_var (sc m) (scs m) (clear w) keep t (nth m idx 0%nat) w) as (w' & Ew & R1 & R2 & R3 & R4); auto. { rewrite Q3 by lia. apply Lv. now right. }
      exists w'. split; auto. split. { intros x Hx. rewrite R1; auto. intros ->. apply Hx. now right. intros ->. apply Hx. now left. } split; auto. split.
      + intros i Hi. rewrite R1. { apply Q3. lia. } { intros Q. assert (i = m) by (apply (NoDup_nth idx 0%nat); auto; lia). lia. } intros Q. apply Nt. rewrite <- Q. apply nth_In. lia.
      + intros i Hi Hl. destruct (Nat.eq_dec i m) as [->|Ni].
        * split; auto. intros p Ip. rewrite <- (Q3 m) by lia. now apply R4.
        * rewrite R1. { apply Q4; lia. } { intros Q. assert (i = m) by (apply (NoDup_nth idx 0%nat); auto; lia). lia. } intros Q. apply Nt. rewrite <- Q. apply nth_In. lia.
    - exists v'. split; auto. split; auto. intros iu Hi. apply (In_nth _ _ 0%nat) in Hi as (i & Hi & <-). now apply P4.
  Qed.
End OneVar.

(** ** clearing ranges of coefficients *)
Lemma wrz_wr b s i j k : wrz s (Ixz b (Z.of_nat i) (Z.of_nat j) (Z.of_nat k)) 0 = wr s (Ix b i j k) 0.
Proof.
  unfold wrz, Ixz. replace (Z.of_nat i + Z.of_nat (nn b X1) * (Z.of_nat j + Z.of_nat (nn b X2) * Z.of_nat k))%Z with (Z.of_nat (Ix b i j k)) by (unfold Ix; lia).
  destruct (Z.ltb_spec (Z.of_nat (Ix b i j k)) 0); [lia|]. now rewrite Nat2Z.id.
Qed.
Lemma clear_range_ok b s i0 i1 j0 j1 k0 k1 : List.length s = npoints b -> (i1 <= nn b X1)%nat -> (j1 <= nn b X2)%nat -> (k1 <= nn b X3)%nat ->
  exists s', clear_range b i0 i1 j0 j1 k0 k1 s = Ok s' /\ List.length s' = npoints b /\
    forall p, inbox b p -> val b s' p = if between i0 (comp X1 p) i1 && between j0 (comp X2 p) j1 && between k0 (comp X3 p) k1 then 0 else val b s p.
Proof.
  intros L H1 H2 H3. destruct (clear_nest b s i0 i1 j0 j1 k0 k1 L H1 H2 H3) as (s' & E & Q). exists s'. split; auto. rewrite <- E. unfold clear_range, for_nat. apply forl_ext. intros k s1 _. apply forl_ext. intros j s2 _. apply forl_ext. intros i s3 _. now rewrite wrz_wr.
Qed.
Lemma clear_phi_ok b (sn : nat -> R) sintheta s : List.length s = npoints b -> (forall j, (j < nn b X2)%nat -> sintheta j = Ok (sn j)) ->
  exists s', clear_phi b sintheta s = Ok s' /\ List.length s' = npoints b /\ forall p, inbox b p -> val b s' p = if (comp X3 p <? first_cut (nn b X3) (sn (comp X2 p)))%nat then val b s p else 0.
Proof.
  intros L Hs. unfold clear_phi.
  destruct (for_nat_inv (fun m s' => List.length s' = npoints b /\ forall p, inbox b p -> val b s' p = if (comp X2 p <? m)%nat && negb (comp X3 p <? first_cut (nn b X3) (sn (comp X2 p)))%nat then 0 else val b s p)
    (fun j c => do s <- sintheta j; let ks := first_cut (nn b X3) s in if (nn b X3 <=? ks)%nat then Ok c else for_nat ks (nn b X3) (fun k c => for_nat 0 (nn b X1) (fun i c => wr c (Ix b i j k) 0) c) c) 0 (nn b X2) s) as (s' & E & L' & V).
  - lia.
  - split; auto.
  - intros j w Hj (Lw & Vw). rewrite Hs by lia. cbn [rbind]. cbv zeta. set (ks := first_cut (nn b X3) (sn j)).
    destruct (Nat.leb_spec (nn b X3) ks) as [Le|Gt].
    + exists w. split; auto. split; auto. intros p Ip. rewrite Vw by auto. assert (I3 := Ip X3). destruct (Nat.ltb_spec (comp X2 p) j), (Nat.ltb_spec (comp X2 p) (j + 1)); cbn [andb]; auto; try lia.
      assert (comp X2 p = j) as -> by lia. fold ks. destruct (Nat.ltb_spec (comp X3 p) ks); [reflexivity|lia].
    + destruct (clear_range_ok b w 0 (nn b X1) j (j + 1) ks (nn b X3)) as (w' & Ew & Lw' & Vw'); auto; try lia.
      exists w'. split. { rewrite <- Ew. unfold clear_range, for_nat. replace (j + 1 - j)%nat with 1%nat by lia. cbn [seq]. apply forl_ext. intros k s1 _. cbn [forl]. now destruct (forl _ _ s1). }
      split; auto. intros p Ip. rewrite Vw', Vw by auto. assert (I1 := Ip X1). assert (I3 := Ip X3).
      destruct (between_spec 0 (comp X1 p) (nn b X1)); [|lia]. destruct (between_spec j (comp X2 p) (j + 1)) as [B|B]; cbn [andb].
      * assert (Ej : comp X2 p = j) by lia. rewrite Ej. destruct (Nat.ltb_spec j j); [lia|]. destruct (Nat.ltb_spec j (j + 1)); [|lia]. cbn [andb]. fold ks.
        destruct (between_spec ks (comp X3 p) (nn b X3)), (Nat.ltb_spec (comp X3 p) ks); cbn [negb]; auto; lia.
      * destruct (Nat.ltb_spec (comp X2 p) j), (Nat.ltb_spec (comp X2 p) (j + 1)); cbn [andb]; auto; lia.
  - exists s'. split; auto. split; auto. intros p Ip. rewrite V by auto. assert (I2 := Ip X2). destruct (Nat.ltb_spec (comp X2 p) (nn b X2)); [|lia]. cbn [andb]. now destruct (comp X3 p <? _)%nat.
Qed.
(** the first coefficient removed, in terms of wave numbers *)
Lemma first_cut_wave n s k : (k < first_cut n s)%nat <-> INR (wavenumber k) <= INR (n / 2) * Rabs s.
Proof.
  unfold first_cut, wavenumber. set (x := INR (n / 2) * Rabs s). assert (P : 0 <= x) by (apply Rmult_le_pos; [apply pos_INR|apply Rabs_pos]).
  destruct (proj1 (Rtrunc_nonneg x (Rtrunc x) P) eq_refl) as [H1 H2]. set (z := Rtrunc x) in *.
  assert (Z0 : (0 <= z)%Z). { assert (IZR (-1) < IZR z) by lra. apply lt_IZR in H. lia. }
  assert (D := Nat.div_mod (k + 1) 2 ltac:(lia)). assert (M := Nat.mod_upper_bound (k + 1) 2 ltac:(lia)). set (q := ((k + 1) / 2)%nat) in *.
  rewrite INR_IZR_INZ. split; intros H.
  - assert (Z.of_nat q <= z)%Z by lia. apply IZR_le in H0. lra.
  - assert (IZR (Z.of_nat q) < IZR z + 1) by lra. rewrite <- plus_IZR in H0. apply lt_IZR in H0. lia.
Qed.

(** ** rotations by whole grid points *)
Definition rotc (N : nat) (al : R) (c : list R) (j : nat) : R :=
  if (j =? 0)%nat then c.[0] else if Nat.even j then c.[j] * cos (INR (j / 2) * al) - c.[j - 1] * sin (INR (j / 2) * al)
  else c.[j] * cos (INR ((j + 1) / 2) * al) + (if (j + 1 <? N)%nat then c.[j + 1] * sin (INR ((j + 1) / 2) * al) else 0).
Lemma rotc_tpoly N s c t : (1 <= N)%nat -> (exists m, t = phase N m) -> tpoly (map (rotc N (phase N s) c) (seq 0 N)) N t = tpoly c N (t + phase N s).
Proof.
  intros HN [m Et]. unfold tpoly. rewrite (pairs_split N) by auto. rewrite (pairs_split N (fun i => weight N i * nth i c 0 * mode i (t + phase N s))) by auto. set (c' := map _ _). assert (Nc : forall j, (j < N)%nat -> c'.[j] = rotc N (phase N s) c j) by (intros j Hj; unfold c'; now rewrite map_seq_nth).
  f_equal. { rewrite Nc by lia. unfold rotc. cbn [Nat.eqb]. reflexivity. }
  apply Sig_ext. intros i Hi. set (q := (i + 1)%nat). assert (Hq : (1 <= q /\ 2 * q <= N)%nat). { assert (N = 2 * (N / 2) + N mod 2)%nat by (apply Nat.div_mod; lia). unfold q. lia. }
  rewrite !mode_odd by lia. rewrite Nc by lia. unfold rotc at 1. destruct (Nat.eqb_spec (2 * q - 1) 0); [lia|]. rewrite even_pred2 by lia. replace (2 * q - 1 + 1)%nat with (2 * q)%nat by lia. rewrite half2. rewrite (Rmult_plus_distr_l (INR q)), cos_plus.
  destruct (Nat.ltb_spec (2 * q) N) as [Lt|Ge].
  - rewrite !mode_even by lia. rewrite Nc by lia. unfold rotc. destruct (Nat.eqb_spec (2 * q) 0); [lia|]. rewrite even_2, half2. rewrite (Rmult_plus_distr_l (INR q)), sin_plus. assert (Wq : (2 * q + 1 < N \/ Nat.even N = false)%nat). { destruct (Nat.eq_dec (2 * q + 1) N) as [Q|]; [right|left; lia]. rewrite <- Q, Nat.add_1_r, Nat.even_succ, <- Nat.negb_even, even_2. reflexivity. }
    rewrite (weight_in N (2 * q - 1)), (weight_in N (2 * q)) by (auto; lia || (left; lia)). ring.
  - assert (E : Nat.even N = true) by (replace N with (2 * q)%nat by lia; apply even_2). assert (Q : (N / 2)%nat = q) by (replace N with (2 * q)%nat by lia; apply half2). rewrite <- Q. rewrite (phase_half N s) by auto. rewrite (sin_eq_0_1 (INR s * PI)). 2:{ exists (Z.of_nat s). now rewrite <- INR_IZR_INZ. } ring.
Qed.
Lemma phase_mod N m s i : (1 <= N)%nat -> mode i (phase N ((m + s) mod N)) = mode i (phase N m + phase N s).
Proof.
  intros HN. rewrite <- (mode_period i (phase N ((m + s) mod N)) ((m + s) / N)). f_equal. unfold phase. assert (INR N <> 0) by (apply not_0_INR; lia).
  assert (D := Nat.div_mod (m + s) N ltac:(lia)). apply (f_equal INR) in D. rewrite !plus_INR, mult_INR in D. replace (INR m) with (INR N * INR ((m + s) / N) + INR ((m + s) mod N) - INR s) by lra. field. auto.
Qed.
Lemma coord_phase a b n m : a <> b -> (1 <= n)%nat -> phase_at a b (coord Fourier a b n m) = phase n m.
Proof. intros H Hn. rewrite coord_fourier. unfold phase_at, phase. assert (INR n <> 0) by (apply not_0_INR; lia). field. split; lra. Qed.
Lemma rotated_expansion a b n s c l : a <> b -> (1 <= n)%nat -> (forall m, (m < n)%nat -> expansion Fourier a b n c (coord Fourier a b n m) = l.[m]) ->
  forall l', rotated n s l l' -> forall m, (m < n)%nat -> expansion Fourier a b n (map (rotc n (phase n s) c) (seq 0 n)) (coord Fourier a b n m) = l'.[m].
Proof.
  intros Hab Hn V l' Hr m Hm. cbn [expansion] in *. rewrite coord_phase by auto. rewrite rotc_tpoly by eauto. rewrite Hr by auto. rewrite <- V by (apply Nat.mod_upper_bound; lia). rewrite coord_phase by auto. unfold tpoly. apply Sig_ext. intros i Hi. f_equal. symmetry. now apply phase_mod.
Qed.
Lemma wn_pair j : (1 <= j)%nat -> Nat.even j = true -> wavenumber (j - 1) = wavenumber j.
Proof. intros H E. apply Nat.even_spec in E as [q ->]. unfold wavenumber. replace (2 * q - 1 + 1)%nat with (2 * q)%nat by lia. rewrite half2. apply (Nat.div_unique (2 * q + 1) 2 q 1); lia. Qed.
Lemma line_filtered_rot D (keep : nat -> Prop) s l l' l2 l2' : b_lo D <> b_hi D -> (1 <= b_n D)%nat -> (forall i j, wavenumber i = wavenumber j -> keep i -> keep j) -> rotated (b_n D) s l l2 -> rotated (b_n D) s l' l2' ->
  line_filtered Fourier D keep l l' -> line_filtered Fourier D keep l2 l2'.
Proof.
  intros Hab Hn Hk R1 R2 (c & cf & Lc & Lf & V & K & W). set (n := b_n D) in *. exists (map (rotc n (phase n s) c) (seq 0 n)), (map (rotc n (phase n s) cf) (seq 0 n)).
  split; [now rewrite map_length, seq_length|]. split; [now rewrite map_length, seq_length|]. split. { intros m Hm. now apply rotated_expansion with (l := l). } split; [|intros m Hm; now apply rotated_expansion with (l := l')].
  intros j Hj. fold n in Hj. rewrite !(map_seq_nth (rotc n (phase n s) _)) by auto. unfold rotc. destruct (Nat.eqb_spec j 0) as [->|Nj]. { apply K. auto. }
  destruct (Nat.even j) eqn:Ej.
  - assert (Q := wn_pair j ltac:(lia) Ej). destruct (K j Hj) as [A1 A2], (K (j - 1)%nat ltac:(fold n; lia)) as [B1 B2]. split; intros Y.
    + rewrite A1, B1; auto. apply (Hk j); auto. + rewrite A2, B2; auto. ring. intros Z'. apply Y. now apply (Hk (j - 1)%nat).
  - destruct (K j Hj) as [A1 A2]. destruct (Nat.ltb_spec (j + 1) n) as [Lt|Ge].
    + assert (Ej' : Nat.even (j + 1) = true) by (rewrite Nat.add_1_r, Nat.even_succ, <- Nat.negb_even, Ej; reflexivity). assert (Q := wn_pair (j + 1) ltac:(lia) Ej'). replace (j + 1 - 1)%nat with j in Q by lia. destruct (K (j + 1)%nat ltac:(fold n; lia)) as [B1 B2]. split; intros Y.
      * rewrite A1, B1; auto. apply (Hk j); auto. * rewrite A2, B2; auto. ring. intros Z'. apply Y. now apply (Hk (j + 1)%nat).
    + split; intros Y; [rewrite A1 by auto|rewrite A2 by auto]; ring.
Qed.

(** ** C96: in SphericalDF coordinates the filter keeps, on the circle at polar angle theta, exactly the Fourier modes with m <= (n3/2) |sin theta| *)
Lemma rd_pt b l j : List.length l = npoints b -> (forall d, (1 <= nn b d)%nat) -> (j < nn b X2)%nat -> rd l (Ix b 0 j 0) = Ok (val b l (0%nat, j, 0%nat)).
Proof. intros L H Hj. unfold rd. rewrite (nth_error_nth' l 0). { reflexivity. } rewrite L. apply (Ixp_lt b (0, j, 0)%nat). intros []; cbn [comp]; auto; apply H. Qed.
Theorem C96_sphericalDF b sc scs t iY idx v : built Fourier (bd b X3) -> (forall d, (1 <= nn b d)%nat) -> (forall vi, schedule b X3 (sc vi) /\ schedule b X3 (scs vi)) -> NoDup idx -> ~ In t idx -> ~ In iY (t :: idx) ->
  (forall w, In w (iY :: t :: idx) -> List.length (v w) = npoints b) ->
  let theta p := val b (v iY) (0%nat, comp X2 p, 0%nat) + PI / INR ((1 + nn b X2 mod 2) * nn b X2) in
  exists v', filter_SphericalDF b sc scs t iY idx v = Ok v' /\ (forall w, ~ In w (t :: idx) -> v' w = v w) /\
    forall iu, In iu idx -> List.length (v' iu) = npoints b /\ forall p, inbox b p ->
      line_filtered Fourier (bd b X3) (fun j => INR (wavenumber j) <= INR (nn b X3 / 2) * Rabs (sin (theta p))) (line b X3 (v iu) p) (line b X3 (v' iu) p).
Proof.
  intros HB H1 Sc Nd Nt NY Lv theta. set (sn := fun j => sin (val b (v iY) (0%nat, j, 0%nat) + PI / INR ((1 + nn b X2 mod 2) * nn b X2))).
  destruct (all_vars Fourier b X3 HB sc scs (fun v => clear_phi b (sin_DF b (v iY))) (fun p => (comp X3 p <? first_cut (nn b X3) (sn (comp X2 p)))%nat) t idx v) as (v' & E & P1 & P2); auto; try (intros vi; apply Sc). { intros w Hw. apply Lv. now right. }
  - intros v' Hv c Lc. apply clear_phi_ok; auto. intros j Hj. unfold sin_DF. rewrite Hv by auto. rewrite rd_pt; auto. apply Lv. now left.
  - exists v'. split; [exact E|]. split; auto. intros iu Hi. destruct (P2 iu Hi) as [L P]. split; auto. intros p Ip. apply (line_filtered_ext _ _ _ _ _ _) with (2 := P p Ip). intros j Hj. rewrite Nat.ltb_lt, comp_setc, first_cut_wave. replace (comp X2 (setc X3 p j)) with (comp X2 p) by (destruct p as [[? ?] ?]; reflexivity). reflexivity.
Qed.
(** in Spherical, Spherical2 and Spherical3 coordinates theta is the angle of the point with indices (0,j,0) to the z-axis; its distance to the centre must not be zero *)
Theorem C96_spherical b sc scs t ix iy iz idx v : built Fourier (bd b X3) -> (forall d, (1 <= nn b d)%nat) -> (forall vi, schedule b X3 (sc vi) /\ schedule b X3 (scs vi)) -> NoDup idx -> ~ In t idx ->
  (forall w, In w [ix; iy; iz] -> ~ In w (t :: idx)) -> (forall w, In w (ix :: iy :: iz :: t :: idx) -> List.length (v w) = npoints b) ->
  let x p := val b (v ix) (0%nat, comp X2 p, 0%nat) in let y p := val b (v iy) (0%nat, comp X2 p, 0%nat) in let z p := val b (v iz) (0%nat, comp X2 p, 0%nat) in
  let r p := sqrt (x p * x p + y p * y p + z p * z p) in (forall p, inbox b p -> x p <> 0 \/ y p <> 0 \/ z p <> 0) ->
  exists v', filter_Spherical b sc scs t ix iy iz idx v = Ok v' /\ (forall w, ~ In w (t :: idx) -> v' w = v w) /\
    forall iu, In iu idx -> List.length (v' iu) = npoints b /\ forall p, inbox b p ->
      line_filtered Fourier (bd b X3) (fun j => INR (wavenumber j) * r p <= INR (nn b X3 / 2) * sqrt (x p * x p + y p * y p)) (line b X3 (v iu) p) (line b X3 (v' iu) p).
Proof.
  intros HB H1 Sc Nd Nt NY Lv x y z r Hr. set (pj := fun j => (0%nat, j, 0%nat) : point). set (sn := fun j => sin (acos (z (pj j) / r (pj j)))).
  assert (Rp : forall p, inbox b p -> 0 < r p). { intros p Ip. unfold r. apply sqrt_lt_R0. destruct (Hr p Ip) as [Q|[Q|Q]]; nra. }
  destruct (all_vars Fourier b X3 HB sc scs (fun v => clear_phi b (sin_xyz b (v ix) (v iy) (v iz))) (fun p => (comp X3 p <? first_cut (nn b X3) (sn (comp X2 p)))%nat) t idx v) as (v' & E & P1 & P2); auto; try (intros vi; apply Sc). { intros w Hw. apply Lv. do 3 right. auto. }
  - intros v' Hv c Lc. apply clear_phi_ok; auto. intros j Hj. assert (Ij : inbox b (pj j)) by (intros []; cbn [comp pj]; auto; apply H1). unfold sin_xyz. rewrite !Hv by (apply NY; cbn; auto). rewrite !rd_pt by (auto; apply Lv; cbn; auto). cbn [rbind]. cbv zeta.
    change (sqrt _) with (r (pj j)). destruct (Req_EM_T (r (pj j)) 0) as [Q|_]; [specialize (Rp _ Ij); lra|]. reflexivity.
  - exists v'. split; [exact E|]. split; auto. intros iu Hi. destruct (P2 iu Hi) as [L P]. split; auto. intros p Ip. apply (line_filtered_ext _ _ _ _ _ _) with (2 := P p Ip). intros j Hj. rewrite Nat.ltb_lt, comp_setc, first_cut_wave. replace (comp X2 (setc X3 p j)) with (comp X2 p) by (destruct p as [[? ?] ?]; reflexivity).
    unfold sn. change (z (pj (comp X2 p))) with (z p). change (r (pj (comp X2 p))) with (r p). assert (Q := Rp p Ip). set (h := sqrt (x p * x p + y p * y p)).
    assert (A : Rabs (sin (acos (z p / r p))) = h / r p).
    { assert (Rr : r p * r p = x p * x p + y p * y p + z p * z p) by (unfold r; apply sqrt_sqrt; nra).
      assert (Rz : -1 <= z p / r p <= 1). { split; [apply Rmult_le_reg_r with (r p)|apply Rmult_le_reg_r with (r p)]; auto; unfold Rdiv; rewrite Rmult_assoc, Rinv_l by lra; nra. }
      rewrite sin_acos by auto. rewrite Rabs_pos_eq by apply sqrt_pos. unfold h. replace (1 - (z p / r p)²) with ((x p * x p + y p * y p) / (r p)²). { rewrite sqrt_div_alt by (unfold Rsqr; nra). f_equal. apply sqrt_Rsqr. lra. } unfold Rsqr. replace (x p * x p + y p * y p) with (r p * r p - z p * z p) by lra. field. lra. }
    rewrite A. split; intros K.
    + apply Rmult_le_compat_r with (r := r p) in K; [|lra]. unfold Rdiv in K. rewrite <- !Rmult_assoc in K. rewrite (Rmult_assoc _ (/ r p)), Rinv_l, Rmult_1_r in K by lra. exact K.
    + apply Rmult_le_reg_r with (r p); auto. unfold Rdiv. rewrite <- !Rmult_assoc, (Rmult_assoc _ (/ r p)), Rinv_l, Rmult_1_r by lra. exact K.
Qed.

Lemma lines_equal b d u w : List.length u = npoints b -> List.length w = npoints b -> (forall p, inbox b p -> line b d u p = line b d w p) -> u = w.
Proof. intros L1 L2 H. apply (arr_ext b); auto. intros p Ip. rewrite <- (line_self b d u p Ip), <- (line_self b d w p Ip). now rewrite H. Qed.
Lemma built_basic bs D : built bs D -> spectral bs = true /\ b_lo D <> b_hi D /\ (2 <= b_n D)%nat. Proof. intros (A & B & C & _). auto. Qed.
Lemma wave_dec x : forall j, INR (wavenumber j) <= x \/ ~ INR (wavenumber j) <= x.
Proof. intros j. destruct (Rle_dec (INR (wavenumber j)) x); auto. Qed.
(** filtering twice is filtering once *)
Theorem C96_again b sc scs sc' scs' t iY idx v v' v'' : built Fourier (bd b X3) -> (forall d, (1 <= nn b d)%nat) -> (forall vi, schedule b X3 (sc vi) /\ schedule b X3 (scs vi)) -> (forall vi, schedule b X3 (sc' vi) /\ schedule b X3 (scs' vi)) -> NoDup idx -> ~ In t idx -> ~ In iY (t :: idx) ->
  (forall w, In w (iY :: t :: idx) -> List.length (v w) = npoints b /\ List.length (v' w) = npoints b) ->
  filter_SphericalDF b sc scs t iY idx v = Ok v' -> filter_SphericalDF b sc' scs' t iY idx v' = Ok v'' -> forall iu, In iu idx -> v'' iu = v' iu.
Proof.
  intros HB H1 S1 S2 Nd Nt NY Lv E1 E2 iu Hi. destruct (built_basic _ _ HB) as (Hs & Hab & Hn).
  destruct (C96_sphericalDF b sc scs t iY idx v) as (x & Ex & Px & Qx); auto. { intros w Hw. now apply Lv. } assert (x = v') by congruence. subst x.
  destruct (C96_sphericalDF b sc' scs' t iY idx v') as (x & Ex' & Px' & Qx'); auto. { intros w Hw. now apply Lv. } assert (x = v'') by congruence. subst x.
  destruct (Qx iu Hi) as [L P], (Qx' iu Hi) as [L' P']. apply (lines_equal b X3); auto. intros p Ip. specialize (P p Ip). specialize (P' p Ip). rewrite (Px iY NY) in P'.
  apply line_filtered_idem in P; auto. exact (line_filtered_det Fourier (bd b X3) _ _ _ _ Hs Hab Hn (wave_dec _) (line_length _ _ _ _) (line_length _ _ _ _) P' P).
Qed.
(** filtering commutes with rotations about the axis by whole grid points *)
Theorem C96_rotation b sc scs sc' scs' t iY idx v w v' w' s : built Fourier (bd b X3) -> (forall d, (1 <= nn b d)%nat) -> (forall vi, schedule b X3 (sc vi) /\ schedule b X3 (scs vi)) -> (forall vi, schedule b X3 (sc' vi) /\ schedule b X3 (scs' vi)) -> NoDup idx -> ~ In t idx -> ~ In iY (t :: idx) ->
  (forall x, In x (iY :: t :: idx) -> List.length (v x) = npoints b /\ List.length (w x) = npoints b) -> w iY = v iY ->
  (forall iu i j k, In iu idx -> inbox b (i, j, k) -> val b (w iu) (i, j, k) = val b (v iu) (i, j, (k + s) mod nn b X3)%nat) ->
  filter_SphericalDF b sc scs t iY idx v = Ok v' -> filter_SphericalDF b sc' scs' t iY idx w = Ok w' ->
  forall iu i j k, In iu idx -> inbox b (i, j, k) -> val b (w' iu) (i, j, k) = val b (v' iu) (i, j, (k + s) mod nn b X3)%nat.
Proof.
  intros HB H1 S1 S2 Nd Nt NY Lv EY Hrot E1 E2 iu i j k Hi Ip. destruct (built_basic _ _ HB) as (Hs & Hab & Hn).
  destruct (C96_sphericalDF b sc scs t iY idx v) as (x & Ex & Px & Qx); auto. { intros q Hq. now apply Lv. } assert (x = v') by congruence. subst x.
  destruct (C96_sphericalDF b sc' scs' t iY idx w) as (x & Ex' & Px' & Qx'); auto. { intros q Hq. now apply Lv. } assert (x = w') by congruence. subst x.
  destruct (Qx iu Hi) as [L P], (Qx' iu Hi) as [L' P']. specialize (P _ Ip). specialize (P' _ Ip). rewrite EY in P'. set (n := nn b X3) in *. assert (n = b_n (bd b X3)) by reflexivity.
  assert (Rl : forall (a : list R), exists a', List.length a' = n /\ rotated n s a a'). { intros a. exists (map (fun m => a.[(m + s) mod n]) (seq 0 n)). split; [now rewrite map_length, seq_length|]. intros m Hm. now rewrite (map_seq_nth (fun m => a.[(m + s) mod n])). }
  destruct (Rl (line b X3 (v' iu) (i, j, k))) as (l2' & Ll & Rr).
  assert (R0 : rotated n s (line b X3 (v iu) (i, j, k)) (line b X3 (w iu) (i, j, k))).
  { intros m Hm. assert (Im := Ip). apply inbox_inv in Im. change (nth m (line b X3 (w iu) (i, j, k)) 0) with ((line b X3 (w iu) (i, j, k)).[m]). rewrite !line_nth by (auto; apply Nat.mod_upper_bound; unfold n in Hm; lia). cbn [setc]. apply Hrot; auto. intros []; cbn [comp]; unfold n in Hm; lia. }
  assert (F := line_filtered_rot (bd b X3) _ s _ _ _ _ Hab ltac:(lia) (fun a c Q => eq_ind (wavenumber a) (fun u => INR (wavenumber a) <= _ -> INR u <= _) (fun z => z) _ Q) R0 Rr P).
  assert (l2' = line b X3 (w' iu) (i, j, k)). { exact (line_filtered_det Fourier (bd b X3) _ _ _ _ Hs Hab Hn (wave_dec _) Ll (line_length _ _ _ _) F P'). } subst l2'.
  specialize (Rr k (Ip X3)). change (nth k (line b X3 (w' iu) (i, j, k)) 0) with ((line b X3 (w' iu) (i, j, k)).[k]) in Rr. rewrite !line_nth in Rr by (try apply (Ip X3); apply Nat.mod_upper_bound; fold n; lia). cbn [setc] in Rr. exact Rr.
Qed.
(** on the equator nothing changes; on the axis only the mean of the circle remains *)
Lemma line_mean D l l' : b_lo D <> b_hi D -> (2 <= b_n D)%nat -> line_filtered Fourier D (fun j => wavenumber j = 0%nat) l l' -> forall m, (m < b_n D)%nat -> l'.[m] = Sig (b_n D) (fun k => l.[k]) / INR (b_n D).
Proof.
  intros Hab Hn (c & cf & Lc & Lf & V & K & W) m Hm. set (n := b_n D) in *. cbv zeta in *. rewrite <- W by auto. cbn [expansion] in *. rewrite coord_phase by (auto; lia).
  assert (c0 : cf.[0] = Sig n (fun k => l.[k])).
  { destruct (K 0%nat ltac:(lia)) as [Q _]. rewrite Q by reflexivity. rewrite (Sig_ext n _ (fun k => Sig n (fun i => c.[i] * (weight n i * (mode 0 (phase n k) * mode i (phase n k)))))).
    2:{ intros k Hk. rewrite <- V by auto. rewrite coord_phase by (auto; lia). unfold tpoly. apply Sig_ext. intros i Hi. rewrite mode_0. ring. }
    rewrite Sig_swap. rewrite (Sig_single n 0); [|lia|].
    - rewrite Sig_scal. rewrite Sig_scal. rewrite (orth_k n 0 0) by lia. unfold delta. cbn [Nat.eqb]. ring.
    - intros i Hi Ni. rewrite Sig_scal, Sig_scal, (orth_k n 0 i) by lia. unfold delta. destruct (Nat.eqb_spec 0 i); [congruence|ring]. }
  unfold tpoly. rewrite (Sig_single n 0); [|lia|]. { rewrite weight_0, mode_0, c0. unfold Rdiv. ring. }
  intros i Hi Ni. destruct (K i Hi) as [_ Q]. rewrite Q. { ring. } unfold wavenumber. intros Z'. apply Nat.div_small_iff in Z'; lia.
Qed.
Theorem C96_equator_axis b sc scs t iY idx v v' : built Fourier (bd b X3) -> (forall d, (1 <= nn b d)%nat) -> (forall vi, schedule b X3 (sc vi) /\ schedule b X3 (scs vi)) -> NoDup idx -> ~ In t idx -> ~ In iY (t :: idx) ->
  (forall w, In w (iY :: t :: idx) -> List.length (v w) = npoints b) -> filter_SphericalDF b sc scs t iY idx v = Ok v' ->
  forall iu i j k, In iu idx -> inbox b (i, j, k) -> let s := sin (val b (v iY) (0%nat, j, 0%nat) + PI / INR ((1 + nn b X2 mod 2) * nn b X2)) in
    (Rabs s = 1 -> val b (v' iu) (i, j, k) = val b (v iu) (i, j, k)) /\
    (s = 0 -> val b (v' iu) (i, j, k) = Sig (nn b X3) (fun m => val b (v iu) (i, j, m)) / INR (nn b X3)).
Proof.
  intros HB H1 S1 Nd Nt NY Lv E iu i j k Hi Ip s. destruct (built_basic _ _ HB) as (Hs & Hab & Hn).
  destruct (C96_sphericalDF b sc scs t iY idx v) as (x & Ex & Px & Qx); auto. assert (x = v') by congruence. subst x. destruct (Qx iu Hi) as [L P]. specialize (P _ Ip). cbn [comp] in P. fold s in P.
  rewrite <- (line_self b X3 (v' iu) _ Ip), <- (line_self b X3 (v iu) _ Ip). split; intros Es.
  - rewrite Es in P. rewrite (line_filtered_all Fourier (bd b X3) _ _ _ (line_length _ _ _ _) (line_length _ _ _ _) Hn) with (2 := P); auto.
    intros q Hq. rewrite Rmult_1_r. apply le_INR. unfold wavenumber. change (b_n (bd b X3)) with (nn b X3) in Hq. apply Nat.div_le_mono; lia.
  - rewrite Es, Rabs_R0, Rmult_0_r in P. rewrite (line_mean (bd b X3) (line b X3 (v iu) (i, j, k))); auto.
    + f_equal. apply Sig_ext. intros m Hm. now rewrite line_nth.
    + apply (line_filtered_ext _ _ _ _ _ _) with (2 := P). intros q Hq. split; intros Z'; [|rewrite Z'; cbn; lra]. destruct (wavenumber q); auto. exfalso. rewrite S_INR in Z'. assert (Q := pos_INR n). lra.
    + apply (Ip X3).
Qed.

(** each box gets the filter its Coordinates parameter asks for, the other boxes are left alone *)
Theorem C96_boxes nb par bx sc scs t iY ix iy iz idx g g' : filter_coords nb par bx sc scs t iY ix iy iz idx g = Ok g' -> forall i,
  ((nb <= i)%nat -> g' i = g i) /\
  ((i < nb)%nat -> getv (par i) (S_ "SphericalDF") = true -> filter_SphericalDF (bx i) (sc i) (scs i) t iY idx (g i) = Ok (g' i)) /\
  ((i < nb)%nat -> getv (par i) (S_ "SphericalDF") = false -> (exists s, In s [S_ "Spherical"; S_ "Spherical2"; S_ "Spherical3"] /\ getv (par i) s = true) -> filter_Spherical (bx i) (sc i) (scs i) t ix iy iz idx (g i) = Ok (g' i)) /\
  ((forall s, In s [S_ "SphericalDF"; S_ "Spherical"; S_ "Spherical2"; S_ "Spherical3"] -> getv (par i) s = false) -> g' i = g i).
Proof.
  intros E. set (body := fun i (g : nat -> arrays) => let set x := fun j => if (j =? i)%nat then x else g j in
    if getv (par i) (S_ "SphericalDF") then do x <- filter_SphericalDF (bx i) (sc i) (scs i) t iY idx (g i); Ok (set x)
    else if getv (par i) (S_ "Spherical") || getv (par i) (S_ "Spherical2") || getv (par i) (S_ "Spherical3") then do x <- filter_Spherical (bx i) (sc i) (scs i) t ix iy iz idx (g i); Ok (set x)
    else Ok g). change (for_nat 0 nb body g = Ok g') in E.
  set (P := fun i (a a' : arrays) => (getv (par i) (S_ "SphericalDF") = true -> filter_SphericalDF (bx i) (sc i) (scs i) t iY idx a = Ok a') /\
    (getv (par i) (S_ "SphericalDF") = false -> (exists s, In s [S_ "Spherical"; S_ "Spherical2"; S_ "Spherical3"] /\ getv (par i) s = true) -> filter_Spherical (bx i) (sc i) (scs i) t ix iy iz idx a = Ok a') /\
    ((forall s, In s [S_ "SphericalDF"; S_ "Spherical"; S_ "Spherical2"; S_ "Spherical3"] -> getv (par i) s = false) -> a' = a)).
  assert (B : forall i h h', body i h = Ok h' -> (forall j, j <> i -> h' j = h j) /\ P i (h i) (h' i)).
  { intros i h h' Q. unfold body in Q. cbv zeta in Q. destruct (getv (par i) (S_ "SphericalDF")) eqn:G.
    - destruct (filter_SphericalDF _ _ _ _ _ _ _) as [x| |] eqn:F; try discriminate. injection Q as <-. split. { intros j Hj. destruct (Nat.eqb_spec j i); congruence. } rewrite Nat.eqb_refl. repeat split; try (intros; congruence). intros A. rewrite (A (S_ "SphericalDF")) in G by (left; auto). discriminate.
    - destruct (getv (par i) (S_ "Spherical") || getv (par i) (S_ "Spherical2") || getv (par i) (S_ "Spherical3")) eqn:O.
      + destruct (filter_Spherical _ _ _ _ _ _ _ _ _) as [x| |] eqn:F; try discriminate. injection Q as <-. split. { intros j Hj. destruct (Nat.eqb_spec j i); congruence. } rewrite Nat.eqb_refl. repeat split; try (intros; congruence). intros A. rewrite !A in O by (cbn; auto). discriminate.
      + injection Q as <-. split; auto. repeat split; try congruence. intros _ (s & [<-|[<-|[<-|[]]]] & Hs); rewrite Hs in O; rewrite ?orb_true_r in O; discriminate. }
  assert (Q : forall n h h', for_nat 0 n body h = Ok h' -> forall i, ((n <= i)%nat -> h' i = h i) /\ ((i < n)%nat -> P i (h i) (h' i))).
  { induction n as [|n IH]; intros h h' Eh i. { cbn in Eh. injection Eh as <-. split; auto. lia. }
    unfold for_nat in Eh. rewrite Nat.sub_0_r in Eh. replace (S n) with (n + 1)%nat in Eh by lia. rewrite seq_app, forl_app in Eh. cbn [seq forl Nat.add] in Eh.
    destruct (forl (seq 0 n) body h) as [h1| |] eqn:E1; try discriminate. cbn [rbind] in Eh. assert (E1' : for_nat 0 n body h = Ok h1) by (unfold for_nat; now rewrite Nat.sub_0_r).
    destruct (IH h h1 E1' i) as [I1 I2]. destruct (body n h1) as [h2| |] eqn:E2; try discriminate. injection Eh as <-. destruct (B n h1 h2 E2) as [B1 B2]. split.
    - intros Hi. rewrite B1 by lia. apply I1. lia.
    - intros Hi. destruct (Nat.eq_dec i n) as [->|Ni]. { rewrite I1 in B2 by lia. exact B2. } rewrite B1 by auto. apply I2. lia. }
  intros i. destruct (Q nb g g' E i) as [Q1 Q2]. split; auto. split. { intros Hi. apply (Q2 Hi). } split. { intros Hi. apply (Q2 Hi). } intros A. destruct (Nat.lt_ge_cases i nb) as [Hi|Hi]; auto. now apply (Q2 Hi).
Qed.

(** ** C97: the 2/3-rule filters *)
Theorem C97_inX bs b sc scs t idx v : built bs (bd b X1) -> (forall vi, schedule b X1 (sc vi) /\ schedule b X1 (scs vi)) -> NoDup idx -> ~ In t idx -> (forall w, In w (t :: idx) -> List.length (v w) = npoints b) ->
  exists v', filter_2o3_X b sc scs t idx v = Ok v' /\ (forall w, ~ In w (t :: idx) -> v' w = v w) /\
    forall iu, In iu idx -> List.length (v' iu) = npoints b /\ forall p, inbox b p -> line_filtered bs (bd b X1) (fun j => j < 2 * (nn b X1 / 3))%nat (line b X1 (v iu) p) (line b X1 (v' iu) p).
Proof.
  intros HB Sc Nd Nt Lv.
  destruct (all_vars bs b X1 HB sc scs (fun _ => clear_range b (two_thirds (nn b X1)) (nn b X1) 0 (nn b X2) 0 (nn b X3)) (fun p => (comp X1 p <? 2 * (nn b X1 / 3))%nat) t idx v) as (v' & E & P1 & P2); auto; try (intros vi; apply Sc).
  - intros v' Hv c Lc. destruct (clear_range_ok b c (two_thirds (nn b X1)) (nn b X1) 0 (nn b X2) 0 (nn b X3) Lc) as (c' & Ec & Lc' & Vc); auto. exists c'. split; auto. split; auto. intros p Ip. rewrite Vc by auto. assert (I1 := Ip X1). assert (I2 := Ip X2). assert (I3 := Ip X3).
    destruct (between_spec 0 (comp X2 p) (nn b X2)); [|lia]. destruct (between_spec 0 (comp X3 p) (nn b X3)); [|lia]. unfold two_thirds. destruct (between_spec (nn b X1 / 3 * 2) (comp X1 p) (nn b X1)), (Nat.ltb_spec (comp X1 p) (2 * (nn b X1 / 3))); cbn [andb]; auto; lia.
  - exists v'. split; [exact E|]. split; auto. intros iu Hi. destruct (P2 iu Hi) as [L P]. split; auto. intros p Ip. apply (line_filtered_ext _ _ _ _ _ _) with (2 := P p Ip). intros j Hj. now rewrite Nat.ltb_lt, comp_setc.
Qed.
Theorem C97_minus1 bs b sc scs t idx v : built bs (bd b X1) -> (forall vi, schedule b X1 (sc vi) /\ schedule b X1 (scs vi)) -> NoDup idx -> ~ In t idx -> (forall w, In w (t :: idx) -> List.length (v w) = npoints b) ->
  exists v', filter_2o3_minus1_X b sc scs t idx v = Ok v' /\ (forall w, ~ In w (t :: idx) -> v' w = v w) /\
    forall iu, In iu idx -> List.length (v' iu) = npoints b /\ forall p, inbox b p -> line_filtered bs (bd b X1) (fun j => wavenumber j < nn b X1 / 3)%nat (line b X1 (v iu) p) (line b X1 (v' iu) p).
Proof.
  intros HB Sc Nd Nt Lv.
  destruct (all_vars bs b X1 HB sc scs (fun _ => clear_range b (two_thirds (nn b X1) - 1) (nn b X1) 0 (nn b X2) 0 (nn b X3)) (fun p => (comp X1 p <? 2 * (nn b X1 / 3) - 1)%nat) t idx v) as (v' & E & P1 & P2); auto; try (intros vi; apply Sc).
  - intros v' Hv c Lc. destruct (clear_range_ok b c (two_thirds (nn b X1) - 1) (nn b X1) 0 (nn b X2) 0 (nn b X3) Lc) as (c' & Ec & Lc' & Vc); auto. exists c'. split; auto. split; auto. intros p Ip. rewrite Vc by auto. assert (I1 := Ip X1). assert (I2 := Ip X2). assert (I3 := Ip X3).
    destruct (between_spec 0 (comp X2 p) (nn b X2)); [|lia]. destruct (between_spec 0 (comp X3 p) (nn b X3)); [|lia]. unfold two_thirds. destruct (between_spec (nn b X1 / 3 * 2 - 1) (comp X1 p) (nn b X1)), (Nat.ltb_spec (comp X1 p) (2 * (nn b X1 / 3) - 1)); cbn [andb]; auto; lia.
  - exists v'. split; [exact E|]. split; auto. intros iu Hi. destruct (P2 iu Hi) as [L P]. split; auto. intros p Ip. apply (line_filtered_ext _ _ _ _ _ _) with (2 := P p Ip). intros j Hj. rewrite Nat.ltb_lt, comp_setc. unfold wavenumber. assert (D := Nat.div_mod (j + 1) 2 ltac:(lia)). assert (M := Nat.mod_upper_bound (j + 1) 2 ltac:(lia)). lia.
Qed.
(** all three directions: the coefficients with every index below its cut remain, the others are removed *)
Theorem C97_inXYZ b sc scs A E t idx v : (forall d, analysis_of (bd b d) (apply (nn b d) (A d)) /\ synthesis_of (bd b d) (apply (nn b d) (E d)) /\ forall vi, schedule b d (sc vi d) /\ schedule b d (scs vi d)) -> (forall d, (1 <= nn b d)%nat) ->
  NoDup idx -> ~ In t idx -> (forall w, In w (t :: idx) -> List.length (v w) = npoints b) ->
  exists v', filter_2o3_XYZ b sc scs t idx v = Ok v' /\ (forall w, ~ In w (t :: idx) -> v' w = v w) /\
    forall iu, In iu idx -> List.length (v' iu) = npoints b /\ exists c c', List.length c' = npoints b /\
      (forall s c0, (forall d, schedule b d (s d)) -> List.length c0 = npoints b -> spec_Coeffs b s (v iu) c0 = Ok c) /\
      (forall p, inbox b p -> ((forall d, comp d p < 2 * (nn b d / 3))%nat -> val b c' p = val b c p) /\ ((exists d, 2 * (nn b d / 3) <= comp d p)%nat -> val b c' p = 0)) /\
      (forall s u0, (forall d, schedule b d (s d)) -> List.length u0 = npoints b -> spec_Eval b s u0 c' = Ok (v' iu)).
Proof.
  intros H H1 Nd Nt Lv.
  set (rel := fun u u' : list R => List.length u' = npoints b /\ exists c c', List.length c' = npoints b /\
      (forall s c0, (forall d, schedule b d (s d)) -> List.length c0 = npoints b -> spec_Coeffs b s u c0 = Ok c) /\
      (forall p, inbox b p -> ((forall d, comp d p < 2 * (nn b d / 3))%nat -> val b c' p = val b c p) /\ ((exists d, 2 * (nn b d / 3) <= comp d p)%nat -> val b c' p = 0)) /\
      (forall s u0, (forall d, schedule b d (s d)) -> List.length u0 = npoints b -> spec_Eval b s u0 c' = Ok u')).
  change (exists v', filter_2o3_XYZ b sc scs t idx v = Ok v' /\ (forall w, ~ In w (t :: idx) -> v' w = v w) /\ forall iu, In iu idx -> rel (v iu) (v' iu)).
  set (clear := fun c => do c <- clear_range b (two_thirds (nn b X1)) (nn b X1) 0 (nn b X2) 0 (nn b X3) c; do c <- clear_range b 0 (two_thirds (nn b X1) + 1) (two_thirds (nn b X2)) (nn b X2) 0 (nn b X3) c;
              clear_range b 0 (two_thirds (nn b X1) + 1) 0 (two_thirds (nn b X2) + 1) (two_thirds (nn b X3)) (nn b X3) c).
  assert (T : forall d, (two_thirds (nn b d) + 1 <= nn b d)%nat). { intros d. unfold two_thirds. assert (Q := H1 d). assert (D := Nat.div_mod (nn b d) 3 ltac:(lia)). lia. }
  assert (Cl : forall c, List.length c = npoints b -> exists c', clear c = Ok c' /\ List.length c' = npoints b /\ forall p, inbox b p -> ((forall d, comp d p < 2 * (nn b d / 3))%nat -> val b c' p = val b c p) /\ ((exists d, 2 * (nn b d / 3) <= comp d p)%nat -> val b c' p = 0)).
  { intros c Lc. unfold clear.
    destruct (clear_range_ok b c (two_thirds (nn b X1)) (nn b X1) 0 (nn b X2) 0 (nn b X3) Lc) as (c1 & E1 & L1 & V1); auto. rewrite E1. cbn [rbind].
    destruct (clear_range_ok b c1 0 (two_thirds (nn b X1) + 1) (two_thirds (nn b X2)) (nn b X2) 0 (nn b X3) L1) as (c2 & E2 & L2 & V2); auto. rewrite E2. cbn [rbind].
    destruct (clear_range_ok b c2 0 (two_thirds (nn b X1) + 1) 0 (two_thirds (nn b X2) + 1) (two_thirds (nn b X3)) (nn b X3) L2) as (c3 & E3 & L3 & V3); auto. exists c3. split; auto. split; auto.
    intros p Ip. rewrite V3, V2, V1 by auto. assert (I1 := Ip X1). assert (I2 := Ip X2). assert (I3 := Ip X3). unfold two_thirds in *. set (q1 := (nn b X1 / 3)%nat) in *. set (q2 := (nn b X2 / 3)%nat) in *. set (q3 := (nn b X3 / 3)%nat) in *. split.
    - intros Q. assert (Q1 := Q X1). assert (Q2 := Q X2). assert (Q3 := Q X3). fold q1 in Q1. fold q2 in Q2. fold q3 in Q3.
      destruct (between_spec (q3 * 2) (comp X3 p) (nn b X3)); [lia|]. destruct (between_spec (q2 * 2) (comp X2 p) (nn b X2)); [lia|]. destruct (between_spec (q1 * 2) (comp X1 p) (nn b X1)); [lia|]. rewrite !andb_false_r. reflexivity.
    - intros Q. destruct (between_spec (q1 * 2) (comp X1 p) (nn b X1)) as [B1|B1].
      { destruct (between_spec 0 (comp X2 p) (nn b X2)); [|lia]. destruct (between_spec 0 (comp X3 p) (nn b X3)); [|lia]. cbn [andb]. repeat match goal with |- context [if ?x then _ else _] => destruct x end; reflexivity. }
      destruct (between_spec 0 (comp X1 p) (q1 * 2 + 1)); [|lia]. cbn [andb].
      destruct (between_spec (q2 * 2) (comp X2 p) (nn b X2)) as [B2|B2].
      { destruct (between_spec 0 (comp X3 p) (nn b X3)); [|lia]. cbn [andb]. repeat match goal with |- context [if ?x then _ else _] => destruct x end; reflexivity. }
      destruct (between_spec 0 (comp X2 p) (q2 * 2 + 1)); [|lia]. cbn [andb]. destruct (between_spec (q3 * 2) (comp X3 p) (nn b X3)) as [B3|B3]; auto.
      exfalso. destruct Q as [[] Q]; [fold q1 in Q|fold q2 in Q|fold q3 in Q]; lia. }
  unfold filter_2o3_XYZ, for_vars. cbv zeta. fold clear.
  destruct (for_nat_inv (fun m v' => (forall w, ~ In w (t :: idx) -> v' w = v w) /\ List.length (v' t) = npoints b /\ (forall i, (m <= i < List.length idx)%nat -> v' (nth i idx 0%nat) = v (nth i idx 0%nat)) /\ forall i, (i < m)%nat -> (i < List.length idx)%nat -> rel (v (nth i idx 0%nat)) (v' (nth i idx 0%nat)))
      (fun vi v => through_coeffs (fun al u c => if al : bool then UB else spec_Coeffs b (sc vi) u c) (fun al u c => if al : bool then UB else spec_Eval b (scs vi) u c) clear t (nth vi idx 0%nat) v) 0 (List.length idx) v) as (v' & Ev & P1 & _ & _ & P4).
  - lia.
  - split; auto. split; [apply Lv; now left|]. split; auto. intros; lia.
  - intros m w Hm (Q1 & Q2 & Q3 & Q4). set (iu := nth m idx 0%nat) in *. assert (Im : In iu idx) by (apply nth_In; lia). assert (Nm : iu <> t) by (intros Q; rewrite Q in Im; contradiction).
    assert (Lw : List.length (w iu) = npoints b) by (unfold iu; rewrite Q3 by lia; apply Lv; now right).
    unfold through_coeffs. destruct (Nat.eqb_spec iu t) as [|_]; [contradiction|].
    assert (EC : forall s c0, (forall d, schedule b d (s d)) -> List.length c0 = npoints b -> spec_Coeffs b s (w iu) c0 = Ok (kap b X3 (A X3) (kap b X2 (A X2) (kap b X1 (A X1) (w iu))))).
    { intros s c0 Hs Lc0. apply coeffs_kap; auto. intros d. split; auto. apply (H d). }
    set (c := kap b X3 _ _) in EC. assert (Lc : List.length c = npoints b) by apply kap_length. rewrite EC; auto. 2:{ intros d. apply (H d). } cbn [rbind]. cbv zeta.
    unfold setv at 1. rewrite Nat.eqb_refl. destruct (Cl c Lc) as (c' & Ec' & Lc' & Vc'). rewrite Ec'. cbn [rbind]. unfold setv at 1 2 3. rewrite Nat.eqb_refl. destruct (Nat.eqb_spec iu t) as [|_]; [contradiction|].
    assert (EE : forall s u0, (forall d, schedule b d (s d)) -> List.length u0 = npoints b -> spec_Eval b s u0 c' = Ok (kap b X3 (E X3) (kap b X2 (E X2) (kap b X1 (E X1) c')))).
    { intros s u0 Hs Lu0. apply eval_kap; auto. intros d. split; auto. apply (H d). }
    set (u' := kap b X3 (E X3) _) in EE. assert (Lu' : List.length u' = npoints b) by apply kap_length. rewrite EE; auto. 2:{ intros d. apply (H d). } cbn [rbind]. eexists. split; [reflexivity|].
    assert (Sv : forall x y z, setv (setv (setv w t y) t z) iu u' x = if (x =? iu)%nat then u' else if (x =? t)%nat then z else w x) by (intros; unfold setv; destruct (x =? iu)%nat, (x =? t)%nat; auto).
    split. { intros x Hx. rewrite Sv. destruct (Nat.eqb_spec x iu) as [->|]; [exfalso; apply Hx; now right|]. destruct (Nat.eqb_spec x t) as [->|]; [exfalso; apply Hx; now left|]. auto. }
    split. { rewrite Sv, Nat.eqb_refl. now destruct (Nat.eqb_spec t iu). } split.
    + intros i Hi. rewrite Sv. destruct (Nat.eqb_spec (nth i idx 0%nat) iu) as [Q|_]. { exfalso. assert (i = m) by (apply (NoDup_nth idx 0%nat); auto; lia). lia. } destruct (Nat.eqb_spec (nth i idx 0%nat) t) as [Q|_]. { exfalso. apply Nt. rewrite <- Q. apply nth_In. lia. } apply Q3. lia.
    + intros i Hi Hl. rewrite Sv. destruct (Nat.eqb_spec (nth i idx 0%nat) iu) as [Q|Nq].
      * rewrite Q. split; auto. exists c, c'. assert (Wm : w iu = v iu) by (apply Q3; lia). rewrite <- Wm. split; auto.
      * destruct (Nat.eqb_spec (nth i idx 0%nat) t) as [Q|_]. { exfalso. apply Nt. rewrite <- Q. apply nth_In. lia. } apply Q4; auto. destruct (Nat.eq_dec i m) as [->|]; [exfalso; now apply Nq|lia].
  - exists v'. split; auto. split; auto. intros iu Hi. apply (In_nth _ _ 0%nat) in Hi as (i & Hi & <-). now apply P4.
Qed.
(** constants survive if there are at least 3 points *)
Lemma const_filtered bs D (keep : nat -> Prop) l l' a : spectral bs = true -> b_lo D <> b_hi D -> (2 <= b_n D)%nat -> keep 0%nat -> line_filtered bs D keep l l' -> (forall m, (m < b_n D)%nat -> l.[m] = a) -> forall m, (m < b_n D)%nat -> l'.[m] = a.
Proof.
  intros Hs Hab Hn K0 (c & cf & Lc & Lf & V & K & W) Hl m Hm. set (n := b_n D) in *. cbv zeta in *.
  set (c0 := map (fun j => if (j =? 0)%nat then match bs with Fourier => INR n * a | _ => 2 * a end else 0) (seq 0 n)).
  assert (N0 : forall j, (j < n)%nat -> c0.[j] = if (j =? 0)%nat then match bs with Fourier => INR n * a | _ => 2 * a end else 0) by (intros j Hj; unfold c0; now rewrite (map_seq_nth (fun j => if (j =? 0)%nat then match bs with Fourier => INR n * a | _ => 2 * a end else 0))).
  assert (L0 : List.length c0 = n) by (unfold c0; now rewrite map_length, seq_length).
  assert (Q : forall X, expansion bs (b_lo D) (b_hi D) n c0 X = a).
  { intros X. assert (INR n <> 0) by (apply not_0_INR; lia). assert (Sr : forall y, bs <> Fourier -> series c0 (n - 1) y = a).
    { intros y Hb. unfold series. rewrite Sig_zero. { rewrite N0 by lia. cbn [Nat.eqb]. destruct bs; try congruence; lra. } intros i Hi. rewrite N0 by lia. destruct (Nat.eqb_spec (i + 1) 0); [lia|]. cbn. destruct (Nat.eqb_spec (S i) 0); try lia; ring. }
    destruct bs; try discriminate Hs; cbn [expansion]; try (apply Sr; discriminate). unfold tpoly. rewrite (Sig_single n 0); [|lia|]. { rewrite N0 by lia. cbn [Nat.eqb]. rewrite weight_0, mode_0. field. auto. } intros i Hi Ni. rewrite N0 by auto. destruct (Nat.eqb_spec i 0); [contradiction|ring]. }
  assert (c = c0). { apply (expansion_unique bs (b_lo D) (b_hi D) n); auto. intros i Hi. rewrite V, Q, Hl; auto. } subst c.
  rewrite <- W by auto. rewrite <- (Q (coord bs (b_lo D) (b_hi D) n m)). apply expansion_ext; auto. intros j Hj. destruct (K j Hj) as [A B]. destruct (Nat.eq_dec j 0) as [->|Nj]; [now apply A|].
  destruct (Req_dec (cf.[j]) 0) as [Z'|Z'].
  - rewrite Z', N0 by auto. destruct (Nat.eqb_spec j 0); [contradiction|auto].
  - rewrite N0 by auto. destruct (Nat.eqb_spec j 0); [contradiction|]. destruct (Rle_dec 0 0) as [_|F]; [|exfalso; apply F; lra].
    (* keep is not decidable in general: cf_j <> 0 contradicts both cases *)
    exfalso. assert (~ ~ keep j) by (intros Nk; apply Z'; now apply B). apply H. intros Y. apply Z'. rewrite A by auto. rewrite N0 by auto. destruct (Nat.eqb_spec j 0); [contradiction|auto].
Qed.
Theorem C97_constant_partial bs b sc scs t idx v v' : built bs (bd b X1) -> (forall vi, schedule b X1 (sc vi) /\ schedule b X1 (scs vi)) -> NoDup idx -> ~ In t idx -> (forall w, In w (t :: idx) -> List.length (v w) = npoints b) ->
  filter_2o3_X b sc scs t idx v = Ok v' \/ filter_2o3_minus1_X b sc scs t idx v = Ok v' -> (3 <= nn b X1)%nat -> forall iu a, In iu idx -> (forall p, inbox b p -> val b (v iu) p = a) -> forall p, inbox b p -> val b (v' iu) p = a.
Proof.
  intros HB Sc Nd Nt Lv E N3 iu a Hi Ha p Ip. destruct (built_basic _ _ HB) as (Hs & Hab & Hn). assert (D := Nat.div_le_mono 3 (nn b X1) 3 ltac:(lia) N3). change (3 / 3)%nat with 1%nat in D.
  rewrite <- (line_self b X1 (v' iu) p Ip). destruct E as [E|E].
  - destruct (C97_inX bs b sc scs t idx v) as (x & Ex & _ & Q); auto. assert (x = v') by congruence. subst x. destruct (Q iu Hi) as [L P]. apply (const_filtered bs (bd b X1) _ _ _ a Hs Hab Hn) with (2 := P p Ip); [cbv beta; lia| |apply Ip]. intros m Hm. rewrite line_nth by auto. apply Ha. now apply inbox_setc.
  - destruct (C97_minus1 bs b sc scs t idx v) as (x & Ex & _ & Q); auto. assert (x = v') by congruence. subst x. destruct (Q iu Hi) as [L P]. apply (const_filtered bs (bd b X1) _ _ _ a Hs Hab Hn) with (2 := P p Ip); [cbv beta; unfold wavenumber; change ((0 + 1) / 2)%nat with 0%nat; lia| |apply Ip]. intros m Hm. rewrite line_nth by auto. apply Ha. now apply inbox_setc.
Qed.
Lemma box_exists bs n lo hi : spectral bs = true -> lo <> hi -> (2 <= n)%nat -> exists b, nn b X1 = n /\ nn b X2 = 2%nat /\ nn b X3 = 2%nat /\ b_lo (bd b X1) = lo /\ b_hi (bd b X1) = hi /\ built bs (bd b X1) /\ built ChebExtrema (bd b X2) /\ built Fourier (bd b X3).
Proof.
  intros Hs Hl Hn. assert (PP := PI_RGT_0). destruct (mkdir_built bs n lo hi Hs Hl Hn) as (m1 & B1). destruct (mkdir_built ChebExtrema 2 1 2 eq_refl ltac:(lra) ltac:(lia)) as (m2 & B2). destruct (mkdir_built Fourier 2 0 (2 * PI) eq_refl ltac:(lra) ltac:(lia)) as (m3 & B3).
  exists {| bd1 := mkdir bs n lo hi m1; bd2 := mkdir ChebExtrema 2 1 2 m2; bd3 := mkdir Fourier 2 0 (2 * PI) m3 |}. repeat (split; auto).
Qed.
(** with 2 points even constants are removed *)
Theorem C97_constant_refuted : exists b v v', nn b X1 = 2%nat /\ built ChebExtrema (bd b X1) /\ inbox b (0, 0, 0)%nat /\ filter_2o3_X b (fun _ => sequential b X1) (fun _ => sequential b X1) 1 [0%nat] v = Ok v' /\
  (forall p, inbox b p -> val b (v 0%nat) p = 1) /\ forall p, inbox b p -> val b (v' 0%nat) p = 0.
Proof.
  destruct (box_exists ChebExtrema 2 0 1 eq_refl ltac:(lra) ltac:(lia)) as (b & N1 & N2 & N3 & _ & _ & B1 & _ & _). destruct (built_basic _ _ B1) as (Hs & Hab & Hn).
  set (v := fun _ : nat => table b (fun _ => 1)). destruct (C97_inX ChebExtrema b (fun _ => sequential b X1) (fun _ => sequential b X1) 1 [0%nat] v) as (v' & E & _ & Q); auto using sequential_schedule.
  { repeat constructor. intros []. } { cbn. intros [|[]]. lia. } { intros. apply table_length. }
  exists b, v, v'. split; auto. split; auto. split. { intros []; cbn [comp]; rewrite ?N1, ?N2, ?N3; lia. } split; auto. split. { intros p Ip. unfold v. now rewrite table_val. }
  intros p Ip. destruct (Q 0%nat ltac:(now left)) as [L P]. destruct (P p Ip) as (c & cf & Lc & Lf & V & K & W). rewrite <- (line_self b X1 (v' 0%nat) p Ip). rewrite <- W by apply Ip.
  rewrite (expansion_ext _ _ _ _ cf (repeat 0 (b_n (bd b X1)))); auto.
  - cbn [expansion]. unfold series. change (b_n (bd b X1)) with (nn b X1). rewrite N1. cbn [repeat nth Nat.sub Sig]. rewrite ?N1. unfold Sig. cbn. lra.
  - intros j Hj. destruct (K j Hj) as [_ Z']. rewrite Z' by (rewrite N1; cbn; lia). now rewrite nth_repeat.
Qed.
(** the minus1 version keeps sines and cosines together: it commutes with rotations *)
Theorem C97_minus1_rotation b sc scs sc' scs' t idx v w v' w' s : built Fourier (bd b X1) -> (forall vi, schedule b X1 (sc vi) /\ schedule b X1 (scs vi)) -> (forall vi, schedule b X1 (sc' vi) /\ schedule b X1 (scs' vi)) -> NoDup idx -> ~ In t idx ->
  (forall x, In x (t :: idx) -> List.length (v x) = npoints b /\ List.length (w x) = npoints b) -> filter_2o3_minus1_X b sc scs t idx v = Ok v' -> filter_2o3_minus1_X b sc' scs' t idx w = Ok w' ->
  forall iu p, In iu idx -> inbox b p -> rotated (nn b X1) s (line b X1 (v iu) p) (line b X1 (w iu) p) -> rotated (nn b X1) s (line b X1 (v' iu) p) (line b X1 (w' iu) p).
Proof.
  intros HB S1 S2 Nd Nt Lv E1 E2 iu p Hi Ip Hr. destruct (built_basic _ _ HB) as (Hs & Hab & Hn).
  destruct (C97_minus1 Fourier b sc scs t idx v) as (x & Ex & _ & Q); auto. { intros q Hq. now apply Lv. } assert (x = v') by congruence. subst x.
  destruct (C97_minus1 Fourier b sc' scs' t idx w) as (x & Ex' & _ & Q'); auto. { intros q Hq. now apply Lv. } assert (x = w') by congruence. subst x.
  destruct (Q iu Hi) as [L P], (Q' iu Hi) as [L' P']. specialize (P p Ip). specialize (P' p Ip). set (n := nn b X1) in *. assert (n = b_n (bd b X1)) by reflexivity.
  set (l2 := map (fun m => (line b X1 (v' iu) p).[(m + s) mod n]) (seq 0 n)). assert (Ll : List.length l2 = n) by (unfold l2; now rewrite map_length, seq_length).
  assert (Rr : rotated n s (line b X1 (v' iu) p) l2). { intros m Hm. unfold l2. now rewrite (map_seq_nth (fun m => (line b X1 (v' iu) p).[(m + s) mod n])). }
  assert (F := line_filtered_rot (bd b X1) _ s _ _ _ _ Hab ltac:(lia) (fun a c Q => eq_ind (wavenumber a) (fun u => (wavenumber a < _)%nat -> (u < _)%nat) (fun z => z) _ Q) Hr Rr P).
  assert (l2 = line b X1 (w' iu) p). { refine (line_filtered_det Fourier (bd b X1) _ _ _ _ Hs Hab Hn _ Ll (line_length _ _ _ _) F P'). intros j. lia. } rewrite <- H0. exact Rr.
Qed.
(** the 2/3 rule itself does not: with 6 points it keeps cos 2t and removes sin 2t *)
Theorem C97_rotation_refuted : exists b v w v' w', nn b X1 = 6%nat /\ built Fourier (bd b X1) /\ inbox b (0, 0, 0)%nat /\
  filter_2o3_X b (fun _ => sequential b X1) (fun _ => sequential b X1) 1 [0%nat] v = Ok v' /\ filter_2o3_X b (fun _ => sequential b X1) (fun _ => sequential b X1) 1 [0%nat] w = Ok w' /\
  (forall i j k, inbox b (i, j, k) -> val b (w 0%nat) (i, j, k) = val b (v 0%nat) ((i + 1) mod 6, j, k)%nat) /\ val b (w' 0%nat) (1, 0, 0)%nat <> val b (v' 0%nat) (2, 0, 0)%nat.
Proof.
  assert (PP := PI_RGT_0). destruct (box_exists Fourier 6 0 (2 * PI) eq_refl ltac:(lra) ltac:(lia)) as (b & N1 & N2 & N3 & Lo & Hi & B1 & _ & _). destruct (built_basic _ _ B1) as (Hs & Hab & Hn). assert (Bn : b_n (bd b X1) = 6%nat) by exact N1.
  set (cv := [0; 0; 0; 3; 0; 0]). assert (T3 : forall t, tpoly cv 6 t = cos (2 * t)).
  { intros t. unfold tpoly. rewrite (Sig_single 6 3); [|lia|]. { rewrite (weight_in 6 3) by lia. cbn [nth cv]. rewrite (mode_odd 2) by lia. cbn [INR]. replace (1 + 1) with 2 by ring. field. } intros [|[|[|[|[|[|i]]]]]] H1 H2; try lia; cbn [nth cv]; ring. }
  set (f := fun i => cos (2 * phase 6 i)). set (v := fun _ : nat => table b (fun p => f (comp X1 p))). set (w := fun _ : nat => table b (fun p => f ((comp X1 p + 1) mod 6)%nat)).
  destruct (C97_inX Fourier b (fun _ => sequential b X1) (fun _ => sequential b X1) 1 [0%nat] v) as (v' & E & _ & Q); auto using sequential_schedule. { repeat constructor. intros []. } { cbn. intros [|[]]. lia. } { intros. apply table_length. }
  destruct (C97_inX Fourier b (fun _ => sequential b X1) (fun _ => sequential b X1) 1 [0%nat] w) as (w' & E' & _ & Q'); auto using sequential_schedule. { repeat constructor. intros []. } { cbn. intros [|[]]. lia. } { intros. apply table_length. }
  assert (Ib : forall i, (i < 6)%nat -> inbox b (i, 0, 0)%nat). { intros i Hi'. intros []; cbn [comp]; rewrite ?N1, ?N2, ?N3; lia. }
  exists b, v, w, v', w'. split; auto. split; auto. split. { apply Ib. lia. } split; auto. split; auto. split.
  { intros i j k Ip. unfold v, w. assert (M := Nat.mod_upper_bound (i + 1) 6 ltac:(lia)). rewrite !table_val; auto. intros d; destruct d; [cbn [comp]; rewrite N1; exact M|apply (Ip X2)|apply (Ip X3)]. }
  set (p0 := (0, 0, 0)%nat : point). destruct (Q 0%nat ltac:(now left)) as [_ P]. destruct (Q' 0%nat ltac:(now left)) as [_ P']. specialize (P p0 (Ib 0%nat ltac:(lia))). specialize (P' p0 (Ib 0%nat ltac:(lia))).
  destruct P as (c & cf & Lc & Lf & V & K & W). destruct P' as (c' & cf' & Lc' & Lf' & V' & K' & W'). cbv zeta in *. rewrite Bn in *. rewrite Lo, Hi in *. rewrite N1 in *. change (2 * (6 / 3))%nat with 4%nat in *.
  assert (Ev : forall cc m, expansion Fourier 0 (2 * PI) 6 cc (coord Fourier 0 (2 * PI) 6 m) = tpoly cc 6 (phase 6 m)) by (intros; cbn [expansion]; rewrite coord_phase by (lra || lia); reflexivity).
  assert (Lv : forall m, (m < 6)%nat -> (line b X1 (v 0%nat) p0).[m] = f m). { intros m Hm. rewrite line_nth by lia. unfold v. rewrite table_val by (apply Ib; lia). reflexivity. }
  assert (Lw : forall m, (m < 6)%nat -> (line b X1 (w 0%nat) p0).[m] = f ((m + 1) mod 6)%nat). { intros m Hm. rewrite line_nth by lia. unfold w. rewrite table_val by (apply Ib; lia). reflexivity. }
  assert (c = cv). { apply (expansion_unique Fourier 0 (2 * PI) 6); auto; try lra; try lia. intros m Hm. rewrite V by auto. rewrite Ev, T3. now apply Lv. } subst c.
  set (cw := map (rotc 6 (phase 6 1) cv) (seq 0 6)).
  assert (c' = cw). { apply (expansion_unique Fourier 0 (2 * PI) 6); auto; try lra; try lia. intros m Hm. rewrite V' by auto. symmetry. apply (rotated_expansion 0 (2 * PI) 6 1 cv (map f (seq 0 6))); auto; try lra; try lia.
    - intros i Hi'. rewrite Ev, T3. now rewrite (map_seq_nth f). - intros i Hi'. rewrite (map_seq_nth f) by (apply Nat.mod_upper_bound; lia). now apply Lw. } subst c'.
  assert (Vv : val b (v' 0%nat) (2, 0, 0)%nat = cos (2 * phase 6 2)).
  { change (2, 0, 0)%nat with (setc X1 p0 2). rewrite <- line_nth by lia. rewrite <- W by lia. rewrite Ev, <- T3. unfold tpoly. apply Sig_ext. intros i Hi'. f_equal. f_equal. destruct (K i Hi') as [Y N]. destruct (Nat.lt_ge_cases i 4); [now apply Y|]. rewrite N by lia. destruct i as [|[|[|[|[|[|]]]]]]; try lia; reflexivity. }
  assert (Vw : val b (w' 0%nat) (1, 0, 0)%nat = cos (2 * phase 6 1) * cos (2 * phase 6 1)).
  { change (1, 0, 0)%nat with (setc X1 p0 1). rewrite <- line_nth by lia. rewrite <- W' by lia. rewrite Ev. unfold tpoly. rewrite (Sig_single 6 3); [|lia|].
    - destruct (K' 3%nat ltac:(lia)) as [Y _]. rewrite Y by lia. rewrite (weight_in 6 3) by lia. rewrite (mode_odd 2) by lia. cbn [INR]. replace (1 + 1) with 2 by ring. unfold cw. rewrite (map_seq_nth (rotc 6 (phase 6 1) cv)) by lia. unfold rotc. cbn [Nat.eqb Nat.even Nat.ltb Nat.leb Nat.add Nat.div Nat.divmod fst nth cv]. change (4 / 2)%nat with 2%nat. cbn [INR]. replace (1 + 1) with 2 by ring. field.
    - intros i Hi' Ni. destruct (K' i Hi') as [Y N]. destruct (Nat.lt_ge_cases i 4) as [Q4|Q4]; [rewrite Y by lia|rewrite N by lia; ring]. unfold cw. rewrite (map_seq_nth (rotc 6 (phase 6 1) cv)) by lia. unfold rotc. destruct i as [|[|[|[|]]]]; try lia; cbn; ring. }
  rewrite Vv, Vw. assert (P1 : 2 * phase 6 1 = 2 * (PI / 3)) by (unfold phase; cbn [INR]; field). assert (P2 : 2 * phase 6 2 = 2 * (2 * (PI / 3))) by (unfold phase; cbn [INR]; field). rewrite P1, P2. rewrite (cos_2a_cos (2 * (PI / 3))). rewrite cos_2PI3. lra.
Qed.
(** a case: on the circle theta = pi/6 of a box with 6 points in phi, cos(2 phi) is removed *)
Example C96_case : exists b v v', nn b X3 = 6%nat /\ built Fourier (bd b X3) /\ inbox b (0, 0, 0)%nat /\ filter_SphericalDF b (fun _ => sequential b X3) (fun _ => sequential b X3) 1 2 [0%nat] v = Ok v' /\
  (forall p, inbox b p -> val b (v 0%nat) p = cos (2 * phase 6 (comp X3 p))) /\ forall p, inbox b p -> val b (v' 0%nat) p = 0.
Proof.
  assert (PP := PI_RGT_0). destruct (mkdir_built ChebExtrema 2 1 2 eq_refl ltac:(lra) ltac:(lia)) as (m1 & B1). destruct (mkdir_built Fourier 2 0 (2 * PI) eq_refl ltac:(lra) ltac:(lia)) as (m2 & B2). destruct (mkdir_built Fourier 6 0 (2 * PI) eq_refl ltac:(lra) ltac:(lia)) as (m3 & B3).
  set (b := {| bd1 := mkdir ChebExtrema 2 1 2 m1; bd2 := mkdir Fourier 2 0 (2 * PI) m2; bd3 := mkdir Fourier 6 0 (2 * PI) m3 |}).
  assert (N1 : nn b X1 = 2%nat) by reflexivity. assert (N2 : nn b X2 = 2%nat) by reflexivity. assert (N3 : nn b X3 = 6%nat) by reflexivity.
  set (v := fun i : nat => table b (fun p => if (i =? 2)%nat then - (PI / 3) else cos (2 * phase 6 (comp X3 p)))).
  destruct (C96_sphericalDF b (fun _ => sequential b X3) (fun _ => sequential b X3) 1 2 [0%nat] v) as (v' & E & _ & Q); [exact B3| |intros; split; apply sequential_schedule| | | | |].
  { intros []; cbn; lia. } { repeat constructor. intros []. } { cbn. intros [|[]]. lia. } { cbn. intros [|[|[]]]; lia. }
  { intros. apply table_length. }
  assert (V0 : forall p, inbox b p -> val b (v 0%nat) p = cos (2 * phase 6 (comp X3 p))) by (intros p Ip; unfold v; now rewrite table_val).
  exists b, v, v'. split; auto. split; auto. split. { intros []; cbn; lia. } split; auto. split; auto.
  intros p Ip. destruct (Q 0%nat ltac:(now left)) as [L P]. destruct (P p Ip) as (c & cf & Lc & Lf & V & K & W). cbv zeta in *. change (b_n (bd b X3)) with 6%nat in *. change (b_lo (bd b X3)) with 0 in *. change (b_hi (bd b X3)) with (2 * PI) in *.
  assert (Y : val b (v 2%nat) (0%nat, comp X2 p, 0%nat) = - (PI / 3)). { unfold v. rewrite table_val; auto. assert (I2 := Ip X2). intros []; cbn [comp]; rewrite ?N1, ?N3; auto; lia. }
  rewrite Y, N2, N3 in K. change (2 mod 2)%nat with 0%nat in K. change ((1 + 0) * 2)%nat with 2%nat in K. change (6 / 2)%nat with 3%nat in K.
  replace (- (PI / 3) + PI / INR 2) with (PI / 6) in K by (cbn [INR]; field). rewrite sin_PI6, Rabs_pos_eq in K by lra.
  set (cv := [0; 0; 0; 3; 0; 0]). assert (T3 : forall t, tpoly cv 6 t = cos (2 * t)).
  { intros t. unfold tpoly. rewrite (Sig_single 6 3); [|lia|]. { rewrite (weight_in 6 3) by lia. cbn [nth cv]. rewrite (mode_odd 2) by lia. cbn [INR]. replace (1 + 1) with 2 by ring. field. } intros [|[|[|[|[|[|i]]]]]] H1 H2; try lia; cbn [nth cv]; ring. }
  assert (Ev : forall cc m, expansion Fourier 0 (2 * PI) 6 cc (coord Fourier 0 (2 * PI) 6 m) = tpoly cc 6 (phase 6 m)) by (intros; cbn [expansion]; rewrite coord_phase by (lra || lia); reflexivity).
  assert (c = cv). { apply (expansion_unique Fourier 0 (2 * PI) 6); auto; try lra; try lia. intros m Hm. rewrite V by auto. rewrite Ev, T3. change (nth m (line b X3 (v 0%nat) p) 0) with ((line b X3 (v 0%nat) p).[m]). rewrite line_nth by (rewrite N3; lia). rewrite V0 by (apply inbox_setc; auto). now rewrite comp_setc. } subst c.
  rewrite <- (line_self b X3 (v' 0%nat) p Ip). rewrite <- W by apply (Ip X3). rewrite Ev. unfold tpoly. apply Sig_zero. intros i Hi. replace (cf.[i]) with 0; [ring|]. symmetry.
  destruct (K i Hi) as [Ky Kn]. destruct (Nat.lt_ge_cases i 3) as [H|H].
  - rewrite Ky. { destruct i as [|[|[|]]]; try lia; reflexivity. } unfold wavenumber. destruct i as [|[|[|]]]; try lia; cbn; lra.
  - rewrite Kn; auto. unfold wavenumber. destruct i as [|[|[|[|[|[|]]]]]]; try lia; cbn; lra.
Qed.
Print Assumptions C96_sphericalDF.
Print Assumptions C96_spherical.
Print Assumptions C96_again.
Print Assumptions C96_rotation.
Print Assumptions C96_equator_axis.
Print Assumptions C96_boxes.
Print Assumptions C97_inX.
Print Assumptions C97_minus1.
Print Assumptions C97_inXYZ.
Print Assumptions C97_constant_partial.
Print Assumptions C97_constant_refuted.
Print Assumptions C97_minus1_rotation.
Print Assumptions C97_rotation_refuted.

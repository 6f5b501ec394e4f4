(** C90, the evolution of the connection functions, and the constraints that the BSSN variables keep. *)
From Verif Require Import Rutil Coord_model Coord_spec Adm_model Adm_spec Adm_proofs Adm2_proofs Adm_props Conv_spec Conv_props Conf_proofs Bssn_model Bssn_spec Bssn_proofs Bssn2_proofs Bssn_props Gam_proofs.
From Coq Require Import FunctionalExtensionality.
Local Open Scope R_scope.
(** ** specification *)
(** the change with time of the conformal metric near the point: -2 alpha A_ij + L_beta g_ij - 2/3 g_ij d_k beta^k; [db k i] is the derivative of beta^i in direction k *)
Definition conf_rate (F : bfields) (db : d3 -> d3 -> fn3) (i j : d3) : fn3 := fun x y z =>
  - 2 * Bal F x y z * BA F i j x y z + lie (fun k => Bbe F k x y z) (fun k i => db k i x y z) (fun i j => Bg F i j x y z) (fun k i j => Dg F k i j x y z) i j - 2 / 3 * S3 (fun k => db k k x y z) * Bg F i j x y z.
(** the same with both indices raised; this is minus the change of the inverse metric *)
Definition conf_rate_up (F : bfields) db (i j : d3) : fn3 := fun x y z => SS (fun c d => Bgi F i c x y z * Bgi F j d x y z * conf_rate F db c d x y z).
(** ** proofs *)
(** algebra with the variables of the code *)
Definition w_rG (a : bs_in) (i : d3) : R := match i with D1 => bs_rG1 a | D2 => bs_rG2 a | D3 => bs_rG3 a end.
Definition w_Ai (a : bs_in) (i j : d3) : R := match i, j with D1, D1 => bs_Ainv11 a | D1, D2 | D2, D1 => bs_Ainv12 a | D1, D3 | D3, D1 => bs_Ainv13 a | D2, D2 => bs_Ainv22 a | D2, D3 | D3, D2 => bs_Ainv23 a | D3, D3 => bs_Ainv33 a end.
Definition w_divA (a : bs_in) (i : d3) : R := match i with D1 => bs_divAinv1 a | D2 => bs_divAinv2 a | D3 => bs_divAinv3 a end.
Definition w_dK (a : bs_in) (i : d3) : R := match i with D1 => bs_dK1_2 a | D2 => bs_dK2_2 a | D3 => bs_dK3_2 a end.
Definition w_ddb (a : bs_in) (k l i : d3) : R := match k, l, i with
  | D1, D1, D1 => bs_ddb111 a | D1, D1, D2 => bs_ddb112 a | D1, D1, D3 => bs_ddb113 a | D1, D2, D1 | D2, D1, D1 => bs_ddb121 a | D1, D2, D2 | D2, D1, D2 => bs_ddb122 a | D1, D2, D3 | D2, D1, D3 => bs_ddb123 a
  | D1, D3, D1 | D3, D1, D1 => bs_ddb131 a | D1, D3, D2 | D3, D1, D2 => bs_ddb132 a | D1, D3, D3 | D3, D1, D3 => bs_ddb133 a | D2, D2, D1 => bs_ddb221 a | D2, D2, D2 => bs_ddb222 a | D2, D2, D3 => bs_ddb223 a
  | D2, D3, D1 | D3, D2, D1 => bs_ddb231 a | D2, D3, D2 | D3, D2, D2 => bs_ddb232 a | D2, D3, D3 | D3, D2, D3 => bs_ddb233 a | D3, D3, D1 => bs_ddb331 a | D3, D3, D2 => bs_ddb332 a | D3, D3, D3 => bs_ddb333 a end.
Lemma Ai_w a i j : w_Ai a i j = upp (w_gi a) (w_A a) i j.
Proof. unfold upp. idx. destruct i, j; cbv beta iota delta [w_Ai w_gi w_A]; cbv beta iota delta [bs_Ainv11 bs_Ainv12 bs_Ainv13 bs_Ainv22 bs_Ainv23 bs_Ainv33]; unfold pow2; ring. Qed.
Lemma divA_w a i : w_divA a i = - 6 * S3 (fun j => w_Ai a i j * w_df a j) - SS (fun j l => w_ga a i j l * w_Ai a l j) + 2 / 3 * S3 (fun j => w_gi a i j * w_dK a j).
Proof. idx. destruct i; cbv beta iota delta [w_divA w_Ai w_gi w_df w_ga w_dK]; cbv beta iota delta [bs_divAinv1 bs_divAinv2 bs_divAinv3]; field. Qed.
Lemma rG_w a i : w_rG a i = bs_evolveGamma a * (S3 (fun k => w_be a k * w_dG a k i - w_G a k * w_db a k i) + 2 / 3 * w_G a i * S3 (fun k => w_db a k k) + SS (fun j k => w_gi a j k * w_ddb a j k i) + 1 / 3 * S3 (fun j => w_gi a i j * S3 (fun k => w_ddb a j k k))
  - 2 * (S3 (fun j => w_Ai a i j * w_da a j) + bs_alpha a * w_divA a i) + S3 (fun k => w_db a k k) * bs_YoTermFactor a * (w_Gg a i - s_u a (14 + n3 i))).
Proof.
  idx. destruct i; cbv beta iota delta [w_rG w_be w_G w_db w_gi w_ddb w_Ai w_da w_divA w_Gg n3 plus Nat.add]; cbv beta iota delta [bs_rG1 bs_rG2 bs_rG3 bs_pseudolieG1 bs_pseudolieG2 bs_pseudolieG3 bs_betadG1 bs_betadG2 bs_betadG3 bs_totdivbeta bs_divbeta bs_ootddivbeta1 bs_ootddivbeta2 bs_ootddivbeta3 bs_G1 bs_G2 bs_G3];
    u_w_dG; field.
Qed.
(** the fields *)
Lemma near_sub e X Y Z x y z : near e X Y Z x y z -> exists e', 0 < e' /\ forall x' y' z', near e' x y z x' y' z' -> near e X Y Z x' y' z'.
Proof.
  intros (N1 & N2 & N3). set (e' := Rmin (e - Rabs (x - X)) (Rmin (e - Rabs (y - Y)) (e - Rabs (z - Z)))). exists e'. split; [unfold e'; repeat apply Rmin_glb_lt; lra|].
  intros x' y' z' (M1 & M2 & M3). unfold e' in *.
  assert (Q1 := Rmin_l (e - Rabs (x - X)) (Rmin (e - Rabs (y - Y)) (e - Rabs (z - Z)))). assert (Q2 := Rmin_r (e - Rabs (x - X)) (Rmin (e - Rabs (y - Y)) (e - Rabs (z - Z)))).
  assert (Q3 := Rmin_l (e - Rabs (y - Y)) (e - Rabs (z - Z))). assert (Q4 := Rmin_r (e - Rabs (y - Y)) (e - Rabs (z - Z))).
  repeat split; (eapply Rle_lt_trans; [match goal with |- Rabs (?u - ?w) <= _ => match u with x' => replace (u - w) with ((u - x) + (x - w)) by ring | y' => replace (u - w) with ((u - y) + (y - w)) by ring | z' => replace (u - w) with ((u - z) + (z - w)) by ring end end; apply Rabs_triang|]); lra.
Qed.
Section N.
Variables (a : bs_in) (X Y Z e : R) (F : bfields) (db : d3 -> d3 -> fn3).
Hypothesis He : 0 < e.
Hypothesis HN : bssn_near e X Y Z F.
Hypothesis HS : bssn_sampled a X Y Z F.
Hypothesis HD : forall x y z, near e X Y Z x y z -> det (fun i j => Bg F i j x y z) = 1.
Hypothesis HT : forall x y z, near e X Y Z x y z -> trace (fun i j => Bgi F i j x y z) (fun i j => BA F i j x y z) = 0.
Hypothesis HB : forall x y z, near e X Y Z x y z -> forall k i, pd (Bbe F i) k x y z (db k i x y z).
Hypothesis HBB : forall k l i, pd (db k i) l X Y Z (s_ddbeta a (6 * n3 i + s6 k l)).
Let N0 : near e X Y Z X Y Z. Proof. now apply near0. Qed.
Let g_n x y z : near e X Y Z x y z -> forall i j, Bg F i j x y z = Bg F j i x y z. Proof. intros N. apply (HN x y z N). Qed.
Let A_n x y z : near e X Y Z x y z -> forall i j, BA F i j x y z = BA F j i x y z. Proof. intros N. apply (HN x y z N). Qed.
Let inv_n x y z : near e X Y Z x y z -> inverse (fun i j => Bg F i j x y z) (fun i j => Bgi F i j x y z). Proof. intros N. apply (HN x y z N). Qed.
Let is_n x y z : near e X Y Z x y z -> forall i j, Bgi F i j x y z = Bgi F j i x y z.
Proof. intros N i j. apply (inv_sym (fun i j => Bg F i j x y z) (fun i j => Bgi F i j x y z)); [now apply g_n|now apply inv_n]. Qed.
Let dg_n x y z : near e X Y Z x y z -> forall k i j, pd (Bg F i j) k x y z (Dg F k i j x y z). Proof. intros N. apply (HN x y z N). Qed.
Let ds_n x y z : near e X Y Z x y z -> forall k i j, Dg F k i j x y z = Dg F k j i x y z.
Proof. intros N. apply (rg_dsn (Bg F) (Dg F) e X Y Z); auto. Qed.
(** the determinant is constant *)
Lemma tr_dg_n x y z : near e X Y Z x y z -> forall k, SS (fun i j => Bgi F i j x y z * Dg F k i j x y z) = 0.
Proof.
  intros N k. destruct (near_sub _ _ _ _ _ _ _ N) as (e' & P & Q).
  assert (P0 : pd (fun x y z => det (fun i j => Bg F i j x y z)) k x y z 0) by (apply (pd_ext (fun _ _ _ => 1) _ k x y z 0 e' P); [intros x' y' z' M; now rewrite HD by auto|apply pd_const]).
  pose proof (pd_det (Bg F) k x y z (fun i j => Dg F k i j x y z) (dg_n x y z N k)) as P1. rewrite <- (pd_unique _ _ _ _ _ _ _ P1 P0).
  apply SSe. intros i j. f_equal. rewrite (is_n x y z N). rewrite (inv_adj (fun i j => Bg F i j x y z) (fun i j => Bgi F i j x y z) j i (inv_n x y z N)).
  replace (det3 (fun i j => Bg F i j x y z)) with 1; [field|]. rewrite <- (HD x y z N). unfold det, det3. ring.
Qed.
(** derivatives of the inverse near the point *)
Let Dgi k i j : fn3 := fun x y z => idg (fun i j => Bgi F i j x y z) (fun k i j => Dg F k i j x y z) k i j.
Lemma dgi_n x y z : near e X Y Z x y z -> forall k i j, pd (Bgi F i j) k x y z (Dgi k i j x y z).
Proof.
  intros N k i j. destruct (near_sub _ _ _ _ _ _ _ N) as (e' & P & Q). apply (rg_dhi (Bg F) (Bgi F) (Dg F) e' x y z P); auto.
Qed.
Lemma G_n x y z : near e X Y Z x y z -> forall i, BG F i x y z = - S3 (fun j => Dgi j i j x y z).
Proof.
  intros N i. destruct (HN x y z N) as (_ & _ & _ & _ & _ & _ & _ & _ & HG). rewrite HG.
  apply (con_div (fun i j => Bgi F i j x y z) (fun k i j => Dg F k i j x y z)); [now apply is_n|now apply ds_n|now apply tr_dg_n].
Qed.

Lemma pd_SS (f : d3 -> d3 -> fn3) k x y z (l : d3 -> d3 -> R) : (forall i j, pd (f i j) k x y z (l i j)) -> pd (fun x y z => SS (fun i j => f i j x y z)) k x y z (SS l).
Proof. intros H. unfold SS. apply (pd_S3 (fun i x y z => S3 (fun j => f i j x y z))). intros i. apply (pd_S3 (fun j => f i j)). auto. Qed.
Lemma pd_opp (f : fn3) k x y z l : pd f k x y z l -> pd (fun x y z => - f x y z) k x y z (- l).
Proof. intros H. eapply pd_val; [|eapply (pd_ext (fun x y z => -1 * f x y z) _ _ _ _ _ _ 1); [lra|intros; ring|apply pd_scal, H]]. ring. Qed.
Let gi0 i j := Bgi F i j X Y Z.
Let dg0 k i j := Dg F k i j X Y Z.
Let ddg0 := w_ddg a.
Let A0 i j := BA F i j X Y Z.
Lemma ddgi_0 l k i j : pd (Dgi k i j) l X Y Z (ddgi gi0 dg0 ddg0 l k i j).
Proof.
  unfold Dgi, idg, ddgi. apply pd_opp. apply (pd_SS (fun c d x y z => Bgi F i c x y z * Bgi F j d x y z * Dg F k c d x y z)). intros c d.
  eapply pd_val; [|apply pd_mult; [apply pd_mult; apply (dgi_n X Y Z N0)|apply (ddg_w a X Y Z F HS)]]. unfold Dgi. fold gi0 dg0. cbv beta. unfold ddg0, gi0, dg0. ring.
Qed.
Lemma dupp_0 l i j : pd (fun x y z => upp (fun i j => Bgi F i j x y z) (fun i j => BA F i j x y z) i j) l X Y Z (dupp gi0 dg0 A0 (w_dA a) l i j).
Proof.
  unfold upp, dupp. apply (pd_SS (fun c d x y z => Bgi F i c x y z * Bgi F j d x y z * BA F c d x y z)). intros c d.
  eapply pd_val; [|apply pd_mult; [apply pd_mult; apply (dgi_n X Y Z N0)|apply (dA_w a X Y Z F HS)]]. unfold Dgi. fold gi0 dg0. unfold A0, gi0. ring.
Qed.
Lemma ddb_0 k l i : pd (db k i) l X Y Z (w_ddb a l k i).
Proof. replace (w_ddb a l k i) with (s_ddbeta a (6 * n3 i + s6 k l)); [apply HBB|]. destruct k, l, i; reflexivity. Qed.
Lemma db_0 k i : w_db a k i = db k i X Y Z.
Proof. eapply pd_unique; [apply (db_w a X Y Z F HS)|apply HB, N0]. Qed.
Lemma urate_n x y z : near e X Y Z x y z -> forall i j, conf_rate_up F db i j x y z =
  urate (fun i j => Bgi F i j x y z) (fun k i j => Dg F k i j x y z) (fun i j => BA F i j x y z) (Bal F x y z) (fun k => Bbe F k x y z) (fun k i => db k i x y z) i j.
Proof.
  intros N i j. rewrite <- (rate_up (fun i j => Bg F i j x y z) (fun i j => Bgi F i j x y z) (fun k i j => Dg F k i j x y z)); [|now apply g_n|now apply is_n|now apply inv_n].
  unfold conf_rate_up. apply SSe. intros c d. f_equal.
Qed.
Lemma durate_0 l i j : pd (conf_rate_up F db i j) l X Y Z (durate gi0 dg0 ddg0 A0 (w_dA a) (Bal F X Y Z) (fun k => Dal F k X Y Z) (fun k => Bbe F k X Y Z) (fun k i => db k i X Y Z) (w_ddb a) l i j).
Proof.
  eapply (pd_ext _ _ _ _ _ _ _ e He); [intros x y z N; symmetry; apply urate_n, N|]. unfold urate, durate.
  apply (pd_minus (fun x y z => - 2 * Bal F x y z * upp (fun i j => Bgi F i j x y z) (fun i j => BA F i j x y z) i j - S3 (fun k => Bbe F k x y z * Dgi k i j x y z) + S3 (fun k => Bgi F i k x y z * db k j x y z + Bgi F j k x y z * db k i x y z)) (fun x y z => 2 / 3 * S3 (fun k => db k k x y z) * Bgi F i j x y z)).
  - apply (pd_plus (fun x y z => - 2 * Bal F x y z * upp (fun i j => Bgi F i j x y z) (fun i j => BA F i j x y z) i j - S3 (fun k => Bbe F k x y z * Dgi k i j x y z)) (fun x y z => S3 (fun k => Bgi F i k x y z * db k j x y z + Bgi F j k x y z * db k i x y z))).
    + apply (pd_minus (fun x y z => - 2 * Bal F x y z * upp (fun i j => Bgi F i j x y z) (fun i j => BA F i j x y z) i j) (fun x y z => S3 (fun k => Bbe F k x y z * Dgi k i j x y z))).
      * eapply pd_val; [|apply (pd_mult (fun x y z => - 2 * Bal F x y z)); [apply pd_scal; apply (HN X Y Z N0)|apply dupp_0]]. unfold gi0, A0. ring.
      * apply (pd_S3 (fun k x y z => Bbe F k x y z * Dgi k i j x y z)). intros k. eapply pd_val; [|apply pd_mult; [apply (HB X Y Z N0)|apply ddgi_0]]. reflexivity.
    + apply (pd_S3 (fun k x y z => Bgi F i k x y z * db k j x y z + Bgi F j k x y z * db k i x y z)). intros k. eapply pd_val; [|apply pd_plus; apply pd_mult; first [apply (dgi_n X Y Z N0)|apply ddb_0]]. reflexivity.
  - eapply pd_val; [|apply (pd_mult (fun x y z => 2 / 3 * S3 (fun k => db k k x y z))); [apply pd_scal; apply (pd_S3 (fun k => db k k)); intros k; apply ddb_0|apply (dgi_n X Y Z N0)]]. unfold Dgi. fold gi0 dg0. unfold gi0. ring.
Qed.
Lemma dtf_0 k : SS (fun i j => idg gi0 dg0 k i j * A0 i j + gi0 i j * w_dA a k i j) = 0.
Proof.
  eapply pd_unique; [|apply (pd_ext (fun _ _ _ => 0) (fun x y z => trace (fun i j => Bgi F i j x y z) (fun i j => BA F i j x y z)) k X Y Z 0 e He); [intros; now rewrite HT|apply pd_const]].
  unfold trace. apply (pd_SS (fun i j x y z => Bgi F i j x y z * BA F i j x y z)). intros i j. eapply pd_val; [|apply pd_mult; [apply (dgi_n X Y Z N0)|apply (dA_w a X Y Z F HS)]]. reflexivity.
Qed.
Lemma dG_0 k i : w_dG a k i = - S3 (fun j => ddgi gi0 dg0 ddg0 k j i j).
Proof.
  eapply pd_unique; [apply (dG_w a X Y Z F HS)|]. apply (pd_ext (fun x y z => - S3 (fun j => Dgi j i j x y z)) _ _ _ _ _ _ e He); [intros; symmetry; now apply G_n|]. apply pd_opp. apply (pd_S3 (fun j => Dgi j i j)). intros j. apply ddgi_0.
Qed.
End N.
(** ** theorems *)
(** the algebraic constraints hold near the point *)
Definition algebraic_near (e X Y Z : R) (F : bfields) : Prop := forall x y z, near e X Y Z x y z -> det (fun i j => Bg F i j x y z) = 1 /\ trace (fun i j => Bgi F i j x y z) (fun i j => BA F i j x y z) = 0.
(** the first derivatives of the shift near the point, and the second derivatives given to the code *)
Definition shift_sampled (a : bs_in) (e X Y Z : R) (F : bfields) (db : d3 -> d3 -> fn3) : Prop :=
  (forall x y z, near e X Y Z x y z -> forall k i, pd (Bbe F i) k x y z (db k i x y z)) /\ forall k l i, pd (db k i) l X Y Z (s_ddbeta a (6 * n3 i + s6 k l)).
(** the derivative of the inverse of a family of matrices *)
Lemma dl_inverse (g r : d3 -> d3 -> R) (gt : R -> d3 -> d3 -> R) d : 0 < d -> (forall i j, g i j = g j i) -> (forall i j, r i j = r j i) -> (forall t, Rabs t < d -> inverse (fun i j => g i j + t * r i j) (gt t)) ->
  forall i j, derivable_pt_lim (fun t => gt t i j) 0 (- SS (fun k l => gt 0 i k * gt 0 j l * r k l)).
Proof.
  intros Hd Sg Sr I i j. apply (pd_hi (fun i j x _ _ => g i j + x * r i j) (fun i j x _ _ => gt x i j) D1 0 0 0 r d Hd).
  - intros x y z (N & _). rewrite Rminus_0_r in N. split; [now apply I|]. intros; now rewrite Sg, Sr.
  - intros. cbn [pd]. apply dl_line.
Qed.
Theorem C90_connection a X Y Z e F db hi dh : 0 < e -> bssn_near e X Y Z F -> bssn_sampled a X Y Z F -> algebraic_near e X Y Z F -> shift_sampled a e X Y Z F db ->
  (forall x y z, near e X Y Z x y z -> inverse (fun i j => Bh F i j x y z) (fun i j => hi i j x y z) /\ forall k i j, pd (Bh F i j) k x y z (dh k i j x y z)) ->
  s_dt a = 0 -> s_flag a FforceKzerofactor = true -> s_flag a FevolveGamma = true ->
  (* the code changes the conformal metric as [conf_rate] says *)
  (forall i j, bs_new a (s6 i j) = conf_rate F db i j X Y Z) /\
  (* near the point, the inverse metric then changes by minus [conf_rate_up] *)
  (forall x y z d gt, near e X Y Z x y z -> 0 < d -> (forall t, Rabs t < d -> inverse (fun i j => Bg F i j x y z + t * conf_rate F db i j x y z) (gt t)) -> forall i j, derivable_pt_lim (fun t => gt t i j) 0 (- conf_rate_up F db i j x y z)) /\
  (* G^i is minus the divergence of the inverse metric *)
  (forall x y z, near e X Y Z x y z -> exists D, (forall i j, pd (Bgi F i j) j x y z (D i j)) /\ forall i, BG F i x y z = - S3 (fun j => D i j)) /\
  (* and the code changes G^i such that this stays so, up to a multiple of the momentum constraint *)
  exists dU dK, (forall i j, pd (conf_rate_up F db i j) j X Y Z (dU i j)) /\ (forall k i j, pd (BKij F i j) k X Y Z (dK k i j)) /\
    forall i, bs_new a (14 + n3 i) = S3 (fun j => dU i j) + 2 * Bal F X Y Z * S3 (fun j => Bgi F i j X Y Z * momentum (fun i j => hi i j X Y Z) (cov (fun i j k => Gam hi dh i j k X Y Z) (fun i j => BKij F i j X Y Z) dK) j).
Proof.
  intros He HN HS HA (HB & HBB) HI DT FK FE. set (E := Bpsi F X Y Z ^ 4 * exp (4 * Bphi F X Y Z)).
  assert (HD := fun x y z N => proj1 (HA x y z N)). assert (HT := fun x y z N => proj2 (HA x y z N)). assert (N0 := near0 e X Y Z He).
  assert (NE : E <> 0) by (eapply E_p; eauto). assert (ADD : bs_addlinear a = false). { unfold bs_addlinear. destruct (Req_EM_T (s_dt a) 0); auto. contradiction. }
  assert (AL : bs_alpha a = Bal F X Y Z) by apply HS.
  assert (GW : w_g a = fun i j => Bg F i j X Y Z) by (extensionality i; extensionality j; eapply g_w; eauto). assert (AW : w_A a = fun i j => BA F i j X Y Z) by (extensionality i; extensionality j; eapply A_w; eauto).
  assert (IW : w_gi a = fun i j => Bgi F i j X Y Z) by (extensionality i; extensionality j; eapply gi_w; eauto). assert (DW : w_dg a = fun k i j => Dg F k i j X Y Z) by (extensionality k; extensionality i; extensionality j; eapply dg_w; eauto).
  assert (BW : w_be a = fun k => Bbe F k X Y Z) by (extensionality k; eapply be_w; eauto). assert (DB : w_db a = fun k i => db k i X Y Z) by (extensionality k; extensionality i; eapply db_0; eauto). assert (DA : w_da a = fun k => Dal F k X Y Z) by (extensionality k; eapply da_w; eauto).
  assert (KD : forall k, w_dK a k = s_dK a (n3 k)) by (intros []; cbv beta iota delta [w_dK bs_dK1_2 bs_dK2_2 bs_dK3_2 bs_dK1 bs_dK2 bs_dK3 n3]; unfold bs_forceKzerofactor; rewrite FK; ring).
  assert (KK : bs_K a = BK F X Y Z) by apply HS.
  split; [|split; [|split]].
  - intros i j. assert (NG : bs_new a (s6 i j) = w_rg a i j) by (destruct i, j; cbn [s6 bs_new]; cbv beta iota delta [w_rg bs_ng11_5 bs_ng12_5 bs_ng13_5 bs_ng22_5 bs_ng23_5 bs_ng33_7]; rewrite ADD; reflexivity).
    rewrite NG, rg_w, lieg_w, AL, GW, AW, BW, DW. unfold divb. rewrite DB. unfold conf_rate, lie. ring.
  - intros x y z d gt N Hd HI' i j. destruct (HN x y z N) as (_ & _ & _ & _ & HP & Sg & SA & IV & _).
    assert (ds_n : forall k i j, Dg F k i j x y z = Dg F k j i x y z). { apply (rg_dsn (Bg F) (Dg F) e X Y Z); auto; intros; now apply (HN x0 y0 z0). }
    eapply dl_val; [|apply (dl_inverse (fun i j => Bg F i j x y z) (fun i j => conf_rate F db i j x y z) gt d Hd); auto].
    + unfold conf_rate_up. f_equal. apply SSe. intros k l. assert (Q : forall u v, gt 0 u v = Bgi F u v x y z). { intros u v. apply (inv_unique (fun i j => Bg F i j x y z) (gt 0) (fun i j => Bgi F i j x y z) u v); [|exact IV]. assert (T := HI' 0 ltac:(rewrite Rabs_R0; lra)). intros s t. specialize (T s t). unfold S3 in *. lra. } now rewrite !Q.
    + intros u v. unfold conf_rate, lie. rewrite (SA u v), (Sg u v). f_equal. f_equal. apply S3e. intros k. rewrite (ds_n k u v), (Sg u k), (Sg k v). ring.
  - intros x y z N. eexists. split; [intros i j; apply (dgi_n X Y Z e F HN x y z N j i j)|]. intros i. apply (G_n X Y Z e F HN HD x y z N).
  - set (dK := fun k i j => E * (w_dA a k i j + s_dK a (n3 k) / 3 * w_g a i j + bs_K a / 3 * w_dg a k i j + 4 * w_df a k * (w_A a i j + bs_K a / 3 * w_g a i j))).
    eexists; exists dK. split; [intros i j; apply (durate_0 a X Y Z e F db He HN HS HB HBB j i j)|]. split; [intros; unfold dK; eapply Kd_w; eauto|]. intros i.
    assert (NG : bs_new a (14 + n3 i) = w_rG a i) by (destruct i; cbn [n3 bs_new Nat.add]; cbv beta iota delta [w_rG bs_nG1_3 bs_nG2_3 bs_nG3_3]; rewrite ADD; reflexivity). rewrite NG, rG_w. clear NG.
    assert (EG : bs_evolveGamma a = 1) by (unfold bs_evolveGamma; now rewrite FE). rewrite EG, Rmult_1_l.
    assert (CH : w_ga a = christoffel (w_gi a) (w_dg a)) by (extensionality k; extensionality u; extensionality v; eapply chr_w; eauto).
    assert (GG : w_Gg a i = s_u a (14 + n3 i)). { rewrite Gg_w, CH. assert (HG : s_u a (14 + n3 i) = BG F i X Y Z) by apply HS. rewrite HG. symmetry. eapply con_w; eauto. }
    rewrite GG. clear GG EG.
    assert (gs : forall i j, w_g a i j = w_g a j i) by (intros [] []; reflexivity). assert (is : forall i j, w_gi a i j = w_gi a j i) by (intros [] []; reflexivity). assert (As : forall i j, w_A a i j = w_A a j i) by (intros [] []; reflexivity).
    assert (ds : forall k i j, w_dg a k i j = w_dg a k j i) by (intros [] [] []; reflexivity). assert (dds : forall k l i j, w_ddg a k l i j = w_ddg a l k i j) by (intros [] [] [] []; reflexivity). assert (ddbs : forall k l i, w_ddb a k l i = w_ddb a l k i) by (intros [] [] []; reflexivity).
    assert (IV : inverse (w_g a) (w_gi a)) by (eapply inv_w; eauto). assert (T : forall l, SS (fun c d => w_gi a c d * w_dg a l c d) = 0) by (intros l; rewrite IW, DW; apply (tr_dg_n X Y Z e F HN HD X Y Z N0 l)).
    assert (TF : trace (w_gi a) (w_A a) = 0) by (rewrite IW, AW; apply HT, N0). assert (DTF : forall k, SS (fun i j => idg (w_gi a) (w_dg a) k i j * w_A a i j + w_gi a i j * w_dA a k i j) = 0) by (intros k; rewrite IW, AW, DW; apply (dtf_0 a X Y Z e F He HN HS HT k)).
    assert (G1 : forall i, w_G a i = - S3 (fun j => idg (w_gi a) (w_dg a) j i j)). { intros k. transitivity (contracted (w_gi a) (w_dg a) k); [eapply G_w; eauto|]. apply con_div; auto. }
    assert (G2 : forall k i, w_dG a k i = - S3 (fun j => ddgi (w_gi a) (w_dg a) (w_ddg a) k j i j)). { intros. rewrite IW, DW. apply (dG_0 a X Y Z e F He HN HS HD). }
    assert (U := div_urate (w_gi a) (w_dg a) is ds (w_ddg a) dds (w_A a) (w_dA a) (bs_alpha a) (w_da a) (w_be a) (w_db a) (w_ddb a) ddbs i (w_G a) (w_dG a) G1 G2).
    assert (V := div_upp (w_gi a) (w_dg a) is ds (w_A a) (w_dA a) i T). rewrite V in U. clear V.
    assert (M : forall c, momentum (fun i j => hi i j X Y Z) (cov (fun i j k => Gam hi dh i j k X Y Z) (fun i j => BKij F i j X Y Z) dK) c = SS (fun j k => w_gi a j k * cov (christoffel (w_gi a) (w_dg a)) (w_A a) (w_dA a) j c k) + 6 * S3 (fun l => cu (w_gi a) (w_df a) l * w_A a l c) - 2 / 3 * s_dK a (n3 c)).
    { intros c. rewrite <- (momentum_conf (w_g a) (w_gi a) (w_dg a) gs is IV ds (w_A a) (w_dA a) As E (bs_K a) (w_df a) (fun k => s_dK a (n3 k)) NE TF DTF c).
      assert (E1 : (fun i j => hi i j X Y Z) = chi (w_gi a) E) by (extensionality u; extensionality v; eapply hi_w; eauto). assert (E2 : (fun k i j => dh k i j X Y Z) = cdh (w_g a) (w_dg a) E (w_df a)) by (extensionality k; extensionality u; extensionality v; eapply dh_w; eauto).
      assert (E3 : (fun i j k => Gam hi dh i j k X Y Z) = christoffel (chi (w_gi a) E) (cdh (w_g a) (w_dg a) E (w_df a))) by (unfold Gam; rewrite E1, E2; reflexivity). rewrite E1, E3.
      assert (E4 : (fun i j => BKij F i j X Y Z) = (fun i j => E * (w_A a i j + bs_K a / 3 * w_g a i j))) by (extensionality u; extensionality v; unfold BKij, phys_curv; rewrite AW, GW, KK; reflexivity). rewrite E4. reflexivity. }
    rewrite (S3e (fun j => Bgi F i j X Y Z * momentum _ _ j) (fun c => w_gi a i c * (SS (fun j k => w_gi a j k * cov (christoffel (w_gi a) (w_dg a)) (w_A a) (w_dA a) j c k) + 6 * S3 (fun l => cu (w_gi a) (w_df a) l * w_A a l c) - 2 / 3 * s_dK a (n3 c)))) by (intros c; rewrite M, IW; reflexivity).
    replace (S3 (fun j => durate _ _ _ _ _ _ _ _ _ _ j i j)) with (S3 (fun j => durate (w_gi a) (w_dg a) (w_ddg a) (w_A a) (w_dA a) (bs_alpha a) (w_da a) (w_be a) (w_db a) (w_ddb a) j i j)) by (rewrite IW, DW, AW, AL, DA, BW, DB; reflexivity).
    rewrite U. clear U. rewrite <- AL.
    rewrite divA_w. rewrite CH. rewrite (S3e (fun j => w_Ai a i j * w_da a j) (fun j => upp (w_gi a) (w_A a) i j * w_da a j)) by (intros; now rewrite Ai_w).
    rewrite (SSe (fun j l => christoffel (w_gi a) (w_dg a) i j l * w_Ai a l j) (fun j l => christoffel (w_gi a) (w_dg a) i j l * upp (w_gi a) (w_A a) l j)) by (intros; now rewrite Ai_w).
    assert (Q : S3 (fun j => w_Ai a i j * w_df a j) = S3 (fun c => w_gi a i c * S3 (fun l => cu (w_gi a) (w_df a) l * w_A a l c))).
    { rewrite (S3e _ (fun j => upp (w_gi a) (w_A a) i j * w_df a j)) by (intros; now rewrite Ai_w). unfold upp, cu, SS, S3. rewrite ?(is D2 D1), ?(is D3 D1), ?(is D3 D2), ?(As D2 D1), ?(As D3 D1), ?(As D3 D2). ring. }
    rewrite Q. rewrite (S3e (fun j => w_gi a i j * w_dK a j) (fun j => w_gi a i j * s_dK a (n3 j))) by (intros; now rewrite KD).
    set (s1 := S3 (fun k => w_be a k * w_dG a k i - _)). set (s2 := SS (fun j k => w_gi a j k * w_ddb a j k i)). set (s3 := S3 (fun j => w_gi a i j * S3 (fun k => w_ddb a j k k))). set (s4 := S3 (fun j => upp _ _ i j * _)). set (s5 := SS (fun j l => christoffel _ _ i j l * _)). set (s6 := S3 (fun k => w_db a k k)).
    clearbody s1 s2 s3 s4 s5 s6.
    assert (L : forall p q r : d3 -> R, S3 (fun c => w_gi a i c * (p c + 6 * q c - 2 / 3 * r c)) = S3 (fun c => w_gi a i c * p c) + 6 * S3 (fun c => w_gi a i c * q c) - 2 / 3 * S3 (fun c => w_gi a i c * r c)) by (intros; unfold S3; ring).
    rewrite (L (fun c => SS (fun j k => w_gi a j k * cov (christoffel (w_gi a) (w_dg a)) (w_A a) (w_dA a) j c k)) (fun c => S3 (fun l => cu (w_gi a) (w_df a) l * w_A a l c)) (fun c => s_dK a (n3 c))). ring.
Qed.
Print Assumptions C90_connection.
(** the code keeps the determinant of the conformal metric; the trace of A changes by a multiple of the Hamiltonian constraint, and not at all with RtoRminusHfactor = 0 *)
Theorem C90_algebraic a X Y Z e F db hi dh : 0 < e -> bssn_near e X Y Z F -> bssn_sampled a X Y Z F -> algebraic_near e X Y Z F -> shift_sampled a e X Y Z F db ->
  (forall x y z, near e X Y Z x y z -> inverse (fun i j => Bh F i j x y z) (fun i j => hi i j x y z) /\ forall k i j, pd (Bh F i j) k x y z (dh k i j x y z)) ->
  s_dt a = 0 -> s_flag a FforceKzerofactor = true ->
  exists dG, (forall l i j k, pd (Gam hi dh i j k) l X Y Z (dG l i j k)) /\
    let H := hamiltonian (fun i j => hi i j X Y Z) (fun i j => BKij F i j X Y Z) (ricci (fun i j k => Gam hi dh i j k X Y Z) dG) in
    let g := fun t i j => Bg F i j X Y Z + t * bs_new a (s6 i j) in let A := fun t i j => BA F i j X Y Z + t * bs_new a (7 + s6 i j) in
    forall d gt, 0 < d -> (forall t, Rabs t < d -> inverse (g t) (gt t)) ->
      derivable_pt_lim (fun t => det (g t)) 0 0 /\ derivable_pt_lim (fun t => trace (gt t) (A t)) 0 (Bal F X Y Z * s_par a PRtoRminusHfactor * H).
Proof.
  intros He HN HS HA (HB & HBB) HI DT FK. set (E := Bpsi F X Y Z ^ 4 * exp (4 * Bphi F X Y Z)).
  assert (HD := fun x y z N => proj1 (HA x y z N)). assert (HT := fun x y z N => proj2 (HA x y z N)). assert (N0 := near0 e X Y Z He).
  assert (NE : E <> 0) by (eapply E_p; eauto). assert (PE : bs_psim4 a = / E) by (eapply psim4_w; eauto). assert (IV : inverse (w_g a) (w_gi a)) by (eapply inv_w; eauto).
  assert (ADD : bs_addlinear a = false). { unfold bs_addlinear. destruct (Req_EM_T (s_dt a) 0); auto. contradiction. }
  assert (AL : bs_alpha a = Bal F X Y Z) by apply HS. assert (K2 : bs_K_2 a = BK F X Y Z). { unfold bs_K_2, bs_forceKzerofactor. rewrite FK, Rmult_1_l. apply HS. }
  assert (GW : w_g a = fun i j => Bg F i j X Y Z) by (extensionality i; extensionality j; eapply g_w; eauto). assert (AW : w_A a = fun i j => BA F i j X Y Z) by (extensionality i; extensionality j; eapply A_w; eauto).
  assert (IW : w_gi a = fun i j => Bgi F i j X Y Z) by (extensionality i; extensionality j; eapply gi_w; eauto). assert (DW : w_dg a = fun k i j => Dg F k i j X Y Z) by (extensionality k; extensionality i; extensionality j; eapply dg_w; eauto).
  assert (TF : trace (w_gi a) (w_A a) = 0) by (rewrite IW, AW; apply HT, N0). assert (DTF : forall k, SS (fun i j => idg (w_gi a) (w_dg a) k i j * w_A a i j + w_gi a i j * w_dA a k i j) = 0) by (intros k; rewrite IW, AW, DW; apply (dtf_0 a X Y Z e F He HN HS HT k)).
  assert (T : forall l, SS (fun c d => w_gi a c d * w_dg a l c d) = 0) by (intros l; rewrite IW, DW; apply (tr_dg_n X Y Z e F HN HD X Y Z N0 l)).
  assert (HW : forall i j, hi i j X Y Z = chi (w_gi a) E i j) by (intros; eapply hi_w; eauto). assert (dW : forall k i j, dh k i j X Y Z = cdh (w_g a) (w_dg a) E (w_df a) k i j) by (intros; eapply dh_w; eauto).
  assert (ddhW : forall k l i j, pd (dh k i j) l X Y Z (cddh (w_g a) (w_dg a) (w_ddg a) E (w_df a) (w_ddf a) k l i j)) by (intros; eapply ddh_w; eauto).
  set (ddh := cddh (w_g a) (w_dg a) (w_ddg a) E (w_df a) (w_ddf a)) in *.
  assert (D2' : forall k l i j, ddh k l i j = ddh l k i j). { intros k l i j. unfold ddh, cddh. rewrite (fs_w a k l). assert (Q : w_ddg a k l i j = w_ddg a l k i j) by (destruct k, l; reflexivity). rewrite Q. ring. }
  assert (HS' : forall x y z, near e X Y Z x y z -> forall i j, Bh F i j x y z = Bh F j i x y z). { intros x y z N i j. unfold Bh. f_equal. now apply (HN x y z N). }
  exists (dgam (fun i j => hi i j X Y Z) (fun k i j => dh k i j X Y Z) ddh). split. { intros l i j k. apply (rg_dGam (Bh F) hi dh ddh e X Y Z He); auto; intros x y z N; now apply HI. }
  assert (R1 : forall i j, ricci (fun i j k => Gam hi dh i j k X Y Z) (dgam (fun i j => hi i j X Y Z) (fun k i j => dh k i j X Y Z) ddh) i j = w_R a i j + w_rphi a i j).
  { intros i j. rewrite (rg_ricci (Bh F) hi dh ddh e X Y Z He); auto; try (intros x y z N; now apply HI). rewrite <- (Ric_w a X Y Z e F He HN HS i j). fold E. fold ddh. unfold ric_form, christoffel, SS, S3. rewrite !HW, !dW. reflexivity. }
  intros H g A d gt Hd HG.
  assert (HH : H = bs_hamil a). { rewrite <- (ham_p a IV TF E NE PE). unfold H. f_equal; [extensionality i; extensionality j; apply HW|extensionality i; extensionality j; unfold BKij, phys_curv; rewrite GW, AW, K2; reflexivity|extensionality i; extensionality j; apply R1]. }
  clearbody H. subst H.
  assert (NG : forall i j, bs_new a (s6 i j) = w_rg a i j). { intros i j. destruct i, j; cbn [s6 bs_new]; cbv beta iota delta [w_rg bs_ng11_5 bs_ng12_5 bs_ng13_5 bs_ng22_5 bs_ng23_5 bs_ng33_7]; rewrite ADD; reflexivity. }
  assert (NA : forall i j, bs_new a (7 + s6 i j) = w_rA a i j). { intros i j. destruct i, j; cbn [s6 bs_new Nat.add]; cbv beta iota delta [w_rA bs_nA11_5 bs_nA12_5 bs_nA13_5 bs_nA22_5 bs_nA23_5 bs_nA33_7]; rewrite ADD; reflexivity. }
  assert (gs : forall i j, w_g a i j = w_g a j i) by (intros [] []; reflexivity). assert (is : forall i j, w_gi a i j = w_gi a j i) by (intros [] []; reflexivity). assert (As : forall i j, w_A a i j = w_A a j i) by (intros [] []; reflexivity). assert (ds : forall k i j, w_dg a k i j = w_dg a k j i) by (intros [] [] []; reflexivity).
  assert (rs : forall i j, w_rg a i j = w_rg a j i) by (intros [] []; reflexivity). assert (C3 := con3 (w_g a) (w_gi a) gs IV).
  assert (RT : forall i j, w_rg a i j = rate (w_g a) (w_dg a) (w_A a) (bs_alpha a) (w_be a) (w_db a) i j). { intros i j. rewrite rg_w, lieg_w. unfold rate, divb. ring. }
  (* the trace of the change of the metric *)
  assert (T0 : SS (fun i j => w_gi a i j * w_rg a i j) = 0).
  { transitivity (- 2 * bs_alpha a * trace (w_gi a) (w_A a) + S3 (fun k => w_be a k * SS (fun i j => w_gi a i j * w_dg a k i j)) + (S3 (fun i => SS (fun c d => w_gi a c d * (w_g a d i * w_db a c i))) + S3 (fun i => SS (fun c d => w_gi a c d * (w_g a c i * w_db a d i)))) - 2 / 3 * divb a * SS (fun i j => w_gi a i j * w_g a i j)).
    - rewrite (SSe _ (fun i j => w_gi a i j * rate (w_g a) (w_dg a) (w_A a) (bs_alpha a) (w_be a) (w_db a) i j)) by (intros; now rewrite RT). unfold rate, divb, trace. set (t := 2 / 3 * S3 (fun k => w_db a k k)). clearbody t. unfold SS, S3. rewrite ?(gs D2 D1), ?(gs D3 D1), ?(gs D3 D2). ring.
    - rewrite TF, C3. rewrite (S3e (fun k => w_be a k * SS (fun i j => w_gi a i j * w_dg a k i j)) (fun _ => 0)) by (intros; rewrite T; ring). rewrite (S3e (fun i => SS (fun c d => w_gi a c d * (w_g a d i * w_db a c i))) (fun i => w_db a i i)) by (intros i; apply (con (w_g a) (w_gi a) IV (fun c => w_db a c i) i)).
      rewrite (S3e (fun i => SS (fun c d => w_gi a c d * (w_g a c i * w_db a d i))) (fun i => w_db a i i)) by (intros i; apply (con2 (w_g a) (w_gi a) is IV (fun c => w_db a c i) i)). unfold divb, S3. field. }
  assert (GT : forall t i j, g t i j = w_g a i j + t * w_rg a i j) by (intros; unfold g; rewrite NG, GW; reflexivity).
  assert (G0 : forall u v, gt 0 u v = w_gi a u v). { intros u v. apply (inv_unique (w_g a) (gt 0) (w_gi a) u v); [|exact IV]. assert (Q := HG 0 ltac:(rewrite Rabs_R0; lra)). intros s t. specialize (Q s t). unfold S3 in *. rewrite !GT in Q. lra. }
  assert (DI : forall i j, derivable_pt_lim (fun t => gt t i j) 0 (- urate (w_gi a) (w_dg a) (w_A a) (bs_alpha a) (w_be a) (w_db a) i j)).
  { intros i j. eapply dl_val; [|apply (dl_inverse (w_g a) (w_rg a) gt d Hd gs rs); intros t Ht u v; rewrite <- (HG t Ht u v); unfold S3; rewrite !GT; reflexivity]. f_equal. rewrite <- (rate_up (w_g a) (w_gi a) (w_dg a) gs is IV). apply SSe. intros. now rewrite !G0, RT. }
  split.
  - pose proof (pd_det (fun i j t _ _ => g t i j) D1 0 0 0 (w_rg a)) as P. cbn [pd] in P. eapply dl_val; [|apply P; intros i j; unfold g; rewrite NG; apply dl_line].
    transitivity (SS (fun i j => w_gi a i j * w_rg a i j)); [|exact T0]. apply SSe. intros i j. f_equal. rewrite (is i j), (inv_adj (w_g a) (w_gi a) j i IV).
    assert (D0 : det3 (w_g a) = 1). { rewrite <- (HD X Y Z N0). rewrite GW. unfold det, det3. ring. } rewrite D0. transitivity (adj (w_g a) j i); [|field]. unfold adj. now rewrite !GT, !Rmult_0_l, !Rplus_0_r.
  - unfold trace. assert (P : derivable_pt_lim (fun t => SS (fun i j => gt t i j * A t i j)) 0 (SS (fun i j => - urate (w_gi a) (w_dg a) (w_A a) (bs_alpha a) (w_be a) (w_db a) i j * A 0 i j + gt 0 i j * w_rA a i j))).
    { assert (Q := pd_SS (fun i j t _ _ => gt t i j * A t i j) D1 0 0 0). cbn [pd] in Q. apply Q. intros i j. apply (derivable_pt_lim_mult (fun t => gt t i j) (fun t => A t i j)); [apply DI|]. unfold A. rewrite NA. apply dl_line. }
    eapply dl_val; [|exact P]. rewrite (SSe _ (fun i j => - urate (w_gi a) (w_dg a) (w_A a) (bs_alpha a) (w_be a) (w_db a) i j * w_A a i j + w_gi a i j * w_rA a i j)) by (intros; rewrite G0; unfold A; rewrite Rmult_0_l, Rplus_0_r, AW; reflexivity). clear P.
    assert (AA := AAs_w a). assert (TR := trRicci_w a). assert (TC := trcdda_w a).
    transitivity (SS (fun i j => w_gi a i j * (S3 (fun k => w_be a k * w_dA a k i j + w_A a k j * w_db a i k + w_A a i k * w_db a j k) - 2 / 3 * divb a * w_A a i j)) + bs_psim4 a * (- trace (w_gi a) (w_cdda a) + bs_alpha a * trace (w_gi a) (fun i j => w_R a i j + w_rphi a i j)) + 1 / 3 * bs_trcdda a * SS (fun i j => w_gi a i j * w_g a i j) + bs_alpha a * (- 2 * trace (w_gi a) (w_AA a) - 1 / 3 * bs_R a * SS (fun i j => w_gi a i j * w_g a i j) + trace (w_gi a) (w_A a) * bs_K_2 a)
       + (2 * bs_alpha a * SS (fun i j => upp (w_gi a) (w_A a) i j * w_A a i j) + SS (fun i j => S3 (fun k => w_be a k * idg (w_gi a) (w_dg a) k i j) * w_A a i j) - SS (fun i j => S3 (fun k => w_gi a i k * w_db a k j + w_gi a j k * w_db a k i) * w_A a i j) + 2 / 3 * divb a * trace (w_gi a) (w_A a))).
    { rewrite (SSe (fun i j => - urate (w_gi a) (w_dg a) (w_A a) (bs_alpha a) (w_be a) (w_db a) i j * w_A a i j + w_gi a i j * w_rA a i j) (fun i j => - urate (w_gi a) (w_dg a) (w_A a) (bs_alpha a) (w_be a) (w_db a) i j * w_A a i j + w_gi a i j * ((S3 (fun k => w_be a k * w_dA a k i j + w_A a k j * w_db a i k + w_A a i k * w_db a j k) - 2 / 3 * divb a * w_A a i j) + bs_psim4 a * (- w_cdda a i j + bs_alpha a * (w_R a i j + w_rphi a i j)) + 1 / 3 * bs_trcdda a * w_g a i j + bs_alpha a * (- 2 * w_AA a i j - 1 / 3 * bs_R a * w_g a i j + w_A a i j * bs_K_2 a)))) by (intros; now rewrite rA_w, lieA_w).
        unfold urate, trace. change (S3 (fun k => w_db a k k)) with (divb a). set (dv := 2 / 3 * divb a). clearbody dv. set (up := upp (w_gi a) (w_A a)). set (id := idg (w_gi a) (w_dg a)). unfold SS. unfold S3. ring. }
    rewrite TF, C3. assert (U : SS (fun i j => upp (w_gi a) (w_A a) i j * w_A a i j) = trace (w_gi a) (w_AA a)).
    { unfold trace. rewrite (SSe (fun i j => w_gi a i j * w_AA a i j) (fun i j => w_gi a i j * SS (fun k l => w_gi a k l * w_A a i k * w_A a j l))) by (intros; now rewrite AA_w). unfold upp, SS, S3. rewrite ?(is D2 D1), ?(is D3 D1), ?(is D3 D2), ?(As D2 D1), ?(As D3 D1), ?(As D3 D2). ring. }
    rewrite U.
    assert (L : SS (fun i j => w_gi a i j * (S3 (fun k => w_be a k * w_dA a k i j + w_A a k j * w_db a i k + w_A a i k * w_db a j k) - 2 / 3 * divb a * w_A a i j)) = S3 (fun k => w_be a k * SS (fun i j => w_gi a i j * w_dA a k i j)) + SS (fun i j => S3 (fun k => w_gi a i k * w_db a k j + w_gi a j k * w_db a k i) * w_A a i j)).
    { transitivity (S3 (fun k => w_be a k * SS (fun i j => w_gi a i j * w_dA a k i j)) + SS (fun i j => S3 (fun k => w_gi a i k * w_db a k j + w_gi a j k * w_db a k i) * w_A a i j) - 2 / 3 * divb a * trace (w_gi a) (w_A a)); [|rewrite TF; ring]. unfold trace. set (dv := 2 / 3 * divb a). clearbody dv. unfold SS, S3. rewrite ?(is D2 D1), ?(is D3 D1), ?(is D3 D2), ?(As D2 D1), ?(As D3 D1), ?(As D3 D2). ring. }
    rewrite L. assert (L2 : S3 (fun k => w_be a k * SS (fun i j => w_gi a i j * w_dA a k i j)) = - SS (fun i j => S3 (fun k => w_be a k * idg (w_gi a) (w_dg a) k i j) * w_A a i j)).
    { transitivity (S3 (fun k => w_be a k * SS (fun i j => idg (w_gi a) (w_dg a) k i j * w_A a i j + w_gi a i j * w_dA a k i j)) - SS (fun i j => S3 (fun k => w_be a k * idg (w_gi a) (w_dg a) k i j) * w_A a i j)); [set (id := idg (w_gi a) (w_dg a)); unfold SS; unfold S3; ring|]. rewrite (S3e _ (fun _ => 0)) by (intros; rewrite DTF; ring). set (s := SS _). unfold S3. ring. }
    rewrite L2. rewrite TC. unfold bs_R. rewrite TR, AL. unfold bs_RtoRminusHfactor. set (t1 := SS _). set (t2 := SS _). field.
Qed.
Print Assumptions C90_algebraic.
(** the case of C88 meets the hypotheses *)
Definition in90 : bs_in := MkBs (s_K0 in88) (s_psi in88) (s_u in88) (s_pre in88) (s_dg in88) (s_ddg in88) (s_dA in88) (s_dphi in88) (s_ddphi in88) (s_dG in88) (s_dK in88) (s_dalp in88) (s_ddalp in88) (s_dbeta in88) (s_ddbeta in88) 0 0 (fun f => match f with FforceKzerofactor | FevolveGamma => true | _ => false end) (fun _ => 1).
Example C90_case : bssn_near 1 0 2 0 F88 /\ bssn_sampled in90 0 2 0 F88 /\ algebraic_near 1 0 2 0 F88 /\ shift_sampled in90 1 0 2 0 F88 (fun k i _ _ _ => match k, i with D2, D1 => 1 | _, _ => 0 end) /\
  (forall x y z, near 1 0 2 0 x y z -> inverse (fun i j => Bh F88 i j x y z) (fun i j => exp (- (4 * x)) * delta i j) /\ forall k i j, pd (Bh F88 i j) k x y z (4 * exp (4 * x) * delta i j * delta k D1)) /\
  s_dt in90 = 0 /\ s_flag in90 FforceKzerofactor = true /\ s_flag in90 FevolveGamma = true.
Proof.
  destruct C88_case as (H1 & H2 & H3 & _). split; [exact H1|]. split; [exact H2|]. split; [|split; [|split; [exact H3|repeat split; reflexivity]]].
  - intros x y z _. split; [unfold det; cbn; ring|unfold trace, SS, S3; cbn; ring].
  - split; [intros x y z _ k i; destruct k, i; cbn [pd]; first [apply derivable_pt_lim_const|apply derivable_pt_lim_id]|]. intros k l i. destruct k, l, i; cbn [pd]; (eapply dl_val; [|apply derivable_pt_lim_const]); reflexivity.
Qed.

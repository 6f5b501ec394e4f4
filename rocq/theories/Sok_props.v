(** C116: the tables used by the scalar field on Kerr are the Kerr metric, its inverse, its Christoffel symbols and their trace. *)
From Verif Require Import Rutil Coord_model Coord_spec Adm_model Adm_spec Adm_proofs Adm2_proofs Adm_props Bh_model Bh_proofs Bh_props Ks_model Ks_spec Ks_proofs Frame_proofs Ks2_proofs Ks3_proofs Ks4_proofs Ks_props Sok_model Sok_spec.
From Coq Require Import Lia.
Local Open Scope R_scope.
Section CODE.
Variables (M Sx Sy Sz a b c X Y Z : R).
Hypothesis SPM : spin_per_mass M Sx Sy Sz a b c.
Lemma aS1 : sk_aS1 M Sx = a.
Proof. destruct SPM as [P Q]. unfold sk_aS1. destruct (Req_EM_T M 0) as [E|E]; [destruct (Q E) as (-> & _); reflexivity|destruct (P E) as (-> & _); field; exact E]. Qed.
Lemma aS2 : sk_aS2 M Sy = b.
Proof. destruct SPM as [P Q]. unfold sk_aS2. destruct (Req_EM_T M 0) as [E|E]; [destruct (Q E) as (_ & -> & _); reflexivity|destruct (P E) as (_ & -> & _); field; exact E]. Qed.
Lemma aS3 : sk_aS3 M Sz = c.
Proof. destruct SPM as [P Q]. unfold sk_aS3. destruct (Req_EM_T M 0) as [E|E]; [destruct (Q E) as (_ & _ & ->); reflexivity|destruct (P E) as (_ & _ & ->); field; exact E]. Qed.
Notation k f := (f M Sx Sy Sz X Y Z).
Lemma sk_r_ks : k sk_r = ks_r a b c X Y Z. Proof. rewrite <- aS1, <- aS2, <- aS3. reflexivity. Qed.
Lemma sk_H_ks : k sk_H = ks_H M a b c X Y Z. Proof. rewrite <- aS1, <- aS2, <- aS3. reflexivity. Qed.
Definition l_sk (i : d3) : R := match i with D1 => k sk_l1 | D2 => k sk_l2 | D3 => k sk_l3 end.
Definition dH_sk (i : d3) : R := match i with D1 => k sk_dH1 | D2 => k sk_dH2 | D3 => k sk_dH3 end.
Definition dl_sk (i j : d3) : R := match i, j with
  | D1, D1 => k sk_dl11 | D1, D2 => k sk_dl12 | D1, D3 => k sk_dl13 | D2, D1 => k sk_dl21 | D2, D2 => k sk_dl22 | D2, D3 => k sk_dl23 | D3, D1 => k sk_dl31 | D3, D2 => k sk_dl32 | D3, D3 => k sk_dl33 end.
Lemma l_sk_ks i : l_sk i = l_ks a b c X Y Z i. Proof. rewrite <- aS1, <- aS2, <- aS3. destruct i; reflexivity. Qed.
Lemma dH_sk_ks i : dH_sk i = dH_ks M a b c X Y Z i. Proof. rewrite <- aS1, <- aS2, <- aS3. destruct i; reflexivity. Qed.
Lemma dl_sk_ks i j : dl_sk i j = dl_ks a b c X Y Z i j. Proof. rewrite <- aS1, <- aS2, <- aS3. destruct i, j; reflexivity. Qed.
(** what the code sets, in terms of H, l and their derivatives *)
Definition L_sk (m : d4) : R := match m with Tm => 1 | Sp i => l_sk i end.
Definition Lu_sk (m : d4) : R := match m with Tm => - 1 | Sp i => l_sk i end.
Definition dH4 (m : d4) : R := match m with Tm => 0 | Sp i => dH_sk i end.
Definition dL4 (m n : d4) : R := match m, n with Sp i, Sp j => dl_sk i j | _, _ => 0 end.
Definition dg_sk (q m n : d4) : R := 2 * (dH4 q * L_sk m * L_sk n + k sk_H * (dL4 m q * L_sk n + L_sk m * dL4 n q)).
Lemma g_sk m n : k kerr_g (n10 m n) = eta m n + 2 * k sk_H * L_sk m * L_sk n.
Proof.
  destruct m as [|[]], n as [|[]]; cbn [n10 n4 kerr_g eta delta L_sk l_sk]; unfold sk_g00, sk_g01, sk_g02, sk_g03, sk_g11, sk_g12, sk_g13, sk_g22, sk_g23, sk_g33; unfold sk_l0; ring.
Qed.
Lemma gup_sk m n : k kerr_gup (n10 m n) = eta m n - 2 * k sk_H * Lu_sk m * Lu_sk n.
Proof.
  destruct m as [|[]], n as [|[]]; cbn [n10 n4 kerr_gup eta delta Lu_sk l_sk]; unfold sk_gup00, sk_gup01, sk_gup02, sk_gup03, sk_gup11, sk_gup12, sk_gup13, sk_gup22, sk_gup23, sk_gup33, sk_lup0, sk_lup1, sk_lup2, sk_lup3, sk_l0; ring.
Qed.
Definition Gamdo_sk (m n p : d4) : R := / 2 * (dg_sk n m p + dg_sk p m n - dg_sk m n p).
Lemma Gam_sk m n p : k kerr_Gam (10 * n4 m + n10 n p)%nat = S4 (fun q => k kerr_gup (n10 m q) * Gamdo_sk q n p).
Proof.
  unfold S4, S3, Gamdo_sk, dg_sk.
  destruct m as [|[]], n as [|[]], p as [|[]]; cbn [n10 n4 kerr_Gam kerr_gup L_sk dH4 dL4 l_sk dH_sk dl_sk Nat.mul Nat.add];
  unfold sk_Gam000, sk_Gam001, sk_Gam002, sk_Gam003, sk_Gam011, sk_Gam012, sk_Gam013, sk_Gam022, sk_Gam023, sk_Gam033, sk_Gam100, sk_Gam101, sk_Gam102, sk_Gam103, sk_Gam111, sk_Gam112, sk_Gam113, sk_Gam122, sk_Gam123, sk_Gam133, sk_Gam200, sk_Gam201, sk_Gam202, sk_Gam203, sk_Gam211, sk_Gam212, sk_Gam213, sk_Gam222, sk_Gam223, sk_Gam233, sk_Gam300, sk_Gam301, sk_Gam302, sk_Gam303, sk_Gam311, sk_Gam312, sk_Gam313, sk_Gam322, sk_Gam323, sk_Gam333; unfold sk_Gamdo000, sk_Gamdo001, sk_Gamdo002, sk_Gamdo003, sk_Gamdo011, sk_Gamdo012, sk_Gamdo013, sk_Gamdo022, sk_Gamdo023, sk_Gamdo033, sk_Gamdo100, sk_Gamdo101, sk_Gamdo102, sk_Gamdo103, sk_Gamdo111, sk_Gamdo112, sk_Gamdo113, sk_Gamdo122, sk_Gamdo123, sk_Gamdo133, sk_Gamdo200, sk_Gamdo201, sk_Gamdo202, sk_Gamdo203, sk_Gamdo211, sk_Gamdo212, sk_Gamdo213, sk_Gamdo222, sk_Gamdo223, sk_Gamdo233, sk_Gamdo300, sk_Gamdo301, sk_Gamdo302, sk_Gamdo303, sk_Gamdo311, sk_Gamdo312, sk_Gamdo313, sk_Gamdo322, sk_Gamdo323, sk_Gamdo333;
  unfold sk_dg000, sk_dg001, sk_dg002, sk_dg003, sk_dg010, sk_dg011, sk_dg012, sk_dg013, sk_dg020, sk_dg021, sk_dg022, sk_dg023, sk_dg030, sk_dg031, sk_dg032, sk_dg033, sk_dg110, sk_dg111, sk_dg112, sk_dg113, sk_dg120, sk_dg121, sk_dg122, sk_dg123, sk_dg130, sk_dg131, sk_dg132, sk_dg133, sk_dg220, sk_dg221, sk_dg222, sk_dg223, sk_dg230, sk_dg231, sk_dg232, sk_dg233, sk_dg330, sk_dg331, sk_dg332, sk_dg333, sk_dl00, sk_dl01, sk_dl02, sk_dl03, sk_dl10, sk_dl20, sk_dl30, sk_dH0, sk_l0; field.
Qed.
Lemma G_sk m : k kerr_G (n4 m) = S4 (fun n => S4 (fun p => k kerr_gup (n10 n p) * k kerr_Gam (10 * n4 m + n10 n p)%nat)).
Proof.
  unfold S4, S3. destruct m as [|[]]; cbn [n10 n4 kerr_G kerr_Gam kerr_gup Nat.mul Nat.add]; unfold sk_G0, sk_G1, sk_G2, sk_G3; ring.
Qed.
End CODE.
(** ** the Kerr-Schild functions *)
Section KERR.
Variables (M Sx Sy Sz a b c : R).
Hypothesis SPM : spin_per_mass M Sx Sy Sz a b c.
Lemma H_all x y z : sk_H M Sx Sy Sz x y z = M * Af a b c x y z.
Proof. rewrite (sk_H_ks M Sx Sy Sz a b c x y z SPM). apply H_A. Qed.
Lemma l_all i x y z : l_sk M Sx Sy Sz x y z i = lf a b c i x y z.
Proof. rewrite (l_sk_ks M Sx Sy Sz a b c x y z SPM). apply l_l. Qed.
Variables (X Y Z : R).
Hypothesis OD : off_disc a b c X Y Z.
Lemma pd_H_sk k : pd (fun x y z => sk_H M Sx Sy Sz x y z) k X Y Z (dH_sk M Sx Sy Sz X Y Z k).
Proof.
  rewrite (dH_sk_ks M Sx Sy Sz a b c X Y Z SPM), (dH_h M a b c X Y Z OD). apply (pd_ext' (fun x y z => M * Af a b c x y z)); [intros; symmetry; apply H_all|].
  apply (pd_scal M (Af a b c)). apply (pd_Af a b c X Y Z OD).
Qed.
Lemma pd_l_sk i k : pd (fun x y z => l_sk M Sx Sy Sz x y z i) k X Y Z (dl_sk M Sx Sy Sz X Y Z i k).
Proof.
  rewrite (dl_sk_ks M Sx Sy Sz a b c X Y Z SPM), (dl_l' a b c X Y Z OD). apply (pd_ext' (lf a b c i)); [intros; symmetry; apply l_all|]. apply (pd_lf a b c X Y Z OD).
Qed.
Lemma pd4_H m : pd4 (fun x y z => sk_H M Sx Sy Sz x y z) m X Y Z (dH4 M Sx Sy Sz X Y Z m).
Proof. destruct m; [reflexivity|apply pd_H_sk]. Qed.
Lemma pd4_g q m n : pd4 (fun x y z => kerr_g M Sx Sy Sz x y z (n10 m n)) q X Y Z (dg_sk M Sx Sy Sz X Y Z q m n).
Proof.
  destruct q as [|q]; cbn [pd4]. { unfold dg_sk. destruct m, n; cbn [dH4 dL4]; ring. }
  apply (pd_ext' (fun x y z => eta m n + 2 * (sk_H M Sx Sy Sz x y z * (L_sk M Sx Sy Sz x y z m * L_sk M Sx Sy Sz x y z n)))); [intros; rewrite g_sk; ring|].
  assert (PL : forall m, pd (fun x y z => L_sk M Sx Sy Sz x y z m) q X Y Z (dL4 M Sx Sy Sz X Y Z m (Sp q))) by (intros [|i]; [exact (pd_const 1 q X Y Z)|apply pd_l_sk]).
  eapply pd_val; [|apply pd_plus; [apply pd_const|apply (pd_scal 2 (fun x y z => sk_H M Sx Sy Sz x y z * (L_sk M Sx Sy Sz x y z m * L_sk M Sx Sy Sz x y z n))); apply pd_mult; [apply pd_H_sk|apply pd_mult; apply PL]]]. unfold dg_sk. cbn [dH4]. ring.
Qed.
Definition dgup_sk (q m n : d4) : R := - 2 * (dH4 M Sx Sy Sz X Y Z q * Lu_sk M Sx Sy Sz X Y Z m * Lu_sk M Sx Sy Sz X Y Z n + sk_H M Sx Sy Sz X Y Z * (dL4 M Sx Sy Sz X Y Z m q * Lu_sk M Sx Sy Sz X Y Z n + Lu_sk M Sx Sy Sz X Y Z m * dL4 M Sx Sy Sz X Y Z n q)).
Lemma pd4_gup q m n : pd4 (fun x y z => kerr_gup M Sx Sy Sz x y z (n10 m n)) q X Y Z (dgup_sk q m n).
Proof.
  destruct q as [|q]; cbn [pd4]. { unfold dgup_sk. destruct m, n; cbn [dH4 dL4]; ring. }
  apply (pd_ext' (fun x y z => eta m n + (- 2) * (sk_H M Sx Sy Sz x y z * (Lu_sk M Sx Sy Sz x y z m * Lu_sk M Sx Sy Sz x y z n)))); [intros; rewrite gup_sk; ring|].
  assert (PL : forall m, pd (fun x y z => Lu_sk M Sx Sy Sz x y z m) q X Y Z (dL4 M Sx Sy Sz X Y Z m (Sp q))) by (intros [|i]; [exact (pd_const (- 1) q X Y Z)|apply pd_l_sk]).
  eapply pd_val; [|apply pd_plus; [apply pd_const|apply (pd_scal (- 2) (fun x y z => sk_H M Sx Sy Sz x y z * (Lu_sk M Sx Sy Sz x y z m * Lu_sk M Sx Sy Sz x y z n))); apply pd_mult; [apply pd_H_sk|apply pd_mult; apply PL]]]. unfold dgup_sk. cbn [dH4]. ring.
Qed.
Lemma null_sk : S3 (fun i => l_sk M Sx Sy Sz X Y Z i * l_sk M Sx Sy Sz X Y Z i) = 1.
Proof. unfold S3. rewrite !l_all. exact (l_unit a b c X Y Z OD). Qed.
Lemma dnull_sk k : S3 (fun i => l_sk M Sx Sy Sz X Y Z i * dl_sk M Sx Sy Sz X Y Z i k) = 0.
Proof.
  pose proof null_sk as N. unfold S3 in *. rewrite !l_all in *. rewrite !(dl_sk_ks M Sx Sy Sz a b c X Y Z SPM), !(dl_l' a b c X Y Z OD). unfold kl, e2, Lx, S3.
  set (A := Af a b c X Y Z). set (B := Bf a b c X Y Z). set (l1 := lf a b c D1 X Y Z) in *. set (l2 := lf a b c D2 X Y Z) in *. set (l3 := lf a b c D3 X Y Z) in *.
  transitivity (A * match k with D1 => l1 | D2 => l2 | D3 => l3 end * (1 - (l1 * l1 + l2 * l2 + l3 * l3))); [|rewrite N; ring].
  destruct k; cbn [delta eps3]; fold l1 l2 l3; ring.
Qed.
End KERR.
(** ** the metric and its inverse *)
Theorem C116_metric M Sx Sy Sz a b c x y z : spin_per_mass M Sx Sy Sz a b c -> outside_disc a b c x y z ->
  exists r, kerr_radius a b c x y z r /\ (forall r', kerr_radius a b c x y z r' -> r' = r) /\
    (forall m n, kerr_g M Sx Sy Sz x y z (n10 m n) = eta m n + 2 * kerr_H M a b c x y z r * kerr_L a b c x y z r m * kerr_L a b c x y z r n) /\
    (forall m n, S4 (fun q => kerr_gup M Sx Sy Sz x y z (n10 m q) * kerr_g M Sx Sy Sz x y z (n10 q n)) = delta4 m n).
Proof.
  intros SP D. apply disc_eq in D. exists (rf a b c x y z). pose proof (r_pos _ _ _ _ _ _ D) as RP. pose proof (N_pos _ _ _ _ _ _ D) as NP. pose proof (D_pos _ _ _ _ _ _ D) as DP. pose proof (quartic _ _ _ _ _ _ D) as Q. cbv zeta in RP, NP, DP, Q.
  assert (KR : kerr_radius a b c x y z (rf a b c x y z)) by (split; [exact RP|]; unfold rho2, a2, wf in Q; lra).
  assert (EL : forall i, kerr_l a b c x y z (rf a b c x y z) i = lf a b c i x y z).
  { intros i. unfold kerr_l, lf. cbv zeta. replace (rf a b c x y z * (rf a b c x y z ^ 2 + (a * a + b * b + c * c))) with (a2 a b c * rf a b c x y z + rf a b c x y z ^ 3) by (unfold a2; ring). f_equal. destruct i; unfold wf; cbn [av cr co]; ring. }
  assert (EH : kerr_H M a b c x y z (rf a b c x y z) = M * Af a b c x y z) by (unfold kerr_H, Af, wf, Rdiv; ring).
  split; [exact KR|]. split; [intros r' (P' & E'); destruct KR as (P & E); now apply (root_unique _ _ _ _ P' P E' E)|]. split.
  - intros m n. rewrite g_sk, (H_all _ _ _ _ _ _ _ SP), EH. unfold L_sk, kerr_L. destruct m, n; rewrite ?EL, ?(l_all _ _ _ _ _ _ _ SP); reflexivity.
  - pose proof (null_sk _ _ _ _ _ _ _ SP x y z D) as N. intros m n. unfold S4, S3 in *. rewrite !gup_sk, !g_sk. set (H := sk_H M Sx Sy Sz x y z). clearbody H.
    cbn [L_sk Lu_sk]. set (l1 := l_sk M Sx Sy Sz x y z D1) in *. set (l2 := l_sk M Sx Sy Sz x y z D2) in *. set (l3 := l_sk M Sx Sy Sz x y z D3) in *.
    transitivity (delta4 m n - 4 * H * H * match m with Tm => - 1 | Sp D1 => l1 | Sp D2 => l2 | Sp D3 => l3 end * match n with Tm => 1 | Sp D1 => l1 | Sp D2 => l2 | Sp D3 => l3 end * ((l1 * l1 + l2 * l2 + l3 * l3) - 1)); [|rewrite N; ring].
    destruct m as [|[]], n as [|[]]; cbn [eta delta4 delta L_sk Lu_sk]; fold l1 l2 l3; ring.
Qed.
Lemma pd4_unique f k X Y Z u v : pd4 f k X Y Z u -> pd4 f k X Y Z v -> u = v.
Proof. destruct k as [|k]; cbn [pd4]; [congruence|apply pd_unique]. Qed.
(** ** the Christoffel symbols are those of the metric, with its exact derivatives *)
Theorem C116_christoffel M Sx Sy Sz a b c X Y Z dg : spin_per_mass M Sx Sy Sz a b c -> outside_disc a b c X Y Z ->
  (forall q m n, pd4 (fun x y z => kerr_g M Sx Sy Sz x y z (n10 m n)) q X Y Z (dg q m n)) ->
  (forall m n p, kerr_Gam M Sx Sy Sz X Y Z (10 * n4 m + n10 n p)%nat = christoffel (fun i j => kerr_gup M Sx Sy Sz X Y Z (n10 i j)) dg m n p) /\
  (forall m, kerr_G M Sx Sy Sz X Y Z (n4 m) = S4 (fun n => S4 (fun p => kerr_gup M Sx Sy Sz X Y Z (n10 n p) * christoffel (fun i j => kerr_gup M Sx Sy Sz X Y Z (n10 i j)) dg m n p))).
Proof.
  intros SP D HD. apply disc_eq in D.
  assert (E : forall m n p, kerr_Gam M Sx Sy Sz X Y Z (10 * n4 m + n10 n p)%nat = christoffel (fun i j => kerr_gup M Sx Sy Sz X Y Z (n10 i j)) dg m n p).
  { intros m n p. rewrite Gam_sk. unfold christoffel, S4, S3, Gamdo_sk.
    assert (U : forall q m n, dg_sk M Sx Sy Sz X Y Z q m n = dg q m n) by (intros; refine (pd4_unique _ _ _ _ _ _ _ (pd4_g _ _ _ _ _ _ _ SP X Y Z D _ _ _) (HD _ _ _))). rewrite !U. ring. }
  split; [exact E|]. intros m. rewrite G_sk. unfold S4, S3. rewrite !E. reflexivity.
Qed.
(** ** the trace is minus the divergence of the inverse metric *)
Section TRACE.
Variables (H : R) (l h : d3 -> R) (dl : d3 -> d3 -> R).
Hypothesis N : S3 (fun i => l i * l i) = 1.
Hypothesis V : forall k, S3 (fun i => l i * dl i k) = 0.
Let L (m : d4) : R := match m with Tm => 1 | Sp i => l i end.
Let Lu (m : d4) : R := match m with Tm => - 1 | Sp i => l i end.
Let dh (m : d4) : R := match m with Tm => 0 | Sp i => h i end.
Let dL (m n : d4) : R := match m, n with Sp i, Sp j => dl i j | _, _ => 0 end.
Let gu (m n : d4) : R := eta m n - 2 * H * Lu m * Lu n.
Let d (q m n : d4) : R := 2 * (dh q * L m * L n + H * (dL m q * L n + L m * dL n q)).
Let T (q : d4) : R := S4 (fun n => S4 (fun p => gu n p * d q n p)).
Let W (q : d4) : R := S4 (fun n => S4 (fun p => gu n p * (/ 2 * (d n q p + d p q n)))).
Lemma trace_lin (g : d4 -> d4 -> R) (e : d4 -> d4 -> d4 -> R) m : S4 (fun n => S4 (fun p => g n p * S4 (fun q => g m q * (/ 2 * (e n q p + e p q n - e q n p))))) = S4 (fun q => g m q * (S4 (fun n => S4 (fun p => g n p * (/ 2 * (e n q p + e p q n)))) - / 2 * S4 (fun n => S4 (fun p => g n p * e q n p)))).
Proof. unfold S4, S3. ring. Qed.
Lemma T_0 q : T q = 0.
Proof.
  transitivity (2 * dh q * (S3 (fun i => l i * l i) - 1) * (1 - 2 * H * (S3 (fun i => l i * l i) - 1)) + 4 * H * S3 (fun i => l i * match q with Tm => 0 | Sp k => dl i k end) * (1 - 2 * H * (S3 (fun i => l i * l i) - 1))).
  - unfold T, S4, S3, gu, d. destruct q as [|k]; cbn [L Lu dL dh eta delta]; ring.
  - rewrite N. destruct q as [|k]; [unfold S3; ring|rewrite V; ring].
Qed.
Let hl : R := S3 (fun i => l i * h i).
Let th : R := S3 (fun i => dl i i).
Let Dl (m : d4) : R := match m with Tm => 0 | Sp i => S3 (fun k => l k * dl i k) end.
Lemma W_v q : W q = 2 * (hl + H * th) * L q + 2 * H * Dl q.
Proof.
  transitivity (2 * (hl + H * th) * L q + 2 * H * Dl q - 4 * H * ((S3 (fun i => l i * l i) - 1) * (hl * L q + H * Dl q) + H * L q * S3 (fun k => l k * S3 (fun i => l i * dl i k)))).
  - unfold W, S4, S3, gu, d, hl, th, Dl. destruct q as [|k]; cbn [L Lu dL dh eta delta]; unfold S3; field.
  - rewrite N. unfold S3 at 1. rewrite !V. ring.
Qed.
Lemma trace_alg m : S4 (fun n => S4 (fun p => gu n p * S4 (fun q => gu m q * (/ 2 * (d n q p + d p q n - d q n p))))) = - S4 (fun n => - 2 * (dh n * Lu m * Lu n + H * (dL m n * Lu n + Lu m * dL n n))).
Proof.
  rewrite trace_lin. change (S4 (fun q => gu m q * (W q - / 2 * T q)) = - S4 (fun n => - 2 * (dh n * Lu m * Lu n + H * (dL m n * Lu n + Lu m * dL n n)))).
  transitivity (2 * (hl + H * th) * Lu m + 2 * H * Dl m - 2 * H * Lu m * (2 * (hl + H * th) * (S3 (fun i => l i * l i) - 1) + 2 * H * S3 (fun k => l k * S3 (fun i => l i * dl i k)))).
  - unfold S4, S3 at 1. rewrite !T_0, !W_v. unfold gu, Dl. destruct m as [|[]]; cbn [L Lu eta delta]; unfold S3; ring.
  - rewrite N. unfold S3 at 1. rewrite !V. unfold S4, S3, hl, th, Dl. destruct m as [|k]; cbn [L Lu dL dh]; unfold S3; ring.
Qed.
End TRACE.
Lemma S4_ext f g : (forall m, f m = g m) -> S4 f = S4 g.
Proof. intros E. unfold S4, S3. now rewrite !E. Qed.
Theorem C116_trace M Sx Sy Sz a b c X Y Z dgup : spin_per_mass M Sx Sy Sz a b c -> outside_disc a b c X Y Z ->
  (forall q m n, pd4 (fun x y z => kerr_gup M Sx Sy Sz x y z (n10 m n)) q X Y Z (dgup q m n)) ->
  forall m, kerr_G M Sx Sy Sz X Y Z (n4 m) = - S4 (fun n => dgup n m n).
Proof.
  intros SP D HD m. apply disc_eq in D.
  assert (U : forall q m n, dgup q m n = dgup_sk M Sx Sy Sz X Y Z q m n) by (intros; refine (pd4_unique _ _ _ _ _ _ _ (HD _ _ _) (pd4_gup _ _ _ _ _ _ _ SP X Y Z D _ _ _))).
  pose proof (trace_alg (sk_H M Sx Sy Sz X Y Z) (l_sk M Sx Sy Sz X Y Z) (dH_sk M Sx Sy Sz X Y Z) (dl_sk M Sx Sy Sz X Y Z) (null_sk _ _ _ _ _ _ _ SP X Y Z D) (dnull_sk _ _ _ _ _ _ _ SP X Y Z D) m) as E.
  rewrite G_sk. transitivity (- S4 (fun n => dgup_sk M Sx Sy Sz X Y Z n m n)); [|unfold S4, S3; rewrite !U; reflexivity].
  refine (eq_trans _ E). apply S4_ext; intro n. apply S4_ext; intro p. rewrite gup_sk, Gam_sk. f_equal. apply S4_ext; intro q. rewrite gup_sk. reflexivity.
Qed.
(** The wave operator  g^ab (d_a d_b u - Gamma^c_ab d_c u)  made from the tables is the divergence  d_a (g^ab d_b u). *)
Theorem C116_wave M Sx Sy Sz a b c X Y Z dgup (du : d4 -> R) (ddu : d4 -> d4 -> R) : spin_per_mass M Sx Sy Sz a b c -> outside_disc a b c X Y Z ->
  (forall q m n, pd4 (fun x y z => kerr_gup M Sx Sy Sz x y z (n10 m n)) q X Y Z (dgup q m n)) ->
  S4 (fun m => S4 (fun n => kerr_gup M Sx Sy Sz X Y Z (n10 m n) * ddu m n)) - S4 (fun m => kerr_G M Sx Sy Sz X Y Z (n4 m) * du m) =
  S4 (fun m => S4 (fun n => dgup m m n * du n + kerr_gup M Sx Sy Sz X Y Z (n10 m n) * ddu m n)).
Proof.
  intros SP D HD. assert (E : forall m, kerr_G M Sx Sy Sz X Y Z (n4 m) = - S4 (fun n => dgup n n m)).
  { intros m. apply (C116_trace M Sx Sy Sz a b c X Y Z (fun q i j => dgup q j i)); auto. intros q i j. replace (n10 i j) with (n10 j i) by (destruct i as [|[]], j as [|[]]; reflexivity). apply HD. }
  unfold S4, S3 in *. rewrite !E. ring.
Qed.
(** a black hole of mass 2 and spin (0, 0, 1) at (1, 2, 2), and its derivatives *)
Example C116_ex : spin_per_mass 2 0 0 1 0 0 (/ 2) /\ outside_disc 0 0 (/ 2) 1 2 2 /\
  (exists dg, forall q m n, pd4 (fun x y z => kerr_g 2 0 0 1 x y z (n10 m n)) q 1 2 2 (dg q m n)) /\ (exists dgup, forall q m n, pd4 (fun x y z => kerr_gup 2 0 0 1 x y z (n10 m n)) q 1 2 2 (dgup q m n)).
Proof.
  assert (SP : spin_per_mass 2 0 0 1 0 0 (/ 2)) by (split; [intros _; repeat split; field|intros Q; lra]). assert (D : outside_disc 0 0 (/ 2) 1 2 2) by (left; lra).
  split; [exact SP|]. split; [exact D|]. apply disc_eq in D. split.
  - exists (dg_sk 2 0 0 1 1 2 2). intros. apply (pd4_g _ _ _ _ _ _ _ SP _ _ _ D).
  - exists (dgup_sk 2 0 0 1 1 2 2). intros. apply (pd4_gup _ _ _ _ _ _ _ SP _ _ _ D).
Qed.
Print Assumptions C116_metric.
Print Assumptions C116_christoffel.
Print Assumptions C116_trace.
Print Assumptions C116_wave.

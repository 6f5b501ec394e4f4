(** C41: the matrices built by probing are the transform pipelines; matrix products. *)
From Verif Require Import Arrays Mat_model Mat_spec Mat_proofs Mat_inst Cheb_model Four_model Fd_model.
Local Open Scope R_scope.

(** Multiplying with D (and DD) gives, for every line u, exactly what transforming, differentiating the coefficients once (twice)
    and transforming back gives, whatever the temporaries and output contained before. *)
Theorem C41_initdiffmatrix n get_coeffs coeffs_of_deriv eval_onPoints D DD :
  linear_fn n (swap get_coeffs) -> linear_fn n coeffs_of_deriv -> linear_fn n eval_onPoints ->
  List.length D = (n * n)%nat -> List.length DD = (n * n)%nat ->
  exists D' DD', initdiffmatrix D DD n get_coeffs coeffs_of_deriv eval_onPoints = Ok (D', DD') /\ List.length D' = (n * n)%nat /\ List.length DD' = (n * n)%nat /\
    forall u c0 d0 v0 w0, List.length u = n -> List.length c0 = n -> List.length d0 = n -> List.length v0 = n -> List.length w0 = n ->
    exists c d v e w, get_coeffs c0 u (n - 1)%nat = Ok c /\ coeffs_of_deriv c d0 (n - 1)%nat = Ok d /\ eval_onPoints d v0 (n - 1)%nat = Ok v /\ matrix_times_vector D' u v0 n = Ok v /\
      coeffs_of_deriv d d0 (n - 1)%nat = Ok e /\ eval_onPoints e w0 (n - 1)%nat = Ok w /\ matrix_times_vector DD' u w0 n = Ok w.
Proof.
  intros [A HA] [B HB] [E HE] LD LDD. destruct (initdiffmatrix_ok D DD n get_coeffs coeffs_of_deriv eval_onPoints A B E) as (D' & DD' & ER & M1 & M2); auto.
  exists D', DD'. split; auto. split; [apply M1|]. split; [apply M2|]. intros u c0 d0 v0 w0 Lu Lc Ld Lv Lw.
  exists (apply n A u), (apply n B (apply n A u)), (apply n E (apply n B (apply n A u))), (apply n B (apply n B (apply n A u))), (apply n E (apply n B (apply n B (apply n A u)))).
  split; [apply HA; auto|]. rewrite !HB by (auto; apply apply_length). split; auto. rewrite !HE by (auto; apply apply_length). split; auto.
  rewrite (mtv_ok D' u v0 n _ M1), (mtv_ok DD' u w0 n _ M2) by auto. rewrite (apply_apply n B A), (apply_apply n E), (apply_apply n B (compose n B A)), (apply_apply n E). auto.
Qed.
(** second derivative and integration matrices: one function in the middle *)
Theorem C41_initdiffmatrix2 n get_coeffs middle eval_onPoints DD :
  linear_fn n (swap get_coeffs) -> linear_fn n middle -> linear_fn n eval_onPoints -> List.length DD = (n * n)%nat ->
  exists DD', initdiffmatrix2 DD n get_coeffs middle eval_onPoints = Ok DD' /\ initIntegrationMatrix DD n get_coeffs middle eval_onPoints = Ok DD' /\
    forall u c0 d0 v0, List.length u = n -> List.length c0 = n -> List.length d0 = n -> List.length v0 = n ->
    exists c d v, get_coeffs c0 u (n - 1)%nat = Ok c /\ middle c d0 (n - 1)%nat = Ok d /\ eval_onPoints d v0 (n - 1)%nat = Ok v /\ matrix_times_vector DD' u v0 n = Ok v.
Proof.
  intros [A HA] [B HB] [E HE] LDD. destruct (initdiffmatrix2_ok DD n get_coeffs middle eval_onPoints A B E) as (DD' & ER & M1); auto.
  exists DD'. split; auto. split; auto. intros u c0 d0 v0 Lu Lc Ld Lv.
  exists (apply n A u), (apply n B (apply n A u)), (apply n E (apply n B (apply n A u))).
  split; [apply HA; auto|]. rewrite !HB by (auto; apply apply_length). split; auto. rewrite !HE by (auto; apply apply_length). split; auto.
  rewrite (mtv_ok DD' u v0 n _ M1) by auto. rewrite (apply_apply n B A), (apply_apply n E). auto.
Qed.
(** transform matrices *)
Theorem C41_coeff_eval n get_coeffs eval_onPoints M M0 : linear_fn n (swap get_coeffs) -> linear_fn n eval_onPoints -> List.length M = (n * n)%nat -> List.length M0 = (n * n)%nat ->
  exists Mc Me, initMatrix_ForCoeffs M n get_coeffs = Ok Mc /\ initMatrix_ToEvaluate M0 n eval_onPoints = Ok Me /\
    forall u o, List.length u = n -> List.length o = n -> matrix_times_vector Mc u o n = get_coeffs o u (n - 1)%nat /\ matrix_times_vector Me u o n = eval_onPoints u o (n - 1)%nat.
Proof.
  intros [A HA] [E HE] L L0. destruct (initMatrix_ForCoeffs_ok M n get_coeffs A HA L) as (Mc & E1 & M1). destruct (initMatrix_ToEvaluate_ok M0 n eval_onPoints E HE L0) as (Me & E2 & M2).
  exists Mc, Me. split; auto. split; auto. intros u o Lu Lo. rewrite (mtv_ok Mc u o n _ M1), (mtv_ok Me u o n _ M2), HE by auto. split; auto. symmetry. apply (HA u o Lu Lo).
Qed.
(** all transforms of the code are linear, so the theorems above apply to them *)
Theorem C41_linear n a b : (2 <= n)%nat ->
  linear_fn n (swap cheb_coeffs_fromExtrema) /\ linear_fn n cheb_eval_onExtrema /\ linear_fn n (swap cheb_coeffs_fromZeros) /\ linear_fn n cheb_eval_onZeros /\
  linear_fn n (cheb_deriv a b) /\ linear_fn n (cheb_int a b) /\
  linear_fn n (swap four_coeffs) /\ linear_fn n four_eval /\ linear_fn n (four_deriv a b) /\ linear_fn n (four_int a b) /\
  linear_fn n (swap fd2_coeffs) /\ linear_fn n fd2_eval /\ linear_fn n (fd2_deriv_periodic a b) /\ ((3 <= n)%nat -> linear_fn n (fd2_deriv_onesidedBC a b)).
Proof.
  intros Hn. split; [now apply fromExtrema_lin|]. split; [now apply onExtrema_lin|]. split; [apply fromZeros_lin; lia|]. split; [apply onZeros_lin; lia|].
  split; [apply cheb_deriv_lin; lia|]. split; [now apply cheb_int_lin|]. split; [apply four_coeffs_lin; lia|]. split; [apply four_eval_lin; lia|].
  split; [apply four_deriv_lin; lia|]. split; [apply four_int_lin; lia|]. split; [apply fd2_coeffs_lin; lia|]. split; [apply fd2_eval_lin; lia|].
  split; [now apply fd2_deriv_periodic_lin|apply fd2_deriv_onesided_lin].
Qed.
(** the filter matrix removes exactly the coefficients from number k-1 on, and is the identity on a cleared array if k > n *)
Theorem C41_filter n k get_coeffs eval_onPoints F : (1 <= n)%nat -> linear_fn n (swap get_coeffs) -> linear_fn n eval_onPoints -> List.length F = (n * n)%nat -> (1 <= k <= n)%nat ->
  exists F', initfiltermatrix F (Z.of_nat k) n get_coeffs cheb_filter eval_onPoints = Ok F' /\
    forall u c0 v0, List.length u = n -> List.length c0 = n -> List.length v0 = n ->
    exists c c' v, get_coeffs c0 u (n - 1)%nat = Ok c /\ List.length c' = n /\ (forall i, (i < n)%nat -> c'.[i] = if (i <? k - 1)%nat then c.[i] else 0) /\
      eval_onPoints c' v0 (n - 1)%nat = Ok v /\ matrix_times_vector F' u v0 n = Ok v.
Proof.
  intros Hn [A HA] [E HE] L Hk. destruct (initfiltermatrix_ok F k n get_coeffs cheb_filter eval_onPoints A E HA (cheb_filter_filters n Hn) HE L Hk) as (F' & ER & M).
  exists F'. split; auto. intros u c0 v0 Lu Lc Lv. exists (apply n A u), (apply n (keep (k - 1)) (apply n A u)), (apply n E (apply n (keep (k - 1)) (apply n A u))).
  split; [apply (HA u c0); auto|]. split; [apply apply_length|]. split.
  - intros i Hi. rewrite apply_nth by auto. rewrite (Sig_single n i); auto.
    + unfold keep. rewrite Nat.eqb_refl. cbn [andb]. destruct (i <? k - 1)%nat; ring.
    + intros j _ N. unfold keep. destruct (Nat.eqb_spec i j); [congruence|]. cbn [andb]. ring.
  - split; [apply HE; auto; apply apply_length|]. rewrite (mtv_ok F' u v0 n _ M) by auto. f_equal. now rewrite (apply_apply n (keep (k - 1)) A), (apply_apply n E).
Qed.
Theorem C41_nofilter n k get_coeffs filter_coeffs eval_onPoints u v0 : (Z.of_nat n < k)%Z -> List.length u = n -> List.length v0 = n ->
  exists F', initfiltermatrix (repeat 0 (n * n)) k n get_coeffs filter_coeffs eval_onPoints = Ok F' /\ matrix_times_vector F' u v0 n = Ok u.
Proof.
  intros Hk Lu Lv. unfold initfiltermatrix. cbv zeta. destruct (Z.leb_spec k (Z.of_nat n)); [lia|].
  destruct (for_nat_inv (fun m F => List.length F = (n * n)%nat /\ forall i j, (i < n)%nat -> (j < n)%nat -> F.[n * i + j] = if ((i =? j) && (i <? m))%nat then 1 else 0)
    (fun i F => wr F (n * i + i) 1) 0 n (repeat 0 (n * n))) as (F & E & L & V).
  - lia.
  - rewrite repeat_length. split; auto. intros. rewrite nth_repeat, andb_false_r. auto.
  - intros m F Hm [L V]. rewrite wr_ok by (rewrite L; apply idx_lt; lia). eexists. split; [reflexivity|]. rewrite upd_length. split; auto.
    intros i j Hi Hj. destruct (Nat.eq_dec (n * i + j) (n * m + m)) as [X|X].
    + destruct (idx_inj n i j m m) as [-> ->]; auto; try lia. rewrite nth_upd_eq by (rewrite L; apply idx_lt; lia). rewrite Nat.eqb_refl. destruct (Nat.ltb_spec m (m + 1)); auto. lia.
    + rewrite nth_upd_ne by auto. rewrite V by auto. destruct (Nat.eqb_spec i j) as [->|]; auto. cbn [andb]. destruct (Nat.ltb_spec j m), (Nat.ltb_spec j (m + 1)); auto; try lia. exfalso. assert (j = m) by lia. subst. lia.
  - exists F. split; auto. assert (IF : ismat n F (fun i j => if (i =? j)%nat then 1 else 0)). { split; auto. intros i j Hi Hj. rewrite V by auto. destruct (Nat.ltb_spec i n); [|lia]. now rewrite andb_true_r. }
    rewrite (mtv_ok F u v0 n _ IF) by auto.
    f_equal. apply list_eq_R. { now rewrite apply_length. } intros i Hi. rewrite apply_length in Hi. rewrite apply_nth by auto. rewrite (Sig_single n i); auto.
    + rewrite Nat.eqb_refl. ring. + intros j _ N. destruct (Nat.eqb_spec i j); [congruence|ring].
Qed.
(** matrix products are associative with the matrix times vector product; vector times matrix is the transpose *)
Theorem C41_products n M D MD u v o uM : List.length M = (n * n)%nat -> List.length D = (n * n)%nat -> List.length MD = (n * n)%nat ->
  List.length u = n -> List.length v = n -> List.length o = n -> List.length uM = n ->
  exists P Du PDu w, matrix_times_matrix M D MD n = Ok P /\ matrix_times_vector D u o n = Ok Du /\ matrix_times_vector M Du o n = Ok PDu /\ matrix_times_vector P u o n = Ok PDu /\
    vector_times_matrix v D uM n = Ok w /\ scalarproduct_vectors w u n = scalarproduct_vectors v Du n /\
    (forall i, (i < n)%nat -> Du.[i] = Sig n (fun j => D.[n * i + j] * u.[j])).
Proof.
  intros LM LD LMD Lu Lv Lo Lw. set (K := fun i j => M.[n * i + j]). set (L := fun i j => D.[n * i + j]).
  assert (IM : ismat n M K) by (split; auto). assert (ID : ismat n D L) by (split; auto).
  destruct (mtm_ok M D MD n K L IM ID LMD) as (P & EP & IP). destruct (vtm_ok v D uM n L ID Lv Lw) as (w & Ew & Lw' & Vw).
  exists P, (apply n L u), (apply n K (apply n L u)), w. split; auto. rewrite (mtv_ok D u o n L), (mtv_ok M _ o n K), (mtv_ok P u o n (compose n K L)) by (auto; apply apply_length).
  split; auto. split; auto. split; [now rewrite apply_apply|]. split; auto.
  assert (SP : forall x y, List.length x = n -> List.length y = n -> scalarproduct_vectors x y n = Ok (Sig n (fun i => x.[i] * y.[i]))).
  { intros x y Lx Ly. unfold scalarproduct_vectors. rewrite (sum_loop 0 n _ (fun i => x.[i] * y.[i])). - rewrite Nat.sub_0_r, Rplus_0_l. f_equal. - intros k s Hk. rewrite !(rd_ok _ _ 0) by lia. cbn [rbind]. reflexivity. }
  split. - rewrite !SP by (auto; apply apply_length). f_equal.
    rewrite (Sig_ext n _ (fun j => Sig n (fun i => v.[i] * L i j * u.[j]))) by (intros; rewrite Vw by auto; now rewrite Sig_scal_r). rewrite Sig_swap. apply Sig_ext. intros i Hi. rewrite apply_nth by auto. rewrite <- Sig_scal. apply Sig_ext. intros. ring.
  - intros i Hi. now rewrite apply_nth by auto.
Qed.
(** basis values times the coefficient matrix give the interpolation weights: BM.u = sum_i basis_i(X) c_i *)
Theorem C41_basis_weights n get_coeffs basis BM : linear_fn n (swap get_coeffs) -> List.length BM = n ->
  exists w, spec_Basis_times_CoeffMatrix n BM get_coeffs basis = Ok w /\ List.length w = n /\
    forall u c0, List.length u = n -> List.length c0 = n -> exists c, get_coeffs c0 u (n - 1)%nat = Ok c /\ scalarproduct_vectors w u n = Ok (Sig n (fun i => basis i * c.[i])).
Proof.
  intros [A HA] L. unfold spec_Basis_times_CoeffMatrix. destruct (initMatrix_ForCoeffs_ok (repeat 0 (n * n)) n get_coeffs A HA) as (M & E & IM); [apply repeat_length|]. rewrite E. cbn [rbind].
  unfold basis_times_coeffmatrix. destruct (fill_loop 0 n (fun i B => wr B i (basis i)) basis (repeat 0 n) 0) as (B & EB & LB & VB); auto. { rewrite repeat_length; lia. } rewrite EB. cbn [rbind]. rewrite repeat_length in LB.
  destruct (vtm_ok B M BM n A IM LB L) as (w & Ew & Lw & Vw). exists w. split; auto. split; auto. intros u c0 Lu Lc. exists (apply n A u). split; [apply (HA u c0); auto|].
  unfold scalarproduct_vectors. rewrite (sum_loop 0 n _ (fun i => w.[i] * u.[i])). 2:{ intros k s Hk. rewrite !(rd_ok _ _ 0) by lia. cbn [rbind]. reflexivity. }
  rewrite Nat.sub_0_r, Rplus_0_l. f_equal. rewrite (Sig_ext n (fun i => w.[0 + i] * u.[0 + i]) (fun j => Sig n (fun i => basis i * (A i j * u.[j])))).
  - rewrite Sig_swap. apply Sig_ext. intros i Hi. rewrite apply_nth by auto. now rewrite Sig_scal.
  - intros j Hj. simpl (0 + j)%nat. rewrite Vw by auto. rewrite <- Sig_scal_r. apply Sig_ext. intros i Hi. rewrite VB. destruct (Nat.leb_spec 0 i), (Nat.ltb_spec i n); try lia. cbn [andb]. ring.
Qed.
Example C41_example : linear_fn 5 (swap cheb_coeffs_fromExtrema) /\ linear_fn 5 (cheb_deriv 0 1) /\ linear_fn 5 cheb_eval_onExtrema.
Proof. split; [apply fromExtrema_lin; lia|]. split; [apply cheb_deriv_lin; lia|apply onExtrema_lin; lia]. Qed.

Print Assumptions C41_initdiffmatrix.
Print Assumptions C41_initdiffmatrix2.
Print Assumptions C41_coeff_eval.
Print Assumptions C41_linear.
Print Assumptions C41_filter.
Print Assumptions C41_nofilter.
Print Assumptions C41_products.
Print Assumptions C41_basis_weights.

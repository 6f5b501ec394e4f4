From Verif Require Import Arrays Mat_model Mat_spec.
Local Open Scope R_scope.

Lemma apply_length n K u : List.length (apply n K u) = n.
Proof. unfold apply. now rewrite map_length, seq_length. Qed.
Lemma apply_nth n K u i : (i < n)%nat -> (apply n K u).[i] = Sig n (fun j => K i j * u.[j]).
Proof.
  intros H. unfold apply. pose (f := fun i => Sig n (fun j => K i j * u.[j])). change (fun i => Sig n (fun j => K i j * u.[j])) with f.
  rewrite (nth_indep _ 0 (f 0%nat)) by (rewrite map_length, seq_length; auto). rewrite map_nth, seq_nth by auto. reflexivity.
Qed.
Lemma apply_ext n K K' u : (forall i j, (i < n)%nat -> (j < n)%nat -> K i j = K' i j) -> apply n K u = apply n K' u.
Proof. intros H. apply list_eq_R; rewrite !apply_length; auto. intros i Hi. rewrite !apply_nth by auto. apply Sig_ext. intros. rewrite H; auto. Qed.
Lemma apply_apply n A B u : apply n A (apply n B u) = apply n (compose n A B) u.
Proof.
  apply list_eq_R; rewrite !apply_length; auto. intros i Hi. rewrite !apply_nth by auto. unfold compose.
  rewrite (Sig_ext n _ (fun j => Sig n (fun k => A i j * (B j k * u.[k])))). 2:{ intros j Hj. rewrite apply_nth by auto. now rewrite Sig_scal. }
  rewrite Sig_swap. apply Sig_ext. intros k Hk. rewrite <- Sig_scal_r. apply Sig_ext. intros. ring.
Qed.

(** the unit vectors used for probing *)
Definition unit (n j : nat) : list R := upd (repeat 0 n) j 1.
Lemma unit_length n j : List.length (unit n j) = n. Proof. unfold unit. now rewrite upd_length, repeat_length. Qed.
Lemma unit_nth n j k : (j < n)%nat -> (unit n j).[k] = if (k =? j)%nat then 1 else 0.
Proof.
  intros H. unfold unit. destruct (Nat.eqb_spec k j) as [->|N]. - apply nth_upd_eq. now rewrite repeat_length. - rewrite nth_upd_ne by auto. apply nth_repeat.
Qed.
Lemma unit_clear n j : (j < n)%nat -> upd (unit n j) j 0 = repeat 0 n.
Proof.
  intros H. apply list_eq_R. { now rewrite upd_length, unit_length, repeat_length. } intros i Hi. rewrite nth_repeat. destruct (Nat.eq_dec i j) as [->|N].
  - rewrite nth_upd_eq; auto. now rewrite unit_length. - rewrite nth_upd_ne, unit_nth by auto. destruct (Nat.eqb_spec i j); congruence.
Qed.
Lemma apply_unit n K i j : (i < n)%nat -> (j < n)%nat -> (apply n K (unit n j)).[i] = K i j.
Proof.
  intros Hi Hj. rewrite apply_nth by auto. rewrite (Sig_single n j); auto.
  - rewrite unit_nth, Nat.eqb_refl by auto. ring. - intros k Hk N. rewrite unit_nth by auto. destruct (Nat.eqb_spec k j); [congruence|ring].
Qed.

Lemma idx_lt n i j : (i < n)%nat -> (j < n)%nat -> (n * i + j < n * n)%nat.
Proof. intros. nia. Qed.
Lemma idx_inj n i j i' j' : (j < n)%nat -> (j' < n)%nat -> (n * i + j = n * i' + j')%nat -> i = i' /\ j = j'.
Proof. intros Hj Hj' E. assert (i = i') by nia. subst. split; auto. lia. Qed.

(** array D is the matrix K *)
Definition ismat (n : nat) (D : list R) (K : nat -> nat -> R) : Prop :=
  List.length D = (n * n)%nat /\ forall i j, (i < n)%nat -> (j < n)%nat -> D.[n * i + j] = K i j.

Lemma put_column_ok D c n j : List.length D = (n * n)%nat -> List.length c = n -> (j < n)%nat ->
  exists D', put_column D c n j = Ok D' /\ List.length D' = (n * n)%nat /\
    forall i k, (i < n)%nat -> (k < n)%nat -> D'.[n * i + k] = if (k =? j)%nat then c.[i] else D.[n * i + k].
Proof.
  intros LD Lc Hj. unfold put_column.
  destruct (for_nat_inv (fun m D' => List.length D' = (n * n)%nat /\ forall i k, (i < n)%nat -> (k < n)%nat -> D'.[n * i + k] = if ((k =? j) && (i <? m))%nat then c.[i] else D.[n * i + k])
    (fun i D => do x <- rd c i; wr D (n * i + j) x) 0 n D) as (D' & E & L & V).
  - lia.
  - split; auto. intros. rewrite andb_false_r. auto.
  - intros m D1 Hm [L1 V1]. rewrite (rd_ok _ _ 0) by lia. cbn [rbind]. rewrite wr_ok by (rewrite L1; apply idx_lt; lia). eexists. split; [reflexivity|]. rewrite upd_length. split; auto.
    intros i k Hi Hk. destruct (Nat.eq_dec (n * i + k) (n * m + j)) as [E|NE].
    + destruct (idx_inj n i k m j) as [-> ->]; auto. rewrite nth_upd_eq by (rewrite L1; apply idx_lt; lia). rewrite Nat.eqb_refl. destruct (Nat.ltb_spec m (m + 1)); [|lia]. reflexivity.
    + rewrite nth_upd_ne by auto. rewrite V1 by auto. destruct (Nat.eqb_spec k j) as [->|]; auto. cbn [andb]. destruct (Nat.ltb_spec i m), (Nat.ltb_spec i (m + 1)); auto; try lia. exfalso. assert (i = m) by lia. subst. congruence.
  - exists D'. split; auto. split; auto. intros i k Hi Hk. rewrite V by auto. destruct (k =? j)%nat; auto. destruct (Nat.ltb_spec i n); auto. lia.
Qed.

(** one matrix column by column *)
Lemma mtv_at_ok M u bu Mu bM n K : ismat n M K -> (bu + n <= List.length u)%nat -> (bM + n <= List.length Mu)%nat ->
  exists Mu', mtv_at false M u bu Mu bM n = Ok Mu' /\ List.length Mu' = List.length Mu /\
    forall k, Mu'.[k] = if ((bM <=? k) && (k <? bM + n))%nat then Sig n (fun j => K (k - bM)%nat j * u.[bu + j]) else Mu.[k].
Proof.
  intros [LM VM] Lu LMu. unfold mtv_at.
  destruct (for_nat_inv (fun m D' => List.length D' = List.length Mu /\ forall k, D'.[k] = if ((bM <=? k) && (k <? bM + m))%nat then Sig n (fun j => K (k - bM)%nat j * u.[bu + j]) else Mu.[k])
    (fun i Mu => do sum <- for_nat 0 n (fun j s => do m <- rd M (n * i + j); do x <- rd u (bu + j); Ok (s + m * x)) 0; wr Mu (bM + i) sum) 0 n Mu) as (D' & E & L & V).
  - lia.
  - split; auto. intros k. destruct (Nat.leb_spec bM k), (Nat.ltb_spec k (bM + 0)); cbn [andb]; auto; lia.
  - intros m D1 Hm [L1 V1]. rewrite (sum_loop 0 n _ (fun j => K m j * u.[bu + j])).
    2:{ intros k s Hk. rewrite (rd_ok M _ 0) by (rewrite LM; apply idx_lt; lia). cbn [rbind]. rewrite (rd_ok u _ 0) by lia. cbn [rbind]. rewrite VM by lia. reflexivity. }
    cbn [rbind]. rewrite wr_ok by lia. eexists. split; [reflexivity|]. rewrite upd_length. split; auto. intros k. destruct (Nat.eq_dec k (bM + m)) as [->|N].
    + rewrite nth_upd_eq by lia. destruct (Nat.leb_spec bM (bM + m)), (Nat.ltb_spec (bM + m) (bM + (m + 1))); try lia. cbn [andb]. rewrite Nat.sub_0_r, Rplus_0_l. apply Sig_ext. intros. do 2 f_equal. lia.
    + rewrite nth_upd_ne by auto. rewrite V1. destruct (Nat.leb_spec bM k), (Nat.ltb_spec k (bM + m)), (Nat.ltb_spec k (bM + (m + 1))); cbn [andb]; auto; lia.
  - exists D'. auto.
Qed.
Lemma mtv_ok M u Mu n K : ismat n M K -> List.length u = n -> List.length Mu = n -> matrix_times_vector M u Mu n = Ok (apply n K u).
Proof.
  intros H Lu LM. unfold matrix_times_vector. destruct (mtv_at_ok M u 0 Mu 0 n K) as (v & E & L & V); auto; try lia. rewrite E. f_equal.
  apply list_eq_R. { rewrite apply_length. lia. } intros i Hi. rewrite V, apply_nth by lia. destruct (Nat.leb_spec 0 i), (Nat.ltb_spec i (0 + n)); try lia. cbn [andb]. rewrite Nat.sub_0_r. apply Sig_ext. intros. reflexivity.
Qed.
Lemma vtm_ok u M uM n K : ismat n M K -> List.length u = n -> List.length uM = n ->
  exists v, vector_times_matrix u M uM n = Ok v /\ List.length v = n /\ forall j, (j < n)%nat -> v.[j] = Sig n (fun i => u.[i] * K i j).
Proof.
  intros [LM VM] Lu L. unfold vector_times_matrix.
  destruct (fill_loop 0 n (fun j uM => do sum <- for_nat 0 n (fun i s => do x <- rd u i; do m <- rd M (n * i + j); Ok (s + x * m)) 0; wr uM j sum) (fun j => Sig n (fun i => u.[i] * K i j)) uM 0) as (v & E & L' & V).
  - lia.
  - intros j s Hj Ls. rewrite (sum_loop 0 n _ (fun i => u.[i] * K i j)).
    + cbn [rbind]. rewrite Nat.sub_0_r, Rplus_0_l. reflexivity.
    + intros k t Hk. rewrite (rd_ok u _ 0) by lia. cbn [rbind]. rewrite (rd_ok M _ 0) by (rewrite LM; apply idx_lt; lia). cbn [rbind]. rewrite VM by lia. reflexivity.
  - exists v. split; auto. split; [lia|]. intros j Hj. rewrite V. destruct (Nat.leb_spec 0 j), (Nat.ltb_spec j n); auto; lia.
Qed.
Lemma mtm_ok M D MD n K L : ismat n M K -> ismat n D L -> List.length MD = (n * n)%nat ->
  exists P, matrix_times_matrix M D MD n = Ok P /\ ismat n P (compose n K L).
Proof.
  intros [LM VM] [LD VD] LP. unfold matrix_times_matrix.
  destruct (for_nat_inv (fun m P => List.length P = (n * n)%nat /\ forall i k, (i < m)%nat -> (k < n)%nat -> P.[n * i + k] = compose n K L i k)
    (fun i MD => for_nat 0 n (fun k MD => do sum <- for_nat 0 n (fun j s => do m <- rd M (n * i + j); do d <- rd D (n * j + k); Ok (s + m * d)) 0; wr MD (n * i + k) sum) MD) 0 n MD) as (P & E & LP' & V).
  - lia.
  - split; auto. intros. lia.
  - intros i P Hi [L1 V1].
    destruct (for_nat_inv (fun m Q => List.length Q = (n * n)%nat /\ (forall i' k, (i' < i)%nat -> (k < n)%nat -> Q.[n * i' + k] = compose n K L i' k) /\ forall k, (k < m)%nat -> Q.[n * i + k] = compose n K L i k)
      (fun k MD => do sum <- for_nat 0 n (fun j s => do m <- rd M (n * i + j); do d <- rd D (n * j + k); Ok (s + m * d)) 0; wr MD (n * i + k) sum) 0 n P) as (Q & EQ & LQ & VQ1 & VQ2).
    + lia.
    + split; auto. split; auto. intros. lia.
    + intros k Q Hk (LQ & A & B). rewrite (sum_loop 0 n _ (fun j => K i j * L j k)).
      2:{ intros j s Hj. rewrite (rd_ok M _ 0) by (rewrite LM; apply idx_lt; lia). cbn [rbind]. rewrite (rd_ok D _ 0) by (rewrite LD; apply idx_lt; lia). cbn [rbind]. rewrite VM, VD by lia. reflexivity. }
      cbn [rbind]. rewrite wr_ok by (rewrite LQ; apply idx_lt; lia). eexists. split; [reflexivity|]. rewrite upd_length. split; auto. split.
      * intros i' k' Hi' Hk'. rewrite nth_upd_ne; auto. intros X. destruct (idx_inj n i' k' i k) as [? ?]; lia.
      * intros k' Hk'. destruct (Nat.eq_dec k' k) as [->|N]. { rewrite nth_upd_eq by (rewrite LQ; apply idx_lt; lia). unfold compose. rewrite Nat.sub_0_r, Rplus_0_l. apply Sig_ext. reflexivity. } rewrite nth_upd_ne by lia. apply B. lia.
    + exists Q. split; auto. split; auto. intros i' k Hi' Hk. destruct (Nat.eq_dec i' i) as [->|N]; auto. apply VQ1; lia.
  - exists P. split; auto. split; auto.
Qed.

(** the probing loops *)
Definition colsdone (n m : nat) (D : list R) (K : nat -> nat -> R) : Prop :=
  List.length D = (n * n)%nat /\ forall i j, (i < n)%nat -> (j < m)%nat -> D.[n * i + j] = K i j.
Lemma colsdone_put n m D K c : colsdone n m D K -> List.length c = n -> (m < n)%nat -> (forall i, (i < n)%nat -> c.[i] = K i m) ->
  exists D', put_column D c n m = Ok D' /\ colsdone n (m + 1) D' K.
Proof.
  intros [L V] Lc Hm Hc. destruct (put_column_ok D c n m L Lc Hm) as (D' & E & L' & V'). exists D'. split; auto. split; auto.
  intros i j Hi Hj. rewrite V' by lia. destruct (Nat.eqb_spec j m) as [->|N]; [apply Hc; auto|apply V; lia].
Qed.

Lemma initdiffmatrix_ok D DD n get_coeffs coeffs_of_deriv eval_onPoints A B E :
  computes n (swap get_coeffs) A -> computes n coeffs_of_deriv B -> computes n eval_onPoints E ->
  List.length D = (n * n)%nat -> List.length DD = (n * n)%nat ->
  exists D' DD', initdiffmatrix D DD n get_coeffs coeffs_of_deriv eval_onPoints = Ok (D', DD') /\
    ismat n D' (compose n E (compose n B A)) /\ ismat n DD' (compose n E (compose n B (compose n B A))).
Proof.
  intros HA HB HE LD LDD. unfold initdiffmatrix. cbv zeta.
  match goal with |- context [for_nat 0 n ?bdy ?st] => destruct (for_nat_inv (fun m s => let '(u, c, d, D, DD) := s in
    u = repeat 0 n /\ List.length c = n /\ List.length d = n /\ colsdone n m D (compose n E (compose n B A)) /\ colsdone n m DD (compose n E (compose n B (compose n B A)))) bdy 0 n st) as (t & ER & P) end.
  - lia.
  - rewrite repeat_length. repeat split; auto; intros; lia.
  - intros j [[[[u c] d] D1] DD1] Hj (-> & Lc & Ld & C1 & C2). rewrite wr_ok by (rewrite repeat_length; lia). cbn [rbind]. fold (unit n j).
    assert (LU := unit_length n j).
    assert (X : get_coeffs c (unit n j) (n - 1)%nat = Ok (apply n A (unit n j))) by (apply HA; auto). rewrite X. cbn [rbind].
    rewrite HB by (auto; apply apply_length). cbn [rbind]. rewrite HE by (apply apply_length). cbn [rbind]. rewrite (apply_apply n B A), (apply_apply n E).
    destruct (colsdone_put n j D1 (compose n E (compose n B A)) (apply n (compose n E (compose n B A)) (unit n j)) C1) as (D2 & E2 & C2'); [apply apply_length|lia|intros; apply apply_unit; auto; lia|].
    rewrite E2. cbn [rbind]. rewrite HB by (apply apply_length). cbn [rbind]. rewrite HE by (apply apply_length). cbn [rbind]. rewrite (apply_apply n B (compose n B A)), (apply_apply n E).
    destruct (colsdone_put n j DD1 (compose n E (compose n B (compose n B A))) (apply n (compose n E (compose n B (compose n B A))) (unit n j)) C2) as (D3 & E3 & C3'); [apply apply_length|lia|intros; apply apply_unit; auto; lia|].
    rewrite E3. cbn [rbind]. rewrite wr_ok by (rewrite LU; lia). cbn [rbind]. rewrite unit_clear by lia. eexists. split; [reflexivity|]. repeat split; auto; try apply apply_length; try apply C3'; try apply C2'.
  - rewrite ER. destruct t as [[[[u c] d] D1] DD1]. destruct P as (_ & _ & _ & P1 & P2). cbn [rbind]. exists D1, DD1. auto.
Qed.
Lemma initdiffmatrix2_ok DD n get_coeffs coeffs_of_2ndderiv eval_onPoints A B E :
  computes n (swap get_coeffs) A -> computes n coeffs_of_2ndderiv B -> computes n eval_onPoints E -> List.length DD = (n * n)%nat ->
  exists DD', initdiffmatrix2 DD n get_coeffs coeffs_of_2ndderiv eval_onPoints = Ok DD' /\ ismat n DD' (compose n E (compose n B A)).
Proof.
  intros HA HB HE LDD. unfold initdiffmatrix2. cbv zeta.
  match goal with |- context [for_nat 0 n ?bdy ?st] => destruct (for_nat_inv (fun m s => let '(u, c, d, D) := s in
    u = repeat 0 n /\ List.length c = n /\ List.length d = n /\ colsdone n m D (compose n E (compose n B A))) bdy 0 n st) as (t & ER & P) end.
  - lia.
  - rewrite repeat_length. repeat split; auto; intros; lia.
  - intros j [[[u c] d] D1] Hj (-> & Lc & Ld & C1). rewrite wr_ok by (rewrite repeat_length; lia). cbn [rbind]. fold (unit n j).
    assert (LU := unit_length n j).
    assert (X : get_coeffs c (unit n j) (n - 1)%nat = Ok (apply n A (unit n j))) by (apply HA; auto). rewrite X. cbn [rbind].
    rewrite HB by (auto; apply apply_length). cbn [rbind]. rewrite HE by (apply apply_length). cbn [rbind]. rewrite (apply_apply n B A), (apply_apply n E).
    destruct (colsdone_put n j D1 (compose n E (compose n B A)) (apply n (compose n E (compose n B A)) (unit n j)) C1) as (D2 & E2 & C2'); [apply apply_length|lia|intros; apply apply_unit; auto; lia|].
    rewrite E2. cbn [rbind]. rewrite wr_ok by (rewrite LU; lia). cbn [rbind]. rewrite unit_clear by lia. eexists. split; [reflexivity|]. repeat split; auto; try apply apply_length; try apply C3'; try apply C2'.
  - rewrite ER. destruct t as [[[u c] d] D1]. destruct P as (_ & _ & _ & P1). cbn [rbind]. exists D1. auto.
Qed.
Lemma initMatrix_ForCoeffs_ok M n get_coeffs A : computes n (swap get_coeffs) A -> List.length M = (n * n)%nat ->
  exists M', initMatrix_ForCoeffs M n get_coeffs = Ok M' /\ ismat n M' A.
Proof.
  intros HA LDD. unfold initMatrix_ForCoeffs. cbv zeta.
  match goal with |- context [for_nat 0 n ?bdy ?st] => destruct (for_nat_inv (fun m s => let '(u, c, D) := s in
    u = repeat 0 n /\ List.length c = n /\ colsdone n m D A) bdy 0 n st) as (t & ER & P) end.
  - lia.
  - rewrite repeat_length. repeat split; auto; intros; lia.
  - intros j [[u c] D1] Hj (-> & Lc & C1). rewrite wr_ok by (rewrite repeat_length; lia). cbn [rbind]. fold (unit n j).
    assert (LU := unit_length n j).
    assert (X : get_coeffs c (unit n j) (n - 1)%nat = Ok (apply n A (unit n j))) by (apply HA; auto). rewrite X. cbn [rbind].
    destruct (colsdone_put n j D1 A (apply n A (unit n j)) C1) as (D2 & E2 & C2'); [apply apply_length|lia|intros; apply apply_unit; auto; lia|].
    rewrite E2. cbn [rbind]. rewrite wr_ok by (rewrite LU; lia). cbn [rbind]. rewrite unit_clear by lia. eexists. split; [reflexivity|]. repeat split; auto; try apply apply_length; try apply C3'; try apply C2'.
  - rewrite ER. destruct t as [[u c] D1]. destruct P as (_ & _ & P1). cbn [rbind]. exists D1. auto.
Qed.
Lemma initMatrix_ToEvaluate_ok M n eval_onPoints A : computes n eval_onPoints A -> List.length M = (n * n)%nat ->
  exists M', initMatrix_ToEvaluate M n eval_onPoints = Ok M' /\ ismat n M' A.
Proof.
  intros HA LDD. unfold initMatrix_ToEvaluate. cbv zeta.
  match goal with |- context [for_nat 0 n ?bdy ?st] => destruct (for_nat_inv (fun m s => let '(u, c, D) := s in
    c = repeat 0 n /\ List.length u = n /\ colsdone n m D A) bdy 0 n st) as (t & ER & P) end.
  - lia.
  - rewrite repeat_length. repeat split; auto; intros; lia.
  - intros j [[u c] D1] Hj (-> & Lc & C1). rewrite wr_ok by (rewrite repeat_length; lia). cbn [rbind]. fold (unit n j).
    assert (LU := unit_length n j). rewrite HA by auto. cbn [rbind].
    destruct (colsdone_put n j D1 A (apply n A (unit n j)) C1) as (D2 & E2 & C2'); [apply apply_length|lia|intros; apply apply_unit; auto; lia|].
    rewrite E2. cbn [rbind]. rewrite wr_ok by (rewrite LU; lia). cbn [rbind]. rewrite unit_clear by lia. eexists. split; [reflexivity|]. repeat split; auto; try apply apply_length; try apply C3'; try apply C2'.
  - rewrite ER. destruct t as [[u c] D1]. destruct P as (_ & _ & P1). cbn [rbind]. exists D1. auto.
Qed.
(** filter kernel: identity below k *)
Definition keep (k : nat) (i j : nat) : R := if ((i =? j) && (i <? k))%nat then 1 else 0.
Definition filters (n : nat) (f : list R -> nat -> nat -> res (list R)) : Prop :=
  forall c k, List.length c = n -> f c k (n - 1)%nat = Ok (apply n (keep k) c).
Lemma initfiltermatrix_ok F k n get_coeffs filter_coeffs eval_onPoints A E :
  computes n (swap get_coeffs) A -> filters n filter_coeffs -> computes n eval_onPoints E -> List.length F = (n * n)%nat -> (1 <= k <= n)%nat ->
  exists F', initfiltermatrix F (Z.of_nat k) n get_coeffs filter_coeffs eval_onPoints = Ok F' /\ ismat n F' (compose n E (compose n (keep (k - 1)) A)).
Proof.
  intros HA HB HE LDD Hk. unfold initfiltermatrix. cbv zeta. destruct (Z.leb_spec (Z.of_nat k) (Z.of_nat n)); [|lia]. destruct (Z.ltb_spec (Z.of_nat k) 1); [lia|].
  replace (Z.to_nat (Z.of_nat k - 1)) with (k - 1)%nat by lia.
  match goal with |- context [for_nat 0 n ?bdy ?st] => destruct (for_nat_inv (fun m s => let '(u, c, d, D) := s in
    u = repeat 0 n /\ List.length c = n /\ List.length d = n /\ colsdone n m D (compose n E (compose n (keep (k - 1)) A))) bdy 0 n st) as (t & ER & P) end.
  - lia.
  - rewrite repeat_length. repeat split; auto; intros; lia.
  - intros j [[[u c] d] D1] Hj (-> & Lc & Ld & C1). rewrite wr_ok by (rewrite repeat_length; lia). cbn [rbind]. fold (unit n j).
    assert (LU := unit_length n j).
    assert (X : get_coeffs c (unit n j) (n - 1)%nat = Ok (apply n A (unit n j))) by (apply HA; auto). rewrite X. cbn [rbind].
    rewrite HB by (apply apply_length). cbn [rbind]. rewrite HE by (auto; apply apply_length). cbn [rbind]. rewrite (apply_apply n (keep (k - 1)) A), (apply_apply n E).
    destruct (colsdone_put n j D1 (compose n E (compose n (keep (k - 1)) A)) (apply n (compose n E (compose n (keep (k - 1)) A)) (unit n j)) C1) as (D2 & E2 & C2'); [apply apply_length|lia|intros; apply apply_unit; auto; lia|].
    rewrite E2. cbn [rbind]. rewrite wr_ok by (rewrite LU; lia). cbn [rbind]. rewrite unit_clear by lia. eexists. split; [reflexivity|]. repeat split; auto; try apply apply_length; try apply C3'; try apply C2'.
  - rewrite ER. destruct t as [[[u c] d] D1]. destruct P as (_ & _ & _ & P1). cbn [rbind]. exists D1. auto.
Qed.

(** ** linear functionals of a line of n values, closed under the operations used by the transforms *)
Definition lin (n : nat) (g : list R -> R) : Prop := exists k, forall c, g c = Sig n (fun j => k j * c.[j]).
Lemma lin_nth n i : (i < n)%nat -> lin n (fun c => c.[i]).
Proof. intros H. exists (fun j => if (j =? i)%nat then 1 else 0). intros c. rewrite (Sig_single n i); auto. - rewrite Nat.eqb_refl. ring. - intros j _ N. destruct (Nat.eqb_spec j i); [congruence|ring]. Qed.
Lemma lin_ext n f g : (forall c, f c = g c) -> lin n g -> lin n f.
Proof. intros H [k K]. exists k. intros. now rewrite H. Qed.
Lemma lin_0 n : lin n (fun _ => 0). Proof. exists (fun _ => 0). intros. symmetry. apply Sig_zero. intros. ring. Qed.
Lemma lin_plus n f g : lin n f -> lin n g -> lin n (fun c => f c + g c).
Proof. intros [k K] [l L]. exists (fun j => k j + l j). intros. rewrite K, L, <- Sig_plus. apply Sig_ext. intros. ring. Qed.
Lemma lin_scal n a f : lin n f -> lin n (fun c => a * f c).
Proof. intros [k K]. exists (fun j => a * k j). intros. rewrite K, <- Sig_scal. apply Sig_ext. intros. ring. Qed.
Lemma lin_scal_r n a f : lin n f -> lin n (fun c => f c * a).
Proof. intros H. apply lin_ext with (fun c => a * f c). { intros; ring. } now apply lin_scal. Qed.
Lemma lin_opp n f : lin n f -> lin n (fun c => - f c).
Proof. intros H. apply lin_ext with (fun c => -1 * f c). { intros; ring. } now apply lin_scal. Qed.
Lemma lin_minus n f g : lin n f -> lin n g -> lin n (fun c => f c - g c).
Proof. intros. apply lin_plus; auto. now apply lin_opp. Qed.
Lemma lin_div n a f : lin n f -> lin n (fun c => f c / a). Proof. apply lin_scal_r. Qed.
Lemma lin_Sig n m (f : nat -> list R -> R) : (forall i, (i < m)%nat -> lin n (f i)) -> lin n (fun c => Sig m (fun i => f i c)).
Proof. induction m; intros H. - apply lin_0. - simpl. apply lin_plus; auto. Qed.
Lemma lin_if n (b : bool) f g : lin n f -> lin n g -> lin n (fun c => if b then f c else g c). Proof. destruct b; auto. Qed.

Lemma finite_choice {A} (d : A) n (P : nat -> A -> Prop) : (forall i, (i < n)%nat -> exists x, P i x) -> exists f, forall i, (i < n)%nat -> P i (f i).
Proof.
  induction n; intros H. { exists (fun _ => d). intros; lia. }
  destruct IHn as [f F]; [intros; apply H; lia|]. destruct (H n) as [x X]; [lia|]. exists (fun i => if (i =? n)%nat then x else f i).
  intros i Hi. destruct (Nat.eqb_spec i n) as [->|]; auto. apply F. lia.
Qed.
(** a function whose outputs are given by linear functionals of its input computes a linear map *)
Lemma computes_of_lin n f (g : nat -> list R -> R) : (forall i, (i < n)%nat -> lin n (g i)) ->
  (forall i o, List.length i = n -> List.length o = n -> exists r, f i o (n - 1)%nat = Ok r /\ List.length r = n /\ forall k, (k < n)%nat -> r.[k] = g k i) ->
  exists K, computes n f K.
Proof.
  intros HL HF. destruct (finite_choice (fun _ => 0) n (fun i k => forall c, g i c = Sig n (fun j => k j * c.[j])) HL) as [K HK].
  exists K. intros i o Li Lo. destruct (HF i o Li Lo) as (r & E & L & V). rewrite E. f_equal. apply list_eq_R. { now rewrite apply_length. }
  intros k Hk. rewrite L in Hk. rewrite V, HK, apply_nth by auto. reflexivity.
Qed.

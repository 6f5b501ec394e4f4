(** The one-dimensional transforms are linear maps of the line. *)
From Verif Require Import Arrays Mat_model Mat_spec Mat_proofs Cheb_model Cheb_spec Cheb_proofs Cheb_props Four_model Four_spec Four_proofs Four_props Fd_model Fd_spec Fd_props.
Local Open Scope R_scope.

Ltac lins := repeat first [apply lin_nth; lia | apply lin_0 | apply lin_plus | apply lin_minus | apply lin_scal | apply lin_scal_r | apply lin_opp | apply lin_div | apply lin_if].

Lemma fromExtrema_lin n : (2 <= n)%nat -> linear_fn n (swap cheb_coeffs_fromExtrema).
Proof.
  intros Hn. set (m := (n - 1)%nat).
  apply (computes_of_lin n _ (fun j u => (if (j =? m)%nat then / 2 else 1) * (2 / INR m * Sig (m + 1) (fun k => wend m k * (cos (INR j * (PI / INR m) * INR k) * u.[k]))))).
  - intros i Hi. apply lin_scal, lin_scal, lin_Sig. intros k Hk. assert (m = n - 1)%nat by reflexivity. lins.
  - intros i o Li Lo. unfold swap. destruct (fromExtrema_ok o i m) as (c & E & L & V & _); unfold m in *; try lia. exists c. split; auto. split; [lia|]. intros k Hk. apply V. lia.
Qed.
Lemma onExtrema_lin n : (2 <= n)%nat -> linear_fn n cheb_eval_onExtrema.
Proof.
  intros Hn. set (m := (n - 1)%nat).
  apply (computes_of_lin n _ (fun j c => Sig (m + 1) (fun k => whalf k * (c.[k] * cos (INR k * (PI / INR m) * INR j))))).
  - intros i Hi. apply lin_Sig. intros k Hk. assert (m = n - 1)%nat by reflexivity. lins.
  - intros i o Li Lo. destruct (onExtrema_ok i o m) as (c & E & L & V & _); unfold m in *; try lia. exists c. split; auto. split; [lia|]. intros k Hk. apply V. lia.
Qed.
Lemma fromZeros_lin n : (1 <= n)%nat -> linear_fn n (swap cheb_coeffs_fromZeros).
Proof.
  intros Hn. set (m := (n - 1)%nat).
  apply (computes_of_lin n _ (fun j u => 2 / INR (m + 1) * Sig (m + 1) (fun k => cos (INR j * (PI / INR (m + 1)) * (INR k + / 2)) * u.[k]))).
  - intros i Hi. apply lin_scal, lin_Sig. intros k Hk. assert (m = n - 1)%nat by reflexivity. lins.
  - intros i o Li Lo. unfold swap. destruct (fromZeros_ok o i m) as (c & E & L & V & _); unfold m in *; try lia. exists c. split; auto. split; [lia|]. intros k Hk. apply V. lia.
Qed.
Lemma onZeros_lin n : (1 <= n)%nat -> linear_fn n cheb_eval_onZeros.
Proof.
  intros Hn. set (m := (n - 1)%nat).
  apply (computes_of_lin n _ (fun j c => Sig (m + 1) (fun k => whalf k * (c.[k] * cos (INR k * (PI / INR (m + 1)) * (INR j + / 2)))))).
  - intros i Hi. apply lin_Sig. intros k Hk. assert (m = n - 1)%nat by reflexivity. lins.
  - intros i o Li Lo. destruct (onZeros_ok i o m) as (c & E & L & V & _); unfold m in *; try lia. exists c. split; auto. split; [lia|]. intros k Hk. apply V. lia.
Qed.
Lemma four_coeffs_lin n : (1 <= n)%nat -> linear_fn n (swap four_coeffs).
Proof.
  intros Hn. set (m := (n - 1)%nat).
  apply (computes_of_lin n _ (fun i u => Sig (m + 1) (fun k => mode i (phase (m + 1) k) * u.[k]))).
  - intros i Hi. apply lin_Sig. intros k Hk. assert (m = n - 1)%nat by reflexivity. lins.
  - intros i o Li Lo. unfold swap. destruct (four_coeffs_ok o i m) as (c & E & L & V & _); unfold m in *; try lia. exists c. split; auto. split; [lia|]. intros k Hk. apply V. lia.
Qed.
Lemma four_eval_lin n : (1 <= n)%nat -> linear_fn n four_eval.
Proof.
  intros Hn. set (m := (n - 1)%nat).
  apply (computes_of_lin n _ (fun k c => tpoly c (m + 1) (phase (m + 1) k))).
  - intros i Hi. unfold tpoly. apply lin_Sig. intros k Hk. assert (m = n - 1)%nat by reflexivity. lins.
  - intros i o Li Lo. destruct (four_eval_ok i o m) as (c & E & L & V & _); unfold m in *; try lia. exists c. split; auto. split; [lia|]. intros k Hk. apply V. lia.
Qed.
(** explicit derivative coefficients *)
Definition dsum (m j : nat) (c : list R) : R := Sig (m + 1) (fun p => if ((j <? p) && Nat.odd (p - j))%nat then 2 * INR p * c.[p] else 0).
Lemma dsum_hi m j c : (m <= j)%nat -> dsum m j c = 0.
Proof. intros H. apply Sig_zero. intros p Hp. destruct (Nat.ltb_spec j p); auto. lia. Qed.
Lemma dsum_step m j c : (j < m)%nat -> dsum m j c - dsum m (j + 2) c = 2 * (INR j + 1) * c.[j + 1].
Proof.
  intros H. unfold dsum. rewrite <- Sig_minus. rewrite (Sig_single (m + 1) (j + 1)); [|lia|].
  - destruct (Nat.ltb_spec j (j + 1)), (Nat.ltb_spec (j + 2) (j + 1)); try lia. cbn [andb]. replace (j + 1 - j)%nat with 1%nat by lia. change (Nat.odd 1) with true. cbv iota. rewrite plus_INR. simpl (INR 1). ring.
  - intros p Hp N. destruct (Nat.ltb_spec j p), (Nat.ltb_spec (j + 2) p); cbn [andb]; try lia; try ring.
    + replace (p - j)%nat with (S (S (p - (j + 2)))) by lia. rewrite Nat.odd_succ_succ. ring.
    + replace p with (j + 2)%nat by lia. replace (j + 2 - j)%nat with 2%nat by lia. change (Nat.odd 2) with false. cbv iota. ring.
Qed.
Lemma dsum_unique m c e : (forall j, (m <= j)%nat -> e j = 0) -> (forall j, (j < m)%nat -> e j - e (j + 2)%nat = 2 * (INR j + 1) * c.[j + 1]) -> forall j, e j = dsum m j c.
Proof.
  intros Z W. assert (H : forall k j, (m <= j + k)%nat -> e j = dsum m j c).
  { induction k as [k IH] using (well_founded_induction lt_wf). intros j Hj. destruct (le_lt_dec m j). { rewrite Z, dsum_hi by auto. auto. }
    assert (E := W j l). assert (E2 := dsum_step m j c l). enough (e (j + 2)%nat = dsum m (j + 2) c) by lra.
    destruct (le_lt_dec 1 k). - apply (IH (k - 1)%nat); lia. - lia. }
  intros j. apply (H m). lia.
Qed.
Lemma cheb_deriv_lin a b n : (1 <= n)%nat -> linear_fn n (cheb_deriv a b).
Proof.
  intros Hn. set (m := (n - 1)%nat). assert (Hm : m = (n - 1)%nat) by reflexivity.
  apply (computes_of_lin n _ (fun j c => 2 / (a - b) * dsum m j c)).
  - intros i Hi. apply lin_scal. unfold dsum. apply lin_Sig. intros k Hk. lins.
  - intros i o Li Lo. destruct (cheb_deriv_ok a b i o m) as (c & e & E & L & _ & V & Z & W); try lia. exists c. split; auto. split; [lia|].
    intros k Hk. rewrite V by lia. f_equal. apply dsum_unique; auto.
Qed.
Lemma cheb_int_lin a b n : (2 <= n)%nat -> linear_fn n (cheb_int a b).
Proof.
  intros Hn. set (m := (n - 1)%nat). assert (Hm : m = (n - 1)%nat) by reflexivity.
  set (g := fun j c => (a - b) / 4 * (if (j <? m)%nat then c.[j - 1] - c.[j + 1] else c.[j - 1]) / INR j).
  apply (computes_of_lin n _ (fun j c => if (j =? 0)%nat then - 2 * Sig m (fun i => g (i + 1)%nat c * (-1) ^ (i + 1)) else g j c)).
  - assert (G : forall j, (1 <= j <= m)%nat -> lin n (g j)). { intros j Hj. unfold g. apply lin_div, lin_scal. destruct (Nat.ltb_spec j m); lins. }
    intros i Hi. destruct (Nat.eqb_spec i 0) as [->|N]. + cbn [Nat.eqb]. apply lin_scal, lin_Sig. intros k Hk. apply lin_scal_r. apply G. lia. + apply G. lia.
  - intros i o Li Lo. destruct (cheb_int_ok a b i o m) as (c & E & L & _ & V & Vn & V0); try lia. exists c. split; auto. split; [lia|].
    assert (G : forall j, (1 <= j <= m)%nat -> c.[j] = g j i). { intros j Hj. unfold g. destruct (Nat.ltb_spec j m). - apply V. lia. - assert (j = m) by lia. subst j. apply Vn. }
    intros k Hk. destruct (Nat.eqb_spec k 0) as [->|N]. + rewrite V0. f_equal. apply Sig_ext. intros j Hj. rewrite G by lia. auto. + apply G. lia.
Qed.
Lemma four_deriv_lin a b n : (1 <= n)%nat -> linear_fn n (four_deriv a b).
Proof.
  intros Hn. set (m := (n - 1)%nat). assert (Hm : m = (n - 1)%nat) by reflexivity.
  apply (computes_of_lin n _ (fun i c => if ((i =? 0) || (Nat.even (m + 1) && (i =? m)))%nat then 0 else
    if Nat.even i then - c.[i - 1] * (2 * PI / (b - a)) * INR (i / 2) else c.[i + 1] * (2 * PI / (b - a)) * INR ((i + 1) / 2))).
  - intros i Hi. destruct (Nat.eqb_spec i 0) as [->|N]. { apply lin_0. } cbn [orb]. destruct (Nat.even (m + 1) && (i =? m))%nat eqn:Em. { apply lin_0. }
    destruct (Nat.even i) eqn:Ei. + lins.
    + assert (i < m)%nat. { destruct (Nat.eq_dec i m) as [->|]; [|lia]. rewrite Nat.eqb_refl, andb_true_r in Em. rewrite Nat.even_add, Ei in Em. discriminate. } lins.
  - intros i o Li Lo. destruct (four_deriv_ok a b i o m) as (d & E & L & _ & V0 & Vn & V); try lia. exists d. split; auto. split; [lia|].
    intros k Hk. destruct (Nat.eqb_spec k 0) as [->|N]. { exact V0. } cbn [orb]. destruct (Nat.even (m + 1) && (k =? m))%nat eqn:Em.
    { apply andb_prop in Em. destruct Em as [E1 E2]. apply Nat.eqb_eq in E2. subst k. auto. }
    destruct (index_cases n k Hk) as [->|[(j & [J1 J2] & ->)|(j & [J1 J2] & ->)]]; [lia| |].
    + rewrite even_pred2 by lia. assert (2 * j <= m)%nat. { rewrite Hm. destruct (Nat.eq_dec (2 * j) n); [|lia]. exfalso. replace (m + 1)%nat with (2 * j)%nat in Em by lia. rewrite even_2 in Em. destruct (Nat.eqb_spec (2 * j - 1) m); [discriminate|lia]. }
      destruct (V j) as [V1 _]; auto. rewrite V1. replace (2 * j - 1 + 1)%nat with (2 * j)%nat by lia. rewrite half2. ring.
    + rewrite even_2, half2. destruct (V j) as [_ V2]; [lia|lia|]. rewrite V2. ring.
Qed.
Lemma four_int_lin a b n : (1 <= n)%nat -> linear_fn n (four_int a b).
Proof.
  intros Hn. set (m := (n - 1)%nat). assert (Hm : m = (n - 1)%nat) by reflexivity.
  apply (computes_of_lin n _ (fun i c => Sig (m + 1) (fun k => mode i (phase (m + 1) k) * (INR k * (b - a) / INR (m + 1))) * (c.[0] / INR (m + 1)) + iterm (2 * PI / (b - a)) c (m + 1) i)).
  - intros i Hi. apply lin_plus. { lins. } unfold iterm. destruct (Nat.eqb_spec i 0) as [->|N]. { apply lin_0. } cbn [orb].
    destruct (Nat.even (m + 1) && (i + 1 =? m + 1))%nat eqn:Em. { apply lin_0. } destruct (Nat.even i) eqn:Ei. + lins.
    + assert (i < m)%nat. { destruct (Nat.eq_dec i m) as [->|]; [|lia]. rewrite Nat.eqb_refl, andb_true_r in Em. rewrite Nat.even_add, Ei in Em. discriminate. } lins.
  - intros i o Li Lo. destruct (four_int_ok a b i o m) as (d & E & L & _ & V); try lia. exists d. split; auto. split; [lia|]. intros k Hk. apply V. lia.
Qed.
Lemma fd2_coeffs_lin n : (1 <= n)%nat -> linear_fn n (swap fd2_coeffs).
Proof.
  intros Hn. apply (computes_of_lin n _ (fun k c => c.[k])). { intros. lins. } intros i o Li Lo. unfold swap. destruct (C40_coeffs o i (n - 1)) as [E _]; try lia. exists i. auto.
Qed.
Lemma fd2_eval_lin n : (1 <= n)%nat -> linear_fn n fd2_eval.
Proof.
  intros Hn. apply (computes_of_lin n _ (fun k c => c.[k])). { intros. lins. } intros i o Li Lo. destruct (C40_coeffs o i (n - 1)) as [_ E]; try lia. exists i. auto.
Qed.
Ltac fdlin d V0 Vn Vj V := let k := fresh "k" in intros k ?; destruct (Nat.eqb_spec k 0) as [->|]; [apply V0|]; match goal with |- context [(k =? ?m)%nat] => destruct (Nat.eqb_spec k m) as [->|]; [apply Vn|] end;
  rewrite Vj, V by auto; match goal with |- context [((1 <=? k) && (k <? ?m))%nat] => destruct (Nat.leb_spec 1 k), (Nat.ltb_spec k m); try lia end; reflexivity.
Ltac fdl := intros i Hi; destruct (Nat.eqb_spec i 0) as [->|]; [cbn [Nat.eqb]; lins|]; match goal with |- context [(i =? ?m)%nat] => destruct (Nat.eqb_spec i m) as [->|] end; lins.
Lemma fd2_deriv_onesided_lin a b n : (3 <= n)%nat -> linear_fn n (fd2_deriv_onesidedBC a b).
Proof.
  intros Hn. set (m := (n - 1)%nat). assert (Hm : m = (n - 1)%nat) by reflexivity. set (con := 0.5 * INR m / (b - a)).
  apply (computes_of_lin n _ (fun j c => if (j =? 0)%nat then (-3.0 * c.[0] + 4.0 * c.[1] - c.[2]) * con else if (j =? m)%nat then (3.0 * c.[m] - 4.0 * c.[m - 1] + c.[m - 2]) * con else (c.[j + 1] - c.[j - 1]) * con)).
  - fdl.
  - intros c o Li Lo. fold m. unfold fd2_deriv_onesidedBC. cbv zeta. fold con. destruct (inner_ok c o m (fun p q m => (p - m) * con)) as (d & E & L & V); try lia. rewrite E. cbn [rbind].
    rewrite !(rd_ok c _ 0) by lia. cbn [rbind]. rewrite !rdm_ok by lia. cbn [rbind].
    destruct (ends_ok d m ((-3.0 * c.[0] + 4.0 * c.[1] - c.[2]) * con) ((3.0 * c.[m] - 4.0 * c.[m - 1] + c.[m - 2]) * con)) as (d' & E' & L' & V0 & Vn & Vj); try lia.
    exists d'. split; auto. split; [lia|]. fdlin d V0 Vn Vj V.
Qed.
Lemma fd2_deriv_periodic_lin a b n : (2 <= n)%nat -> linear_fn n (fd2_deriv_periodic a b).
Proof.
  intros Hn. set (m := (n - 1)%nat). assert (Hm : m = (n - 1)%nat) by reflexivity. set (con := 0.5 * INR (m + 1) / (b - a)).
  apply (computes_of_lin n _ (fun j c => if (j =? 0)%nat then (c.[1] - c.[m]) * con else if (j =? m)%nat then (c.[0] - c.[m - 1]) * con else (c.[j + 1] - c.[j - 1]) * con)).
  - fdl.
  - intros c o Li Lo. fold m. unfold fd2_deriv_periodic. cbv zeta. fold con. destruct (inner_ok c o m (fun p q m => (p - m) * con)) as (d & E & L & V); try lia. rewrite E. cbn [rbind].
    rewrite !(rd_ok c _ 0) by lia. cbn [rbind]. rewrite !rdm_ok by lia. cbn [rbind].
    destruct (ends_ok d m ((c.[1] - c.[m]) * con) ((c.[0] - c.[m - 1]) * con)) as (d' & E' & L' & V0 & Vn & Vj); try lia.
    exists d'. split; auto. split; [lia|]. fdlin d V0 Vn Vj V.
Qed.
Lemma cheb_filter_filters n : (1 <= n)%nat -> filters n cheb_filter.
Proof.
  intros Hn c k L. destruct (C36_filter c k (n - 1)) as (c' & E & L' & V); [lia|]. rewrite E. f_equal. apply list_eq_R. { rewrite apply_length. lia. }
  intros i Hi. rewrite apply_nth by lia. rewrite (Sig_single n i); try lia.
  - unfold keep. rewrite Nat.eqb_refl, V. destruct (Nat.leb_spec k i), (Nat.leb_spec i (n - 1)), (Nat.ltb_spec i k); cbn [andb]; try lia; ring.
  - intros j Hj N. unfold keep. destruct (Nat.eqb_spec i j); [congruence|]. cbn [andb]. ring.
Qed.

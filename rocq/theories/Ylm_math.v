(** Derivatives of (x^2-1)^l/(2^l l!): existence, uniqueness and the recursions used by SphericalHarmonics.c. *)
From Coq Require Import Reals Lra Lia Factorial.
From Coquelicot Require Import Coquelicot.
From Verif Require Import Ylm_spec.
Open Scope R_scope.

(** k-th derivative of rodrigues l, from u_(l+1)' = x u_l *)
Fixpoint rd_k (l k : nat) (x : R) {struct l} : R :=
  match k with
  | O => rodrigues l x
  | S k' => match l with O => 0 | S l' => x * rd_k l' k' x + match k' with O => 0 | S k'' => INR k' * rd_k l' k'' x end end
  end.
(** [kd l k] is [INR k * rd_k l (k-1)] *)
Definition kd (l k : nat) (x : R) : R := match k with O => 0 | S k' => INR k * rd_k l k' x end.
Definition kkd (l k : nat) (x : R) : R := match k with S (S k') => INR k * INR (S k') * rd_k l k' x | _ => 0 end.
Lemma rd_k_SS l k x : rd_k (S l) (S k) x = x * rd_k l k x + kd l k x.
Proof. destruct k; reflexivity. Qed.
Lemma rd_k_0 l x : rd_k l 0 x = rodrigues l x.
Proof. destruct l; reflexivity. Qed.
Lemma rd_0_S k x : rd_k 0 (S k) x = 0.
Proof. reflexivity. Qed.
Lemma fact_INR_neq l : INR (fact l) <> 0.
Proof. apply not_0_INR. apply fact_neq_0. Qed.
Lemma rodrigues_S l x : rodrigues (S l) x = (x ^ 2 - 1) / (2 * INR (S l)) * rodrigues l x.
Proof.
  unfold rodrigues. change (fact (S l)) with (S l * fact l)%nat. rewrite mult_INR.
  pose proof (fact_INR_neq l). assert (INR (S l) <> 0) by (apply not_0_INR; lia). assert (2 ^ l <> 0) by (apply pow_nonzero; lra).
  cbn [pow]. field. auto.
Qed.
Lemma rodrigues_derive l x : is_derive (rodrigues (S l)) x (x * rodrigues l x).
Proof.
  unfold rodrigues. change (fact (S l)) with (S l * fact l)%nat. rewrite mult_INR.
  pose proof (fact_INR_neq l). assert (INR (S l) <> 0) by (apply not_0_INR; lia). assert (2 ^ l <> 0) by (apply pow_nonzero; lra).
  apply (is_derive_ext (fun t => / (2 ^ S l * (INR (S l) * INR (fact l))) * (t ^ 2 - 1) ^ S l)). { intros t. match goal with |- ?a = ?b => change (@eq R a b) end. unfold Rdiv. ring. }
  replace (x * ((x ^ 2 - 1) ^ l / (2 ^ l * INR (fact l)))) with (/ (2 ^ S l * (INR (S l) * INR (fact l))) * (INR (S l) * (2 * x) * (x ^ 2 - 1) ^ l)) by (cbn [pow]; field; auto).
  apply (is_derive_scal (fun t => (t ^ 2 - 1) ^ S l)). apply (is_derive_pow (fun t => t ^ 2 - 1) (S l) x (2 * x)). auto_derive; [auto|ring].
Qed.
Lemma dconst (a x : R) : is_derive (fun _ : R => a) x 0.
Proof. auto_derive; auto. Qed.
Lemma rd_k_derive l : forall k x, is_derive (rd_k l k) x (rd_k l (S k) x).
Proof.
  induction l as [|l IH]; intros k x.
  - destruct k as [|k].
    + apply (is_derive_ext (fun _ => 1)). { intros t. cbn. unfold rodrigues. cbn. field. } rewrite rd_0_S. apply dconst.
    + apply (is_derive_ext (fun _ => 0)). { intros t. now rewrite rd_0_S. } rewrite rd_0_S. apply dconst.
  - destruct k as [|k].
    + apply (is_derive_ext (rodrigues (S l))). { intros. now rewrite rd_k_0. }
      rewrite rd_k_SS. cbn [kd]. rewrite Rplus_0_r, rd_k_0. apply rodrigues_derive.
    + apply (is_derive_ext (fun t => t * rd_k l k t + kd l k t)). { intros t. now rewrite rd_k_SS. }
      rewrite rd_k_SS. cbn [kd].
      replace (x * rd_k l (S k) x + INR (S k) * rd_k l k x) with ((1 * rd_k l k x + x * rd_k l (S k) x) + INR k * rd_k l k x) by (rewrite S_INR; ring).
      apply (is_derive_plus (V:=R_NormedModule)).
      * apply (is_derive_mult (fun t => t) (rd_k l k) x 1 (rd_k l (S k) x)); [apply (is_derive_id (K:=R_AbsRing))|apply IH|]. intros; apply Rmult_comm.
      * destruct k as [|k]; cbn [kd].
        { replace (INR 0 * rd_k l 0 x) with 0 by (cbn; ring). apply dconst. }
        apply (is_derive_scal (rd_k l k) x (INR (S k)) (rd_k l (S k) x)). apply IH.
Qed.
Lemma kd_derive l k x : is_derive (kd l k) x (INR k * rd_k l k x).
Proof.
  destruct k as [|k]; cbn [kd].
  - replace (INR 0 * rd_k l 0 x) with 0 by (cbn; ring). apply dconst.
  - apply (is_derive_scal (rd_k l k) x (INR (S k)) (rd_k l (S k) x)). apply rd_k_derive.
Qed.
Lemma kkd_derive l k x : is_derive (kkd l k) x (INR (k - 1) * kd l k x).
Proof.
  destruct k as [|[|k]]; cbn [kkd kd].
  - rewrite Rmult_0_r. apply dconst.
  - replace (INR (1 - 1) * (INR 1 * rd_k l 0 x)) with 0 by (cbn; ring). apply dconst.
  - replace (INR (S (S k) - 1) * (INR (S (S k)) * rd_k l (S k) x)) with (INR (S (S k)) * INR (S k) * rd_k l (S k) x) by (replace (S (S k) - 1)%nat with (S k) by lia; ring).
    apply (is_derive_scal (rd_k l k) x (INR (S (S k)) * INR (S k)) (rd_k l (S k) x)). apply rd_k_derive.
Qed.
(** the k-th derivative of 2(l+1) u_(l+1) = (x^2-1) u_l *)
Lemma rd_k_prod l : forall k x, 2 * INR (S l) * rd_k (S l) k x = (x ^ 2 - 1) * rd_k l k x + 2 * x * kd l k x + kkd l k x.
Proof.
  induction k as [|k IH]; intros x.
  - rewrite !rd_k_0, rodrigues_S. cbn [kd kkd]. field. apply not_0_INR; lia.
  - pose proof (is_derive_scal (rd_k (S l) k) x (2 * INR (S l)) _ (rd_k_derive (S l) k x)) as A.
    assert (B : is_derive (fun t => (t ^ 2 - 1) * rd_k l k t + 2 * t * kd l k t + kkd l k t) x
              ((2 * x * rd_k l k x + (x ^ 2 - 1) * rd_k l (S k) x) + (2 * kd l k x + 2 * x * (INR k * rd_k l k x)) + INR (k - 1) * kd l k x)).
    { apply (is_derive_plus (V:=R_NormedModule)); [apply (is_derive_plus (V:=R_NormedModule))|].
      - apply (is_derive_mult (fun t => t ^ 2 - 1) (rd_k l k) x (2 * x) (rd_k l (S k) x)); [auto_derive; [auto|ring]|apply rd_k_derive|]. intros; apply Rmult_comm.
      - apply (is_derive_mult (fun t => 2 * t) (kd l k) x 2 (INR k * rd_k l k x)); [auto_derive; [auto|ring]|apply kd_derive|]. intros; apply Rmult_comm.
      - apply kkd_derive. }
    assert (A' : is_derive (fun t => (t ^ 2 - 1) * rd_k l k t + 2 * t * kd l k t + kkd l k t) x (2 * INR (S l) * rd_k (S l) (S k) x)).
    { eapply is_derive_ext; [|exact A]. intros t. cbv beta. apply IH. }
    rewrite <- (is_derive_unique _ _ _ A'), (is_derive_unique _ _ _ B).
    destruct k as [|k].
    + cbn [kd kkd INR Nat.sub]. ring.
    + replace (S k - 1)%nat with k by lia. cbn [kd kkd]. rewrite (S_INR (S k)), (S_INR k). ring.
Qed.


(** ** the recursion in l *)
Lemma kd_S l n x : kd (S l) (S n) x = INR (S n) * rd_k (S l) n x.
Proof. reflexivity. Qed.
Lemma rd_k_SSS l n x : INR n * rd_k (S l) n x = x * kd l n x + kkd l n x.
Proof. destruct n as [|[|n]]; [cbn; ring| |]; rewrite rd_k_SS; cbn [kd kkd]; ring. Qed.
Lemma rd_k_mid l n x : (2 * INR (S l) - INR n) * rd_k (S l) n x = x * rd_k (S l) (S n) x - rd_k l n x.
Proof.
  rewrite Rmult_minus_distr_r, rd_k_prod, rd_k_SSS, rd_k_SS. ring.
Qed.
(** (l-m) D_l = x (2l-1) D_(l-1) - (l+m-1) D_(l-2), D_l the (l+m)-th derivative of u_l; here l = l0+2 and n = l+m-2 *)
Lemma rd_k_rec l n x : (2 * INR (S l) - INR n) * rd_k (S (S l)) (S (S n)) x = (2 * INR (S l) + 1) * x * rd_k (S l) (S n) x - INR (S n) * rd_k l n x.
Proof.
  rewrite (rd_k_SS (S l)), kd_S, Rmult_plus_distr_l.
  replace ((2 * INR (S l) - INR n) * (INR (S n) * rd_k (S l) n x)) with (INR (S n) * ((2 * INR (S l) - INR n) * rd_k (S l) n x)) by ring.
  rewrite rd_k_mid, (S_INR n). ring.
Qed.
(** derivatives beyond the degree *)
Lemma rd_k_high l : forall k x, (2 * l < k)%nat -> rd_k l k x = 0.
Proof.
  induction l as [|l IH]; intros k x H; (destruct k as [|k]; [lia|]); [reflexivity|].
  rewrite rd_k_SS, IH by lia. destruct k as [|k]; [lia|]. cbn [kd]. rewrite IH by lia. ring.
Qed.
(** the top derivative is (2m-1)!! *)
Lemma rd_k_top m x : rd_k (S m) (2 * S m) x = INR (2 * m + 1) * rd_k m (2 * m) x.
Proof.
  replace (2 * S m)%nat with (S (S (2 * m))) by lia. rewrite rd_k_SS. rewrite (rd_k_high m (S (2 * m))) by lia. cbn [kd].
  rewrite Rmult_0_r, Rplus_0_l. f_equal. f_equal. lia.
Qed.
Lemma rd_k_next m x : rd_k (S m) (S (2 * m)) x = INR (2 * m + 1) * x * rd_k m (2 * m) x.
Proof.
  destruct m as [|m].
  - rewrite rd_k_SS. cbn [kd Nat.mul Nat.add]. cbn [INR]. ring.
  - pose proof (rd_k_rec m (S (2 * m)) x) as H. replace (S (S (S (2 * m)))) with (S (2 * S m)) in H by lia. replace (S (S (2 * m))) with (2 * S m)%nat in H by lia.
    rewrite (rd_k_high m (S (2 * m))) in H by lia. rewrite Rmult_0_r, Rminus_0_r in H.
    replace (2 * INR (S m) - INR (S (2 * m))) with 1 in H by (rewrite !S_INR, mult_INR; cbn; ring). rewrite Rmult_1_l in H. rewrite H.
    rewrite plus_INR, mult_INR. cbn [INR]. ring.
Qed.

(** ** n-th derivatives exist and are unique *)
Lemma nth_deriv_rd l k : nth_deriv k (rodrigues l) (rd_k l k).
Proof.
  induction k as [|k IH]; [constructor; intros; apply rd_k_0|]. econstructor; [exact IH|]. intros x. apply is_derive_Reals. apply rd_k_derive.
Qed.
Lemma nth_deriv_unique n : forall f g h, nth_deriv n f g -> nth_deriv n f h -> forall x, g x = h x.
Proof.
  induction n as [|n IH]; intros f g h A B x; inversion A as [? ? E|? ? g1 ? A1 A2]; inversion B as [? ? E'|? ? h1 ? B1 B2]; subst.
  - now rewrite E, E'.
  - apply (uniqueness_limite g1 x); auto. assert (EQ : forall t, h1 t = g1 t) by (intros; eapply IH; eauto).
    apply is_derive_Reals. eapply is_derive_ext; [exact EQ|]. apply is_derive_Reals. apply B2.
Qed.
Lemma is_Plm_rd l m x v : is_Plm l m x v <-> v = (-1) ^ m * sqrt (1 - x ^ 2) ^ m * rd_k l (l + m) x.
Proof.
  split.
  - intros (g & D & ->). now rewrite (nth_deriv_unique _ _ _ _ D (nth_deriv_rd l (l + m))).
  - intros ->. exists (rd_k l (l + m)). split; auto. apply nth_deriv_rd.
Qed.

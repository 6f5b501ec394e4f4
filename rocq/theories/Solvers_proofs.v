(** Lemmas about the vector operations of Solvers_model.v. *)
From Verif Require Import Base Loops Rsum Sparse_model Sparse_spec Sparse_proofs Sparse_props Solvers_model Solvers_spec.
Local Open Scope R_scope.

Lemma zip_length f a b n : List.length a = n -> List.length b = n -> List.length (zip f a b) = n.
Proof. intros A B. unfold zip. rewrite map_length, combine_length. lia. Qed.
Lemma nth_zip f a b n i : List.length a = n -> List.length b = n -> (i < n)%nat -> (zip f a b).[i] = f a.[i] b.[i].
Proof.
  intros A B H. unfold zip. rewrite (nth_indep _ 0 ((fun p => f (fst p) (snd p)) (0, 0))) by (rewrite map_length, combine_length; lia).
  rewrite (map_nth (fun p => f (fst p) (snd p))), combine_nth by congruence. reflexivity.
Qed.
Lemma zip3_length f a b c n : List.length a = n -> List.length b = n -> List.length c = n -> List.length (zip3 f a b c) = n.
Proof. intros A B C. unfold zip3. rewrite map_length, !combine_length. lia. Qed.
Lemma nth_zip3 f a b c n i : List.length a = n -> List.length b = n -> List.length c = n -> (i < n)%nat -> (zip3 f a b c).[i] = f a.[i] b.[i] c.[i].
Proof.
  intros A B C H. unfold zip3. rewrite (nth_indep _ 0 ((fun p => f (fst (fst p)) (snd (fst p)) (snd p)) (0, 0, 0))) by (rewrite map_length, !combine_length; lia).
  rewrite (map_nth (fun p => f (fst (fst p)) (snd (fst p)) (snd p))). rewrite combine_nth by (rewrite combine_length; lia).
  rewrite combine_nth by congruence. reflexivity.
Qed.
Lemma combine_fold_sum (v w : list R) s : List.length v = List.length w ->
  fold_left (fun sum p => sum + fst p * snd p) (combine v w) s = s + Sig (List.length v) (fun i => v.[i] * w.[i]).
Proof.
  revert w s. induction v as [|a v IH]; intros [|b w] s H; cbn [combine fold_left List.length] in *; try lia.
  - cbn. lra.
  - rewrite IH by lia. rewrite Sig_S_l. cbn [nth fst snd]. lra.
Qed.
Lemma dot_Sig v w n : List.length v = n -> List.length w = n -> GridDotProduct v w = Sig n (fun i => v.[i] * w.[i]).
Proof. intros A B. unfold GridDotProduct. rewrite combine_fold_sum by congruence. subst n. lra. Qed.
Lemma scalar_Sig v w n : List.length v = n -> List.length w = n -> scalarproduct_vectors v w = Sig n (fun i => v.[i] * w.[i]).
Proof. intros A B. unfold scalarproduct_vectors. rewrite combine_fold_sum by congruence. subst n. lra. Qed.
Lemma L2_rms v n : List.length v = n -> GridL2Norm v = rms n (fun i => v.[i]).
Proof.
  intros <-. unfold GridL2Norm, rms. f_equal. f_equal.
  enough (H : forall s, fold_left (fun sum ui => sum + ui * ui) v s = s + Sig (List.length v) (fun i => v.[i] * v.[i])) by (rewrite H; lra).
  induction v as [|a v IH]; intros s; cbn [fold_left List.length]. { cbn. lra. }
  rewrite IH, Sig_S_l. cbn [nth]. lra.
Qed.
Lemma rms_ext n f g : (forall i, (i < n)%nat -> f i = g i) -> rms n f = rms n g.
Proof. intros H. unfold rms. do 2 f_equal. apply Sig_ext. intros i Hi. now rewrite H. Qed.
Lemma norm_ext n f g : (forall i, (i < n)%nat -> f i = g i) -> norm n f = norm n g.
Proof. intros H. unfold norm. f_equal. apply Sig_ext. intros i Hi. now rewrite H. Qed.

(** *** SOR *)
(** a square matrix without repeated entries: n lines, all positions below n *)
Definition square (n : nat) (A : list (list (nat * R))) : Prop :=
  List.length A = n /\ positions_below n A /\ Forall (fun s => NoDup (map fst s)) A.

Lemma entry_notin s i : ~ In i (map fst s) -> entry s i = 0.
Proof. intros N. apply lsum_zero. intros e He. destruct (Nat.eqb_spec (fst e) i) as [<-|]; auto. exfalso. apply N, in_map, He. Qed.
(** the sum over all columns but i *)
Definition offdiag (n : nat) (s : list (nat * R)) (i : nat) (x : nat -> R) : R := Sig n (fun j => if Nat.eqb j i then 0 else entry s j * x j).
Lemma SOR_line_gen line i x sig0 a0 : Forall (fun e => (fst e < List.length x)%nat) line -> NoDup (map fst line) ->
  forl line (fun e s => let '(sig, Aii) := s in
    if Nat.eqb (fst e) i then Ok (sig, snd e) else do xj <- rd x (fst e); Ok (sig + snd e * xj, Aii)) (sig0, a0)
  = Ok (sig0 + lsum (fun e => if Nat.eqb (fst e) i then 0 else snd e * x.[fst e]) line, if in_dec Nat.eq_dec i (map fst line) then entry line i else a0).
Proof.
  revert sig0 a0. induction line as [|e line IH]; intros sig0 a0 HP ND; cbn [forl map].
  - rewrite lsum_nil. cbn. do 2 f_equal. lra.
  - inversion HP as [|? ? HE HP']; subst. inversion ND as [|? ? NI ND']; subst. rewrite lsum_cons, entry_cons. destruct (Nat.eqb_spec (fst e) i) as [<-|N].
    + cbn [rbind]. rewrite IH by auto. destruct (in_dec Nat.eq_dec (fst e) (map fst line)); [contradiction|].
      destruct (in_dec Nat.eq_dec (fst e) (fst e :: map fst line)) as [_|H]; [|exfalso; apply H; now left].
      rewrite entry_notin by auto. do 2 f_equal; lra.
    + rewrite (rd_ok _ _ 0) by auto. cbn [rbind]. rewrite IH by auto. f_equal. f_equal; [lra|].
      destruct (in_dec Nat.eq_dec i (map fst line)); destruct (in_dec Nat.eq_dec i (fst e :: map fst line)) as [I|I]; cbn in I; try tauto; lra.
Qed.
Lemma SOR_line_ok line i x n : List.length x = n -> Forall (fun e => (fst e < n)%nat) line -> NoDup (map fst line) ->
  SOR_line line i x = Ok (offdiag n line i (fun j => x.[j]), entry line i).
Proof.
  intros L HP ND. subst n. unfold SOR_line. rewrite SOR_line_gen by auto. f_equal. f_equal.
  - unfold offdiag. rewrite Rplus_0_l. transitivity (lsum (fun e => snd e * (if Nat.eqb (fst e) i then 0 else x.[fst e])) line).
    { apply lsum_ext. intros e _. destruct (Nat.eqb (fst e) i); lra. }
    rewrite (entry_times line (fun j => if Nat.eqb j i then 0 else x.[j]) (List.length x)) by auto. apply Sig_ext. intros j _. destruct (Nat.eqb j i); lra.
  - destruct (in_dec Nat.eq_dec i (map fst line)); auto. now rewrite entry_notin.
Qed.
Lemma elem_out n A i j : square n A -> (n <= j)%nat -> elem A i j = 0.
Proof.
  intros (L & HP & _) H. unfold elem. destruct (Nat.lt_ge_cases i (List.length A)) as [HI|HI].
  - apply entry_notin. intros HIn. apply in_map_iff in HIn as (e & <- & He). unfold positions_below in HP. rewrite Forall_forall in HP.
    specialize (HP _ (nth_In A [] HI)). rewrite Forall_forall in HP. specialize (HP e He). cbn in HP. lia.
  - rewrite nth_overflow by auto. reflexivity.
Qed.

(** one sweep: x'_i is computed from the new values to the left and the old values to the right *)
Definition mixed (x' x : nat -> R) (i j : nat) : R := if Nat.ltb j i then x' j else x j.
Definition sor_val (n : nat) (A : list (list (nat * R))) (b x x' : list R) (omega : R) (i : nat) : R :=
  (1 - omega) * x.[i] + omega / elem A i i * (b.[i] - Sig n (fun j => if Nat.eqb j i then 0 else elem A i j * mixed (fun j => x'.[j]) (fun j => x.[j]) i j)).
Lemma sor_val_ext n A b x x1 x2 omega i : (forall j, (j < i)%nat -> x1.[j] = x2.[j]) -> sor_val n A b x x1 omega i = sor_val n A b x x2 omega i.
Proof.
  intros H. unfold sor_val. f_equal. f_equal. f_equal. apply Sig_ext. intros j _. destruct (Nat.eqb j i); auto. f_equal. unfold mixed.
  destruct (Nat.ltb_spec j i); auto.
Qed.
Lemma SOR_step_ok n A x b omega : square n A -> List.length x = n -> List.length b = n -> (forall i, (i < n)%nat -> elem A i i <> 0) ->
  exists x', SOR_step A x b omega = Ok x' /\ List.length x' = n /\ forall i, (i < n)%nat -> x'.[i] = sor_val n A b x x' omega i.
Proof.
  intros (LA & HP & ND) LX LB DZ. unfold SOR_step. rewrite LA.
  destruct (for_nat_inv (fun i xs => List.length xs = n /\ (forall k, (i <= k)%nat -> xs.[k] = x.[k]) /\ forall k, (k < i)%nat -> xs.[k] = sor_val n A b x xs omega k)
    (fun i x => do line <- rd A i; do s <- SOR_line line i x; let '(sig, Aii) := s in
       if Req_EM_T Aii 0 then Err else do xi <- rd x i; do bi <- rd b i; wr x i ((1 - omega) * xi + omega / Aii * (bi - sig))) 0 n x) as (x' & E & L' & _ & H).
  - lia.
  - split; auto. split; auto. intros; lia.
  - intros i xs Hi (L & HG & HL). rewrite (rd_ok _ _ []) by lia. cbn [rbind].
    assert (IN : In (nth i A []) A) by (apply nth_In; lia).
    rewrite (SOR_line_ok _ _ _ n); auto.
    2:{ unfold positions_below in HP. rewrite Forall_forall in HP. now apply HP. }
    2:{ rewrite Forall_forall in ND. now apply ND. }
    cbn [rbind]. fold (elem A i i). destruct (Req_EM_T (elem A i i) 0) as [Z|_]; [exfalso; revert Z; apply DZ; lia|].
    rewrite (rd_ok _ _ 0) by lia. cbn [rbind]. rewrite (rd_ok _ _ 0) by lia. cbn [rbind]. rewrite wr_ok by lia. eexists. split; [reflexivity|].
    split; [now rewrite upd_length|]. split.
    + intros k Hk. rewrite nth_upd_ne by lia. apply HG. lia.
    + intros k Hk. destruct (Nat.eq_dec k i) as [->|NE].
      * rewrite nth_upd_eq by lia. unfold sor_val. rewrite HG by lia. do 3 f_equal. unfold offdiag. apply Sig_ext. intros j Hj.
        destruct (Nat.eqb_spec j i) as [->|NE]; auto. unfold mixed, elem. f_equal. destruct (Nat.ltb_spec j i).
        -- now rewrite nth_upd_ne by lia.
        -- apply HG. lia.
      * rewrite nth_upd_ne by lia. rewrite HL by lia. apply sor_val_ext. intros j Hj. now rewrite nth_upd_ne by lia.
  - exists x'. auto.
Qed.
Lemma residual_ok n A x b f : square n A -> List.length x = n -> List.length b = n -> List.length f = n ->
  exists f', residual A x b f = Ok f' /\ List.length f' = n /\ forall i, (i < n)%nat -> f'.[i] = Sig n (fun j => elem A i j * x.[j]) - b.[i].
Proof.
  intros (LA & HP & ND) LX LB LF. unfold residual. destruct (C27_lines A x f) as (f1 & E & L & H & _); [lia|now rewrite LX|]. rewrite E. cbn [rbind].
  rewrite LA. destruct (for_nat_inv (fun i fs => List.length fs = n /\ (forall k, (i <= k)%nat -> fs.[k] = f1.[k]) /\ forall k, (k < i)%nat -> fs.[k] = f1.[k] - b.[k])
    (fun i f => do fi <- rd f i; do bi <- rd b i; wr f i (fi - bi)) 0 n f1) as (f' & E' & L' & _ & H').
  - lia.
  - split; [congruence|]. split; auto. intros; lia.
  - intros i fs Hi (L1 & HG & HL). rewrite (rd_ok _ _ 0) by lia. cbn [rbind]. rewrite (rd_ok _ _ 0) by lia. cbn [rbind]. rewrite wr_ok by lia. eexists. split; [reflexivity|].
    split; [now rewrite upd_length|]. split.
    + intros k Hk. rewrite nth_upd_ne by lia. apply HG. lia.
    + intros k Hk. destruct (Nat.eq_dec k i) as [->|NE].
      * rewrite nth_upd_eq by lia. now rewrite HG by lia.
      * rewrite nth_upd_ne by lia. apply HL. lia.
  - exists f'. split; auto. split; auto. intros i Hi. rewrite H' by auto. rewrite H by lia. now rewrite LX.
Qed.

(** C27: products of a sparse matrix with a vector.  C28: conversion to compressed columns. *)
From Verif Require Import Base Loops Rsum Sparse_model Sparse_spec Sparse_proofs.
From Coq Require Import Sorted Permutation.

(** all positions of the matrix are below n *)
Definition positions_below {F} (n : nat) (A : list (list (nat * F))) : Prop := Forall (Forall (fun e => fst e < n)) A.

(** *** C27: sequential products over the reals *)
Section C27.
Local Open Scope R_scope.

Lemma entry_cons e s j : entry (e :: s) j = (if Nat.eqb (fst e) j then snd e else 0) + entry s j.
Proof. reflexivity. Qed.
Lemma entry_times s (x : nat -> R) n : Forall (fun e => (fst e < n)%nat) s ->
  lsum (fun e => snd e * x (fst e)) s = Sig n (fun j => entry s j * x j).
Proof.
  induction 1 as [|e s He Hs IH].
  - rewrite Sig_zero; auto. intros. unfold entry. rewrite lsum_nil. lra.
  - rewrite lsum_cons, IH.
    transitivity (Sig n (fun j => (if Nat.eqb j (fst e) then snd e * x j else 0)) + Sig n (fun j => entry s j * x j)).
    + rewrite Sig_delta by auto. auto.
    + rewrite <- Sig_plus. apply Sig_ext. intros j _. rewrite entry_cons, Nat.eqb_sym. destruct (Nat.eqb (fst e) j); lra.
Qed.
Lemma rowval_R line x : rowval 0 Rplus Rmult line x = lsum (fun e => snd e * nth (fst e) x 0) line.
Proof. unfold rowval. rewrite (lsum_fold (fun e : nat * R => snd e * nth (fst e) x 0)). lra. Qed.

Theorem C27_lines (Aline : list (list (nat * R))) (x f : list R) :
  (List.length Aline <= List.length f)%nat -> positions_below (List.length x) Aline ->
  exists f', SparseMatrixLines_times_vector 0 Rplus Rmult Aline x f = Ok f' /\ List.length f' = List.length f /\
    (forall i, (i < List.length Aline)%nat -> nth i f' 0 = Sig (List.length x) (fun j => elem Aline i j * nth j x 0)) /\
    (forall i, (List.length Aline <= i)%nat -> nth i f' 0 = nth i f 0).
Proof.
  intros L HP. destruct (lines_ok 0 Rplus Rmult Aline x f L HP) as (f' & E & L' & H). exists f'. repeat split; auto; intros i Hi; rewrite H.
  - destruct (Nat.ltb_spec i (List.length Aline)); [|lia]. rewrite rowval_R. unfold elem. rewrite <- entry_times; auto.
    unfold positions_below in HP. rewrite Forall_forall in HP. now apply HP, nth_In.
  - destruct (Nat.ltb_spec i (List.length Aline)); [lia|auto].
Qed.

Lemma fold_at_R (l : list (nat * R)) j s : fold_left Rplus (at_ j l) s = s + entry l j.
Proof.
  unfold at_. revert s. induction l as [|e l IH]; intros s. { unfold entry, lsum. cbn. lra. }
  cbn [filter]. rewrite entry_cons. destruct (Nat.eqb (fst e) j); cbn [map fold_left]; rewrite IH; lra.
Qed.
Lemma entry_map_scal (c : R) s j : entry (map (fun e => (fst e, snd e * c)) s) j = entry s j * c.
Proof. unfold entry. rewrite lsum_map, <- lsum_scal_r. apply lsum_ext. intros e _. cbn. destruct (Nat.eqb (fst e) j); lra. Qed.
Lemma terms_R (x : list R) Aline j c : (forall k e, c k e = snd e * nth k x 0) ->
  entry (terms c Aline) j = Sig (List.length Aline) (fun i => nth i x 0 * elem Aline i j).
Proof.
  intros HC. unfold terms. unfold entry at 1. rewrite lsum_flat, lsum_seq. apply Sig_ext. intros i _.
  change (entry (map (fun e => (fst e, c i e)) (nth i Aline [])) j = nth i x 0 * elem Aline i j).
  rewrite (map_ext (fun e => (fst e, c i e)) (fun e => (fst e, snd e * nth i x 0))) by (intros; now rewrite HC).
  rewrite entry_map_scal. unfold elem. lra.
Qed.

(** The transposed products.  For a matrix with more columns than lines the elements f[j] with
    j >= nlines are not cleared, so the result is added to what was there. *)
Theorem C27_transposed (Aline : list (list (nat * R))) (x f : list R) :
  (List.length Aline <= List.length f)%nat -> (List.length Aline <= List.length x)%nat -> positions_below (List.length f) Aline ->
  exists f', vector_times_SparseMatrixLines 0 Rplus Rmult x Aline f = Ok f' /\
    SparseMatrixLinesTranspose_times_vector 0 Rplus Rmult Aline x f = Ok f' /\ List.length f' = List.length f /\
    (forall j, (j < List.length Aline)%nat -> nth j f' 0 = Sig (List.length Aline) (fun i => nth i x 0 * elem Aline i j)) /\
    (forall j, (List.length Aline <= j)%nat -> nth j f' 0 = nth j f 0 + Sig (List.length Aline) (fun i => nth i x 0 * elem Aline i j)).
Proof.
  intros LF LX HP. unfold vector_times_SparseMatrixLines, SparseMatrixLinesTranspose_times_vector.
  destruct (transposed_ok 0 Rplus (fun k e => nth k x 0 * snd e) (fun _ e xk => xk * snd e) x Aline f) as (f1 & E1 & L1 & H1); auto.
  destruct (transposed_ok 0 Rplus (fun k e => snd e * nth k x 0) (fun _ e xk => snd e * xk) x Aline f) as (f2 & E2 & L2 & H2); auto.
  assert (H : forall j, nth j f1 0 = (if Nat.ltb j (List.length Aline) then 0 else nth j f 0) + Sig (List.length Aline) (fun i => nth i x 0 * elem Aline i j)).
  { intros j. rewrite H1, fold_at_R. f_equal. apply terms_R. intros. apply Rmult_comm. }
  assert (EQ : f1 = f2).
  { apply (list_eq_nth 0); [congruence|]. intros j _. rewrite H, H2, fold_at_R. f_equal. symmetry. now apply terms_R. }
  subst f2. exists f1. split; [exact E1|split; [exact E2|split; [exact L1|]]]. split; intros j Hj; rewrite H.
  - destruct (Nat.ltb_spec j (List.length Aline)); [lra|lia].
  - destruct (Nat.ltb_spec j (List.length Aline)); [lia|lra].
Qed.

Lemma get_entry (s : list (nat * R)) j : NoDup (map fst s) -> GetSparseVectorComponent 0 s j = entry s j.
Proof.
  induction s as [|[p v] s IH]; intros ND; auto. cbn [GetSparseVectorComponent]. rewrite entry_cons. cbn [fst snd map] in *.
  inversion ND; subst. destruct (Nat.eqb_spec p j) as [->|N].
  - enough (entry s j = 0) by lra. apply lsum_zero. intros e He. destruct (Nat.eqb_spec (fst e) j) as [<-|]; auto.
    exfalso. apply H1. now apply in_map.
  - rewrite IH by auto. lra.
Qed.
(** GetSparseVectorComponent is the matrix element as long as no position is stored twice ... *)
Theorem C27_component (s : list (nat * R)) j : NoDup (map fst s) -> GetSparseVectorComponent 0 s j = entry s j.
Proof. exact (get_entry s j). Qed.
(** ... otherwise it disagrees with the products, which add repeated entries. *)
Theorem C27_component_refuted : ~ (forall (s : list (nat * R)) j, GetSparseVectorComponent 0 s j = entry s j).
Proof. intros H. specialize (H [(0%nat, 1); (0%nat, 1)] 0%nat). unfold entry, lsum in H. cbn in H. lra. Qed.
(** AddToSparseVector adds to the element. *)
Theorem C27_add (s : list (nat * R)) p v j : entry (AddToSparseVector s p v) j = entry s j + (if Nat.eqb p j then v else 0).
Proof. unfold AddToSparseVector, entry. rewrite lsum_app, lsum_cons, lsum_nil. cbn. lra. Qed.
End C27.

(** *** C27: interleavings *)
Lemma at_flat {A F} (j : nat) (g : A -> list (nat * F)) l : at_ j (flat_map g l) = flat_map (fun a => at_ j (g a)) l.
Proof. unfold at_. induction l as [|a l IH]; auto. cbn [flat_map]. now rewrite filter_app, map_app, IH. Qed.
Lemma flat_map_only {B} (g : nat -> list B) l k n : NoDup l -> (forall a, In a l -> k <> a -> g a = []) -> (forall a, In a l <-> a < n) ->
  flat_map g l = if Nat.ltb k n then g k else [].
Proof.
  intros ND H HI. assert (G : forall l, NoDup l -> (forall a, In a l -> k <> a -> g a = []) -> flat_map g l = if in_dec Nat.eq_dec k l then g k else []).
  { clear. induction l as [|a l IH]; intros ND H; auto. cbn [flat_map]. inversion ND; subst. rewrite IH; auto; [|intros; apply H; auto; now right].
    destruct (Nat.eq_dec a k) as [EK|NK].
    - subst a. destruct (in_dec Nat.eq_dec k l); [tauto|]. destruct (in_dec Nat.eq_dec k (k :: l)) as [|I]; [apply app_nil_r|]. exfalso. apply I. now left.
    - rewrite (H a); auto; [|now left]. destruct (in_dec Nat.eq_dec k l), (in_dec Nat.eq_dec k (a :: l)) as [I|I]; cbn in *; tauto. }
  rewrite G; auto. destruct (in_dec Nat.eq_dec k l) as [I|I], (Nat.ltb_spec k n); auto; apply HI in I || (exfalso; apply I, HI); lia.
Qed.

Lemma nth_error_map_seq {B} (g : nat -> B) n t y : nth_error (map g (seq 0 n)) t = Some y -> t < n /\ y = g t.
Proof.
  intros E. assert (LT : t < List.length (map g (seq 0 n))) by (apply nth_error_Some; congruence). rewrite map_length, seq_length in LT. split; auto.
  rewrite nth_error_map, (nth_error_nth' _ 0) in E by (rewrite seq_length; auto). cbn in E. rewrite seq_nth in E by auto. now inversion E.
Qed.
Lemma nth_error_map_seq_None {B} (g : nat -> B) n t : nth_error (map g (seq 0 n)) t = None -> n <= t.
Proof. intros E. apply nth_error_None in E. now rewrite map_length, seq_length in E. Qed.

Section Par.
Context {F : Type} (zero : F) (add mul : F -> F -> F).

Lemma lines_inv (Aline : list (list (nat * F))) x f : List.length Aline <= List.length f ->
  Inv zero add (fun j => j) (List.length f)
    (fun i => if Nat.ltb i (List.length Aline) then rowval zero add mul (nth i Aline []) x else nth i f zero)
    (lines_threads zero mul Aline x, f).
Proof.
  intros L. unfold lines_threads, svec in *. split; [auto|split; [|split]]; cbn [fst snd].
  - intros t l reg E. apply nth_error_map_seq in E as [LT E]. apply pair_equal_spec in E as [-> ->].
    constructor; cbn; [split; auto; lia|]. apply (adds_pos (fun p => p = t /\ p < List.length f)). apply Forall_forall. intros e He. apply in_map_iff in He as (e' & <- & _). cbn. lia.
  - intros j t l reg <- E. apply nth_error_map_seq in E as [LT E]. apply pair_equal_spec in E as [-> ->].
    cbn [solo exec1 plus]. rewrite solo_adds.
    + destruct (Nat.ltb_spec j (List.length Aline)); [|lia]. rewrite nth_upd_eq by lia.
      unfold rowval, x_at. generalize zero at 2 4. generalize (nth j Aline []). intros s. induction s as [|e s IH]; intros z; auto.
      cbn [map at_ filter fst]. unfold at_ in *. rewrite Nat.eqb_refl. cbn [map fold_left snd]. apply IH.
    + apply Forall_forall. intros e He. apply in_map_iff in He as (e' & <- & _). cbn. rewrite upd_length. lia.
  - intros j Hj. apply nth_error_map_seq_None in Hj. destruct (Nat.ltb_spec j (List.length Aline)); [lia|auto].
Qed.

(** Whatever the schedule, the parallel SparseMatrixLines_times_vector stays inside its arrays, and once all lines are
    done it has computed exactly what the sequential loop computes, in any arithmetic (hence also with rounding). *)
Theorem C27_lines_parallel (Aline : list (list (nat * F))) (x f : list F) (schedule : list nat) :
  List.length Aline <= List.length f -> positions_below (List.length x) Aline ->
  exists c, run zero add schedule (lines_threads zero mul Aline x, f) = Ok c /\
    (finished c -> SparseMatrixLines_times_vector zero add mul Aline x f = Ok (snd c)) /\
    ((forall i, i < List.length Aline -> 1 + 2 * List.length (nth i Aline []) <= count_occ Nat.eq_dec schedule i) -> finished c).
Proof.
  intros L HP. destruct (run_inv zero add _ _ _ schedule _ (lines_inv Aline x f L)) as (c & E & I & LC & K). exists c. split; [exact E|]. split.
  - intros FIN. destruct (finished_final zero add _ _ _ _ I FIN) as [L1 H1].
    destruct (lines_ok zero add mul Aline x f L HP) as (f' & E' & L' & H'). rewrite E'. f_equal.
    apply (list_eq_nth zero); [congruence|]. intros i _. now rewrite H', H1.
  - intros HC. eapply counts_finished; [exact K|]. intros u th Hu. cbn [fst] in Hu. unfold lines_threads, svec in Hu. apply nth_error_map_seq in Hu as [LT ->]. cbn [fst].
    eapply Nat.le_trans; [|apply HC; auto]. cbn. apply le_n_S. unfold adds.
    induction (nth u Aline []); cbn; auto. lia.
Qed.

(** The transposed products under the assumption that no two lines have an element in the same column: then the schedule
    does not matter.  Missing: matrices where they have, see C27_transposed_race_refuted. *)
Theorem C27_transposed_parallel_partial (Aline : list (list (nat * F))) (x f : list F) (owner : nat -> nat) (schedule : list nat) f1 :
  List.length Aline <= List.length f -> List.length Aline <= List.length x -> positions_below (List.length f) Aline ->
  (forall k e, k < List.length Aline -> In e (nth k Aline []) -> owner (fst e) = k) ->
  zero_out zero (List.length Aline) f = Ok f1 ->
  exists c c', run zero add schedule (vec_lines_threads zero mul x Aline, f1) = Ok c /\
    (finished c -> vector_times_SparseMatrixLines zero add mul x Aline f = Ok (snd c)) /\
    run zero add schedule (transpose_threads zero mul Aline x, f1) = Ok c' /\
    (finished c' -> SparseMatrixLinesTranspose_times_vector zero add mul Aline x f = Ok (snd c')).
Proof.
  intros LF LX HP HO EZ.
  assert (G : forall (cx : nat -> nat * F -> F -> F),
    exists c, run zero add schedule (map (fun k => (adds (map (fun e => (fst e, cx k e (x_at zero x k))) (nth k Aline [])), zero)) (seq 0 (List.length Aline)), f1) = Ok c /\
    (finished c -> (do f1 <- zero_out zero (List.length Aline) f;
       for_nat 0 (List.length Aline) (fun k f => do line <- rd Aline k;
       forl line (fun e f => do xk <- rd x k; do fj <- rd f (fst e); wr f (fst e) (add fj (cx k e xk))) f) f1) = Ok (snd c))).
  { intros cx. destruct (zero_ok zero (List.length Aline) f LF) as (g & Eg & Lg & Hg). rewrite EZ in Eg. inversion Eg; subst g. clear Eg.
    destruct (transposed_ok zero add (fun k e => cx k e (nth k x zero)) cx x Aline f) as (f' & E' & L' & H'); auto.
    rewrite E'.
    assert (LOC : forall j k, k < List.length Aline -> owner j <> k -> at_ j (map (fun e => (fst e, cx k e (nth k x zero))) (nth k Aline [])) = []).
    { intros j k Hk NE. unfold at_.
      assert (Q : forall e, In e (nth k Aline []) -> fst e <> j) by (intros e He <-; apply NE; eauto).
      revert Q. generalize (nth k Aline []). intros s. induction s as [|e s IH]; intros Q; auto. cbn [map filter fst].
      destruct (Nat.eqb_spec (fst e) j) as [EQ|_]; [exfalso; apply (Q e); auto; now left|]. apply IH. intros; apply Q; now right. }
    assert (TERM : forall j, at_ j (terms (fun k e => cx k e (nth k x zero)) Aline) =
       if Nat.ltb (owner j) (List.length Aline) then at_ j (map (fun e => (fst e, cx (owner j) e (nth (owner j) x zero))) (nth (owner j) Aline [])) else []).
    { intros j. unfold terms. rewrite at_flat. apply (flat_map_only (fun k => at_ j (map (fun e => (fst e, cx k e (nth k x zero))) (nth k Aline [])))); [apply seq_NoDup| |]; intros k; rewrite in_seq; [intros; apply LOC; lia|lia]. }
    set (ts := map _ _).
    assert (TH : forall t l reg, nth_error ts t = Some (l, reg) -> t < List.length Aline /\ reg = zero /\ l = adds (map (fun e => (fst e, cx t e (nth t x zero))) (nth t Aline []))).
    { intros t l reg E. unfold ts in E. apply nth_error_map_seq in E as [LT E]. apply pair_equal_spec in E as [-> ->]. auto. }
    assert (POS : forall t, t < List.length Aline -> Forall (fun e => fst e < List.length f) (map (fun e => (fst e, cx t e (nth t x zero))) (nth t Aline []))).
    { intros t Ht. apply Forall_forall. intros e He. apply in_map_iff in He as (e' & <- & He'). cbn. unfold positions_below in HP. rewrite Forall_forall in HP.
      assert (HF : Forall (fun e => fst e < List.length f) (nth t Aline [])) by (apply HP, nth_In; auto). rewrite Forall_forall in HF. auto. }
    assert (I : Inv zero add owner (List.length f) (fun j => nth j f' zero) (ts, f1)).
    { split; [auto|split; [|split]]; cbn [fst snd].
      - intros t l reg E. apply TH in E as (Ht & _ & ->). apply (adds_pos (fun p => owner p = t /\ p < List.length f)).
        apply Forall_forall. intros e He. split; [|specialize (POS t Ht); rewrite Forall_forall in POS; now apply POS].
        apply in_map_iff in He as (e' & <- & He'). cbn. eauto.
      - intros j t l reg Hj E. apply TH in E as (Ht & -> & ->). rewrite solo_adds; [|rewrite Lg; auto].
        rewrite H', TERM, Hg, Hj. destruct (Nat.ltb_spec t (List.length Aline)); [auto|lia].
      - intros j E. unfold ts in E. apply nth_error_map_seq_None in E. rewrite H', TERM, Hg. destruct (Nat.ltb_spec (owner j) (List.length Aline)); [lia|auto]. }
    destruct (run_inv zero add _ _ _ schedule _ I) as (c & E & I' & _). exists c. split; auto. intros FIN.
    destruct (finished_final zero add _ _ _ _ I' FIN) as [L1 H1]. f_equal. apply (list_eq_nth zero); [congruence|]. intros i _. now rewrite H1. }
  destruct (G (fun _ e xk => mul xk (snd e))) as (c & E & FC). destruct (G (fun _ e xk => mul (snd e) xk)) as (c' & E' & FC'). exists c, c'. auto.
Qed.
End Par.

(** With LEVEL4_Pragmas the transposed products are wrong under some schedules: two lines with an element in the same
    column both read f[j] before either of them writes it, and one of the two terms is lost. *)
Theorem C27_transposed_race_refuted :
  ~ (forall (Aline : list (list (nat * Z))) (x f : list Z) schedule f1 c,
       List.length Aline = List.length f -> List.length Aline = List.length x -> positions_below (List.length f) Aline ->
       zero_out 0%Z (List.length Aline) f = Ok f1 ->
       run 0%Z Z.add schedule (transpose_threads 0%Z Z.mul Aline x, f1) = Ok c -> finished c ->
       SparseMatrixLinesTranspose_times_vector 0%Z Z.add Z.mul Aline x f = Ok (snd c)).
Proof.
  intros H. specialize (H [[(0, 1%Z)]; [(0, 1%Z)]] [1%Z; 1%Z] [0%Z; 0%Z] [0; 1; 0; 1] [0%Z; 0%Z] ([([], 0%Z); ([], 0%Z)], [1%Z; 0%Z])).
  enough (X : Ok [2%Z; 0%Z] = Ok [1%Z; 0%Z]) by discriminate. apply H; auto; repeat constructor.
Qed.
(** the left product has the same race *)
Theorem C27_left_race_refuted :
  ~ (forall (Aline : list (list (nat * Z))) (x f : list Z) schedule f1 c,
       List.length Aline = List.length f -> List.length Aline = List.length x -> positions_below (List.length f) Aline ->
       zero_out 0%Z (List.length Aline) f = Ok f1 ->
       run 0%Z Z.add schedule (vec_lines_threads 0%Z Z.mul x Aline, f1) = Ok c -> finished c ->
       vector_times_SparseMatrixLines 0%Z Z.add Z.mul x Aline f = Ok (snd c)).
Proof.
  intros H. specialize (H [[(0, 1%Z)]; [(0, 1%Z)]] [1%Z; 1%Z] [0%Z; 0%Z] [0; 1; 0; 1] [0%Z; 0%Z] ([([], 0%Z); ([], 0%Z)], [1%Z; 0%Z])).
  enough (X : Ok [2%Z; 0%Z] = Ok [1%Z; 0%Z]) by discriminate. apply H; auto; repeat constructor.
Qed.

(** *** C28: compressed columns *)
Section C28.
Context {F : Type} (zero : F) (small : F -> bool).
Local Notation kept := (filter (fun e : nat * F => negb (small (snd e)))).
Local Notation ccs := (ccs (F:=F)).

(** both conversions: the candidates of every column in turn *)
Definition convert (cand : nat -> list (nat * F)) (n : nat) (m : ccs) : res ccs :=
  do m0 <- start m; for_nat 0 n (fun j m => do m1 <- open_column j m; forl (cand j) (fun e m => push_entry small j (fst e) (snd e) m) m1) m0.
Definition all_kept (cand : nat -> list (nat * F)) (j : nat) : list (nat * F) := flat_map (fun k => kept (cand k)) (seq 0 j).
Lemma all_kept_S cand j : all_kept cand (j + 1) = all_kept cand j ++ kept (cand j).
Proof. unfold all_kept. rewrite Nat.add_1_r, seq_S, flat_map_app. cbn. now rewrite app_nil_r. Qed.

(** the arrays hold the entries l, and the rest of them is untouched *)
Definition holds (nz : nat) (l : list (nat * F)) (m : ccs) : Prop :=
  List.length l <= nz /\ cn m = List.length l /\ List.length (Ai m) = nz /\ List.length (Ax m) = nz /\ firstn (List.length l) (combine (Ai m) (Ax m)) = l.
Lemma combine_upd (a : list nat) : forall (b : list F) i v w, combine (upd a i v) (upd b i w) = upd (combine a b) i (v, w).
Proof. induction a as [|x a IH]; intros [|y b] [|i] v w; cbn; auto. now rewrite IH. Qed.
Lemma firstn_upd {A} (l : list A) : forall n v, n < List.length l -> firstn (S n) (upd l n v) = firstn n l ++ [v].
Proof. induction l as [|x l IH]; intros [|n] v H; cbn in *; try lia; auto. f_equal. apply IH. lia. Qed.
Lemma push_ok nz n j l p m : j < n -> List.length (Ap m) = n + 1 -> holds nz l m -> List.length (l ++ kept [p]) <= nz ->
  nth (j + 1) (Ap m) 0 = List.length l ->
  exists m', push_entry small j (fst p) (snd p) m = Ok m' /\ List.length (Ap m') = n + 1 /\ holds nz (l ++ kept [p]) m' /\
    nth (j + 1) (Ap m') 0 = List.length (l ++ kept [p]) /\ forall k, k <= j -> nth k (Ap m') 0 = nth k (Ap m) 0.
Proof.
  intros Hj LA (H1 & H2 & H3 & H4 & H5) HN HA. unfold push_entry. cbn [filter] in *. destruct (small (snd p)); cbn [negb] in *.
  - rewrite app_nil_r in *. exists m. repeat split; auto.
  - rewrite app_length in HN. cbn in HN. rewrite (rd_ok _ _ 0) by lia. cbn [rbind]. rewrite wr_ok by lia. cbn [rbind].
    rewrite H2. rewrite wr_ok by lia. cbn [rbind]. rewrite wr_ok by lia. cbn [rbind].
    eexists. split; [reflexivity|]. cbn [Ap Ai Ax cn]. rewrite upd_length. split; auto. split; [|split].
    + unfold holds. cbn [Ap Ai Ax cn]. rewrite !upd_length, app_length. cbn [List.length]. repeat split; auto; try lia.
      rewrite combine_upd, Nat.add_1_r, firstn_upd, H5; [now destruct p|]. rewrite combine_length. lia.
    + rewrite nth_upd_eq, app_length by lia. cbn. lia.
    + intros k Hk. apply nth_upd_ne. lia.
Qed.
Lemma pushes_ok nz n j : forall c l m, j < n -> List.length (Ap m) = n + 1 -> holds nz l m -> List.length (l ++ kept c) <= nz ->
  nth (j + 1) (Ap m) 0 = List.length l ->
  exists m', forl c (fun e m => push_entry small j (fst e) (snd e) m) m = Ok m' /\ List.length (Ap m') = n + 1 /\ holds nz (l ++ kept c) m' /\
    nth (j + 1) (Ap m') 0 = List.length (l ++ kept c) /\ forall k, k <= j -> nth k (Ap m') 0 = nth k (Ap m) 0.
Proof.
  induction c as [|p c IH]; intros l m Hj LA HH HN HA; cbn [forl].
  - cbn [filter] in *. rewrite app_nil_r in *. exists m. repeat split; auto; apply HH.
  - change (p :: c) with ([p] ++ c) in *. rewrite filter_app, app_assoc in *.
    destruct (push_ok nz n j l p m) as (m1 & E1 & LA1 & HH1 & HA1 & HO1); auto. { rewrite app_length in HN. lia. }
    rewrite E1. cbn [rbind]. destruct (IH (l ++ kept [p]) m1) as (m2 & E2 & LA2 & HH2 & HA2 & HO2); auto.
    exists m2. split; auto. repeat split; auto; try apply HH2. intros k Hk. rewrite HO2, HO1; auto.
Qed.

Lemma convert_ok (cand : nat -> list (nat * F)) n nz : List.length (all_kept cand n) <= nz ->
  exists m', convert cand n (allocate_umfpack_di_matrix zero n nz) = Ok m' /\ List.length (Ap m') = n + 1 /\
    holds nz (all_kept cand n) m' /\ forall k, k <= n -> nth k (Ap m') 0 = List.length (all_kept cand k).
Proof.
  intros HN. unfold convert, start, allocate_umfpack_di_matrix. cbn [Ap Ai Ax cn]. rewrite wr_ok by (rewrite repeat_length; lia). cbn [rbind].
  assert (MONO : forall j k, j <= k -> List.length (all_kept cand j) <= List.length (all_kept cand k)).
  { intros j k H. induction H; auto. rewrite <- Nat.add_1_r, all_kept_S, app_length. lia. }
  set (m0 := mkccs _ _ _ 0). assert (LA0 : List.length (Ap m0) = n + 1) by (cbn; now rewrite upd_length, repeat_length).
  destruct (for_nat_inv (fun j m => List.length (Ap m) = n + 1 /\ holds nz (all_kept cand j) m /\ forall k, k <= j -> nth k (Ap m) 0 = List.length (all_kept cand k))
     (fun j m => do m1 <- open_column j m; forl (cand j) (fun e m => push_entry small j (fst e) (snd e) m) m1) 0 n m0) as (m' & E & HM).
  - lia.
  - split; auto. split. { unfold holds, m0. cbn. rewrite !repeat_length. repeat split; auto; lia. }
    intros k Hk. assert (k = 0) by lia. subst. unfold m0. cbn. now rewrite nth_upd_eq by (rewrite repeat_length; lia).
  - intros j m Hj (LA & HH & HA). unfold open_column. rewrite (rd_ok _ _ 0) by lia. cbn [rbind]. rewrite wr_ok by lia. cbn [rbind].
    destruct (pushes_ok nz n j (cand j) (all_kept cand j) (mkccs (upd (Ap m) (j + 1) (nth j (Ap m) 0)) (Ai m) (Ax m) (cn m))) as (m1 & E1 & LA1 & HH1 & HA1 & HO1).
    + lia.
    + cbn. now rewrite upd_length.
    + exact HH.
    + rewrite <- all_kept_S. specialize (MONO (j + 1) n). lia.
    + cbn [Ap]. rewrite nth_upd_eq by lia. apply HA. lia.
    + exists m1. split; auto. rewrite all_kept_S. split; auto. split; auto. intros k Hk. destruct (Nat.eq_dec k (j + 1)) as [->|NE].
      * now rewrite HA1, all_kept_S.
      * rewrite HO1 by lia. cbn [Ap]. rewrite nth_upd_ne by lia. apply HA. lia.
  - exists m'. split; auto. 
Qed.
Lemma convert_column (cand : nat -> list (nat * F)) n nz m j : j < n -> List.length (Ap m) = n + 1 -> holds nz (all_kept cand n) m ->
  (forall k, k <= n -> nth k (Ap m) 0 = List.length (all_kept cand k)) -> ccs_column (Ap m) (Ai m) (Ax m) j = kept (cand j).
Proof.
  intros Hj LA (H1 & H2 & H3 & H4 & H5) HA. unfold ccs_column. rewrite !HA by lia. rewrite all_kept_S, app_length.
  replace (List.length (all_kept cand j) + List.length (kept (cand j)) - List.length (all_kept cand j)) with (List.length (kept (cand j))) by lia.
  assert (SPLIT : exists r, combine (Ai m) (Ax m) = all_kept cand j ++ kept (cand j) ++ r).
  { assert (T : exists r, all_kept cand n = all_kept cand j ++ kept (cand j) ++ r).
    { unfold all_kept. replace n with (j + (1 + (n - j - 1))) by lia. rewrite seq_app, flat_map_app. eexists. cbn. reflexivity. }
    destruct T as [r T]. exists (r ++ skipn (List.length (all_kept cand n)) (combine (Ai m) (Ax m))).
    rewrite <- (firstn_skipn (List.length (all_kept cand n)) (combine (Ai m) (Ax m))) at 1. rewrite H5, T, <- !app_assoc. reflexivity. }
  destruct SPLIT as [r ->]. rewrite skipn_app, skipn_all, Nat.sub_diag. cbn [skipn app]. now rewrite firstn_app, Nat.sub_diag, firstn_all, firstn_O, app_nil_r.
Qed.

(** *** from columns, as called by umfpack_di_solve_fromAcolumns and ..._forSortedVars_fromAcolumns *)
Theorem C28_columns (Acol : list (list (nat * F))) :
  exists m, set_umfpack_di_matrix_from_columns small (allocate_umfpack_di_matrix zero (List.length Acol) (nz_columns Acol)) Acol = Ok m /\
    nth 0 (Ap m) 0 = 0 /\ cn m = nth (List.length Acol) (Ap m) 0 /\ cn m <= nz_columns Acol /\
    forall j, j < List.length Acol ->
      nth j (Ap m) 0 <= nth (j + 1) (Ap m) 0 /\
      ccs_column (Ap m) (Ai m) (Ax m) j = kept (nth j Acol []) /\
      (increasing (map fst (nth j Acol [])) -> increasing (map fst (ccs_column (Ap m) (Ai m) (Ax m) j))).
Proof.
  assert (EC : forall m, set_umfpack_di_matrix_from_columns small m Acol = convert (fun j => nth j Acol []) (List.length Acol) m).
  { intros m. unfold set_umfpack_di_matrix_from_columns, convert. destruct (start m) as [m0| |]; cbn [rbind]; auto. apply forl_ext. intros j s Hj. apply in_seq in Hj.
    destruct (open_column j s); cbn [rbind]; auto. rewrite (rd_ok _ j []) by lia. reflexivity. }
  assert (HL : forall j, j <= List.length Acol -> List.length (all_kept (fun j => nth j Acol []) j) <= list_sum (map (@List.length _) (firstn j Acol))).
  { induction j as [|j IH]; intros Hj; [auto|]. rewrite <- Nat.add_1_r at 1. rewrite all_kept_S, app_length.
    assert (EF : firstn (S j) Acol = firstn j Acol ++ [nth j Acol []]).
    { clear -Hj. revert j Hj. induction Acol as [|a A IHA]; intros [|j] Hj; cbn in *; try lia; auto. f_equal. apply IHA. lia. }
    rewrite EF, map_app, list_sum_app. cbn. specialize (IH ltac:(lia)).
    assert (List.length (kept (nth j Acol [])) <= List.length (nth j Acol [])) by (clear; induction (nth j Acol []) as [|e l IH]; cbn; auto; destruct (negb _); cbn; lia). lia. }
  specialize (HL (List.length Acol) (le_n _)). rewrite firstn_all in HL.
  destruct (convert_ok (fun j => nth j Acol []) (List.length Acol) (nz_columns Acol) HL) as (m & E & LA & HH & HA).
  exists m. rewrite EC. split; auto. pose proof HH as (H1 & H2 & H3 & H4 & H5). repeat split.
  - rewrite HA by lia. reflexivity.
  - rewrite HA by lia. auto.
  - lia.
  - rewrite !HA by lia. rewrite all_kept_S, app_length. lia.
  - eapply (convert_column (fun j => nth j Acol [])); eauto.
  - intros I. erewrite (convert_column (fun j => nth j Acol [])) by eauto. clear -I. induction (nth j Acol []) as [|e l IH]; cbn in *; auto.
    inversion I as [|? ? I1 I2]; subst. destruct (negb (small (snd e))); cbn; [|now apply IH]. constructor; [now apply IH|]. rewrite Forall_forall in I2. apply Forall_forall. intros x Hx. apply I2.
    apply in_map_iff in Hx as (y & <- & Hy). apply filter_In in Hy as [Hy _]. now apply in_map.
Qed.

(** *** from lines, as called by umfpack_di_solve_fromAlines and ..._forSortedVars_fromAlines *)
Definition lines_cand (Aline : list (list (nat * F))) (j : nat) : list (nat * F) :=
  map (fun i => (i, GetSparseVectorComponent zero (nth i Aline []) j)) (seq 0 (List.length Aline)).
Lemma list_sum_swap (h : nat -> nat -> nat) l k :
  list_sum (map (fun i => list_sum (map (h i) k)) l) = list_sum (map (fun j => list_sum (map (fun i => h i j) l)) k).
Proof.
  induction l as [|a l IH]; cbn [map list_sum fold_right].
  - induction k; cbn; auto.
  - change (fold_right plus 0 (map (fun i => list_sum (map (h i) k)) l)) with (list_sum (map (fun i => list_sum (map (h i) k)) l)). rewrite IH.
    clear IH. unfold list_sum. induction k as [|b k IHk]; cbn [map fold_right]; auto. rewrite <- IHk. lia.
Qed.
Variable is_zero : F -> bool.
(** The arrays have room for the elements that are not zero, so this needs that zeros are dropped, which is the
    case exactly for dropbelow >= 0. *)
Theorem C28_lines (Aline : list (list (nat * F))) : (forall a, is_zero a = true -> small a = true) ->
  exists m, set_umfpack_di_matrix_from_lines zero small (allocate_umfpack_di_matrix zero (List.length Aline) (nz_lines zero is_zero Aline)) Aline = Ok m /\
    nth 0 (Ap m) 0 = 0 /\ cn m = nth (List.length Aline) (Ap m) 0 /\ cn m <= nz_lines zero is_zero Aline /\
    forall j, j < List.length Aline ->
      nth j (Ap m) 0 <= nth (j + 1) (Ap m) 0 /\ increasing (map fst (ccs_column (Ap m) (Ai m) (Ax m) j)) /\
      forall i a, In (i, a) (ccs_column (Ap m) (Ai m) (Ax m) j) <->
        i < List.length Aline /\ a = GetSparseVectorComponent zero (nth i Aline []) j /\ small a = false.
Proof.
  intros HZ.
  assert (EC : forall m, set_umfpack_di_matrix_from_lines zero small m Aline = convert (lines_cand Aline) (List.length Aline) m).
  { intros m. unfold set_umfpack_di_matrix_from_lines, convert. destruct (start m) as [m0| |]; cbn [rbind]; auto. apply forl_ext. intros j s Hj.
    destruct (open_column j s); cbn [rbind]; auto. unfold lines_cand. rewrite forl_map. unfold for_nat. rewrite Nat.sub_0_r. apply forl_ext.
    intros i s' Hi. apply in_seq in Hi. rewrite (rd_ok _ i []) by lia. reflexivity. }
  assert (HL : List.length (all_kept (lines_cand Aline) (List.length Aline)) <= nz_lines zero is_zero Aline).
  { unfold nz_lines. rewrite list_sum_swap. unfold all_kept. generalize (seq 0 (List.length Aline)) at 1 3. intros l.
    induction l as [|j l IH]; cbn [flat_map map]; auto. rewrite app_length. unfold list_sum in *. cbn [fold_right]. apply Nat.add_le_mono; auto.
    unfold lines_cand. generalize (seq 0 (List.length Aline)). intros k. induction k as [|i k IHk]; cbn; auto.
    destruct (is_zero (GetSparseVectorComponent zero (nth i Aline []) j)) eqn:Z.
    - rewrite (HZ _ Z). cbn. auto.
    - destruct (small _); cbn; lia. }
  destruct (convert_ok (lines_cand Aline) (List.length Aline) _ HL) as (m & E & LA & HH & HA).
  exists m. rewrite EC. split; auto. pose proof HH as (H1 & H2 & H3 & H4 & H5). split; [rewrite HA by lia; reflexivity|].
  split; [rewrite HA by lia; auto|]. split; [lia|]. intros j Hj. rewrite (convert_column (lines_cand Aline) (List.length Aline) (nz_lines zero is_zero Aline)); auto. split; [|split].
  - rewrite !HA by lia. rewrite all_kept_S, app_length. lia.
  - unfold lines_cand. generalize 0 at 1. generalize (List.length Aline). intros n. induction n as [|n IH]; intros s; cbn; [constructor|].
    destruct (negb _); cbn; auto. constructor; [apply IH|]. apply Forall_forall. intros x Hx. apply in_map_iff in Hx as (y & <- & Hy).
    apply filter_In in Hy as [Hy _]. apply in_map_iff in Hy as (z & <- & Hz). apply in_seq in Hz. cbn. lia.
  - intros i a. rewrite filter_In. unfold lines_cand. rewrite in_map_iff. cbn. split.
    + intros [(k & EK & Hk) Hs]. inversion EK; subst. apply in_seq in Hk. repeat split; [lia|]. now destruct (small _).
    + intros (Hi & -> & ->). split; auto. exists i. split; auto. apply in_seq. lia.
Qed.
End C28.

(** the test of the code, fabs(a) <= dropbelow, and a != 0.0 *)
Definition smallR (dropbelow a : R) : bool := if Rle_dec (Rabs a) dropbelow then true else false.
Definition zeroR (a : R) : bool := if Req_EM_T a 0 then true else false.
Corollary C28_lines_R (dropbelow : R) (Aline : list (list (nat * R))) : (0 <= dropbelow)%R ->
  Forall (fun s => NoDup (map fst s)) Aline ->
  exists m, set_umfpack_di_matrix_from_lines 0%R (smallR dropbelow) (allocate_umfpack_di_matrix 0%R (List.length Aline) (nz_lines 0%R zeroR Aline)) Aline = Ok m /\
    nth 0 (Ap m) 0 = 0 /\ cn m = nth (List.length Aline) (Ap m) 0 /\ cn m <= nz_lines 0%R zeroR Aline /\
    forall j, j < List.length Aline ->
      nth j (Ap m) 0 <= nth (j + 1) (Ap m) 0 /\ increasing (map fst (ccs_column (Ap m) (Ai m) (Ax m) j)) /\
      forall i a, In (i, a) (ccs_column (Ap m) (Ai m) (Ax m) j) <-> i < List.length Aline /\ a = elem Aline i j /\ (Rabs a > dropbelow)%R.
Proof.
  intros HD ND. destruct (C28_lines 0%R (smallR dropbelow) zeroR Aline) as (m & E & H0 & H1 & H2 & H3).
  - intros a. unfold zeroR, smallR. destruct (Req_EM_T a 0) as [->|]; [|discriminate]. rewrite Rabs_R0. destruct (Rle_dec 0 dropbelow); auto.
  - exists m. split; [exact E|split; [exact H0|split; [exact H1|split; [exact H2|]]]]. intros j Hj. destruct (H3 j Hj) as (A & B & C). split; [exact A|split; [exact B|]].
    intros i a. split; intros HI; [split; [|split]|].
    + apply C in HI. tauto.
    + apply C in HI as (Hi & Ha & Hs). rewrite Ha. unfold elem. apply get_entry. rewrite Forall_forall in ND. apply ND, nth_In; auto.
    + apply C in HI as (Hi & Ha & Hs). unfold smallR in Hs. destruct (Rle_dec (Rabs a) dropbelow); [discriminate|]. lra.
    + destruct HI as (Hi & Ha & Hs). apply C. repeat split; auto.
      * rewrite Ha. unfold elem. symmetry. apply get_entry. rewrite Forall_forall in ND. apply ND, nth_In; auto.
      * unfold smallR. destruct (Rle_dec (Rabs a) dropbelow); auto. lra.
Qed.
(** With dropbelow < 0 nothing is dropped, and the arrays, sized for the elements that are not zero, overrun. *)
Theorem C28_lines_negative_drop_refuted :
  ~ (forall (dropbelow : R) (Aline : list (list (nat * R))),
     set_umfpack_di_matrix_from_lines 0%R (smallR dropbelow) (allocate_umfpack_di_matrix 0%R (List.length Aline) (nz_lines 0%R zeroR Aline)) Aline <> UB).
Proof.
  intros H. apply (H (-1)%R [[]]). cbn. unfold zeroR. destruct (Req_EM_T 0 0) as [_|N]; [|now elim N]. cbn.
  unfold set_umfpack_di_matrix_from_lines, push_entry, smallR. cbn. rewrite Rabs_R0. destruct (Rle_dec 0 (-1)); [lra|]. reflexivity.
Qed.

(** *** Matrix Market file *)
Lemma mm_count_nz {F} (A : list (list (nat * F))) : fst (mm_count A) = list_sum (map (@List.length _) A).
Proof.
  unfold mm_count.
  set (g := fun (acc : nat * nat) (e : nat * F) => (fst acc, if Nat.ltb (snd acc) (fst e) then fst e else snd acc)).
  assert (I : forall (v : list (nat * F)) acc, fst (fold_left g v acc) = fst acc).
  { induction v as [|e v IH]; intros acc; cbn; auto. now rewrite IH. }
  enough (G : forall acc : nat * nat, fst (fold_left (fun acc v => fold_left g v (fst acc + List.length v, snd acc)) A acc) = fst acc + list_sum (map (@List.length _) A))
    by (now rewrite G).
  induction A as [|v A IH]; intros acc; cbn [fold_left map]; [unfold list_sum; cbn; lia|]. rewrite IH, I. cbn. unfold list_sum. lia.
Qed.
Lemma mm_count_max {F} (A : list (list (nat * F))) : forall s e, In s A -> In e s -> fst e <= snd (mm_count A).
Proof.
  unfold mm_count.
  set (g := fun (acc : nat * nat) (e : nat * F) => (fst acc, if Nat.ltb (snd acc) (fst e) then fst e else snd acc)).
  assert (I1 : forall (v : list (nat * F)) acc, snd acc <= snd (fold_left g v acc)).
  { induction v as [|e v IH]; intros acc; cbn [fold_left]; auto. eapply Nat.le_trans; [|apply IH]. unfold g. cbn [fst snd]. destruct (Nat.ltb_spec (snd acc) (fst e)); lia. }
  assert (I2 : forall (v : list (nat * F)) acc e, In e v -> fst e <= snd (fold_left g v acc)).
  { induction v as [|e v IH]; intros acc e' Hin; [destruct Hin|]. destruct Hin as [->|Hin]; cbn [fold_left]; auto.
    eapply Nat.le_trans; [|apply I1]. unfold g. cbn [fst snd]. destruct (Nat.ltb_spec (snd acc) (fst e')); lia. }
  enough (G : forall acc : nat * nat, snd acc <= snd (fold_left (fun acc v => fold_left g v (fst acc + List.length v, snd acc)) A acc) /\
     forall s e, In s A -> In e s -> fst e <= snd (fold_left (fun acc v => fold_left g v (fst acc + List.length v, snd acc)) A acc)) by (intros; eapply G; eauto).
  induction A as [|v A IH]; intros acc; cbn [fold_left]; [split; auto; intros ? ? []|].
  destruct (IH (fold_left g v (fst acc + List.length v, snd acc))) as [G1 G2]. split.
  - eapply Nat.le_trans; [|apply G1]. apply (I1 v (fst acc + List.length v, snd acc)).
  - intros s e [<-|Hs] He; [|now apply (G2 s)]. eapply Nat.le_trans; [|apply G1]. now apply I2.
Qed.
(** The file lists every stored entry once with 1-based indices, in storage order, announces the right number of
    entries, and all indices are within the announced size. *)
Theorem C28_matrix_market {F} (A : list (list (nat * F))) (isAcol : bool) :
  let '((nrows, ncols, nz), body) := mm_file A isAcol in
  nz = List.length body /\
  (forall r c v, In (r, c, v) body <->
     exists k p s, nth_error A k = Some s /\ In (p, v) s /\ (if isAcol then r = p + 1 /\ c = k + 1 else r = k + 1 /\ c = p + 1)) /\
  (forall r c v, In (r, c, v) body -> 1 <= r <= nrows /\ 1 <= c <= ncols) /\
  (if isAcol then ncols else nrows) = List.length A.
Proof.
  unfold mm_file. pose proof (mm_count_nz A) as HC. pose proof (mm_count_max A) as HM. destruct (mm_count A) as [nz mp]. cbn [fst snd] in *.
  set (body := flat_map _ _).
  assert (IN : forall r c v, In (r, c, v) body <->
     exists k p s, nth_error A k = Some s /\ In (p, v) s /\ (if isAcol then r = p + 1 /\ c = k + 1 else r = k + 1 /\ c = p + 1)).
  { intros r c v. unfold body. rewrite in_flat_map. split.
    - intros (k & Hk & Hin). apply in_seq in Hk. apply in_map_iff in Hin as ([p w] & E & Hin). exists k, p, (nth k A []).
      split; [apply nth_error_nth'; lia|]. destruct isAcol; inversion E; subst; auto.
    - intros (k & p & s & Hs & Hin & E). exists k. assert (k < List.length A) by (apply nth_error_Some; congruence). split; [apply in_seq; lia|].
      apply in_map_iff. exists (p, v). rewrite (nth_error_nth _ _ [] Hs). split; auto. destruct isAcol; destruct E as [-> ->]; auto. }
  assert (NB : nz = List.length body).
  { rewrite HC. unfold body. clear. transitivity (list_sum (map (fun j => List.length (nth j A [])) (seq 0 (List.length A)))).
    - f_equal. induction A as [|a A IH]; cbn; auto. f_equal. rewrite <- seq_shift, map_map. apply IH.
    - generalize (seq 0 (List.length A)). intros l. induction l as [|j l IH]; cbn; auto. rewrite app_length, map_length. unfold list_sum in IH. lia. }
  assert (BD : forall r c v, In (r, c, v) body -> 1 <= r <= (if isAcol then mp + 1 else List.length A) /\ 1 <= c <= (if isAcol then List.length A else mp + 1)).
  { intros r c v Hin. apply IN in Hin as (k & p & s & Hs & Hin & E). assert (k < List.length A) by (apply nth_error_Some; congruence).
    pose proof (HM s (p, v) (nth_error_In _ _ Hs) Hin). cbn in *. destruct isAcol; lia. }
  destruct isAcol; cbn; repeat split; auto; try apply IN; auto; edestruct BD; eauto; lia.
Qed.

Print Assumptions C27_lines. Print Assumptions C27_transposed. Print Assumptions C27_component. Print Assumptions C27_component_refuted. Print Assumptions C27_add.
Print Assumptions C27_lines_parallel. Print Assumptions C27_transposed_parallel_partial. Print Assumptions C27_transposed_race_refuted. Print Assumptions C27_left_race_refuted.
Print Assumptions C28_columns. Print Assumptions C28_lines. Print Assumptions C28_lines_R. Print Assumptions C28_lines_negative_drop_refuted. Print Assumptions C28_matrix_market.

(** *** Examples: a 2x2 matrix with 3 elements *)
Definition exA : list (list (nat * Z)) := [[(0, 2%Z); (1, 3%Z)]; [(1, 5%Z)]].
Example ex_pos : positions_below 2 exA. Proof. repeat constructor. Qed.
Example ex_lines : SparseMatrixLines_times_vector 0%Z Z.add Z.mul exA [1%Z; 10%Z] [7%Z; 7%Z] = Ok [32%Z; 50%Z].
Proof. reflexivity. Qed.
Example ex_transposed : SparseMatrixLinesTranspose_times_vector 0%Z Z.add Z.mul exA [1%Z; 10%Z] [7%Z; 7%Z] = Ok [2%Z; 53%Z].
Proof. reflexivity. Qed.
(** an interleaving that finishes *)
Example ex_run : exists c, run 0%Z Z.add [1; 0; 1; 0; 0; 1; 0; 0; 0] (lines_threads 0%Z Z.mul exA [1%Z; 10%Z], [7%Z; 7%Z]) = Ok c /\ finished c /\ snd c = [32%Z; 50%Z].
Proof. eexists. split; [reflexivity|]. split; [repeat constructor|reflexivity]. Qed.
(** lines without common columns *)
Example ex_owner : forall k e, k < 2 -> In e (nth k [[(1, 2%Z)]; [(0, 3%Z)]] []) -> (1 - fst e) = k.
Proof. intros [|[|k]] e H I; [| |lia]; destruct I as [<-|[]]; reflexivity. Qed.
Definition zsmall (a : Z) : bool := (Z.abs a <=? 2)%Z.
Example ex_ccs : set_umfpack_di_matrix_from_lines 0%Z zsmall (allocate_umfpack_di_matrix 0%Z 2 (nz_lines 0%Z (Z.eqb 0) exA)) exA
   = Ok (mkccs [0; 0; 2] [0; 1; 0] [3%Z; 5%Z; 0%Z] 2).
Proof. reflexivity. Qed.
Example ex_zero_dropped : forall a, Z.eqb 0 a = true -> zsmall a = true.
Proof. intros a H. apply Z.eqb_eq in H. now subst. Qed.
Example ex_sorted : increasing (map fst [(0, 2%Z); (1, 3%Z)]). Proof. repeat constructor. Qed.
Example ex_nodup : Forall (fun s : list (nat * R) => NoDup (map fst s)) [[(0, 2%R); (1, 3%R)]; [(1, 5%R)]].
Proof. repeat constructor; cbn; intuition lia. Qed.

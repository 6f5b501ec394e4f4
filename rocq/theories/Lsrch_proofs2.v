From Verif Require Import Rutil Rsum Loops Sparse_model Arrays Solvers_model Solvers_proofs Mat_proofs Lu_model Lu_spec Lu_proofs Lu_props Lsrch_model Lsrch_spec Lsrch_proofs.
Local Open Scope R_scope.

Lemma ls_loop_more F xold p fold slope am r : forall fuel alam prev, ls_loop F xold p fold slope am fuel alam prev = Ok r -> forall m, ls_loop F xold p fold slope am (fuel + m) alam prev = Ok r.
Proof.
  induction fuel as [|fuel IH]; intros alam prev E m; [discriminate|]. cbn [ls_loop Nat.add] in *. destruct (match am with Some l => _ | None => true end); auto.
  destruct (Rle_dec _ _); auto. destruct (if Req_EM_T alam 1 then _ else _) as [t| |]; try discriminate. cbn [rbind] in *. now apply IH.
Qed.
(** *** maxloop *)
Lemma maxloop_gen l : forall t, let m := fold_left (fun test temp => if Rlt_dec test temp then temp else test) l t in t <= m /\ (forall a, In a l -> a <= m) /\ (m = t \/ In m l).
Proof.
  induction l as [|a l IH]; intros t; cbn [fold_left]. - cbv zeta. split; [lra|]. split; [intros a []|auto].
  - destruct (IH (if Rlt_dec t a then a else t)) as (H1 & H2 & H3). cbv zeta. set (m := fold_left _ l _) in *. assert (B : t <= m /\ a <= m) by (destruct (Rlt_dec t a); lra). split; [lra|]. split.
    + intros b [<-|Hb]; [lra|auto]. + destruct H3 as [->|H3]; [|right; now right]. destruct (Rlt_dec t a); [right; now left|now left].
Qed.
Lemma maxloop_nonneg l : 0 <= maxloop l. Proof. exact (proj1 (maxloop_gen l 0)). Qed.
Lemma maxloop_ge l a : In a l -> a <= maxloop l. Proof. exact (proj1 (proj2 (maxloop_gen l 0)) a). Qed.
Lemma maxloop_in l : maxloop l = 0 \/ In (maxloop l) l. Proof. exact (proj2 (proj2 (maxloop_gen l 0))). Qed.
Lemma maxloop_lt l n (v : nat -> R) t : List.length l = n -> (forall i, (i < n)%nat -> l.[i] = v i) -> (maxloop l < t <-> 0 < t /\ forall i, (i < n)%nat -> v i < t).
Proof.
  intros L V. split.
  - intros H. split; [pose proof (maxloop_nonneg l); lra|]. intros i Hi. rewrite <- V by auto. assert (In l.[i] l) by (apply nth_In; lia). pose proof (maxloop_ge _ _ H0). lra.
  - intros [H0 H]. destruct (maxloop_in l) as [->|I]; auto. destruct (In_nth _ _ 0 I) as (i & Hi & <-). rewrite V by lia. apply H. lia.
Qed.
Lemma nth_map0 (f : R -> R) l n i : List.length l = n -> (i < n)%nat -> (map f l).[i] = f l.[i].
Proof. intros L H. rewrite (nth_indep _ 0 (f 0)) by (rewrite map_length; lia). apply map_nth. Qed.
Lemma sumsq_Sig v n : List.length v = n -> sumsq v = Sig n (fun i => v.[i] ^ 2).
Proof.
  intros <-. unfold sumsq. assert (G : forall s, fold_left (fun sum a => sum + a * a) v s = s + Sig (List.length v) (fun i => v.[i] ^ 2)).
  { induction v as [|a v IH]; intros s; cbn [fold_left List.length]. - cbn [Sig]. ring. - rewrite IH, Sig_S_l. cbn [nth]. ring. }
  rewrite G. ring.
Qed.
Lemma Sig_sq_nonneg n f : 0 <= Sig n (fun i => f i ^ 2).
Proof. apply Sig_nonneg. intros. apply pow2_ge_0. Qed.

Section NL.
Variables (n : nat) (F : list R -> list R).
Hypothesis HF : forall x, List.length x = n -> List.length (F x) = n.
Lemma fmin_energy x : List.length x = n -> fmin F x = energy n F x.
Proof. intros L. unfold fmin, energy. rewrite (sumsq_Sig (F x) n) by auto. unfold Fi. lra. Qed.
Lemma energy_nonneg x : 0 <= energy n F x.
Proof. unfold energy. pose proof (Sig_sq_nonneg n (Fi F x)). lra. Qed.

(** *** fd_jacobianP *)
Lemma upd_shifted x j h : List.length x = n -> (j < n)%nat -> upd x j (x.[j] + h) = shifted x j h.
Proof.
  intros L H. unfold shifted. apply list_eq_R. { rewrite upd_length, map_length, seq_length. auto. } intros i Hi. rewrite upd_length in Hi.
  rewrite (nth_indep (map _ _) 0 ((fun i => x.[i] + (if (i =? j)%nat then h else 0)) 0%nat)) by (rewrite map_length, seq_length; lia). rewrite (map_nth (fun i => x.[i] + (if (i =? j)%nat then h else 0))), seq_nth by lia. cbn [Nat.add].
  destruct (Nat.eqb_spec i j) as [->|N]. - rewrite nth_upd_eq by lia. reflexivity. - rewrite nth_upd_ne by auto. ring.
Qed.
Lemma fd_h_pos xj k : 0 < fd_h xj k.
Proof. unfold fd_h. apply Rmult_lt_0_compat; [|apply pow_lt; lra]. eapply Rlt_le_trans; [|apply Rmax_r]. apply Rinv_0_lt_compat, pow_lt; lra. Qed.
Lemma fd_col_ok f fvec h j df K : List.length f = n -> List.length fvec = n -> (j < n)%nat -> ismat n df K ->
  exists df' nz K', fd_col n f fvec h j df = Ok (df', nz) /\ ismat n df' K' /\ (forall a c, (c <> j) -> K' a c = K a c) /\ (forall a, (a < n)%nat -> K' a j = (f.[a] - fvec.[a]) / h) /\
    (nz = true <-> exists a, (a < n)%nat /\ K' a j <> 0).
Proof.
  intros Lf Lv Hj M. unfold fd_col.
  destruct (for_nat_inv (fun i r => exists K', ismat n (fst r) K' /\ (forall a c, c <> j -> K' a c = K a c) /\ (forall a, (a < i)%nat -> K' a j = (f.[a] - fvec.[a]) / h) /\ (snd r = true <-> exists a, (a < i)%nat /\ K' a j <> 0))
    (fun i r => let '(df, nz) := r in do fi <- rd f i; do fv <- rd fvec i; let q := (fi - fv) / h in do df <- wrm n df i j q; Ok (df, if Req_EM_T q 0 then nz else true)) 0 n (df, false)) as ([df' nz] & E & K' & M' & V1 & V2 & V3).
  - lia.
  - exists K. split; auto. split; auto. split; [intros; lia|]. split; [discriminate|]. intros (a & Ha & _). lia.
  - intros i [d nz] Hi (K' & M' & V1 & V2 & V3). cbn [fst snd] in *. rewrite (rd_ok f i 0), (rd_ok fvec i 0) by lia. cbn [rbind]. cbv zeta. set (q := (f.[i] - fvec.[i]) / h).
    destruct (wrm_ok n d K' i j q M') as (d' & E' & M2); [lia|lia|]. rewrite E'. cbn [rbind]. eexists. split; [reflexivity|]. cbn [fst snd]. exists (setm K' i j q). split; auto. split; [|split].
    + intros a c Hc. setm_tac; auto.
    + intros a Ha. unfold setm. rewrite Nat.eqb_refl. destruct (Nat.eqb_spec a i) as [->|N]; cbn [andb]; auto. apply V2. lia.
    + unfold setm. destruct (Req_EM_T q 0) as [Z|NZ].
      * rewrite V3. split; intros (a & Ha & Q). -- exists a. split; [lia|]. rewrite Nat.eqb_refl. destruct (Nat.eqb_spec a i); [lia|auto]. -- rewrite Nat.eqb_refl in Q. destruct (Nat.eqb_spec a i) as [->|N]; cbn [andb] in Q; [contradiction|]. exists a. split; auto. lia.
      * split; auto. intros _. exists i. split; [lia|]. now rewrite !Nat.eqb_refl.
  - cbn [fst snd] in *. exists df', nz, K'. auto.
Qed.
Lemma fd_try_ok x j : List.length x = n -> (j < n)%nat -> forall t k df K, (t + k = 8)%nat -> (0 < t)%nat -> ismat n df K -> (forall k' i, (k' < k)%nat -> (i < n)%nat -> fd_quotient F x i j k' = 0) ->
  exists df' K', fd_try n F t x (F x) j x.[j] (fd_h x.[j] k) df = Ok df' /\ ismat n df' K' /\ (forall a c, c <> j -> K' a c = K a c) /\
    exists k, (k < 8)%nat /\ (forall i, (i < n)%nat -> K' i j = fd_quotient F x i j k) /\ (forall k' i, (k' < k)%nat -> (i < n)%nat -> fd_quotient F x i j k' = 0) /\ (k = 7%nat \/ exists i, (i < n)%nat /\ K' i j <> 0).
Proof.
  intros Lx Hj. induction t as [|t IH]; intros k df K Hk Ht M Hz; [lia|]. cbn [fd_try]. rewrite upd_shifted by auto.
  destruct (fd_col_ok (F (shifted x j (fd_h x.[j] k))) (F x) (fd_h x.[j] k) j df K) as (df' & nz & K' & E & M' & V1 & V2 & V3); auto. { apply HF. unfold shifted. now rewrite map_length, seq_length. }
  rewrite E. cbn [rbind fst snd].
  destruct nz.
  - exists df', K'. split; auto. split; auto. split; auto. exists k. split; [lia|]. split; [exact V2|]. split; auto. right. now apply V3.
  - assert (Z : forall i, (i < n)%nat -> K' i j = 0). { intros i Hi. destruct (Req_dec (K' i j) 0) as [Q|Q]; auto. assert (false = true) by (apply V3; eauto). discriminate. }
    destruct t as [|t].
    + cbn [fd_try]. exists df', K'. split; auto. split; auto. split; auto. exists k. split; [lia|]. split; [exact V2|]. split; [exact Hz|]. left. lia.
    + replace (fd_h x.[j] k * 10) with (fd_h x.[j] (S k)) by (unfold fd_h; cbn [pow]; ring).
      destruct (IH (S k) df' K') as (d2 & K2 & E2 & M2 & W1 & W2); [lia|lia|auto| |].
      * intros k' i Hk' Hi. destruct (Nat.eq_dec k' k) as [->|]; [|apply Hz; lia]. rewrite <- (Z i Hi). symmetry. apply V2; auto.
      * exists d2, K2. split; auto. split; auto. split; auto. intros. rewrite W1 by auto. auto.
Qed.
Lemma fd_jacobian_ok x df : List.length x = n -> List.length df = (n * n)%nat -> exists J, fd_jacobian n F x (F x) df = Ok J /\ fd_matrix n F x J.
Proof.
  intros Lx Ld. unfold fd_jacobian.
  destruct (for_nat_inv (fun m df => exists K, ismat n df K /\ forall j, (j < m)%nat -> exists k, (k < 8)%nat /\ (forall i, (i < n)%nat -> K i j = fd_quotient F x i j k) /\ (forall k' i, (k' < k)%nat -> (i < n)%nat -> fd_quotient F x i j k' = 0) /\ (k = 7%nat \/ exists i, (i < n)%nat /\ K i j <> 0))
    (fun j df => do tmp <- rd x j; let h := EPS * Rabs tmp in let h := if Rlt_dec h HMIN then HMIN else h in fd_try n F 8 x (F x) j tmp h df) 0 n df) as (J & E & K & [LJ V] & P).
  - lia.
  - exists (ent n df). split; [now apply ismat_ent|]. intros; lia.
  - intros j d Hj (K & M & P). rewrite (rd_ok x j 0) by lia. cbn [rbind]. cbv zeta.
    replace (if Rlt_dec (EPS * Rabs x.[j]) HMIN then HMIN else EPS * Rabs x.[j]) with (fd_h x.[j] 0).
    2:{ unfold fd_h. rewrite pow_O, Rmult_1_r. fold HMIN. replace (Rabs x.[j] / 10 ^ 7) with (EPS * Rabs x.[j]) by (unfold EPS, Rdiv; ring). unfold Rmax. destruct (Rle_dec _ _), (Rlt_dec _ _); lra. }
    destruct (fd_try_ok x j Lx ltac:(lia) 8 0 d K) as (d' & K' & E & M' & V1 & V2); auto; [lia|lia|]. exists d'. split; auto. exists K'. split; auto. intros c Hc. destruct (Nat.eq_dec c j) as [->|N]; auto.
    destruct (P c) as (k & Hk & P1 & P2 & P3); [lia|]. exists k. split; auto. split; [intros; rewrite V1 by auto; auto|]. split; auto. destruct P3 as [|(i & Hi & Q)]; auto. right. exists i. rewrite V1 by auto. auto.
  - exists J. split; auto. split; auto. intros j Hj. destruct (P j Hj) as (k & Hk & P1 & P2 & P3). exists k. unfold ent. split; auto. split; [intros i Hi; rewrite V by auto; auto|]. split; auto. destruct P3 as [|(i & Hi & Q)]; auto. right. exists i. rewrite V by auto. auto.
Qed.
(** *** gradient *)
Lemma gradient_ok J x g : List.length J = (n * n)%nat -> List.length x = n -> List.length g = n -> exists g', gradient n J (F x) g = Ok g' /\ List.length g' = n /\ forall i, (i < n)%nat -> g'.[i] = grad n F x J i.
Proof.
  intros LJ Lx Lg. unfold gradient.
  destruct (fill_loop 0 n (fun i g => do sum <- for_nat 0 n (fun j sum => do a <- rdm n J j i; do f <- rd (F x) j; Ok (sum + a * f)) 0; wr g i sum) (fun i => grad n F x J i) g 0) as (g' & E & L & V); [lia| |].
  - intros i s Hi _. rewrite (sum_loop 0 n _ (fun j => ent n J j i * Fi F x j)). + cbn [rbind]. f_equal. rewrite Rplus_0_l, Nat.sub_0_r. reflexivity.
    + intros j s0 Hj. rewrite (rdm_ok n J (ent n J)) by (auto using ismat_ent; lia). cbn [rbind]. rewrite (rd_ok (F x) j 0) by (rewrite HF; auto; lia). reflexivity.
  - exists g'. split; auto. split; [lia|]. intros i Hi. rewrite V. destruct (Nat.ltb_spec i n); [reflexivity|lia].
Qed.
End NL.

(** C31, continued: with a linear preconditioner bicgstab needs at most as many iterations as there are unknowns (in exact arithmetic), unless it breaks down. *)
From Verif Require Import Base Loops Rsum Sparse_model Sparse_spec Sparse_proofs Sparse_props Arrays Solvers_model Solvers_spec Solvers_proofs Solvers_props Lindep.
Local Open Scope R_scope.
Section Bicg.
Variables (n : nat) (lop K : list R -> list R) (precon : list R -> list R -> list R) (b : list R) (tol : R) (rt : list R).
Hypothesis LIN : linear_map n lop.
Hypothesis LK : linear_map n K.
Hypothesis PK : forall o p, List.length o = n -> List.length p = n -> precon o p = K p.
Hypothesis LB : List.length b = n.
Hypothesis Lrt : List.length rt = n.
Hypothesis T0 : 0 <= tol.
Notation vec v := (List.length v = n).
Definition ax (c : R) (x y : list R) : list R := zip (fun a b => a + c * b) x y.
Lemma ax_len c x y : vec x -> vec y -> vec (ax c x y). Proof. intros. now apply zip_length. Qed.
Lemma ax_nth c x y i : vec x -> vec y -> (i < n)%nat -> (ax c x y).[i] = x.[i] + c * y.[i].
Proof. intros. unfold ax. now rewrite (nth_zip _ x y n). Qed.
Definition islin (A : list R -> list R) : Prop := (forall v, vec v -> vec (A v)) /\ forall c x y, vec x -> vec y -> A (ax c x y) = ax c (A x) (A y).
Lemma lin_islin A : linear_map n A -> islin A.
Proof.
  intros [L H]. split; auto. intros c x y Lx Ly. apply list_eq_R. { rewrite (ax_len c (A x) (A y)); auto. apply L. now apply ax_len. }
  rewrite L by now apply ax_len. intros i Hi. rewrite ax_nth by auto. apply H; auto. now apply ax_len. intros j Hj. now apply ax_nth.
Qed.
Definition B (v : list R) : list R := lop (K v).
Lemma B_lin : islin B.
Proof.
  destruct (lin_islin lop LIN) as [L1 H1]. destruct (lin_islin K LK) as [L2 H2]. split; [intros; unfold B; auto|]. intros c x y Lx Ly. unfold B. rewrite H2, H1; auto.
Qed.
Definition D (v : list R) : R := GridDotProduct rt v.
Lemma D_ax c x y : vec x -> vec y -> D (ax c x y) = D x + c * D y.
Proof.
  intros Lx Ly. unfold D. rewrite !(dot_Sig rt _ n) by auto using ax_len. rewrite <- Sig_scal, <- Sig_plus. apply Sig_ext. intros i Hi. rewrite ax_nth by auto. ring.
Qed.
Fixpoint Bi (j : nat) (v : list R) : list R := match j with O => v | S j => Bi j (B v) end.
Definition phi (j : nat) (v : list R) : R := D (Bi j v).
Lemma Bi_lin j : islin (Bi j).
Proof. induction j as [|j [L H]]; [split; auto|]. destruct B_lin as [L1 H1]. split; cbn [Bi]; auto. intros c x y Lx Ly. rewrite H1, H; auto. Qed.
Lemma phi_ax j c x y : vec x -> vec y -> phi j (ax c x y) = phi j x + c * phi j y.
Proof. intros Lx Ly. unfold phi. destruct (Bi_lin j) as [L H]. rewrite H by auto. apply D_ax; auto. Qed.
Lemma phi_S j v : phi (S j) v = phi j (B v). Proof. reflexivity. Qed.
(** Q acts as a polynomial of degree k in B with coefficients c *)
Definition poly (Q : list R -> list R) (c : nat -> R) (k : nat) : Prop :=
  islin Q /\ (forall v, vec v -> Q (B v) = B (Q v)) /\ (forall v, vec v -> D (Q v) = Sig (S k) (fun j => c j * phi j v)) /\ c k <> 0.
Lemma poly_next Q c k w : w <> 0 -> poly Q c k -> poly (fun v => Q (ax (- w) v (B v))) (fun j => (if (j <=? k)%nat then c j else 0) - w * match j with O => 0 | S j' => c j' end) (S k).
Proof.
  intros Hw ([L H] & Co & Ex & Nz). destruct B_lin as [LB1 HB1]. split; [split|split; [|split]].
  - intros v Lv. apply L, ax_len; auto.
  - intros a x y Lx Ly. rewrite HB1 by auto. replace (ax (- w) (ax a x y) (ax a (B x) (B y))) with (ax a (ax (- w) x (B x)) (ax (- w) y (B y))). { apply H; apply ax_len; auto. }
    apply list_eq_R. { rewrite !ax_len; auto using ax_len. } rewrite ax_len by auto using ax_len. intros i Hi. rewrite !ax_nth by auto using ax_len. ring.
  - intros v Lv. rewrite <- HB1 by auto. rewrite Co; auto. apply ax_len; auto.
  - intros v Lv. rewrite Ex by (apply ax_len; auto). rewrite (Sig_S (S k)). rewrite (Sig_ext (S k) _ (fun j => c j * phi j v - w * (c j * phi (S j) v))). 2:{ intros j Hj. rewrite phi_ax, phi_S by auto. ring. }
    rewrite Sig_minus, Sig_scal. rewrite (Sig_ext (S k) (fun i => ((if (i <=? k)%nat then c i else 0) - w * match i with O => 0 | S j' => c j' end) * phi i v) (fun j => c j * phi j v - w * (match j with O => 0 | S j' => c j' end * phi j v))).
    2:{ intros j Hj. destruct (Nat.leb_spec j k); [ring|lia]. } rewrite Sig_minus, Sig_scal, (Sig_S_l k (fun j => match j with O => 0 | S j' => c j' end * phi j v)). rewrite (Sig_S k (fun j => c j * phi (S j) v)). destruct (Nat.leb_spec (S k) k); [lia|]. ring.
  - destruct (Nat.leb_spec (S k) k); [lia|]. intros Q0. assert (P0 : w * c k = 0) by lra. apply Rmult_integral in P0. tauto.
Qed.
Lemma poly_top Q c k v : poly Q c k -> vec v -> (forall j, (j < k)%nat -> phi j v = 0) -> D (Q v) = c k * phi k v.
Proof. intros (_ & _ & Ex & _) Lv Z. rewrite Ex by auto. rewrite Sig_S, Sig_zero; [ring|]. intros j Hj. rewrite Z by auto. ring. Qed.
(** what holds at the beginning of iteration k, with the residual br s not yet small enough *)
Definition Inv (k : nat) (s : bstate) : Prop := exists (rr : nat -> list R) Q c,
  (forall i, (i <= k)%nat -> vec (rr i)) /\ poly Q c k /\ br s = Q (rr k) /\ (forall i j, (i <= k)%nat -> (j < i)%nat -> phi j (rr i) = 0) /\ (forall i, (i < k)%nat -> phi i (rr i) <> 0) /\
  match k with O => True | S k' => exists pp Q' c', vec pp /\ poly Q' c' k' /\ (forall v, vec v -> Q v = Q' (ax (- bomega s) v (B v))) /\ vec (bp s) /\ vec (bv s) /\
    ax (- bomega s) (bp s) (bv s) = Q pp /\ (forall j, (j < k')%nat -> phi (S j) pp = 0) /\ D (Q' (B pp)) = brho1 s / balpha s /\ bomega s <> 0 /\ balpha s <> 0 /\ brho1 s <> 0 end.
Lemma zero_D v : vec v -> (forall i, (i < n)%nat -> v.[i] = 0) -> forall A, islin A -> forall i, (i < n)%nat -> (A v).[i] = 0.
Proof.
  intros Lv Z A [L H] i Hi. assert (E : v = ax (-1) v v). { apply list_eq_R; rewrite Lv, ?ax_len; auto. intros j Hj. rewrite ax_nth by auto. rewrite Z by auto. ring. }
  rewrite E, H by auto. rewrite ax_nth by auto. ring.
Qed.
Lemma Inv_lt k s : (k <= n)%nat -> Inv k s -> GridL2Norm (br s) > tol -> (k < n)%nat.
Proof.
  intros Hk (rr & Q & c & Lr & PQ & Er & Z & NZ & _) HT. destruct (Nat.eq_dec k n) as [->|]; [exfalso|lia].
  destruct (lindep n (fun k i => (rr k).[i])) as (a & (q & Hq & Na) & Ha).
  assert (Lin : forall A, (forall c x y, vec x -> vec y -> A (ax c x y) = A x + c * A y) -> Sig (S n) (fun k => a k * A (rr k)) = 0).
  { intros A HA. assert (P : forall m, (m <= S n)%nat -> exists v, vec v /\ (forall i, (i < n)%nat -> v.[i] = Sig m (fun k => a k * (rr k).[i])) /\ A v = Sig m (fun k => a k * A (rr k))).
    { induction m as [|m IH]; intros Hm.
      - exists (ax (-1) (rr 0%nat) (rr 0%nat)). assert (L0 : vec (rr 0%nat)) by (apply Lr; lia). split; [now apply ax_len|]. split. { intros i Hi. rewrite ax_nth by auto. cbn. ring. } rewrite HA by auto. cbn. ring.
      - destruct IH as (v & Lv & Vv & Av); [lia|]. assert (L0 : vec (rr m)) by (apply Lr; lia). exists (ax (a m) v (rr m)). split; [now apply ax_len|]. split. { intros i Hi. rewrite ax_nth, Vv, Sig_S by auto. ring. } rewrite HA, Av, Sig_S by auto. ring. }
    destruct (P (S n)) as (v & Lv & Vv & <-); [lia|]. assert (E : v = ax (-1) v v). { apply list_eq_R; rewrite Lv, ?ax_len; auto. intros j Hj. rewrite ax_nth by auto. rewrite Vv, Ha by auto. ring. }
    rewrite E, HA by auto. ring. }
  assert (Az : forall m, (m <= n)%nat -> forall k, (k < m)%nat -> a k = 0).
  { induction m as [|m IH]; intros Hm k Hk'; [lia|]. destruct (Nat.eq_dec k m) as [->|]; [|apply IH; lia].
    assert (S0 := Lin (phi m) (fun c x y => phi_ax m c x y)). rewrite (Sig_single (S n) m) in S0; [|lia|].
    - specialize (NZ m ltac:(lia)). nra.
    - intros i Hi Hne. destruct (Nat.lt_ge_cases i m). + rewrite (IH ltac:(lia) i) by lia. ring. + rewrite Z by lia. ring. }
  assert (q = n). { destruct (Nat.eq_dec q n); auto. exfalso. apply Na, (Az n); lia. } subst q.
  assert (Rz : forall i, (i < n)%nat -> (rr n).[i] = 0). { intros i Hi. specialize (Ha i Hi). rewrite Sig_S, Sig_zero in Ha. - nra. - intros j Hj. rewrite (Az n) by lia. ring. }
  assert (Lb : vec (br s)) by (rewrite Er; apply PQ, Lr; lia). rewrite (L2_rms _ n Lb) in HT. unfold rms in HT. rewrite Sig_zero in HT. { unfold Rdiv in HT. rewrite Rmult_0_l, sqrt_0 in HT. lra. }
  intros i Hi. rewrite Er. rewrite (zero_D (rr n) (Lr n (le_n n)) Rz Q (proj1 PQ) i Hi). ring.
Qed.
Lemma loop_finite : forall fuel k s, (k <= n)%nat -> Inv k s -> GridL2Norm (br s) > tol -> vec (bph s) -> vec (bsh s) -> (n <= k + fuel)%nat -> forall ii' s', bicgstab_loop lop precon rt tol fuel (Z.of_nat k) s = Ok (ii', s') -> (ii' < Z.of_nat n)%Z.
Proof.
  induction fuel as [|fuel IH]; intros k s Hk I HT Lph0 Lsh0 Hf ii' s' E. { assert (k < n)%nat by (eapply Inv_lt; eauto). lia. }
  assert (Hkn : (k < n)%nat) by (eapply Inv_lt; eauto). destruct I as (rr & Q & c & Lr & PQ & Er & Z & NZ & Hist). pose proof PQ as ((LQ & HQ) & CoQ & ExQ & Nc). destruct B_lin as [LB1 HB1].
  cbn [bicgstab_loop] in E. fold (D (br s)) in E. set (rho := D (br s)) in *. destruct (Rlt_dec (Rabs rho) rhotol) as [|RH]. { inversion E; subst. lia. }
  assert (Nrho : rho <> 0). { intros Q0. apply RH. rewrite Q0, Rabs_R0. unfold rhotol. apply Rinv_0_lt_compat, pow_lt. lra. }
  assert (Lrk : vec (rr k)) by (apply Lr; lia). assert (Erho : rho = c k * phi k (rr k)) by (unfold rho; rewrite Er; apply (poly_top Q c k); auto).
  destruct (if Z.eqb (Z.of_nat k) 0 then _ else _) as [p| |] eqn:EP in E; try discriminate. cbn [rbind] in E.
  assert (Lbr : vec (br s)) by (rewrite Er; auto).
  assert (HP : exists pp, vec pp /\ p = Q pp /\ forall j, (j < k)%nat -> phi (S j) pp = 0).
  { destruct k as [|k']. { cbn in EP. inversion EP; subst p. exists (rr 0%nat). split; auto. split; auto. intros; lia. }
    destruct Hist as (pp & Q' & c' & Lpp & PQ' & EQ & Lbp & Lbv & Eax & Zp & Hal & Nw & Nal & Nr1). destruct (Z.eqb_spec (Z.of_nat (S k')) 0); [lia|].
    unfold fdiv in EP. destruct (Req_EM_T (brho1 s) 0); [contradiction|]. destruct (Req_EM_T (bomega s) 0); [contradiction|]. cbn [rbind] in EP. set (beta := rho / brho1 s * (balpha s / bomega s)) in EP. inversion EP as [EP']. clear EP.
    exists (ax beta (rr (S k')) pp). split; [now apply ax_len|]. split.
    - rewrite HQ, <- Er, <- Eax by auto. rewrite EP'. symmetry. rewrite <- EP'. apply list_eq_R. { rewrite !ax_len by auto using ax_len. symmetry. now apply zip3_length. } rewrite ax_len by auto using ax_len. intros i Hi. rewrite ax_nth, ax_nth by auto using ax_len. rewrite (nth_zip3 _ _ _ _ n) by auto. ring.
    - intros j Hj. rewrite phi_ax by auto. destruct (Nat.eq_dec j k') as [->|]. 2:{ rewrite Z, Zp by lia. ring. }
      assert (PT : c' k' * phi k' (B (ax beta (rr (S k')) pp)) = 0).
      { rewrite <- (poly_top Q' c' k'); auto. 2:{ apply LB1. now apply ax_len. } 2:{ intros j Hj'. rewrite <- phi_S, phi_ax by auto. rewrite Z, Zp by lia. ring. }
        pose proof PQ' as ((LQ' & HQ') & CoQ' & ExQ' & Nc'). rewrite HB1, HQ', D_ax, Hal by auto.
        assert (E1 : rho = D (Q' (rr (S k'))) + - bomega s * D (Q' (B (rr (S k'))))). { unfold rho. rewrite Er, EQ, HQ', D_ax by auto. reflexivity. }
        rewrite (poly_top Q' c' k' (rr (S k'))) in E1 by (auto; intros; apply Z; lia). rewrite (Z (S k') k') in E1 by lia. replace (D (Q' (B (rr (S k'))))) with (- rho / bomega s) by (rewrite E1; field; auto). unfold beta. field. auto. }
      rewrite <- phi_ax, phi_S by auto. destruct PQ' as (_ & _ & _ & Nc'). apply Rmult_integral in PT. destruct PT; [contradiction|auto]. }
  destruct HP as (pp & Lpp & Ep & Zp). assert (Lp : vec p) by (rewrite Ep; auto).
  rewrite PK in E by auto. fold (B p) in E. set (v := B p) in *. assert (Ev : v = Q (B pp)) by (unfold v; rewrite Ep; symmetry; auto). assert (Lv : vec v) by (unfold v; auto).
  fold (D v) in E. unfold fdiv at 1 in E. destruct (Req_EM_T (D v) 0) as [|Nv]; [discriminate|]. cbn [rbind] in E. set (alpha := rho / D v) in *.
  assert (Nal : alpha <> 0). { unfold alpha, Rdiv. apply Rmult_integral_contrapositive_currified; auto. now apply Rinv_neq_0_compat. }
  set (sv := zip (fun r v => r - alpha * v) (br s) v) in *. set (rr' := ax (- alpha) (rr k) (B pp)). assert (Lrr' : vec rr') by (apply ax_len; auto).
  assert (Esv : sv = Q rr'). { unfold rr'. rewrite HQ, <- Er, <- Ev by auto. apply list_eq_R. { rewrite ax_len by auto. now apply zip_length. } unfold sv. rewrite (zip_length _ _ _ n) by auto. intros i Hi. rewrite ax_nth, (nth_zip _ _ _ n) by auto. ring. }
  assert (Lsv : vec sv) by (rewrite Esv; auto).
  assert (Z' : forall j, (j < S k)%nat -> phi j rr' = 0).
  { assert (Zl : forall j, (j < k)%nat -> phi j rr' = 0). { intros j Hj. unfold rr'. rewrite phi_ax, <- phi_S by auto. rewrite Z, Zp by lia. ring. }
    intros j Hj. destruct (Nat.eq_dec j k) as [->|]; [|apply Zl; lia]. assert (PT : c k * phi k rr' = 0). { rewrite <- (poly_top Q c k) by auto. unfold rr'. rewrite HQ, D_ax, <- Er, <- Ev by auto. fold rho. unfold alpha. field. auto. }
    apply Rmult_integral in PT. destruct PT; [contradiction|auto]. }
  destruct (Rle_dec (GridL2Norm sv) tol) as [C1|C1]. { inversion E; subst. lia. }
  rewrite PK in E by auto. fold (B sv) in E. set (t := B sv) in *. assert (Lt : vec t) by (unfold t; auto).
  destruct (fdiv (GridDotProduct t sv) (GridDotProduct t t)) as [omega| |]; try discriminate. cbn [rbind] in E.
  set (r' := zip (fun s t => s - omega * t) sv t) in *. assert (Er' : r' = ax (- omega) sv t). { apply list_eq_R. { rewrite ax_len by auto. now apply zip_length. } unfold r'. rewrite (zip_length _ _ _ n) by auto. intros i Hi. rewrite ax_nth, (nth_zip _ _ _ n) by auto. ring. }
  destruct (Rle_dec (GridL2Norm r') tol) as [C2|C2]. { inversion E; subst. lia. }
  destruct (Rlt_dec (Rabs omega) omegatol) as [|OM]. { inversion E; subst. lia. }
  assert (Nw : omega <> 0). { intros Q0. apply OM. rewrite Q0, Rabs_R0. unfold omegatol. apply Rinv_0_lt_compat, pow_lt. lra. }
  replace (Z.of_nat k + 1)%Z with (Z.of_nat (S k)) in E by lia. apply IH in E; cbn [br bp bph bsh bv balpha brho1 bomega]; auto; try lia; try (now apply LK); [|lra].
  set (Q1 := fun v => Q (ax (- omega) v (B v))). exists (fun i => if (i =? S k)%nat then rr' else rr i), Q1, (fun j => (if (j <=? k)%nat then c j else 0) - omega * match j with O => 0 | S j' => c j' end).
  split. { intros i Hi. destruct (Nat.eqb_spec i (S k)); auto. apply Lr. lia. } split; [now apply poly_next|]. cbn [br bp bv balpha brho1 bomega]. rewrite Nat.eqb_refl. split. { unfold Q1. rewrite HQ, CoQ, <- Esv by auto. exact Er'. }
  split. { intros i j Hi Hj. destruct (Nat.eqb_spec i (S k)) as [->|]; [apply Z'; lia|apply Z; lia]. }
  split. { intros i Hi. destruct (Nat.eqb_spec i (S k)); [lia|]. destruct (Nat.eq_dec i k) as [->|]; [|apply NZ; lia]. intros Q0. apply Nrho. rewrite Erho, Q0. ring. }
  exists pp, Q, c. repeat (split; [solve [auto]|]). split. { unfold Q1. rewrite HQ, <- Ep, <- Ev by auto. reflexivity. } split; [exact Zp|]. split. { rewrite <- Ev. unfold alpha. field. auto. } auto.
Qed.
End Bicg.

(** If the preconditioner is a fixed linear map (the identity, for example) and at least n iterations are allowed, then bicgstab - in exact arithmetic,
    and when no division by zero occurs - ends after at most n iterations: it has converged, or reports one of its two breakdowns; it never runs out of iterations. *)
Theorem C31_finite n lop K precon x b itmax tol ret x' r' normres : linear_map n lop -> linear_map n K -> (forall o p, List.length o = n -> List.length p = n -> precon o p = K p) ->
  List.length x = n -> List.length b = n -> 0 <= tol -> (Z.of_nat n <= itmax)%Z -> bicgstab lop precon x b itmax tol = Ok (ret, x', r', normres) ->
  ((0 <= ret <= Z.of_nat n)%Z /\ rms n (fun i => b.[i] - (lop x').[i]) <= tol) \/ (ret = (-10)%Z /\ rms n (fun i => b.[i] - (lop x').[i]) > tol) \/ ret = (-11)%Z.
Proof.
  intros LIN LK PK LX LB T0 IM E. assert (LP : forall o p, List.length o = n -> List.length p = n -> List.length (precon o p) = n) by (intros o p Lo Lp; rewrite PK by auto; now apply LK).
  assert (RN : (ret <= Z.of_nat n)%Z).
  { unfold bicgstab in E. set (r := zip _ b (lop x)) in *. assert (Lr : List.length r = n) by (apply zip_length; auto; now apply LIN).
    destruct (Rle_dec (GridL2Norm r) tol) as [C|C]. { inversion E; subst. lia. }
    destruct (bicgstab_loop _ _ _ _ _ _ _) as [[ii s]| |] eqn:EL in E; try discriminate. cbn [rbind] in E. 
    eapply (loop_finite n lop K precon) with (k := 0%nat) in EL; eauto; cbn [br bph bsh]; rewrite ?repeat_length; auto; try lia; try lra.
    - destruct (Z.ltb itmax ii); [|destruct (Rlt_dec _ _); [|destruct (Rlt_dec _ _)]]; inversion E; lia.
    - exists (fun _ => r), (fun v => v), (fun _ => 1). split; auto. split; [split; [split; auto|split; [auto|split]]|split; [auto|split; [|split; [|auto]]]]; try (intros; lia); try lra.
      intros v Lv. cbn [Sig]. unfold phi. cbn [Bi]. cbn. ring. }
  assert (H := C31_bicgstab_partial n lop precon b tol LIN LP LB x itmax ret x' r' normres LX ltac:(lia) E). destruct H as (_ & <- & [H|[H|[H|H]]] & _); [left|exfalso|right; left|right; right]; try tauto; try lia.
Qed.
Print Assumptions C31_finite.
(** a run: A = diag(1,2), no preconditioner, b = (1,1), x = 0, tolerance 0: bicgstab returns 2, and x' = (1, 1/2) *)
Example ex_finite : exists x' r', bicgstab lop2 (fun _ p => p) [0; 0] [1; 1] 2 0 = Ok (2%Z, x', r', 0) /\ x' = [1; 1 / 2].
Proof.
  pose proof rhotol_small. pose proof omegatol_small.
  assert (P : forall a c, (a <> 0 \/ c <> 0) -> ~ GridL2Norm [a; c] <= 0).
  { intros a c N H1. apply Rle_not_lt in H1. apply H1. unfold GridL2Norm. cbn [fold_left List.length]. apply sqrt_lt_R0. cbn. destruct N; nra. }
  assert (D : forall a c a' c', GridDotProduct [a; c] [a'; c'] = a * a' + c * c') by (intros; unfold GridDotProduct; cbn; lra).
  assert (F : forall a c q, c <> 0 -> a = q * c -> fdiv a c = Ok q). { intros a c q N ->. unfold fdiv. destruct (Req_EM_T c 0); [contradiction|]. f_equal. now field. }
  unfold bicgstab, zip. cbn [lop2 combine map fst snd List.length repeat].
  destruct (Rle_dec _ 0) as [C|_]; [apply P in C; [easy|left; lra]|].
  change (Z.to_nat 2) with 2%nat. cbn [bicgstab_loop br bx Z.eqb bph rbind bsh lop2]. rewrite !D.
  destruct (Rlt_dec _ rhotol) as [C1|_]. { exfalso. rewrite Rabs_right in C1; lra. }
  rewrite (F _ _ (2 / 3)) by lra. cbn [rbind]. unfold zip. cbn [combine map fst snd lop2].
  destruct (Rle_dec _ 0) as [C3|_]; [apply P in C3; [easy|left; lra]|]. rewrite !D.
  rewrite (F _ _ (3 / 5)) by lra. cbn [rbind]. unfold zip3. cbn [combine map fst snd].
  destruct (Rle_dec _ 0) as [C5|N5]; [apply P in C5; [easy|left; lra]|].
  destruct (Rlt_dec _ omegatol) as [C6|_]; [exfalso; rewrite Rabs_right in C6; lra|]. cbn [brho bomega rbind bx br bnormres bp bv balpha brho1 bph bsh]. rewrite !D.
  change (0 + 1 =? 0)%Z with false. cbn iota.
  destruct (Rlt_dec _ rhotol) as [C7|_]. { exfalso. rewrite Rabs_right in C7; lra. }
  rewrite (F _ _ (1 / 10)) by lra. cbn [rbind]. rewrite (F _ _ (10 / 9)) by lra. cbn [rbind]. unfold zip. cbn [combine map fst snd lop2]. rewrite !D. rewrite (F _ _ (3 / 4)) by lra. cbn [rbind].
  set (nn := GridL2Norm _). assert (En : nn = 0). { unfold nn, GridL2Norm. cbn [fold_left List.length]. transitivity (sqrt 0); [|apply sqrt_0]. f_equal. cbn. field. }
  rewrite En. destruct (Rle_dec 0 0) as [_|C8]; [|lra]. cbn [brho bomega rbind bx br bnormres]. change (2 <? 0 + 1)%Z with false. cbn iota.
  destruct (Rlt_dec _ rhotol) as [C7|_]. { exfalso. rewrite Rabs_right in C7; lra. }
  destruct (Rlt_dec _ omegatol) as [C6|_]; [exfalso; rewrite Rabs_right in C6; lra|]. do 2 eexists. split; [reflexivity|]. f_equal; [lra|]. f_equal. lra.
Qed.
Example ex_id : linear_map 2 (fun v => v). Proof. split; auto. Qed.

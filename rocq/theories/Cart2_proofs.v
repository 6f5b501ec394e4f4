(** Lemmas: storing the coordinate derivatives (compute_xyz) and derivatives of tensors. *)
From Verif Require Import Rutil Base Loops Sparse_model Arrays Coord_model Coord_spec Cart_model Cart_spec Cart_proofs.
Local Open Scope R_scope.
Definition fn_of (o : option fn3) : fn3 := match o with Some F => F | None => fun _ _ _ => 0 end.
Definition e0 (g : gvars) (C : coords) : list (nat * fn3) := [(vx g, x_of_X C D1); (vy g, x_of_X C D2); (vz g, x_of_X C D3)].
Definition e1 (g : gvars) (C : coords) : list (nat * fn3) := flat_map (fun j => [((dXd g + ix j)%nat, dX_dx C D1 j); ((dYd g + ix j)%nat, dX_dx C D2 j); ((dZd g + ix j)%nat, dX_dx C D3 j)]) dirs.
Definition e2one (g : gvars) (C : coords) (n : nat) (j k : d3) : list (nat * fn3) :=
  [((ddXdd g + n)%nat, fn_of (ddX_dxdx C D1 j k)); ((ddYdd g + n)%nat, fn_of (ddX_dxdx C D2 j k)); ((ddZdd g + n)%nat, fn_of (ddX_dxdx C D3 j k))].
Definition e2 (g : gvars) (C : coords) : list (nat * fn3) :=
  e2one g C 0 D1 D1 ++ e2one g C 1 D1 D2 ++ e2one g C 2 D1 D3 ++ e2one g C 3 D2 D2 ++ e2one g C 4 D2 D3 ++ e2one g C 5 D3 D3.
Definition entries (g : gvars) (C : coords) (s1 s2 : bool) : list (nat * fn3) := e0 g C ++ (if s1 then e1 g C else []) ++ (if s2 then e2 g C else []).
Definition at3 (p : R * R * R) (F : fn3) : R := let '(X, Y, Z) := p in F X Y Z.
Definition puts (ind : nat) (p : R * R * R) (l : list (nat * fn3)) (v : vars) : res vars := forl l (fun e v => put (snd e) (fst e) ind p v) v.
Lemma put_st F i ind p v : put F i ind p v = st v i ind (at3 p F). Proof. now destruct p as ((X, Y), Z). Qed.
Lemma rbind_assoc {A B E} (m : res A) (f : A -> res B) (h : B -> res E) : (do y <- (do x <- m; f x); h y) = (do x <- m; do y <- f x; h y).
Proof. now destruct m. Qed.
Lemma puts_sts ind p l v : puts ind p l v = sts ind (map (fun e => (fst e, at3 p (snd e))) l) v.
Proof. unfold puts, sts. rewrite forl_map. apply forl_ext. intros e s _. apply put_st. Qed.
Lemma puts_app ind p l l' v : puts ind p (l ++ l') v = (do w <- puts ind p l v; puts ind p l' w).
Proof. apply forl_app. Qed.
Lemma compute_point_puts g C s1 s2 ind v p : (s2 = true -> has_second C) -> point g v ind = Ok p ->
  compute_point g C s1 s2 ind v = puts ind p (entries g C s1 s2) v.
Proof.
  intros HS Ep. unfold compute_point. rewrite Ep. cbn [rbind]. unfold entries. rewrite !puts_app. unfold puts at 1, e0. cbn [forl fst snd]. rewrite !rbind_assoc.
  destruct (put (x_of_X C D1) (vx g) ind p v) as [w1| |]; cbn [rbind]; auto. rewrite !rbind_assoc. destruct (put (x_of_X C D2) (vy g) ind p w1) as [w2| |]; cbn [rbind]; auto.
  rewrite !rbind_assoc. destruct (put (x_of_X C D3) (vz g) ind p w2) as [w3| |]; cbn [rbind]; auto.
  rewrite puts_app.
  assert (E1 : (if s1 then forl dirs (fun j v => do v <- put (dX_dx C D1 j) (dXd g + ix j) ind p v; do v <- put (dX_dx C D2 j) (dYd g + ix j) ind p v; put (dX_dx C D3 j) (dZd g + ix j) ind p v) w3 else Ok w3) = puts ind p (if s1 then e1 g C else []) w3).
  { destruct s1; [|reflexivity]. unfold puts, e1. rewrite forl_flat. apply forl_ext. intros j s _. cbn [forl fst snd].
    destruct (put (dX_dx C D1 j) (dXd g + ix j) ind p s); cbn [rbind]; auto. destruct (put (dX_dx C D2 j) (dYd g + ix j) ind p a); cbn [rbind]; auto. now rewrite rbind_ok. }
  rewrite E1. destruct (puts ind p (if s1 then e1 g C else []) w3) as [w4| |]; cbn [rbind]; auto. destruct s2; [|reflexivity].
  assert (HF : forall i j k, d3_le j k -> ddX_dxdx C i j k = Some (fn_of (ddX_dxdx C i j k))). { intros i j k H. specialize (HS eq_refl i j k H). unfold fn_of. destruct (ddX_dxdx C i j k); congruence. }
  assert (B : forall j k n v, d3_le j k ->
     (do F <- (match ddX_dxdx C D1 j k with Some F => Ok F | None => UB end); do v <- put F (ddXdd g + n) ind p v;
      do F <- (match ddX_dxdx C D2 j k with Some F => Ok F | None => UB end); do v <- put F (ddYdd g + n) ind p v;
      do F <- (match ddX_dxdx C D3 j k with Some F => Ok F | None => UB end); do v <- put F (ddZdd g + n) ind p v; Ok (n + 1, v)%nat) =
     (do w <- puts ind p (e2one g C n j k) v; Ok (n + 1, w)%nat)).
  { intros j k n v' L. rewrite (HF D1 j k L), (HF D2 j k L), (HF D3 j k L). cbn [rbind]. unfold puts, e2one. cbn [forl fst snd fn_of]. rewrite !rbind_assoc.
    destruct (put (fn_of (ddX_dxdx C D1 j k)) (ddXdd g + n) ind p v'); cbn [rbind]; auto. rewrite !rbind_assoc.
    destruct (put (fn_of (ddX_dxdx C D2 j k)) (ddYdd g + n) ind p a); cbn [rbind]; auto. now rewrite !rbind_assoc. }
  unfold e2. rewrite !puts_app.
  unfold dirs. cbn [forl dirs_from].
  rewrite B by (unfold d3_le; cbn; lia). rewrite !rbind_assoc. destruct (puts ind p (e2one g C 0 D1 D1) w4) as [x1| |]; cbn [rbind Nat.add]; auto.
  rewrite B by (unfold d3_le; cbn; lia). rewrite !rbind_assoc. rewrite !puts_app. destruct (puts ind p (e2one g C 1 D1 D2) x1) as [x2| |]; cbn [rbind Nat.add]; auto.
  rewrite B by (unfold d3_le; cbn; lia). rewrite !rbind_assoc. rewrite !puts_app. destruct (puts ind p (e2one g C 2 D1 D3) x2) as [x3| |]; cbn [rbind Nat.add]; auto.
  rewrite B by (unfold d3_le; cbn; lia). rewrite !rbind_assoc. rewrite !puts_app. destruct (puts ind p (e2one g C 3 D2 D2) x3) as [x4| |]; cbn [rbind Nat.add]; auto.
  rewrite B by (unfold d3_le; cbn; lia). rewrite !rbind_assoc. rewrite !puts_app. destruct (puts ind p (e2one g C 4 D2 D3) x4) as [x5| |]; cbn [rbind Nat.add]; auto.
  rewrite B by (unfold d3_le; cbn; lia). rewrite !rbind_assoc. destruct (puts ind p (e2one g C 5 D3 D3) x5) as [x6| |]; cbn [rbind Nat.add snd]; auto.
Qed.
Lemma map_fst_at p l : map fst (map (fun e : nat * fn3 => (fst e, at3 p (snd e))) l) = map fst l.
Proof. rewrite map_map. apply map_ext. auto. Qed.
Lemma NoDup_app_remove_l {A} (l l' : list A) : NoDup (l ++ l') -> NoDup l'.
Proof. induction l as [|x l IH]; cbn [app]; intros H; auto. inversion H; auto. Qed.
Lemma NoDup_app_remove_r {A} (l l' : list A) : NoDup (l ++ l') -> NoDup l.
Proof. induction l as [|x l IH]; cbn [app]; intros H; constructor; inversion H; subst; auto. intros Hi. apply H2. apply in_or_app. auto. Qed.
Lemma NoDup_drop {A} (a b c : list A) : NoDup (a ++ b ++ c) -> NoDup (a ++ c).
Proof.
  induction a as [|x a IH]; cbn [app]; intros H.
  - now apply NoDup_app_remove_l in H.
  - inversion H; subst. constructor; auto. intros Hi. apply H2. apply in_or_app. apply in_app_or in Hi as [Hi|Hi]; auto. right. apply in_or_app. auto.
Qed.
Lemma entries_in_full g C s1 s2 e : In e (entries g C s1 s2) -> In e (entries g C true true).
Proof. unfold entries. intros H. apply in_app_or in H as [H|H]; apply in_or_app; auto. right. apply in_app_or in H as [H|H]; apply in_or_app; [destruct s1|destruct s2]; cbn [In] in H; try tauto; auto. Qed.
Lemma layout_written g C : layout g -> NoDup (map fst (entries g C true true)) /\ (forall i, In i (map fst (entries g C true true)) -> In i (gvar_list g) /\ ~ In i [vX g; vY g; vZ g]).
Proof.
  intros ((H1 & H2 & H3 & H4) & ND).
  set (tl := [vx g; vy g; vz g] ++ map (Nat.add (dXd g)) (seq 0 9) ++ map (Nat.add (ddXdd g)) (seq 0 18)).
  change (NoDup ([vX g; vY g; vZ g] ++ tl)) in ND.
  assert (I1 : incl tl (map fst (entries g C true true))).
  { intros x Hx. unfold entries, e0, e1, e2, e2one, dirs, tl in *. cbn [flat_map app map fst seq ix In] in *. rewrite H1, H2, H3, H4.
    repeat (destruct Hx as [<-|Hx]; [repeat (first [left; lia | right])|]). destruct Hx. }
  assert (I2 : incl (map fst (entries g C true true)) tl).
  { intros x Hx. unfold entries, e0, e1, e2, e2one, dirs, tl in *. cbn [flat_map app map fst seq ix In] in *. rewrite H1, H2, H3, H4 in Hx.
    repeat (destruct Hx as [<-|Hx]; [repeat (first [left; lia | right])|]). destruct Hx. }
  split.
  - apply NoDup_incl_NoDup with tl; auto. now apply NoDup_app_remove_l in ND.
  - intros i Hi. apply I2 in Hi. split.
    + unfold gvar_list. change (In i ([vX g; vY g; vZ g] ++ tl)). apply in_or_app. auto.
    + intros Hi'. clear - ND Hi Hi'. revert ND. generalize [vX g; vY g; vZ g], tl, Hi, Hi'. clear. intros l t Ht Hl ND. induction l as [|x l IH]; [destruct Hl|].
      cbn [app] in ND. inversion ND; subst. destruct Hl as [->|Hl]; auto. apply H1. apply in_or_app. auto.
Qed.
Lemma layout_nodup g C s1 s2 : layout g -> NoDup (map fst (entries g C s1 s2)).
Proof.
  intros L. destruct (layout_written g C L) as (N & _). unfold entries in *. rewrite !map_app in *. destruct s1, s2; auto; cbn [map].
  - rewrite app_nil_r. rewrite app_assoc in N. now apply NoDup_app_remove_r in N.
  - cbn [app]. now apply NoDup_drop in N.
  - rewrite app_nil_r. now apply NoDup_app_remove_r in N.
Qed.
Lemma compute_loop n g C s1 s2 v : layout g -> ready n g v -> (s2 = true -> has_second C) -> (forall i, In i (map fst (entries g C s1 s2)) -> len v i n) ->
  exists v', for_nat 0 n (compute_point g C s1 s2) v = Ok v' /\ (forall j, ~ In j (map fst (entries g C s1 s2)) -> v' j = v j) /\
  (forall i, In i (map fst (entries g C s1 s2)) -> len v' i n) /\ (forall e ind, In e (entries g C s1 s2) -> (ind < n)%nat -> cell v' (fst e) ind = atX g v (snd e) ind).
Proof.
  intros L R HS HL. set (es := entries g C s1 s2) in *.
  assert (NX : forall i, In i [vX g; vY g; vZ g] -> ~ In i (map fst es)).
  { intros i Hi Hi'. apply in_map_iff in Hi' as (e & <- & He). apply entries_in_full in He. destruct (layout_written g C L) as (_ & W). apply (W (fst e)); auto. now apply in_map. }
  destruct (for_nat_inv (fun k w => (forall j, ~ In j (map fst es) -> w j = v j) /\ (forall i, In i (map fst es) -> len w i n) /\
     forall e ind, In e es -> (ind < k)%nat -> cell w (fst e) ind = atX g v (snd e) ind) (compute_point g C s1 s2) 0 n v ltac:(lia)) as (v' & E & A & B & K).
  - split; auto. split; auto. intros; lia.
  - intros ind w Hi (A & B & K).
    assert (Ep : point g w ind = Ok (cell v (vX g) ind, cell v (vY g) ind, cell v (vZ g) ind)).
    { destruct R as (R & _). unfold point. rewrite !(ld_ok w _ n); cbn [rbind]; try lia.
      - rewrite !(cell_frame v w); auto; apply A, NX; cbn; auto.
      - apply (len_frame v w); [apply A, NX; cbn; auto|apply R; cbn; auto].
      - apply (len_frame v w); [apply A, NX; cbn; auto|apply R; cbn; auto].
      - apply (len_frame v w); [apply A, NX; cbn; auto|apply R; cbn; auto]. }
    rewrite (compute_point_puts g C s1 s2 ind w _ HS Ep). rewrite puts_sts. fold es.
    destruct (sts_ok ind n (map (fun e => (fst e, at3 (cell v (vX g) ind, cell v (vY g) ind, cell v (vZ g) ind) (snd e))) es) w ltac:(lia)) as (w' & E & F & Kw).
    { rewrite map_fst_at. now apply layout_nodup. } { intros p Hp. apply in_map_iff in Hp as (e & <- & He). cbn [fst]. apply B. now apply in_map. }
    rewrite map_fst_at in F. exists w'. split; auto. split. { intros j Hj. rewrite F by auto. auto. }
    assert (Kw' : forall e, In e es -> len w' (fst e) n /\ cell w' (fst e) ind = atX g v (snd e) ind /\ forall k, k <> ind -> cell w' (fst e) k = cell w (fst e) k).
    { intros e He. specialize (Kw (fst e, at3 (cell v (vX g) ind, cell v (vY g) ind, cell v (vZ g) ind) (snd e))). cbn [fst snd] in Kw. apply Kw. apply in_map_iff. exists e. auto. }
    split. { intros i Hi'. apply in_map_iff in Hi' as (e & <- & He). now apply Kw'. }
    intros e k He Hk. destruct (Kw' e He) as (_ & C1 & C2). destruct (Nat.eq_dec k ind) as [->|NE]; auto. rewrite C2 by auto. apply K; auto. lia.
  - exists v'. auto.
Qed.

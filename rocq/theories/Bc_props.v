From Coq Require Import FunctionalExtensionality Psatz Permutation.
From Verif Require Import Rutil Base Bound_model Cheb_model Faces_model Faces_spec Faces_props Bc_model Bc_spec.
Local Open Scope R_scope.

(** ** C101: conditions at the faces between boxes *)
Lemma fsig_val f : fsig f = 1 \/ fsig f = -1. Proof. unfold fsig. destruct (_ =? _)%nat; auto. Qed.
Lemma fsig_side f : (f < 6)%nat -> fsig f = face_side f.
Proof. intros H. do 6 (destruct f as [|f]; [reflexivity|]). lia. Qed.
Lemma fdir_axis f : (f < 6)%nat -> fdir f = face_axis f.
Proof. intros H. do 6 (destruct f as [|f]; [reflexivity|]). lia. Qed.
Lemma outward_ok f n : vdot n n <> 0 -> exists s, 0 < s /\ (forall m, vdot (outward f n) m = fsig f * s * vdot n m) /\ vlen2 (outward f n) = 1.
Proof.
  destruct n as [[a b] c]. intros H. unfold vlen2, outward, vdot in *. cbv zeta in *. set (q := a * a + b * b + c * c) in *.
  assert (Hq : 0 < q). { assert (A := Rle_0_sqr a). assert (B := Rle_0_sqr b). assert (C := Rle_0_sqr c). unfold Rsqr in *. unfold q in *. lra. }
  assert (Hs : 0 < sqrt q) by now apply sqrt_lt_R0. assert (Hqq : sqrt q * sqrt q = q) by (apply sqrt_sqrt; lra). assert (F := fsig_val f).
  destruct (Req_EM_T (fsig f * sqrt q) 0) as [E|E]. { exfalso. destruct F as [-> | ->] in E; lra. }
  exists (/ sqrt q). split; [now apply Rinv_0_lt_compat|]. split.
  - intros [[x y] z]. destruct F as [-> | ->]; field; lra.
  - assert (X : a / (fsig f * sqrt q) * (a / (fsig f * sqrt q)) + b / (fsig f * sqrt q) * (b / (fsig f * sqrt q)) + c / (fsig f * sqrt q) * (c / (fsig f * sqrt q)) = (a * a + b * b + c * c) / (sqrt q * sqrt q)).
    { clearbody q. destruct F as [-> | ->]; field; lra. }
    rewrite X, Hqq. change (a * a + b * b + c * c) with q. field. lra.
Qed.
(** The normal of face f has length one, is perpendicular to the two coordinate lines in the face, and points out of the box: along the third
    coordinate line for an upper face (f odd), against it for a lower face. *)
Theorem C101_normal J K f : (f < 6)%nat -> dual J K -> exists n, face_normal (Some J) f = Ok n /\ vlen2 n = 1 /\
  (forall a, (a < 3)%nat -> a <> face_axis f -> vdot n (K a) = 0) /\ 0 < face_side f * vdot n (K (face_axis f)).
Proof.
  intros Hf D. rewrite <- (fsig_side f Hf), <- (fdir_axis f Hf). unfold face_normal. destruct (Nat.ltb_spec 5 f); [lia|]. assert (Hd : (fdir f < 3)%nat) by (unfold fdir; apply Nat.div_lt_upper_bound; lia).
  assert (NZ : vdot (J (fdir f)) (J (fdir f)) <> 0).
  { assert (E := D (fdir f) (fdir f) Hd Hd). rewrite Nat.eqb_refl in E. destruct (J (fdir f)) as [[a b] c], (K (fdir f)) as [[x y] z]. unfold vdot in *. intros Z.
    assert (A := Rle_0_sqr a). assert (B := Rle_0_sqr b). assert (C := Rle_0_sqr c). unfold Rsqr in *. assert (a = 0) by nra. assert (b = 0) by nra. assert (c = 0) by nra. subst. lra. }
  destruct (outward_ok f _ NZ) as (s & Hs & V & L). eexists. split; [reflexivity|]. split; auto. split.
  - intros a Ha N. rewrite V, D by auto. destruct (Nat.eqb_spec (fdir f) a); [congruence|]. ring.
  - rewrite V, D, Nat.eqb_refl by auto. destruct (fsig_val f) as [-> | ->]; lra.
Qed.
Theorem C101_normal_cartesian f : (f < 6)%nat -> exists n, face_normal None f = Ok n /\ forall i, (i < 3)%nat -> comp n i = if (i =? face_axis f)%nat then face_side f else 0.
Proof.
  intros Hf. rewrite <- (fsig_side f Hf), <- (fdir_axis f Hf). unfold face_normal. destruct (Nat.ltb_spec 5 f); [lia|]. eexists. split; [reflexivity|]. assert (S1 : sqrt 1 = 1) by apply sqrt_1.
  assert (Hd : (fdir f < 3)%nat) by (unfold fdir; apply Nat.div_lt_upper_bound; lia). intros i Hi. unfold outward, comp. destruct (fsig_val f) as [E|E]; rewrite E; unfold unit_vec; cbv zeta;
  destruct (fdir f) as [|[|[|]]]; try lia; match goal with |- context [sqrt ?x] => replace x with 1 by ring end; rewrite S1; (destruct (Req_EM_T _ 0); [lra|]); destruct i as [|[|[|]]]; try lia; cbn [Nat.eqb]; lra.
Qed.
(** The outward direction has length one and is a multiple of the tangent of the coordinate line through the face; where the functions
    for it are missing it is the normal. *)
Theorem C101_outdir J K f : (f < 6)%nat -> vdot (K (face_axis f)) (K (face_axis f)) <> 0 -> exists n s, face_outdir (Some J) (Some K) f = Ok n /\ vlen2 n = 1 /\ 0 < s /\ forall m, vdot n m = face_side f * s * vdot (K (face_axis f)) m.
Proof. intros Hf. rewrite <- (fsig_side f Hf), <- (fdir_axis f Hf). intros H. unfold face_outdir. destruct (Nat.ltb_spec 5 f); [lia|]. destruct (outward_ok f _ H) as (s & Hs & V & L). eexists. exists s. split; [reflexivity|]. auto. Qed.
Theorem C101_outdir_normal J f : (f < 6)%nat -> face_outdir J None f = face_normal J f.
Proof. intros Hf. unfold face_outdir, face_normal. destruct (Nat.ltb_spec 5 f); [lia|]. now destruct J. Qed.

Section T.
Variable n1 n2 n3 : nat -> nat.
Variable bfaces : nat -> nat -> face.
Variable jac : nat -> nat -> option (nat -> v3).
Variable crd : nat -> Z -> nat -> R.
Variable bbox : nat -> nat -> R.
Variable interp3 : nat -> (nat -> R) -> R -> R -> R -> R.
Variable interp2 : nat -> nat -> nat -> (nat -> R) -> R -> R -> R.
Notation bcb := (bc_bface n1 n2 n3 bfaces jac crd bbox interp3 interp2).
Notation bcs := (bc_faces n1 n2 n3 bfaces jac crd bbox interp3 interp2).
Notation nn := (nnod n1 n2 n3).

(** *** only the points of the face change *)
Definition only (iF b : nat) (l : list nat) (u u' : field) : Prop := forall i c p, ~ (i = iF /\ c = b /\ In p l) -> u' (i, c, p) = u (i, c, p).
Lemma setf_eq u l x : setf u l x l = x.
Proof. destruct l as [[j b] p]. unfold setf, loc_eqb. now rewrite !Nat.eqb_refl. Qed.
Lemma setf_ne u l x l' : l' <> l -> setf u l x l' = u l'.
Proof. destruct l as [[j b] p], l' as [[j' b'] p']. intros N. unfold setf, loc_eqb. destruct (Nat.eqb_spec j' j), (Nat.eqb_spec b' b), (Nat.eqb_spec p' p); cbn [andb]; auto. congruence. Qed.
Lemma pts_only iF b (body : nat -> nat -> field -> res field) : (forall pi p u u', body pi p u = Ok u' -> only iF b [p] u u') -> forall l pi u u', pts_from pi l body u = Ok u' -> only iF b l u u'.
Proof.
  intros H. induction l as [|p l IH]; intros pi u u'; cbn [pts_from]; intros E. { injection E as <-. intros ? ? ? _. reflexivity. }
  destruct (body pi p u) as [u1| |] eqn:B; try discriminate. cbn [rbind] in E. intros i c q N. rewrite (IH _ _ _ E), (H _ _ _ _ B); auto; intros (? & ? & I); apply N; split; auto; split; auto; [destruct I as [<-|[]]; now left|now right].
Qed.
Lemma for_only iF b body o : (forall pi p u u', body pi p u = Ok u' -> only iF b [p] u u') -> forall u u', for_pts o body u = Ok u' -> exists l, o = Some l /\ only iF b l u u'.
Proof. intros H u u' E. destruct o as [[|p l]|]; try discriminate. exists (p :: l). split; auto. exact (pts_only _ _ _ H _ _ _ _ E). Qed.
Lemma wr_only iF b p x u u' : wrv n1 n2 n3 u iF b p x = Ok u' -> only iF b [p] u u'.
Proof. unfold wrv. destruct (_ <? _)%nat; intros E; try discriminate. injection E as <-. intros i c q N. apply setf_ne. intros X. injection X as -> -> ->. apply N. cbn. auto. Qed.
Ltac only_tac := intros ? ? ? ? ; repeat match goal with |- context [rbind ?m _] => destruct m; cbn [rbind]; try discriminate | |- context [if ?c then Ok _ else _] => destruct c end; try (apply wr_only); try discriminate; try (intros E; injection E as <-; intros ? ? ? _; reflexivity).
Lemma bcb_only iF fc iP id u u' : bcb iF fc iP id u = Ok u' -> u' = u \/ (0 <= ob (fx fc))%Z /\ exists l, fpts (fx fc) = Some l /\ only iF (fb fc) l u u'.
Proof.
  unfold bc_bface. destruct (Z.leb_spec 0 (ob (fx fc))) as [H|H]; [|intros E; injection E as <-; now left]. intros E. right. split; auto. revert E.
  destruct id as [[i1 i2] i3].
  assert (C : forall g u', copy_bface n1 n2 n3 jac iF fc iP (i1, i2, i3) g u = Ok u' -> exists l, fpts (fx fc) = Some l /\ only iF (fb fc) l u u').
  { intros g w. unfold copy_bface. destruct (ob (fx fc) <? 0)%Z; [discriminate|]. destruct (negb _); apply for_only; only_tac. }
  assert (I1 : forall d u', interp1_bface bfaces fc d u = Ok u' -> exists l, fpts (fx fc) = Some l /\ only iF (fb fc) l u u').
  { intros d w. unfold interp1_bface. destruct (ob (fx fc) <? 0)%Z; [discriminate|]. destruct (ofi (fx fc) <? 0)%Z; [discriminate|]. destruct (_ =? _)%nat; [discriminate|]. destruct (match d with O => _ | _ => _ end); cbn [rbind]; try discriminate. destruct (_ <=? 0)%Z; [discriminate|]. apply for_only. discriminate. }
  destruct (touch (fx fc)).
  - destruct (same_fpts (fx fc)); [apply C|]. destruct (sameX (fx fc) && sameY (fx fc) && sameZ (fx fc)). { destruct (fpts (fx fc)) eqn:Ef; [apply C|discriminate]. }
    destruct (sameX (fx fc) && sameY (fx fc)); [apply I1|]. destruct (sameX (fx fc) && sameZ (fx fc)); [apply I1|]. destruct (sameY (fx fc) && sameZ (fx fc)); [apply I1|].
    destruct (sameX (fx fc) || sameY (fx fc) || sameZ (fx fc)); [|discriminate]. unfold interp2_bface. destruct (ob (fx fc) <? 0)%Z; [discriminate|]. destruct (ofi (fx fc) <? 0)%Z; [discriminate|].
    destruct (match (if sameZ (fx fc) then _ else _) with O => _ | _ => _ end) as [[[[[op oC1] oC2] r1] r2]| |]; cbn [rbind]; try discriminate. destruct (_ || _); [discriminate|]. destruct (negb _); apply for_only; only_tac.
  - unfold interp3_bface. destruct (ob (fx fc) <? 0)%Z; [discriminate|]. destruct (_ || _); [discriminate|]. destruct (negb _).
    + destruct (for_pts _ _ _) eqn:E; cbn [rbind]; try discriminate. destruct (setnd _); [discriminate|]. intros X. injection X as <-. revert E. apply for_only; only_tac.
    + destruct (for_pts _ _ _) eqn:E; cbn [rbind]; try discriminate. destruct (setnd _); [discriminate|]. intros X. injection X as <-. revert E. apply for_only; only_tac.
Qed.
(** Whatever the flags of the faces and the values of the fields: setting the conditions of a box changes nothing but the residual on
    points of faces of this box that have another box beyond them. *)
Theorem C101_only_face_points iF iP id : forall fs u u', bcs iF fs iP id u = Ok u' -> forall i b p, u' (i, b, p) <> u (i, b, p) ->
  i = iF /\ exists fc l, In fc fs /\ fb fc = b /\ (0 <= ob (fx fc))%Z /\ fpts (fx fc) = Some l /\ In p l.
Proof.
  induction fs as [|fc fs IH]; intros u u' E i b p N; cbn [bc_faces] in E. { injection E as <-. congruence. }
  destruct (bcb iF fc iP id u) as [u1| |] eqn:B; try discriminate. cbn [rbind] in E.
  destruct (Req_EM_T (u' (i, b, p)) (u1 (i, b, p))) as [Q|Q]; [|destruct (IH _ _ E _ _ _ Q) as (-> & fc' & l & I & R); split; auto; exists fc', l; split; [now right|auto]].
  destruct (bcb_only _ _ _ _ _ _ B) as [-> |(H & l & El & O)]; [congruence|].
  assert (X : i = iF /\ b = fb fc /\ In p l). { apply Classical_Prop.NNPP. intros X. apply N. rewrite Q. now apply O. }
  destruct X as (-> & -> & I). split; auto. exists fc, l. split; [now left|auto].
Qed.
(** *** the values on the face *)
Definition agree (iF : nat) (u w : field) : Prop := forall i c p, i <> iF -> w (i, c, p) = u (i, c, p).
Lemma pts_values iF b body (val : nat -> nat -> option R) u0 : forall l s u, agree iF u0 u -> NoDup l ->
  (forall k p w, nth_error l k = Some p -> agree iF u0 w -> body (s + k)%nat p w = Ok (match val (s + k)%nat p with Some x => setf w (iF, b, p) x | None => w end)) ->
  exists u', pts_from s l body u = Ok u' /\ agree iF u0 u' /\ (forall k p, nth_error l k = Some p -> u' (iF, b, p) = match val (s + k)%nat p with Some x => x | None => u (iF, b, p) end) /\ (forall p, ~ In p l -> u' (iF, b, p) = u (iF, b, p)).
Proof.
  induction l as [|p l IH]; intros s u A N H; cbn [pts_from]. { exists u. split; auto. split; auto. split; auto. intros [|]; discriminate. }
  inversion N as [|? ? N1 N2]; subst. assert (H0 := H 0%nat p u eq_refl A). rewrite Nat.add_0_r in H0. rewrite H0. cbn [rbind]. set (u1 := match val s p with Some x => _ | None => _ end).
  assert (A1 : agree iF u0 u1). { intros i c q Hi. unfold u1. destruct (val s p); [rewrite setf_ne by congruence|]; now apply A. }
  destruct (IH (S s) u1 A1 N2) as (u' & E & A' & V & W). { intros k q w Hk Aw. specialize (H (S k) q w Hk Aw). now rewrite Nat.add_succ_r in H. }
  exists u'. split; auto. split; auto.
  assert (Oth : forall q, q <> p -> u1 (iF, b, q) = u (iF, b, q)) by (intros q Hq; unfold u1; destruct (val s p); auto; rewrite setf_ne; congruence). split.
  - intros [|k] q Hk; cbn in Hk.
    + injection Hk as <-. rewrite Nat.add_0_r. rewrite W by auto. unfold u1. destruct (val s p); auto. apply setf_eq.
    + rewrite (V k q Hk). rewrite Nat.add_succ_r. cbn [Nat.add]. destruct (val (S (s + k)) q); auto. apply Oth. intros ->. apply N1. eapply nth_error_In; eauto.
  - intros q Hq. rewrite W by (intros X; apply Hq; now right). apply Oth. intros ->. apply Hq. now left.
Qed.
Definition grad (u : field) (id : ids) (b p : nat) : v3 := let '(i1, i2, i3) := id in (u (i1, b, p), u (i2, b, p), u (i3, b, p)).
Definition not_in (iF iP : nat) (id : ids) : Prop := let '(i1, i2, i3) := id in iF <> iP /\ iF <> i1 /\ iF <> i2 /\ iF <> i3.
Lemma rdv_ok u i b p : (p < nn b)%nat -> rdv n1 n2 n3 u i b (Z.of_nat p) = Ok (u (i, b, p)).
Proof. intros H. unfold rdv. destruct (Z.leb_spec 0 (Z.of_nat p)), (Z.ltb_spec (Z.of_nat p) (Z.of_nat (nn b))); try lia. cbn [andb]. now rewrite Nat2Z.id. Qed.
Lemma rd3_ok u id b p : (p < nn b)%nat -> rd3 n1 n2 n3 u id b (Z.of_nat p) = Ok (grad u id b p).
Proof. intros H. destruct id as [[i1 i2] i3]. unfold rd3, grad. now rewrite !rdv_ok by auto. Qed.
Lemma wrv_ok u i b p x : (p < nn b)%nat -> wrv n1 n2 n3 u i b p x = Ok (setf u (i, b, p) x).
Proof. intros H. unfold wrv. destruct (Nat.ltb_spec p (nn b)); [auto|lia]. Qed.
Lemma normal_ok J f : (f < 6)%nat -> exists n, face_normal J f = Ok n.
Proof. intros H. unfold face_normal. destruct (Nat.ltb_spec 5 f); [lia|eauto]. Qed.
Definition nrm (b p f : nat) : v3 := match face_normal (jac b p) f with Ok n => n | _ => (0, 0, 0) end.
Lemma nrm_ok b p f : (f < 6)%nat -> face_normal (jac b p) f = Ok (nrm b p f).
Proof. intros H. unfold nrm. destruct (normal_ok (jac b p) f H) as (n & ->). reflexivity. Qed.
Lemma agree_grad iF iP id u w b p : not_in iF iP id -> agree iF u w -> grad w id b p = grad u id b p.
Proof. destruct id as [[i1 i2] i3]. intros (H0 & H1 & H2 & H3) A. unfold grad. rewrite !A by congruence. reflexivity. Qed.
Lemma not_in_P iF iP id : not_in iF iP id -> iP <> iF.
Proof. destruct id as [[i1 i2] i3]. intros (H & _). congruence. Qed.
(** a face whose points are those of a face of another box *)
Theorem C101_copy iF iP id fc l l2 u : not_in iF iP id -> (0 <= ob (fx fc))%Z -> (0 <= ofi (fx fc))%Z -> touch (fx fc) = true -> same_fpts (fx fc) = true -> (ff fc < 6)%nat ->
  let o := Z.to_nat (ob (fx fc)) in let b := fb fc in
  fpts (fx fc) = Some l -> l <> [] -> fpts (fx (bfaces o (Z.to_nat (ofi (fx fc))))) = Some l2 -> List.length l2 = List.length l -> NoDup l ->
  (forall p, In p l -> (p < nn b)%nat) -> (forall q, In q l2 -> (q < nn o)%nat) ->
  exists u', bcb iF fc iP id u = Ok u' /\ agree iF u u' /\
    forall k p q, nth_error l k = Some p -> nth_error l2 k = Some q ->
      u' (iF, b, p) = if setnd (fx fc) then vdot (nrm b p (ff fc)) (vsub (grad u id b p) (grad u id o q)) else u (iP, b, p) - u (iP, o, q).
Proof.
  intros NI Ho Hofi Ht Hs Hf o b El Ne El2 Len ND R1 R2. unfold bc_bface. destruct (Z.leb_spec 0 (ob (fx fc))); [|lia]. rewrite Ht, Hs. unfold copy_bface. destruct (Z.ltb_spec (ob (fx fc)) 0); [lia|]. fold o b.
  assert (OK : forall k p, nth_error l k = Some p -> exists q, nth_error l2 k = Some q /\ oijk_same_fpts bfaces fc k = Ok (Z.of_nat q)).
  { intros k p Hk. assert (k < List.length l)%nat by (apply nth_error_Some; congruence). destruct (nth_error l2 k) as [q|] eqn:Eq. 2: { apply nth_error_None in Eq. lia. }
    exists q. split; auto. unfold oijk_same_fpts. destruct (Z.ltb_spec (ob (fx fc)) 0), (Z.ltb_spec (ofi (fx fc)) 0); try lia. cbn [orb]. fold o. rewrite El2, Eq. reflexivity. }
  set (val := fun k p => match nth_error l2 k with None => Some 0 | Some q => Some (if setnd (fx fc) then vdot (nrm b p (ff fc)) (vsub (grad u id b p) (grad u id o q)) else u (iP, b, p) - u (iP, o, q)) end).
  assert (PN := not_in_P _ _ _ NI).
  assert (X : exists u', (if negb (setnd (fx fc)) then for_pts (fpts (fx fc)) (fun pi ind u => do oind <- oijk_same_fpts bfaces fc pi; do a <- rdv n1 n2 n3 u iP b (Z.of_nat ind); do c <- rdv n1 n2 n3 u iP o oind; wrv n1 n2 n3 u iF b ind (a - c)) u
     else for_pts (fpts (fx fc)) (fun pi ind u => do oind <- oijk_same_fpts bfaces fc pi; do n <- face_normal (jac b ind) (ff fc); do a <- rd3 n1 n2 n3 u id b (Z.of_nat ind); do c <- rd3 n1 n2 n3 u id o oind; wrv n1 n2 n3 u iF b ind (vdot n (vsub a c))) u) = Ok u' /\
     agree iF u u' /\ forall k p, nth_error l k = Some p -> u' (iF, b, p) = match val k p with Some x => x | None => u (iF, b, p) end).
  { rewrite El. destruct l as [|p0 l0] eqn:El0; [congruence|]. rewrite <- El0 in *. unfold for_pts. rewrite El0. rewrite <- El0.
    destruct (setnd (fx fc)) eqn:Sn; cbn [negb];
    match goal with |- context [pts_from 0 l ?body u] => destruct (pts_values iF b body val u l 0%nat u) as (u' & E & A & V & _) end; auto; try (intros ? ? ? ?; reflexivity);
    try (intros k p w Hk Aw; cbn [Nat.add]; destruct (OK k p Hk) as (q & Hq & ->); assert (p < nn b)%nat by (apply R1; eapply nth_error_In; eauto); assert (q < nn o)%nat by (apply R2; eapply nth_error_In; eauto); cbn [rbind]; unfold val; rewrite Hq;
      rewrite ?nrm_ok by auto; cbn [rbind]; rewrite ?rd3_ok, ?rdv_ok by auto; cbn [rbind]; rewrite wrv_ok by auto; rewrite ?(agree_grad iF iP id u w) by auto; rewrite ?Aw by auto; reflexivity);
    exists u'; split; auto. }
  destruct X as (u' & E & A & V). exists u'. split; auto. split; auto. intros k p q Hp Hq. rewrite (V k p Hp). unfold val. now rewrite Hq.
Qed.
(** The two faces of a pair as the search leaves them (C100): when the conditions of both faces are set, the residuals on both faces vanish
    if and only if the field has the same values in both boxes at all common points, and the same derivative along the normal of one face. *)
Theorem C101_interface grid st iF iP id u b f b2 f2 l l2 : not_in iF iP id -> pair grid st b f b2 f2 -> (f < 6)%nat -> (f2 < 6)%nat ->
  (forall c g, fb (bfaces c g) = c /\ ff (bfaces c g) = g /\ fx (bfaces c g) = st c g) ->
  fpts (st b f) = Some l -> fpts (st b2 f2) = Some l2 -> l <> [] -> NoDup l -> NoDup l2 -> (forall p, In p l -> (p < nn b)%nat) -> (forall q, In q l2 -> (q < nn b2)%nat) ->
  exists u1 u2, bcb iF (bfaces b f) iP id u = Ok u1 /\ bcb iF (bfaces b2 f2) iP id u1 = Ok u2 /\
    let s := setnd (st b f) in
    ((forall p, In p l -> u2 (iF, b, p) = 0) /\ (forall q, In q l2 -> u2 (iF, b2, q) = 0) <->
     forall k p q, nth_error l k = Some p -> nth_error l2 k = Some q -> u (iP, b, p) = u (iP, b2, q) /\
       let n := if s then nrm b p f else nrm b2 q f2 in vdot n (grad u id b p) = vdot n (grad u id b2 q)).
Proof.
  intros NI P Hf Hf2 BF El El2 Ne ND ND2 R1 R2. destruct P as (NE & P1 & P2 & P3 & P4 & P5 & P6 & P7 & P8 & P9 & l' & l2' & Q1 & Q2 & Q3 & _). rewrite El in Q1. rewrite El2 in Q2. injection Q1 as <-. injection Q2 as <-.
  assert (Len : List.length l2 = List.length l) by (clear - Q3; induction Q3; cbn [List.length]; lia).
  destruct (BF b f) as (B1 & B2 & B3), (BF b2 f2) as (C1 & C2 & C3).
  destruct (C101_copy iF iP id (bfaces b f) l l2 u) as (u1 & E1 & A1 & V1); rewrite ?B1, ?B2, ?B3, ?P1, ?P2, ?Nat2Z.id, ?C3; auto; try lia.
  destruct (C101_copy iF iP id (bfaces b2 f2) l2 l u1) as (u2 & E2 & A2 & V2); rewrite ?C1, ?C2, ?C3, ?P3, ?P4, ?Nat2Z.id, ?B3; auto; try lia. { destruct l2; [destruct l; [congruence|discriminate]|discriminate]. }
  exists u1, u2. split; auto. split; auto. cbv zeta.
  rewrite ?B1, ?B2, ?B3, ?P1, ?P2, ?Nat2Z.id in V1. rewrite ?C1, ?C2, ?C3, ?P3, ?P4, ?Nat2Z.id in V2. rewrite P9 in V2.
  assert (K1 : forall p, u2 (iF, b, p) = u1 (iF, b, p)). { intros p. destruct (bcb_only _ _ _ _ _ _ E2) as [-> |(_ & l' & _ & O)]; auto. apply O. rewrite C1. intros (_ & X & _). congruence. }
  assert (PN := not_in_P _ _ _ NI).
  assert (Vs : forall p q, vdot q (vsub (grad u1 id b2 p) (grad u1 id b p)) = vdot q (vsub (grad u id b2 p) (grad u id b p))) by (intros; rewrite !(agree_grad iF iP id u u1) by auto; reflexivity).
  assert (DS : forall n x y, vdot n (vsub x y) = vdot n x - vdot n y) by (intros [[? ?] ?] [[? ?] ?] [[? ?] ?]; unfold vdot, vsub; ring).
  assert (NT : forall k p, nth_error l k = Some p -> exists q, nth_error l2 k = Some q). { intros k p Hk. destruct (nth_error l2 k) eqn:X; eauto. apply nth_error_None in X. assert (k < List.length l)%nat by (apply nth_error_Some; congruence). lia. }
  assert (NT2 : forall k p, nth_error l2 k = Some p -> exists q, nth_error l k = Some q). { intros k p Hk. destruct (nth_error l k) eqn:X; eauto. apply nth_error_None in X. assert (k < List.length l2)%nat by (apply nth_error_Some; congruence). lia. }
  split.
  - intros [Z1 Z2] k p q Hp Hq. specialize (V1 k p q Hp Hq). specialize (V2 k q p Hq Hp). specialize (Z1 p (nth_error_In _ _ Hp)). specialize (Z2 q (nth_error_In _ _ Hq)). rewrite K1 in Z1. rewrite Z1 in V1. rewrite Z2 in V2.
    destruct (setnd (st b f)); cbn [negb] in V2.
    + rewrite !A1 in V2 by auto. split; [lra|]. rewrite DS in V1. lra.
    + split; [lra|]. rewrite DS in V2. rewrite !(agree_grad iF iP id u u1) in V2 by auto. lra.
  - intros H. split.
    + intros p I. apply In_nth_error in I. destruct I as [k Hk]. destruct (NT k p Hk) as [q Hq]. destruct (H k p q Hk Hq) as [H1 H2]. rewrite K1, (V1 k p q Hk Hq). destruct (setnd (st b f)); [rewrite DS|]; lra.
    + intros q I. apply In_nth_error in I. destruct I as [k Hq]. destruct (NT2 k q Hq) as [p Hk]. destruct (H k p q Hk Hq) as [H1 H2]. rewrite (V2 k q p Hq Hk). destruct (setnd (st b f)); cbn [negb]; [rewrite !A1 by auto; lra|rewrite DS, !(agree_grad iF iP id u u1) by auto; lra].
Qed.
(** a face inside or across another box: interpolation in space *)
Theorem C101_interp3 iF iP id fc l u : not_in iF iP id -> (0 <= ob (fx fc))%Z -> touch (fx fc) = false -> setnd (fx fc) = false -> (0 < oXi fc)%Z -> (0 < oYi fc)%Z -> (0 < oZi fc)%Z ->
  fpts (fx fc) = Some l -> l <> [] -> NoDup l -> (forall p, In p l -> (p < nn (fb fc))%nat) ->
  exists u', bcb iF fc iP id u = Ok u' /\ agree iF u u' /\ forall p, In p l ->
    u' (iF, fb fc, p) = u (iP, fb fc, p) - interp3 (Z.to_nat (ob (fx fc))) (fun q => u (iP, Z.to_nat (ob (fx fc)), q)) (crd (fb fc) (oXi fc) p) (crd (fb fc) (oYi fc) p) (crd (fb fc) (oZi fc) p).
Proof.
  intros NI Ho Ht Hs X1 X2 X3 El Ne ND R1. unfold bc_bface. destruct (Z.leb_spec 0 (ob (fx fc))); [|lia]. rewrite Ht. unfold interp3_bface. destruct (Z.ltb_spec (ob (fx fc)) 0); [lia|].
  destruct (Z.leb_spec (oXi fc) 0), (Z.leb_spec (oYi fc) 0), (Z.leb_spec (oZi fc) 0); try lia. cbn [orb]. destruct id as [[i1 i2] i3]. rewrite Hs. cbn [negb]. rewrite El. destruct l as [|p0 l0] eqn:El0; [congruence|]. unfold for_pts. rewrite <- El0 in *.
  set (o := Z.to_nat (ob (fx fc))). set (b := fb fc) in *. assert (PN := not_in_P _ _ _ NI).
  match goal with |- context [pts_from 0 l ?body u] => destruct (pts_values iF b body (fun _ p => Some (u (iP, b, p) - interp3 o (fun q => u (iP, o, q)) (crd b (oXi fc) p) (crd b (oYi fc) p) (crd b (oZi fc) p))) u l 0%nat u) as (u' & E & A & V & _) end; auto; try (intros ? ? ? ?; reflexivity).
  { intros k p w Hk Aw. assert (p < nn b)%nat by (apply R1; eapply nth_error_In; eauto). rewrite rdv_ok by auto. cbn [rbind]. rewrite wrv_ok by auto. rewrite Aw by auto. reflexivity. }
  rewrite E. cbn [rbind]. exists u'. split; auto. split; auto. intros p I. apply In_nth_error in I. destruct I as [k Hk]. apply (V k p Hk).
Qed.
(** a face that touches another face along a surface of constant coordinate: interpolation in this surface, at the points that lie in it *)
Definition in_range (o : nat) (r : nat) (x : R) : Prop := bbox o r <= x <= bbox o (S r).
Theorem C101_interp2 iF iP id fc l u plN (Ca Cb : Z) ra rb (nx : nat) : not_in iF iP id -> (0 <= ob (fx fc))%Z -> (0 <= ofi (fx fc))%Z -> touch (fx fc) = true -> same_fpts (fx fc) = false -> (ff fc < 6)%nat ->
  let o := Z.to_nat (ob (fx fc)) in let b := fb fc in
  (sameX (fx fc), sameY (fx fc), sameZ (fx fc), plN, Ca, Cb, ra, rb, nx) = (true, false, false, 1%nat, oYi fc, oZi fc, 2%nat, 4%nat, n1 o) \/
  (sameX (fx fc), sameY (fx fc), sameZ (fx fc), plN, Ca, Cb, ra, rb, nx) = (false, true, false, 2%nat, oXi fc, oZi fc, 0%nat, 4%nat, n2 o) \/
  (sameX (fx fc), sameY (fx fc), sameZ (fx fc), plN, Ca, Cb, ra, rb, nx) = (false, false, true, 3%nat, oXi fc, oYi fc, 0%nat, 2%nat, n3 o) ->
  (0 < Ca)%Z -> (0 < Cb)%Z -> fpts (fx fc) = Some l -> l <> [] -> NoDup l -> (forall p, In p l -> (p < nn b)%nat) ->
  let pl := if (ff (bfaces o (Z.to_nat (ofi (fx fc)))) mod 2 =? 0)%nat then 0%nat else (nx - 1)%nat in
  let I i p := interp2 o plN pl (fun q => u (i, o, q)) (crd b Ca p) (crd b Cb p) in
  let inside p := in_range o ra (crd b Ca p) /\ in_range o rb (crd b Cb p) in
  exists u', bcb iF fc iP id u = Ok u' /\ agree iF u u' /\ forall p, In p l ->
    (inside p -> u' (iF, b, p) = if setnd (fx fc) then let '(i1, i2, i3) := id in vdot (nrm b p (ff fc)) (vsub (grad u id b p) (I i1 p, I i2 p, I i3 p)) else u (iP, b, p) - I iP p) /\
    (~ inside p -> u' (iF, b, p) = u (iF, b, p)).
Proof.
  intros NI Ho Hofi Ht Hsf Hf o b Hc HCa HCb El Ne ND R1 pl I inside.
  set (out := fun ind => if Rlt_dec (crd b Ca ind) (bbox o ra) then true else if Rlt_dec (bbox o (S ra)) (crd b Ca ind) then true else if Rlt_dec (crd b Cb ind) (bbox o rb) then true else if Rlt_dec (bbox o (S rb)) (crd b Cb ind) then true else false).
  assert (Out : forall p, out p = true <-> ~ inside p).
  { intros p. unfold out, inside, in_range. repeat match goal with |- context [Rlt_dec ?x ?y] => destruct (Rlt_dec x y) end; split; intros; try discriminate; try reflexivity; try lra. all: exfalso; apply H; lra. }
  assert (OP : pl = ((nx - 1) * (ff (bfaces o (Z.to_nat (ofi (fx fc)))) mod 2))%nat). { unfold pl. destruct (Nat.eqb_spec (ff (bfaces o (Z.to_nat (ofi (fx fc)))) mod 2) 0) as [-> |N]; [lia|]. assert (ff (bfaces o (Z.to_nat (ofi (fx fc)))) mod 2 < 2)%nat by (apply Nat.mod_upper_bound; lia). nia. }
  assert (E : bcb iF fc iP id u = let '(i1, i2, i3) := id in if negb (setnd (fx fc)) then for_pts (fpts (fx fc)) (fun _ ind u => if out ind then Ok u else do a <- rdv n1 n2 n3 u iP b (Z.of_nat ind); wrv n1 n2 n3 u iF b ind (a - I iP ind)) u
    else for_pts (fpts (fx fc)) (fun _ ind u => if out ind then Ok u else do n <- face_normal (jac b ind) (ff fc); do a <- rd3 n1 n2 n3 u id b (Z.of_nat ind); wrv n1 n2 n3 u iF b ind (vdot n (vsub a (I i1 ind, I i2 ind, I i3 ind)))) u).
  { unfold bc_bface. destruct (Z.leb_spec 0 (ob (fx fc))); [|lia]. rewrite Ht, Hsf. unfold I. rewrite OP.
    destruct Hc as [Hc|[Hc|Hc]]; injection Hc as H1 H2 H3 -> -> -> -> -> ->; rewrite H1, H2, H3; cbn [andb orb]; unfold interp2_bface; (destruct (Z.ltb_spec (ob (fx fc)) 0); [lia|]); (destruct (Z.ltb_spec (ofi (fx fc)) 0); [lia|]); cbn [rbind];
    repeat match goal with |- context [(?z <=? 0)%Z] => destruct (Z.leb_spec z 0); [lia|] end; cbn [orb]; destruct id as [[i1 i2] i3]; reflexivity. }
  rewrite E. clear E. destruct id as [[i1 i2] i3] eqn:Eid. rewrite <- Eid in *. assert (PN := not_in_P _ _ _ NI).
  set (val := fun (k p : nat) => if out p then None else Some (if setnd (fx fc) then vdot (nrm b p (ff fc)) (vsub (grad u id b p) (I i1 p, I i2 p, I i3 p)) else u (iP, b, p) - I iP p)).
  rewrite El. destruct l as [|p0 l0] eqn:El0; [congruence|]. unfold for_pts. rewrite <- El0 in *.
  assert (Fin : forall body, (forall k p w, nth_error l k = Some p -> agree iF u w -> body (0 + k)%nat p w = Ok (match val (0 + k)%nat p with Some x => setf w (iF, b, p) x | None => w end)) -> exists u', pts_from 0 l body u = Ok u' /\ agree iF u u' /\ forall p, In p l ->
    (inside p -> u' (iF, b, p) = if setnd (fx fc) then vdot (nrm b p (ff fc)) (vsub (grad u id b p) (I i1 p, I i2 p, I i3 p)) else u (iP, b, p) - I iP p) /\ (~ inside p -> u' (iF, b, p) = u (iF, b, p))).
  { intros body HB. destruct (pts_values iF b body val u l 0%nat u) as (u' & E & A & V & _); auto. { intros ? ? ? ?; reflexivity. }
    exists u'. split; auto. split; auto. intros p Ip. apply In_nth_error in Ip. destruct Ip as [k Hk]. specialize (V k p Hk). unfold val in V. destruct (out p) eqn:Eo.
    - apply Out in Eo. split; [tauto|auto]. - split; [auto|]. intros N. apply Out in N. congruence. }
  assert (B : forall p, In p l -> (p < nn b)%nat) by auto.
  destruct (setnd (fx fc)) eqn:Sn; cbn [negb]; apply Fin; intros k p w Hk Aw; unfold val; cbn [Nat.add]; (destruct (out p); [reflexivity|]); assert (Hp := B p (nth_error_In _ _ Hk)).
  - rewrite nrm_ok by auto. cbn [rbind]. rewrite rd3_ok by auto. cbn [rbind]. rewrite wrv_ok by auto. now rewrite (agree_grad iF iP id u w).
  - rewrite rdv_ok by auto. cbn [rbind]. rewrite wrv_ok by auto. now rewrite Aw.
Qed.
(** the neighbour of point (i,j,k): same indices, except that the one across the face is that of the face of the other box *)
Theorem C101_same_coords fc l pi i j k : let b := fb fc in let o := Z.to_nat (ob (fx fc)) in let f2 := ff (bfaces o (Z.to_nat (ofi (fx fc)))) in
  fpts (fx fc) = Some l -> nth_error l pi = Some (i + n1 b * (j + n2 b * k))%nat -> (i < n1 b)%nat -> (j < n2 b)%nat -> (0 <= ob (fx fc))%Z -> (0 <= ofi (fx fc))%Z -> (f2 < 6)%nat ->
  oijk_same_coords n1 n2 n3 bfaces fc pi = Ok (Z.of_nat (match f2 with 0 => n1 o * (j + n2 o * k) | 1 => n1 o - 1 + n1 o * (j + n2 o * k)
    | 2 => i + n1 o * (n2 o * k) | 3 => i + n1 o * (n2 o - 1 + n2 o * k) | 4 => i + n1 o * j | _ => i + n1 o * (j + n2 o * (n3 o - 1)) end)%nat).
Proof.
  intros b o f2 El Hn Hi Hj Ho Hofi Hf2. unfold oijk_same_coords. rewrite El, Hn. destruct (Z.ltb_spec (ob (fx fc)) 0); [lia|]. destruct (Z.ltb_spec (ofi (fx fc)) 0); [lia|]. fold b o f2.
  assert (K : ((i + n1 b * (j + n2 b * k)) / (n1 b * n2 b) = k)%nat). { symmetry. apply Nat.div_unique with (r := (i + n1 b * j)%nat); nia. }
  rewrite K. assert (J : ((i + n1 b * (j + n2 b * k) - n1 b * n2 b * k) / n1 b = j)%nat). { replace (i + n1 b * (j + n2 b * k) - n1 b * n2 b * k)%nat with (i + n1 b * j)%nat by nia. symmetry. apply Nat.div_unique with (r := i); lia. }
  rewrite J. replace (i + n1 b * (j + n2 b * k) - n1 b * n2 b * k - n1 b * j)%nat with i by nia.
  clearbody f2. do 6 (destruct f2 as [|f2]; [cbn [fdir Nat.div Nat.divmod fst snd Nat.eqb Nat.modulo Nat.sub]; f_equal; f_equal; try nia|]). lia.
Qed.
(** the version for one face: six faces, one on each side *)
Theorem C101_onface nf b iF f iP id nd u : nf b = 6%nat -> (forall g, (g < 6)%nat -> ff (bfaces b g) = g) -> (f < 6)%nat ->
  bc_onface n1 n2 n3 bfaces jac crd bbox interp3 interp2 nf b iF f iP id nd u = bcb iF (with_flag nd (bfaces b f)) iP id u /\
  (nd = (-1)%Z -> with_flag nd (bfaces b f) = bfaces b f) /\ (nd = 0%Z \/ nd = 1%Z -> fx (with_flag nd (bfaces b f)) = with_nd (nd =? 1)%Z (fx (bfaces b f))).
Proof.
  intros N6 Hff Hf. split; [|split].
  - unfold bc_onface, box_faces. rewrite N6. cbn [seq map]. assert (F : filter (fun fc => (ff fc =? f)%nat) [bfaces b 0; bfaces b 1; bfaces b 2; bfaces b 3; bfaces b 4; bfaces b 5]%nat = [bfaces b f]).
    { cbn [filter]. rewrite !Hff by lia. do 6 (destruct f as [|f]; [reflexivity|]). lia. }
    rewrite F. cbn [map bc_faces]. destruct (bcb _ _ _ _ _); reflexivity.
  - intros ->. reflexivity.
  - intros [-> | ->]; reflexivity.
Qed.
(** *** what the code refuses *)
Theorem C101_two_common_coordinates iF iP id fc u : (0 <= ob (fx fc))%Z -> touch (fx fc) = true -> same_fpts (fx fc) = false ->
  (sameX (fx fc) = true /\ sameY (fx fc) = true /\ sameZ (fx fc) = false \/ sameX (fx fc) = true /\ sameY (fx fc) = false /\ sameZ (fx fc) = true \/ sameX (fx fc) = false /\ sameY (fx fc) = true /\ sameZ (fx fc) = true) ->
  forall u', bcb iF fc iP id u <> Ok u'.
Proof.
  intros Ho Ht Hs Hc u' E. assert (I1 : forall d, interp1_bface bfaces fc d u <> Ok u').
  { intros d. unfold interp1_bface. destruct (ob (fx fc) <? 0)%Z; [discriminate|]. destruct (ofi (fx fc) <? 0)%Z; [discriminate|]. destruct (_ =? _)%nat; [discriminate|]. destruct (match d with O => _ | _ => _ end); cbn [rbind]; try discriminate. destruct (_ <=? 0)%Z; [discriminate|]. destruct (fpts (fx fc)) as [[|]|]; discriminate. }
  unfold bc_bface in E. destruct (Z.leb_spec 0 (ob (fx fc))); [|lia]. rewrite Ht, Hs in E. destruct Hc as [(H1 & H2 & H3)|[(H1 & H2 & H3)|(H1 & H2 & H3)]]; rewrite H1, H2, H3 in E; cbn [andb] in E; exact (I1 _ E).
Qed.
Theorem C101_no_derivative_without_touch iF iP id fc u : (0 <= ob (fx fc))%Z -> touch (fx fc) = false -> setnd (fx fc) = true -> forall u', bcb iF fc iP id u <> Ok u'.
Proof. intros Ho Ht Hs u' E. unfold bc_bface in E. destruct (Z.leb_spec 0 (ob (fx fc))); [|lia]. rewrite Ht, Hs in E. destruct (interp3_bface _ _ _ _ _ _ _ _ _ _ _); discriminate. Qed.
Theorem C101_outer_faces iF iP id fc u : (ob (fx fc) < 0)%Z -> bcb iF fc iP id u = Ok u.
Proof. intros H. unfold bc_bface. destruct (Z.leb_spec 0 (ob (fx fc))); [lia|auto]. Qed.

(** *** linear in the fields *)
Section Lin.
Hypothesis L3 : linear3 interp3.
Hypothesis L2 : linear2 interp2.
Variables a c : R.
Notation lo := (lin_out a c).
Lemma lo_bind x y z k k' k'' : lo x y z -> (forall u v, lo (k u) (k' v) (k'' (lin a c u v))) -> lo (rbind x k) (rbind y k') (rbind z k'').
Proof.
  intros H K. destruct x as [u| |], y as [v| |], z as [w| |]; cbn in H; try tauto; cbn [rbind]; auto. assert (E : w = lin a c u v) by (apply functional_extensionality; exact H). rewrite E. apply K.
Qed.
Lemma lo_err : lo Err Err Err. Proof. exact I. Qed.
Lemma lo_ub : lo UB UB UB. Proof. exact I. Qed.
Lemma lo_ok u v : lo (Ok u) (Ok v) (Ok (lin a c u v)). Proof. cbn. reflexivity. Qed.
Lemma lo_pts bu bv bw : (forall pi p u v, lo (bu pi p u) (bv pi p v) (bw pi p (lin a c u v))) -> forall l s u v, lo (pts_from s l bu u) (pts_from s l bv v) (pts_from s l bw (lin a c u v)).
Proof. intros H. induction l as [|p l IH]; intros s u v; cbn [pts_from]; [apply lo_ok|]. apply lo_bind; auto. Qed.
Lemma lo_for o bu bv bw u v : (forall pi p u v, lo (bu pi p u) (bv pi p v) (bw pi p (lin a c u v))) -> lo (for_pts o bu u) (for_pts o bv v) (for_pts o bw (lin a c u v)).
Proof. intros H. destruct o as [[|p l]|]; [apply lo_ub| |apply lo_ub]. apply (lo_pts bu bv bw H (p :: l)). Qed.
Lemma lo_wr u v i b p x y z : z = a * x + c * y -> lo (wrv n1 n2 n3 u i b p x) (wrv n1 n2 n3 v i b p y) (wrv n1 n2 n3 (lin a c u v) i b p z).
Proof. intros ->. unfold wrv. destruct (_ <? _)%nat; [|exact I]. cbn. intros l. unfold setf, lin. destruct (loc_eqb l _); reflexivity. Qed.
Lemma lo_rd u v i b p (k k' k'' : R -> res field) : (forall x y, lo (k x) (k' y) (k'' (a * x + c * y))) -> lo (rbind (rdv n1 n2 n3 u i b p) k) (rbind (rdv n1 n2 n3 v i b p) k') (rbind (rdv n1 n2 n3 (lin a c u v) i b p) k'').
Proof. intros H. unfold rdv. destruct (_ && _); cbn [rbind]; [apply H|exact I]. Qed.
Lemma lo_rd3 u v id b p (k k' k'' : v3 -> res field) : (forall x1 x2 x3 y1 y2 y3, lo (k (x1, x2, x3)) (k' (y1, y2, y3)) (k'' (a * x1 + c * y1, a * x2 + c * y2, a * x3 + c * y3))) -> lo (rbind (rd3 n1 n2 n3 u id b p) k) (rbind (rd3 n1 n2 n3 v id b p) k') (rbind (rd3 n1 n2 n3 (lin a c u v) id b p) k'').
Proof. intros H. destruct id as [[i1 i2] i3]. unfold rd3, rdv. destruct (_ && _); cbn [rbind]; [apply H|exact I]. Qed.
Ltac lo_body := repeat first [apply lo_rd; intros ? ? | apply lo_rd3; intros ? ? ? ? ? ? | apply lo_err | apply lo_ub | apply lo_ok | match goal with |- lin_out _ _ (if ?d then _ else _) _ _ => destruct d end | match goal with |- context [face_normal ?J ?f] => destruct (face_normal J f) as [[[? ?] ?]| |]; cbn [rbind] end | match goal with |- context [rbind (?g ?fc ?pi) _] => destruct (g fc pi); cbn [rbind] end].
Lemma lo_copy iF fc iP id g u v : lo (copy_bface n1 n2 n3 jac iF fc iP id g u) (copy_bface n1 n2 n3 jac iF fc iP id g v) (copy_bface n1 n2 n3 jac iF fc iP id g (lin a c u v)).
Proof.
  unfold copy_bface. destruct (ob (fx fc) <? 0)%Z; [exact I|]. destruct (negb _); apply lo_for; intros pi p x y; lo_body; apply lo_wr; unfold vdot, vsub; ring.
Qed.
Theorem C101_linear iF iP id : forall fs u v, lin_out a c (bcs iF fs iP id u) (bcs iF fs iP id v) (bcs iF fs iP id (lin a c u v)).
Proof.
  induction fs as [|fc fs IH]; intros u v; cbn [bc_faces]; [apply lo_ok|]. apply lo_bind; [|intros; apply IH]. clear IH fs.
  unfold bc_bface. destruct (0 <=? ob (fx fc))%Z; [|apply lo_ok].
  assert (I1 : forall d, lo (interp1_bface bfaces fc d u) (interp1_bface bfaces fc d v) (interp1_bface bfaces fc d (lin a c u v))).
  { intros d. unfold interp1_bface. destruct (ob (fx fc) <? 0)%Z; [exact I|]. destruct (ofi (fx fc) <? 0)%Z; [exact I|]. destruct (_ =? _)%nat; [exact I|]. destruct (match d with O => _ | _ => _ end); cbn [rbind]; try exact I. destruct (_ <=? 0)%Z; [exact I|]. apply lo_for. intros. exact I. }
  destruct (touch (fx fc)).
  - destruct (same_fpts (fx fc)); [apply lo_copy|]. destruct (sameX (fx fc) && sameY (fx fc) && sameZ (fx fc)). { destruct (fpts (fx fc)); [apply lo_copy|exact I]. }
    destruct (sameX (fx fc) && sameY (fx fc)); [apply I1|]. destruct (sameX (fx fc) && sameZ (fx fc)); [apply I1|]. destruct (sameY (fx fc) && sameZ (fx fc)); [apply I1|].
    destruct (sameX (fx fc) || sameY (fx fc) || sameZ (fx fc)); [|exact I]. unfold interp2_bface. destruct (ob (fx fc) <? 0)%Z; [exact I|]. destruct (ofi (fx fc) <? 0)%Z; [exact I|].
    destruct (match (if sameZ (fx fc) then _ else _) with O => _ | _ => _ end) as [[[[[op oC1] oC2] r1] r2]| |]; cbn [rbind]; try exact I. destruct (_ || _); [exact I|]. destruct id as [[i1 i2] i3].
    destruct (negb _); apply lo_for; intros pi p x y; lo_body; apply lo_wr; unfold lin; rewrite !L2; unfold vdot, vsub; ring.
  - apply lo_bind. 2: { intros x y. destruct (setnd (fx fc)); [exact I|apply lo_ok]. }
    unfold interp3_bface. destruct (ob (fx fc) <? 0)%Z; [exact I|]. destruct (_ || _); [exact I|]. destruct id as [[i1 i2] i3]. destruct (negb _); apply lo_for; intros pi p x y; lo_body; apply lo_wr; unfold lin; rewrite !L3; unfold vdot, vsub; ring.
Qed.
End Lin.
End T.

(** Two boxes of two points on a line: the pair of faces between them. *)
Definition ex_st : faces := fun b f =>
  if ((b =? 0) && (f =? 1))%nat then BFace 1 0 true false false false true false false false (Some [1%nat]) else
  if ((b =? 1) && (f =? 0))%nat then BFace 0 1 true false false false true false true false (Some [0%nat]) else empty_bface.
Definition ex_grid (b : nat) : gbox := GBox 2 1 1 (fun p => (INR (b + p), 0, 0)).
Example C101_nontrivial : pair ex_grid ex_st 0 1 1 0 /\ not_in 4 0 (1, 2, 3)%nat /\ NoDup [1%nat] /\ NoDup [0%nat] /\ linear3 (fun _ f X Y Z => (1 - X) * f 0%nat + X * f 1%nat) /\
  dual (fun a => match a with 0%nat => (2, 0, 0) | 1%nat => (1, 1, 0) | _ => (0, 0, 1) end) (fun a => match a with 0%nat => (1 / 2, - (1 / 2), 0) | 1%nat => (0, 1, 0) | _ => (0, 0, 1) end).
Proof.
  split; [|split; [|split; [|split; [|split]]]].
  - unfold pair. cbn [ex_st Nat.eqb andb ob ofi touch same_fpts setnd negb fpts]. repeat (split; [reflexivity || discriminate|]). exists [1%nat], [0%nat]. split; auto. split; auto. split.
    { constructor; [|constructor]. unfold same_place, dist2, ex_grid, dequaleps. cbn. lra. } split; [intros x [<-|[]]; cbn; auto|]. split; [intros x [<-|[]]; cbn; auto|left; reflexivity].
  - cbn. lia.
  - repeat constructor; intros [].
  - repeat constructor; intros [].
  - intros o a c f g X Y Z. ring.
  - intros a b Ha Hb. destruct a as [|[|[|]]], b as [|[|[|]]]; try lia; cbn; lra.
Qed.
Print Assumptions C101_normal.
Print Assumptions C101_normal_cartesian.
Print Assumptions C101_outdir.
Print Assumptions C101_outdir_normal.
Print Assumptions C101_only_face_points.
Print Assumptions C101_copy.
Print Assumptions C101_interface.
Print Assumptions C101_interp3.
Print Assumptions C101_interp2.
Print Assumptions C101_same_coords.
Print Assumptions C101_onface.
Print Assumptions C101_two_common_coordinates.
Print Assumptions C101_no_derivative_without_touch.
Print Assumptions C101_outer_faces.
Print Assumptions C101_linear.

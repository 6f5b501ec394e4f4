(** C64: Cartesian derivatives of a variable are the partial derivatives with respect to x, y, z. *)
From Verif Require Import Rutil Base Loops Sparse_model Arrays Tensors_model Vars_model Vars_spec Vars_proofs Vars_props Coord_model Coord_spec Coord_props Cart_model Cart_spec Cart_proofs Cart2_proofs Cart3_proofs.
Local Open Scope R_scope.

(** compute_xyz_dXYZdxyz_ddXYZddxyz: x,y,z are the coordinate functions of X,Y,Z at every point, the stored first and second derivatives are those of the coordinate functions, X,Y,Z and all variables that are not coordinate variables keep their values. *)
Theorem C64_coordinates_stored : forall b g C v, coord b = Some C -> layout g -> ready (nnodes b) g v -> (forall i, In i [vx g; vy g; vz g] -> len v i (nnodes b)) -> (v (ddXdd g) <> None -> has_second C) ->
  exists v', compute_xyz b g v = Ok v' /\ tables_hold (nnodes b) g C v' /\
  (forall ind, (ind < nnodes b)%nat -> cell v' (vx g) ind = atX g v (x_of_X C D1) ind /\ cell v' (vy g) ind = atX g v (x_of_X C D2) ind /\ cell v' (vz g) ind = atX g v (x_of_X C D3) ind) /\
  (forall j, ~ In j (gvar_list g) \/ In j [vX g; vY g; vZ g] -> v' j = v j) /\ ready (nnodes b) g v' /\ (v' (dXd g) <> None <-> v (dXd g) <> None) /\ (v' (ddXdd g) <> None <-> v (ddXdd g) <> None).
Proof.
  intros b g C v EC L R Lx HS. unfold compute_xyz. rewrite EC. set (n := nnodes b) in *. set (s1 := allocated v (dXd g)). set (s2 := allocated v (ddXdd g)).
  destruct (layout_written g C L) as (_ & W). destruct L as ((H1 & H2 & H3 & H4) & ND). assert (L : layout g) by (split; auto).
  assert (In1 : forall k, (k < 9)%nat -> s1 = true -> In (dXd g + k)%nat (map fst (entries g C s1 s2))).
  { intros k Hk Es. unfold entries. rewrite Es, map_app, map_app. apply in_or_app. right. apply in_or_app. left. unfold e1, dirs. cbn [flat_map app map fst ix]. rewrite H1, H2.
    do 9 (destruct k as [|k]; [cbn [In]; repeat (first [left; lia | right])|]). lia. }
  assert (In2 : forall k, (k < 18)%nat -> s2 = true -> In (ddXdd g + k)%nat (map fst (entries g C s1 s2))).
  { intros k Hk Es. unfold entries. rewrite Es, map_app, map_app. apply in_or_app. right. apply in_or_app. right. unfold e2, e2one. cbn [flat_map app map fst ix]. rewrite H3, H4.
    do 18 (destruct k as [|k]; [cbn [In]; repeat (first [left; lia | right])|]). lia. }
  assert (HL : forall i, In i (map fst (entries g C s1 s2)) -> len v i n).
  { intros i Hi. unfold entries in Hi. rewrite map_app, map_app in Hi. apply in_app_or in Hi as [Hi|Hi]; [apply Lx; exact Hi|]. destruct R as (_ & R1 & R2). apply in_app_or in Hi as [Hi|Hi].
    - destruct s1 eqn:Es; [|destruct Hi]. specialize (R1 (alloc_true _ _ Es)). unfold e1, dirs in Hi. cbn [flat_map app map fst ix In] in Hi. rewrite H1, H2 in Hi. repeat (destruct Hi as [<-|Hi]; [rewrite <- ?Nat.add_assoc; apply R1; lia|]). destruct Hi.
    - destruct s2 eqn:Es; [|destruct Hi]. specialize (R2 (alloc_true _ _ Es)). unfold e2, e2one in Hi. cbn [app map fst In] in Hi. rewrite H3, H4 in Hi. repeat (destruct Hi as [<-|Hi]; [rewrite <- ?Nat.add_assoc; apply R2; lia|]). destruct Hi. }
  destruct (compute_loop n g C s1 s2 v L R (fun e => HS (alloc_true _ _ e)) HL) as (v' & E & F & Ln & K).
  assert (FX : forall i, In i [vX g; vY g; vZ g] -> v' i = v i).
  { intros i Hi. apply F. intros Hi'. apply in_map_iff in Hi' as (e & <- & He). apply entries_in_full in He. apply (W (fst e)); auto. now apply in_map. }
  assert (FA : forall G ind, atX g v' G ind = atX g v G ind). { intros. unfold atX. rewrite !(cell_frame v v'); auto; apply FX; cbn; auto. }
  assert (A1 : v' (dXd g) <> None <-> v (dXd g) <> None).
  { destruct s1 eqn:Es. - assert (I := In1 0%nat ltac:(lia) eq_refl). rewrite Nat.add_0_r in I. destruct (Ln _ I) as (a & Ea & _), (HL _ I) as (a' & Ea' & _). rewrite Ea, Ea'. split; congruence.
    - rewrite F; [tauto|]. intros I. destruct (HL _ I) as (a & Ea & _). unfold s1, allocated in Es. now rewrite Ea in Es. }
  assert (A2 : v' (ddXdd g) <> None <-> v (ddXdd g) <> None).
  { destruct s2 eqn:Es. - assert (I := In2 0%nat ltac:(lia) eq_refl). rewrite Nat.add_0_r in I. destruct (Ln _ I) as (a & Ea & _), (HL _ I) as (a' & Ea' & _). rewrite Ea, Ea'. split; congruence.
    - rewrite F; [tauto|]. intros I. destruct (HL _ I) as (a & Ea & _). unfold s2, allocated in Es. now rewrite Ea in Es. }
  assert (S1 : v' (dXd g) <> None -> s1 = true). { intros N. apply A1 in N. unfold s1, allocated. destruct (v (dXd g)); congruence. }
  assert (S2 : v' (ddXdd g) <> None -> s2 = true). { intros N. apply A2 in N. unfold s2, allocated. destruct (v (ddXdd g)); congruence. }
  exists v'. split; auto. split; [split|split; [|split; [|split]]]; auto.
  - intros N i m ind Hi. specialize (S1 N). rewrite FA. apply (K ((dXd g + 3 * ix i + ix m)%nat, dX_dx C i m) ind); auto.
    unfold entries. rewrite S1. apply in_or_app. right. apply in_or_app. left. unfold e1, dirs. cbn [flat_map app ix]. rewrite H1, H2.
    destruct i, m; cbn [ix In]; repeat (first [left; f_equal; lia | right]).
  - intros N i m n' ind G Hm Hi EG. specialize (S2 N). rewrite FA. apply (K ((ddXdd g + 6 * ix i + pair6 m n')%nat, G) ind); auto.
    replace G with (fn_of (ddX_dxdx C i m n')) by (now rewrite EG).
    unfold entries. rewrite S2. apply in_or_app. right. apply in_or_app. right. unfold e2, e2one. cbn [app]. rewrite H3, H4. unfold d3_le in Hm. clear - Hm.
    destruct i, m, n'; cbn [d3_nat] in Hm; try lia; cbn [ix pair6 In]; repeat (first [left; f_equal; lia | right]).
  - intros ind Hi. split; [|split]; [apply (K (vx g, x_of_X C D1) ind)|apply (K (vy g, x_of_X C D2) ind)|apply (K (vz g, x_of_X C D3) ind)]; auto; cbn; auto.
  - intros j [Hj|Hj]; auto. apply F. intros I. apply Hj. apply in_map_iff in I as (e & <- & He). apply entries_in_full in He. apply W. now apply in_map.
  - destruct R as (R0 & R1 & R2). split; [|split].
    + intros i Hi. apply (len_frame v v'); auto.
    + intros N k Hk. apply Ln. auto. + intros N k Hk. apply Ln. auto.
Qed.
Print Assumptions C64_coordinates_stored.
(** in a Cartesian box x,y,z are X,Y,Z *)
Theorem C64_cartesian_xyz : forall b g v, coord b = None -> NoDup (gvar_list g) -> ready (nnodes b) g v -> (forall i, In i [vx g; vy g; vz g] -> len v i (nnodes b)) ->
  exists v', compute_xyz b g v = Ok v' /\ (forall j, ~ In j [vx g; vy g; vz g] -> v' j = v j) /\
  forall ind, (ind < nnodes b)%nat -> cell v' (vx g) ind = cell v (vX g) ind /\ cell v' (vy g) ind = cell v (vY g) ind /\ cell v' (vz g) ind = cell v (vZ g) ind.
Proof.
  intros b g v EC ND (R & _) L. unfold compute_xyz. rewrite EC. set (n := nnodes b) in *.
  unfold gvar_list in ND. cbn [app] in ND. apply NoDup_app_remove_r with (l := [vX g; vY g; vZ g; vx g; vy g; vz g]) in ND.
  assert (NX : forall i, In i [vX g; vY g; vZ g] -> ~ In i [vx g; vy g; vz g]).
  { intros i Hi Hi'. repeat match goal with A : NoDup (_ :: _) |- _ => inversion A; clear A; subst end. cbn [In] in *. intuition congruence. }
  assert (ND' : NoDup [vx g; vy g; vz g]) by (now apply (NoDup_app_remove_l [vX g; vY g; vZ g]) in ND).
  destruct (for_nat_inv (fun k w => (forall j, ~ In j [vx g; vy g; vz g] -> w j = v j) /\ (forall i, In i [vx g; vy g; vz g] -> len w i n) /\
     forall ind, (ind < k)%nat -> cell w (vx g) ind = cell v (vX g) ind /\ cell w (vy g) ind = cell v (vY g) ind /\ cell w (vz g) ind = cell v (vZ g) ind)
    (fun ind v => do p <- point g v ind; do v <- put x_equals_X (vx g) ind p v; do v <- put y_equals_Y (vy g) ind p v; put z_equals_Z (vz g) ind p v) 0 n v ltac:(lia)) as (v' & E & A & B & K).
  - split; auto. split; auto. intros; lia.
  - intros ind w Hi (A & B & K).
    assert (Ep : point g w ind = Ok (cell v (vX g) ind, cell v (vY g) ind, cell v (vZ g) ind)).
    { unfold point. rewrite !(ld_ok w _ n); cbn [rbind]; try lia.
      - rewrite !(cell_frame v w); auto; apply A, NX; cbn; auto.
      - apply (len_frame v w); [apply A, NX; cbn; auto|apply R; cbn; auto].
      - apply (len_frame v w); [apply A, NX; cbn; auto|apply R; cbn; auto].
      - apply (len_frame v w); [apply A, NX; cbn; auto|apply R; cbn; auto]. }
    rewrite Ep. cbn [rbind]. destruct (sts_ok ind n [(vx g, cell v (vX g) ind); (vy g, cell v (vY g) ind); (vz g, cell v (vZ g) ind)] w ltac:(lia)) as (w' & E & F & Kw); auto.
    { intros p Hp. apply B. cbn in Hp |- *. intuition subst; cbn; auto. }
    exists w'. split. { etransitivity; [|exact E]. unfold sts. cbn [forl fst snd put]. unfold x_equals_X, y_equals_Y, z_equals_Z. destruct st; cbn [rbind]; auto. destruct st; cbn [rbind]; auto. now rewrite rbind_ok. }
    split. { intros j Hj. rewrite F by auto. auto. }
    destruct (Kw _ (or_introl eq_refl)) as (L1 & C1 & D1). destruct (Kw _ (or_intror (or_introl eq_refl))) as (L2 & C2 & D2). destruct (Kw _ (or_intror (or_intror (or_introl eq_refl)))) as (L3 & C3 & D3). cbn [fst snd] in *.
    split. { intros i [<-|[<-|[<-|[]]]]; auto. }
    intros k Hk. destruct (Nat.eq_dec k ind) as [->|NE]; auto. rewrite D1, D2, D3 by auto. apply K. lia.
  - exists v'. auto.
Qed.
Print Assumptions C64_cartesian_xyz.

(** cart_partials, for any coordinates: the three target variables get the combination sum_i dX_i/dx_m du/dX_i of the box derivatives at every point, whether the coordinate derivatives are stored or computed, and no other variable changes. *)
Theorem C64_cart_partials : forall b g D iu i1 i2 i3 v u, let du := tab i1 i2 i3 in
  v iu = Some u -> List.length u = nnodes b -> (forall m, v (du m) <> None) -> (forall j a, List.length a = nnodes b -> List.length (D j a) = nnodes b) ->
  (forall m m', du m = du m' -> m = m') -> (forall m, iu <> du m) -> (forall m, ~ In (du m) (gvar_list g)) ->
  ready (nnodes b) g v -> (forall C, coord b = Some C -> tables_hold (nnodes b) g C v) ->
  exists v', cart_partials b g D iu i1 i2 i3 v = Ok v' /\ (forall m, v' (du m) = Some (cart_grad b g v D u m)) /\ (forall j, (forall m, j <> du m) -> v' j = v j).
Proof.
  intros b g D iu i1 i2 i3 v u du Eu Lu Ha HD ND Hu Hg R T. apply cart_partials_ok; auto. unfold hold. destruct (coord b); auto.
Qed.
Print Assumptions C64_cart_partials.
(** If the variable holds the values of a function f of x,y,z, differentiable with gradient gr, and the spectral derivatives are exact at a point off the coordinate singularities, then the result there is the gradient. *)
Theorem C64_gradient : forall b g C D iu i1 i2 i3 v u v', let du := tab i1 i2 i3 in
  v iu = Some u -> List.length u = nnodes b -> (forall m, v (du m) <> None) -> (forall j a, List.length a = nnodes b -> List.length (D j a) = nnodes b) ->
  (forall m m', du m = du m' -> m = m') -> (forall m, iu <> du m) -> (forall m, ~ In (du m) (gvar_list g)) ->
  ready (nnodes b) g v -> coord b = Some C -> tables_hold (nnodes b) g C v -> cart_partials b g D iu i1 i2 i3 v = Ok v' ->
  forall ind f gr, (ind < nnodes b)%nat -> let X := cell v (vX g) ind in let Y := cell v (vY g) ind in let Z := cell v (vZ g) ind in
  inverse_jacobian C X Y Z -> diff3 f (x_of_X C D1 X Y Z) (x_of_X C D2 X Y Z) (x_of_X C D3 X Y Z) gr -> (forall i, pd (pull C f) i X Y Z (nth ind (D i u) 0)) ->
  forall m, cell v' (du m) ind = gr m.
Proof.
  intros b g C D iu i1 i2 i3 v u v' du Eu Lu Ha HD ND Hu Hg R EC T Ev ind f gr Hi X Y Z HJ Hf HW m.
  destruct (cart_partials_ok b g D iu i1 i2 i3 v u) as (v'' & E & K & _); auto. { unfold hold. now rewrite EC. }
  rewrite E in Ev. injection Ev as <-. unfold cell. fold du in K. rewrite K. unfold cart_grad. rewrite EC, nth_map_seq by auto. unfold atX. fold X Y Z.
  apply (gradient_at C f X Y Z gr (fun i => nth ind (D i u) 0)); auto.
Qed.
Print Assumptions C64_gradient.

(** The layout assumed above is what the declarations in sgrid_MemoryMan.c:17-22 and sgrid_Coordinates.c:22-30 give, whatever is declared before, between and after them (d is the description text, which plays no role). *)
Definition xyz_decls D (d : str) : list (vop D) := [VAddConst D (S_ "X") [] d; VAddConst D (S_ "Y") [] d; VAddConst D (S_ "Z") [] d].
Definition coord_decls D (d : str) : list (vop D) :=
  [VAdd D (S_ "x") [] d; VAdd D (S_ "y") [] d; VAdd D (S_ "z") [] d; VAdd D (S_ "dXd") (S_ "i") d; VAdd D (S_ "dYd") (S_ "i") d; VAdd D (S_ "dZd") (S_ "i") d;
   VAdd D (S_ "ddXdd") (S_ "(ij)") d; VAdd D (S_ "ddYdd") (S_ "(ij)") d; VAdd D (S_ "ddZdd") (S_ "(ij)") d].
Definition ind_is D (st : vstate D) (name : string) (k : nat) : Prop := Ind D st (S_ name) = Ok (Z.of_nat k).
Theorem C64_layout : forall D d0 (a c e : list (vop D)) d st, let os := a ++ xyz_decls D d ++ c ++ coord_decls D d ++ e in
  Vars_api_spec.no_restart D os -> vrun D d0 (vinit D) os = Ok st -> Forall (fun f => (List.length f <= 99)%nat) (full_names (Vars_api_spec.decls D os)) ->
  exists g, layout g /\ ind_is D st "X" (vX g) /\ ind_is D st "Y" (vY g) /\ ind_is D st "Z" (vZ g) /\ ind_is D st "x" (vx g) /\ ind_is D st "y" (vy g) /\ ind_is D st "z" (vz g) /\
  ind_is D st "dXdx" (dXd g) /\ ind_is D st "dYdx" (dYd g) /\ ind_is D st "dZdx" (dZd g) /\ ind_is D st "ddXddxx" (ddXdd g) /\ ind_is D st "ddYddxx" (ddYdd g) /\ ind_is D st "ddZddxx" (ddZdd g) /\
  (forall k n, nth_error [S_ "x"; S_ "y"; S_ "z"] k = Some n -> Ind D st (S_ "dYd" ++ n) = Ok (Z.of_nat (dXd g + 3 + k))) /\
  (forall k n, nth_error [S_ "xx"; S_ "xy"; S_ "xz"; S_ "yy"; S_ "yz"; S_ "zz"] k = Some n -> Ind D st (S_ "ddXdd" ++ n) = Ok (Z.of_nat (ddXdd g + k))).
Proof.
  intros D d0 a c e d st os NR H Sh. destruct (C05_registry D d0 os st NR H Sh) as (ND & _ & _ & Q).
  set (na := List.length (registry (Vars_api_spec.decls D a))). set (nc := List.length (registry (Vars_api_spec.decls D c))).
  assert (ER : registry (Vars_api_spec.decls D os) = registry (Vars_api_spec.decls D a) ++ registry (Vars_api_spec.decls D (xyz_decls D d)) ++ registry (Vars_api_spec.decls D c) ++ registry (Vars_api_spec.decls D (coord_decls D d)) ++ registry (Vars_api_spec.decls D e)).
  { unfold os, Vars_api_spec.decls. rewrite !flat_map_app, !registry_app. reflexivity. }
  assert (Q1 : forall k f j n, nth_error (registry (Vars_api_spec.decls D (xyz_decls D d))) k = Some (f, j, n) -> Ind D st f = Ok (Z.of_nat (na + k))).
  { intros k f j n E. apply (Q (na + k)%nat f j n). rewrite ER. rewrite nth_error_app2 by (unfold na; lia). unfold na. replace (_ + k - _)%nat with k by lia. rewrite nth_error_app1; auto. apply nth_error_Some. congruence. }
  assert (E3 : List.length (registry (Vars_api_spec.decls D (xyz_decls D d))) = 3%nat) by reflexivity.
  assert (Q2 : forall k f j n, nth_error (registry (Vars_api_spec.decls D (coord_decls D d))) k = Some (f, j, n) -> Ind D st f = Ok (Z.of_nat (na + 3 + nc + k))).
  { intros k f j n E. apply (Q (na + 3 + nc + k)%nat f j n). rewrite ER. rewrite nth_error_app2 by (unfold na; lia). rewrite nth_error_app2 by (rewrite E3; unfold na; lia). rewrite nth_error_app2 by (rewrite E3; unfold na, nc; lia). rewrite E3. fold na nc.
    replace (_ - _ - _ - _)%nat with k by lia. rewrite nth_error_app1; auto. apply nth_error_Some. congruence. }
  set (o := (na + 3 + nc)%nat) in *.
  exists (GVars (na + 0) (na + 1) (na + 2) (o + 0) (o + 1) (o + 2) (o + 3) (o + 6) (o + 9) (o + 12) (o + 18) (o + 24)).
  split; [|unfold ind_is; cbn [vX vY vZ vx vy vz dXd dYd dZd ddXdd ddYdd ddZdd]; repeat split].
  - split; [cbn [dXd dYd dZd ddXdd ddYdd ddZdd]; lia|].
    assert (EL : gvar_list (GVars (na + 0) (na + 1) (na + 2) (o + 0) (o + 1) (o + 2) (o + 3) (o + 6) (o + 9) (o + 12) (o + 18) (o + 24)) = seq na 3 ++ seq o 30).
    { unfold gvar_list. cbn [vX vY vZ vx vy vz dXd dYd dZd ddXdd ddYdd ddZdd seq map app]. repeat (apply (f_equal2 (@cons nat)); [lia|]). reflexivity. }
    rewrite EL. assert (G : forall q n k m, (k + n <= m)%nat -> NoDup (seq k n ++ seq m q)).
    { intros q. induction n as [|n IH]; intros k m Hk; cbn [seq app]; [apply seq_NoDup|]. constructor. - intros I. apply in_app_or in I as [I|I]; apply in_seq in I; lia. - apply IH. lia. }
    apply G. unfold o. lia.
  - eapply (Q1 0%nat); reflexivity. - eapply (Q1 1%nat); reflexivity. - eapply (Q1 2%nat); reflexivity.
  - eapply (Q2 0%nat); reflexivity. - eapply (Q2 1%nat); reflexivity. - eapply (Q2 2%nat); reflexivity.
  - eapply (Q2 3%nat); reflexivity. - eapply (Q2 6%nat); reflexivity. - eapply (Q2 9%nat); reflexivity.
  - eapply (Q2 12%nat); reflexivity. - eapply (Q2 18%nat); reflexivity. - eapply (Q2 24%nat); reflexivity.
  - intros k n E. replace (o + 3 + 3 + k)%nat with (o + (6 + k))%nat by lia. do 3 (destruct k as [|k]; [injection E as <-; eapply Q2; reflexivity|]). destruct k; discriminate.
  - intros k n E. replace (o + 12 + k)%nat with (o + (12 + k))%nat by lia. do 6 (destruct k as [|k]; [injection E as <-; eapply Q2; reflexivity|]). destruct k; discriminate.
Qed.
Print Assumptions C64_layout.
Example C64_layout_ex : exists st, vrun unit tt (vinit unit) ([VAdd unit (S_ "u") [] []] ++ xyz_decls unit [] ++ [VAdd unit (S_ "Temp") (S_ "i") []] ++ coord_decls unit [] ++ [VAdd unit (S_ "oX") [] []]) = Ok st /\
  Vars_model.Ind unit st (S_ "ddZddzz") = Ok 36%Z.
Proof. eexists. split; vm_compute; reflexivity. Qed.

(** *** a concrete box in polar coordinates with one point rho=2, phi=0, z=5, with stored derivatives, and the function y = rho sin(phi) *)
Definition ex_g := GVars 0 1 2 3 4 5 6 9 12 15 21 27.
Definition ex_v : vars := fun i => if (i <? 15)%nat then Some [if (i =? 0)%nat then 2 else if (i =? 2)%nat then 5 else 0] else if (33 <=? i)%nat then if (i <? 40)%nat then Some [0] else None else None.
Definition ex_b := TBox 1 (Some (init_Coord (CPars 4 0 0 0) Polar)).
Definition ex_D (i : d3) (_ : list R) : list R := [match i with D2 => 2 | _ => 0 end].
Lemma ex_layout : layout ex_g.
Proof.
  split; [cbn; lia|]. change (gvar_list ex_g) with (seq 0 33). apply seq_NoDup.
Qed.
Lemma ex_len i : (i < 15)%nat -> len ex_v i 1.
Proof. intros H. unfold len, ex_v. destruct (Nat.ltb_spec i 15); [|lia]. eexists. split; reflexivity. Qed.
Lemma ex_ready : ready 1 ex_g ex_v.
Proof.
  split; [|split]. - intros i Hi. cbn in Hi. apply ex_len. lia. - intros _ k Hk. apply ex_len. cbn. lia. - intros H. exfalso. apply H. reflexivity.
Qed.
Lemma diff3_y x y z : diff3 (fun _ y _ => y) x y z (tab 0 1 0).
Proof. intros eps He. exists 1. split; [lra|]. intros a b c _ _ _. cbn [tab]. replace (_ - _ - _) with 0 by ring. rewrite Rabs_R0. assert (A := Rabs_pos a). assert (B := Rabs_pos b). assert (C := Rabs_pos c). nra. Qed.
Example C64_gradient_ex : exists v v', compute_xyz ex_b ex_g ex_v = Ok v /\ cart_partials ex_b ex_g ex_D 33 34 35 36 v = Ok v' /\ cell v' 34 0 = 0 /\ cell v' 35 0 = 1 /\ cell v' 36 0 = 0.
Proof.
  destruct (C64_coordinates_stored ex_b ex_g _ ex_v eq_refl ex_layout ex_ready) as (v & E & T & _ & F & R & _ & _).
  { intros i Hi. apply ex_len. cbn in Hi. lia. } { intros H. exfalso. apply H. reflexivity. }
  assert (Fv : forall j, (33 <= j)%nat -> v j = ex_v j). { intros j Hj. apply F. left. change (gvar_list ex_g) with (seq 0 33). rewrite in_seq. lia. }
  assert (Hd : forall m, (34 <= tab 34 35 36 m < 37)%nat) by (intros []; cbn; lia).
  destruct (C64_cart_partials ex_b ex_g ex_D 33 34 35 36 v [0]) as (v' & E' & _ & _); auto.
  { rewrite Fv by lia. reflexivity. } { intros m. rewrite Fv by (specialize (Hd m); lia). destruct m; discriminate. }
  { intros [] []; cbn; congruence. } { intros m A. specialize (Hd m). lia. } { intros m A. change (gvar_list ex_g) with (seq 0 33) in A. apply in_seq in A. specialize (Hd m). lia. }
  { intros C EC. injection EC as <-. exact T. }
  exists v, v'. split; auto. split; auto.
  assert (FX : forall i, In i [0; 1; 2]%nat -> v i = ex_v i). { intros i Hi. apply F. right. exact Hi. }
  assert (K : forall m, cell v' (tab 34 35 36 m)%nat 0 = tab 0 1 0 m).
  { intros m. apply (C64_gradient ex_b ex_g (init_Coord (CPars 4 0 0 0) Polar) ex_D 33 34 35 36 v [0] v') with (ind := 0%nat) (f := fun _ y _ => y) (gr := tab 0 1 0); auto.
    { rewrite Fv by lia. reflexivity. } { intros m'. rewrite Fv by (specialize (Hd m'); lia). destruct m'; discriminate. }
    { intros [] []; cbn; congruence. } { intros m' A. specialize (Hd m'). lia. } { intros m' A. change (gvar_list ex_g) with (seq 0 33) in A. apply in_seq in A. specialize (Hd m'). lia. }
    all: cbn [ex_g vX vY vZ]; unfold cell; rewrite !FX by (cbn; auto); cbn [ex_v Nat.ltb Nat.leb Nat.eqb nth].
    - apply C63_polar. lra.
    - apply diff3_y.
    - intros i. unfold pull, ex_D. cbn [nth init_Coord x_of_X tab]. unfold y_ofPolar. destruct i; cbn [pd].
      + rewrite sin_0. apply (derivable_pt_lim_ext (fct_cte 0)); [intros; unfold fct_cte; ring|apply derivable_pt_lim_const].
      + assert (Q := derivable_pt_lim_scal sin 2 0 _ (derivable_pt_lim_sin 0)). rewrite cos_0, Rmult_1_r in Q. exact Q.
      + rewrite sin_0. apply (derivable_pt_lim_const (2 * 0)). }
  split; [apply (K D1)|split; [apply (K D2)|apply (K D3)]].
Qed.

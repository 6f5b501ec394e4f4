(** C84: the black hole in isotropic coordinates solves the constraints, with either choice of conformal factor. *)
From Verif Require Import Rutil Coord_model Coord_spec Adm_model Adm_spec Adm_proofs Adm2_proofs Adm_props Bh_model Bh_proofs.
From Coq Require Import List Lia.
Import ListNotations.
Local Open Scope R_scope.
(** ** what the code sets, written with w *)
Section ISO.
Variables (M x y z : R).
Hypothesis O : off0 x y z.
Lemma sq_w : sqrt (x * x + y * y + z * z) = / w x y z.
Proof. unfold w. now rewrite Rinv_inv. Qed.
Lemma r2_w : x * x + y * y + z * z = / (w x y z * w x y z).
Proof. rewrite Rinv_mult, <- sq_w. symmetry. apply sqrt_sqrt. unfold off0 in O; lra. Qed.
Let wn : w x y z <> 0 := Rgt_not_eq _ _ (w_pos x y z O).
Lemma iso_psi cf : fst (SingleBHisotropic cf M x y z) 0%nat = if cf then pf M x y z else 1.
Proof. unfold SingleBHisotropic. destruct cf; cbn [fst nth]; auto. rewrite sq_w. unfold pf. now field. Qed.
Lemma iso_alpha cf : pf M x y z <> 0 -> snd (SingleBHisotropic cf M x y z) 12%nat = af M x y z.
Proof.
  intros N. assert (E : M / (2 * sqrt (x * x + y * y + z * z)) = M / 2 * w x y z) by (rewrite sq_w; now field).
  transitivity ((1 - M / (2 * sqrt (x * x + y * y + z * z))) / (1 + M / (2 * sqrt (x * x + y * y + z * z)))); [unfold SingleBHisotropic; destruct cf; reflexivity|]. rewrite E. unfold af. unfold pf in *. revert N. generalize (M / 2 * w x y z). intros t N. now field.
Qed.
Lemma iso_dpop k : pf M x y z <> 0 -> fst (SingleBHisotropic true M x y z) (1 + n3 k)%nat * pf M x y z = dpf M k x y z.
Proof.
  intros N. rewrite <- (iso_psi true) in *. transitivity (- M / (2 * (x * x + y * y + z * z)) * co k x y z / sqrt (x * x + y * y + z * z)).
  - revert N. unfold SingleBHisotropic. destruct k; cbn [fst nth n3 Nat.add co]; intros N; unfold Rdiv at 1; rewrite Rmult_assoc, Rinv_l, Rmult_1_r by exact N; reflexivity.
  - rewrite sq_w, r2_w. unfold dpf. now field.
Qed.
Lemma iso_ddpop k l : pf M x y z <> 0 -> fst (SingleBHisotropic true M x y z) (4 + s6 k l)%nat * pf M x y z = ddpf M k l x y z.
Proof.
  intros N. rewrite <- (iso_psi true) in *. transitivity (3 * M / (2 * ((x * x + y * y + z * z) * sqrt (x * x + y * y + z * z))) * (co k x y z / sqrt (x * x + y * y + z * z)) * (co l x y z / sqrt (x * x + y * y + z * z)) - delta k l * (M / (2 * ((x * x + y * y + z * z) * sqrt (x * x + y * y + z * z))))).
  - revert N. unfold SingleBHisotropic. destruct k, l; cbn [fst nth s6 Nat.add co delta]; intros N; unfold Rdiv at 1; rewrite Rmult_assoc, Rinv_l, Rmult_1_r by exact N; ring.
  - rewrite sq_w, r2_w. unfold ddpf. now field.
Qed.
Lemma iso_g cf i j : (fst (SingleBHisotropic cf M x y z) 0%nat) ^ 4 * snd (SingleBHisotropic cf M x y z) (s6 i j) = pf M x y z ^ 4 * delta i j.
Proof.
  destruct cf.
  - rewrite (iso_psi true). destruct i, j; reflexivity.
  - rewrite <- (iso_psi true). unfold SingleBHisotropic. cbv zeta. cbn [fst snd]. destruct i, j; cbn [nth s6 delta]; ring.
Qed.
Lemma iso_K cf i j : snd (SingleBHisotropic cf M x y z) (6 + s6 i j)%nat = 0.
Proof. unfold SingleBHisotropic. destruct cf; cbv zeta; cbn [snd]; destruct i, j; reflexivity. Qed.
End ISO.
(** ** the claim *)
(** the functions the code sets on the grid *)
Definition iso_fields (cf : bool) (M : R) (F : geometry) : Prop :=
  (forall x y z, Fpsi F x y z = fst (SingleBHisotropic cf M x y z) 0%nat) /\ (forall i j x y z, Fg F i j x y z = snd (SingleBHisotropic cf M x y z) (s6 i j)) /\
  (forall i j x y z, FK F i j x y z = snd (SingleBHisotropic cf M x y z) (6 + s6 i j)%nat) /\ (forall x y z, Falpha F x y z = snd (SingleBHisotropic cf M x y z) 12%nat).
(** the constraint code is given the values set, and exact derivatives of g, K and alpha *)
Definition iso_given (cf : bool) (M : R) (a : adm_in) (X Y Z : R) (F : geometry) : Prop :=
  (forall n, (n < 10)%nat -> a_psi a n = fst (SingleBHisotropic cf M X Y Z) n) /\ (forall n, (n < 16)%nat -> a_u a n = snd (SingleBHisotropic cf M X Y Z) n) /\
  (forall k i j, a_dg a (3 * s6 i j + n3 k) = dg F k i j X Y Z) /\ (forall k l i j, pd (dg F k i j) l X Y Z (a_ddg a (6 * s6 i j + s6 k l))) /\
  (forall k i j, pd (FK F i j) k X Y Z (a_dK a (3 * s6 i j + n3 k))) /\ (forall k, a_dalp a (n3 k) = dalpha F k X Y Z) /\ (forall k l, pd (dalpha F k) l X Y Z (a_ddalp a (s6 k l))) /\
  a_null a 16 = true /\ a_null a 17 = true /\ a_null a 20 = true.
Section I.
Variables (cf : bool) (M : R) (a : adm_in) (X Y Z e : R) (F : geometry).
Hypothesis (HM : 0 <= M) (He : 0 < e) (HO : forall x y z, near e X Y Z x y z -> off0 x y z) (HF : iso_fields cf M F) (HD : derivatives_near e X Y Z F) (HG : iso_given cf M a X Y Z F).
Definition ihi (i j : d3) : fn3 := fun x y z => delta i j / pf M x y z ^ 4.
Definition idh (k i j : d3) : fn3 := fun x y z => 4 * pf M x y z ^ 3 * dpf M k x y z * delta i j.
Let O : off0 X Y Z := HO X Y Z (near0 e X Y Z He).
Let PN : pf M X Y Z <> 0 := Rgt_not_eq _ _ (pf_pos M X Y Z HM O).
Lemma iso_metric i j x y z : near e X Y Z x y z -> metric F i j x y z = pf M x y z ^ 4 * delta i j.
Proof. intros N. unfold metric. destruct HF as (E1 & E2 & _). rewrite E1, E2. apply iso_g. now apply HO. Qed.
(** a smaller box round a point of the box *)
Lemma inner x y z : near e X Y Z x y z -> exists e', 0 < e' /\ forall u v t, near e' x y z u v t -> near e X Y Z u v t.
Proof.
  intros (A & B & C). exists (Rmin (e - Rabs (x - X)) (Rmin (e - Rabs (y - Y)) (e - Rabs (z - Z)))). split; [repeat apply Rmin_glb_lt; lra|].
  intros u v t (A' & B' & C'). pose proof (Rmin_l (e - Rabs (x - X)) (Rmin (e - Rabs (y - Y)) (e - Rabs (z - Z)))). pose proof (Rmin_r (e - Rabs (x - X)) (Rmin (e - Rabs (y - Y)) (e - Rabs (z - Z)))). pose proof (Rmin_l (e - Rabs (y - Y)) (e - Rabs (z - Z))). pose proof (Rmin_r (e - Rabs (y - Y)) (e - Rabs (z - Z))).
  unfold near. replace (u - X) with ((u - x) + (x - X)) by ring. replace (v - Y) with ((v - y) + (y - Y)) by ring. replace (t - Z) with ((t - z) + (z - Z)) by ring.
  pose proof (Rabs_triang (u - x) (x - X)). pose proof (Rabs_triang (v - y) (y - Y)). pose proof (Rabs_triang (t - z) (z - Z)). repeat split; lra.
Qed.
Lemma iso_dpsi k x y z : near e X Y Z x y z -> dpsi F k x y z = if cf then dpf M k x y z else 0.
Proof.
  intros N. destruct (inner x y z N) as (e' & E' & S). eapply pd_unique; [apply (HD x y z N)|]. destruct cf.
  - apply (pd_ext (pf M) _ _ _ _ _ _ e' E'); [|apply pd_pf; auto]. intros u v t N'. destruct HF as (E1 & _). rewrite E1. symmetry. apply (iso_psi M u v t (HO _ _ _ (S _ _ _ N')) true).
  - apply (pd_ext (fun _ _ _ => 1) _ _ _ _ _ _ e' E'); [|apply pd_const]. intros u v t N'. destruct HF as (E1 & _). rewrite E1. reflexivity.
Qed.
Lemma iso_dalpha k x y z : near e X Y Z x y z -> dalpha F k x y z = daf M k x y z.
Proof.
  intros N. destruct (inner x y z N) as (e' & E' & S). eapply pd_unique; [apply (HD x y z N)|].
  assert (P : forall u v t, near e X Y Z u v t -> pf M u v t <> 0) by (intros; apply Rgt_not_eq, pf_pos; auto).
  apply (pd_ext (af M) _ _ _ _ _ _ e' E'); [|apply pd_af; auto]. intros u v t N'. destruct HF as (_ & _ & _ & E4). rewrite E4. symmetry. apply iso_alpha; auto.
Qed.
Lemma n10 i j : (4 + s6 i j < 10)%nat. Proof. destruct i, j; cbn; lia. Qed.
Lemma n16 i j : (6 + s6 i j < 16)%nat. Proof. destruct i, j; cbn; lia. Qed.
Theorem C84_setting : setting a X Y Z e F ihi idh.
Proof.
  destruct HG as (G1 & G2 & G3 & G4 & G5 & G6 & G7 & _). pose proof HF as (F1 & F2 & F3 & F4). repeat apply conj; auto.
  - intros x y z N i j. rewrite !F2, !F3. replace (s6 j i) with (s6 i j) by (destruct i, j; reflexivity). auto.
  - rewrite G1, F1 by lia. reflexivity.
  - intros k. rewrite F1, G1 by (destruct k; cbn; lia). rewrite iso_dpsi by now apply near0. rewrite iso_psi by auto. destruct cf; [now apply iso_dpop|]. destruct k; cbn; ring.
  - intros k l. rewrite F1, G1 by apply n10. rewrite iso_psi by auto. apply (pd_ext (fun x y z => if cf then dpf M k x y z else 0) _ _ _ _ _ _ e He); [intros x y z N; now rewrite iso_dpsi|]. destruct cf.
    + rewrite iso_ddpop by auto. change (pd (dpf M k) l X Y Z (ddpf M k l X Y Z)). now apply pd_dpf.
    + eapply pd_val; [|apply pd_const]. destruct k, l; cbn; ring.
  - intros i j. rewrite F2, G2 by (pose proof (n16 i j); lia). reflexivity.
  - intros i j. rewrite F3, G2 by apply n16. reflexivity.
  - rewrite F4, G2 by lia. reflexivity.
  - intros x y z N. pose proof (pf_pos M x y z HM (HO x y z N)). split.
    + intros i j. unfold S3, ihi. rewrite !(iso_metric _ _ x y z N). destruct i, j; cbn [delta]; field; lra.
    + intros k i j. destruct (inner x y z N) as (e' & E' & S). apply (pd_ext (fun x y z => pf M x y z ^ 4 * delta i j) _ _ _ _ _ _ e' E'); [intros u v t N'; symmetry; now apply iso_metric, S|].
      unfold idh. eapply pd_val; [|apply (pd_mult (fun x y z => pf M x y z ^ 4) (fun _ _ _ => delta i j)); [apply pd_pow4, pd_pf; auto|apply pd_const]]. cbv beta. ring.
Qed.
Theorem C84_isotropic : adm_ham a = 0 /\ adm_mom1 a = 0 /\ adm_mom2 a = 0 /\ adm_mom3 a = 0 /\ adm_trK a = 0 /\ adm_dtrKdt a = 0.
Proof.
  pose proof C84_setting as ST. destruct HG as (G1 & G2 & G3 & G4 & G5 & G6 & G7 & N16 & N17 & N20). pose proof HF as (F1 & F2 & F3 & F4).
  assert (Hg : forall i j, v_ginv a i j = delta i j / pf M X Y Z ^ 4) by (intros i j; rewrite <- (hi_X _ _ _ _ _ _ _ _ ST); reflexivity).
  assert (Hd : forall k i j, v_dg a k i j = 4 * pf M X Y Z ^ 3 * dpf M k X Y Z * delta i j) by (intros k i j; rewrite <- (dh_X _ _ _ _ _ _ _ _ ST); reflexivity).
  assert (Hdd : forall k l i j, v_ddg a k l i j = (12 * pf M X Y Z ^ 2 * dpf M k X Y Z * dpf M l X Y Z + 4 * pf M X Y Z ^ 3 * ddpf M k l X Y Z) * delta i j).
  { intros k l i j. eapply pd_unique; [apply (ddh_X _ _ _ _ _ _ _ _ ST)|]. unfold idh. eapply pd_val; [|apply (pd_mult (fun x y z => 4 * pf M x y z ^ 3 * dpf M k x y z) (fun _ _ _ => delta i j)); [apply (pd_mult (fun x y z => 4 * pf M x y z ^ 3) (dpf M k)); [apply (pd_scal 4 (fun x y z => pf M x y z ^ 3)), pd_pow3, pd_pf, O|apply pd_dpf, O]|apply pd_const]]. cbv beta. ring. }
  assert (HK : forall i j, i_K a i j = 0) by (intros i j; unfold i_K; rewrite G2 by apply n16; now apply iso_K).
  assert (HdK : forall k i j, i_dK a k i j = 0). { intros k i j. unfold i_dK. eapply pd_unique; [apply G5|]. apply (pd_ext (fun _ _ _ => 0) _ _ _ _ _ _ e He); [|apply pd_const]. intros x y z N. rewrite F3. symmetry. apply iso_K. }
  assert (QS : forall k l, ddpf M k l X Y Z = ddpf M l k X Y Z) by (intros; apply dd_sym).
  pose proof (cf_R a _ _ _ PN QS Hg Hd Hdd) as ER. cbv beta in ER; rewrite (harmonic M X Y Z O), Rmult_0_r in ER. pose proof (cf_K a HK) as EK. pose proof (cf_KK a HK) as EKK. pose proof (cf_mom a HK HdK) as EM. pose proof (cf_trcdda a _ _ PN Hg Hd) as ET. pose proof (cf_bdtrK a HK HdK) as EB.
  assert (EHR : adm_hamrhs_3 a = 0) by (unfold adm_hamrhs_3; now rewrite N16).
  split; [unfold adm_ham, pow2; rewrite EHR, ER, EK, EKK; ring|].
  assert (MR : forall i, momrhs a i = 0) by (intros i; destruct i; cbn [momrhs]; unfold adm_momrhs1_3, adm_momrhs2_3, adm_momrhs3_3; now rewrite N17).
  split; [change (v_mom a D1 = 0); rewrite EM, MR; ring|]. split; [change (v_mom a D2 = 0); rewrite EM, MR; ring|]. split; [change (v_mom a D3 = 0); rewrite EM, MR; ring|].
  split; [exact EK|]. unfold adm_dtrKdt, pow2. rewrite EB, ER, EK. unfold adm_Sminus3rho_3. rewrite N20. change (adm_Sminus3rho a) with 0.
  assert (EA : forall k, i_dalp a k = daf M k X Y Z) by (intros k; unfold i_dalp; rewrite G6; apply iso_dalpha; now apply near0).
  assert (EAA : forall k l, i_ddalp a k l = ddaf M k l X Y Z). { intros k l. unfold i_ddalp. eapply pd_unique; [apply G7|]. apply (pd_ext (daf M k) _ _ _ _ _ _ e He); [intros x y z N; symmetry; now apply iso_dalpha|]. now apply pd_daf. }
  assert (E0 : adm_trcdda a = 0).
  { rewrite ET. transitivity (/ pf M X Y Z ^ 4 * (-2 / pf M X Y Z ^ 2 * S3 (fun k => ddpf M k k X Y Z))); [|rewrite harmonic; auto; ring]. unfold S3. rewrite !EA, !EAA. unfold daf, ddaf. field. exact PN. }
  rewrite E0. ring.
Qed.
End I.
(** ** a case: mass 1 at (2,1,2), at distance 3; both choices *)
Definition iso_in (cf : bool) (M X Y Z : R) : adm_in :=
  let g k := if cf then 0 else 4 * pf M X Y Z ^ 3 * dpf M k X Y Z in
  let gg k l := if cf then 0 else 12 * pf M X Y Z ^ 2 * dpf M k X Y Z * dpf M l X Y Z + 4 * pf M X Y Z ^ 3 * ddpf M k l X Y Z in
  let d6 (h : d3 -> d3 -> R) := [h D1 D1; h D1 D2; h D1 D3; h D2 D2; h D2 D3; h D3 D3] in let d3l (h : d3 -> R) := [h D1; h D2; h D3] in let z3 := [0; 0; 0] in let z6 := [0; 0; 0; 0; 0; 0] in
  MkAdm (fst (SingleBHisotropic cf M X Y Z)) (snd (SingleBHisotropic cf M X Y Z))
    (fun n => nth n (d3l g ++ z3 ++ z3 ++ d3l g ++ z3 ++ d3l g) 0) (fun n => nth n (d6 gg ++ z6 ++ z6 ++ d6 gg ++ z6 ++ d6 gg) 0) (fun _ => 0)
    (fun n => nth n (d3l (fun k => daf M k X Y Z)) 0) (fun n => nth n (d6 (fun k l => ddaf M k l X Y Z)) 0) (fun _ => true) false false.
Definition iso_geo (cf : bool) (M : R) : geometry :=
  MkGeo (fun x y z => fst (SingleBHisotropic cf M x y z) 0%nat) (fun i j x y z => snd (SingleBHisotropic cf M x y z) (s6 i j)) (fun i j x y z => snd (SingleBHisotropic cf M x y z) (6 + s6 i j)%nat) (fun x y z => snd (SingleBHisotropic cf M x y z) 12%nat)
    (fun k x y z => if cf then dpf M k x y z else 0) (fun k i j x y z => if cf then 0 else 4 * pf M x y z ^ 3 * dpf M k x y z * delta i j) (fun k => daf M k).
Lemma off_near X Y Z e x y z : 0 < e -> e < X -> near e X Y Z x y z -> off0 x y z.
Proof. intros E L (A & _ & _). apply Rabs_def2 in A. unfold off0. nra. Qed.
Lemma iso_deriv cf M X Y Z e : 0 <= M -> 0 < e -> e < X -> derivatives_near e X Y Z (iso_geo cf M).
Proof.
  intros HM E L x y z N. assert (HO : forall u v t, near e X Y Z u v t -> off0 u v t) by (intros u v t; now apply off_near). destruct (inner X Y Z e x y z N) as (e' & E' & S). pose proof (HO _ _ _ N) as O. assert (PN : forall u v t, off0 u v t -> pf M u v t <> 0) by (intros; now apply Rgt_not_eq, pf_pos). cbn [Fpsi dpsi Fg dg Falpha dalpha iso_geo]. repeat apply conj; intros.
  - apply (pd_ext (fun x y z => if cf then pf M x y z else 1) _ _ _ _ _ _ e' E'); [intros u v t N'; symmetry; now apply iso_psi, HO, S|]. destruct cf; [now apply (pd_pf M)|apply pd_const].
  - destruct cf.
    + apply (pd_ext (fun _ _ _ => delta i j) _ _ _ _ _ _ e' E'); [|apply pd_const]. intros u v t N'. destruct i, j; reflexivity.
    + apply (pd_ext (fun x y z => pf M x y z ^ 4 * delta i j) _ _ _ _ _ _ e' E'). { intros u v t N'. rewrite <- (iso_g M u v t (HO _ _ _ (S _ _ _ N')) false). rewrite (iso_psi M u v t (HO _ _ _ (S _ _ _ N')) false). ring. }
      eapply pd_val; [|apply (pd_mult (fun x y z => pf M x y z ^ 4) (fun _ _ _ => delta i j)); [apply pd_pow4, pd_pf; auto|apply pd_const]]. cbv beta. ring.
  - apply (pd_ext (af M) _ _ _ _ _ _ e' E'); [|apply pd_af; auto]. intros u v t N'. symmetry. apply iso_alpha; auto.
Qed.
Lemma iso_ok cf M X Y Z e : 0 <= M -> 0 < e -> e < X -> iso_given cf M (iso_in cf M X Y Z) X Y Z (iso_geo cf M).
Proof.
  intros HM E L. assert (O : off0 X Y Z) by (apply (off_near X Y Z e); auto; now apply near0). assert (PN : pf M X Y Z <> 0) by (now apply Rgt_not_eq, pf_pos).
  unfold iso_given. repeat apply conj; auto.
  - intros k i j. cbn [dg iso_geo a_dg iso_in]. destruct cf; destruct i, j, k; cbn [s6 n3 Nat.mul Nat.add nth app delta]; ring.
  - intros k l i j. cbn [dg iso_geo]. destruct cf.
    + eapply pd_val; [|apply pd_const]. cbn [a_ddg iso_in]. destruct i, j, k, l; reflexivity.
    + eapply pd_val; [|apply (pd_mult (fun x y z => 4 * pf M x y z ^ 3 * dpf M k x y z) (fun _ _ _ => delta i j)); [apply (pd_mult (fun x y z => 4 * pf M x y z ^ 3) (dpf M k)); [apply (pd_scal 4 (fun x y z => pf M x y z ^ 3)), pd_pow3, pd_pf, O|apply pd_dpf, O]|apply pd_const]]. cbv beta.
      transitivity (delta i j * (12 * pf M X Y Z ^ 2 * dpf M k X Y Z * dpf M l X Y Z + 4 * pf M X Y Z ^ 3 * ddpf M k l X Y Z)); [ring|]. cbn [a_ddg iso_in]. destruct i, j, k, l; cbn [s6 Nat.mul Nat.add nth app delta]; rewrite ?(dd_sym M D2 D1), ?(dd_sym M D3 D1), ?(dd_sym M D3 D2); ring.
  - intros k i j. apply (pd_ext (fun _ _ _ => 0) _ _ _ _ _ _ 1 Rlt_0_1); [|apply pd_const]. intros x y z N. symmetry. apply iso_K.
  - intros k. destruct k; reflexivity.
  - intros k l. eapply pd_val; [|apply pd_daf; auto]. unfold ddaf. destruct k, l; cbn [s6 nth iso_in a_ddalp]; unfold ddaf; rewrite ?(dd_sym M D2 D1), ?(dd_sym M D3 D1), ?(dd_sym M D3 D2); unfold Rdiv; ring.
Qed.
Example C84_ex cf : let a := iso_in cf 1 2 1 2 in setting a 2 1 2 1 (iso_geo cf 1) (ihi 1) (idh 1) /\ adm_ham a = 0 /\ adm_dtrKdt a = 0 /\ a_psi (iso_in true 1 2 1 2) 0 = 7 / 6.
Proof.
  cbv zeta. assert (HO : forall x y z, near 1 2 1 2 x y z -> off0 x y z) by (intros x y z; apply off_near; lra). assert (F : iso_fields cf 1 (iso_geo cf 1)) by (repeat split). assert (D : derivatives_near 1 2 1 2 (iso_geo cf 1)) by (apply iso_deriv; lra). assert (G : iso_given cf 1 (iso_in cf 1 2 1 2) 2 1 2 (iso_geo cf 1)) by (apply (iso_ok _ _ _ _ _ 1); lra).
  split; [apply (C84_setting cf); auto; lra|]. pose proof (C84_isotropic cf 1 (iso_in cf 1 2 1 2) 2 1 2 1 (iso_geo cf 1) ltac:(lra) ltac:(lra) HO F D G) as (E & _ & _ & _ & _ & E'). split; [exact E|]. split; [exact E'|].
  cbn [a_psi iso_in]. rewrite (iso_psi 1 2 1 2) by (unfold off0; lra). unfold pf, w. replace (2 * 2 + 1 * 1 + 2 * 2) with (3 * 3) by ring. rewrite sqrt_square by lra. field.
Qed.
Print Assumptions C84_isotropic.

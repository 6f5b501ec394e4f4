(** C83: the code for the constraints computes the textbook constraints of the physical metric psi^4 g. *)
From Verif Require Import Rutil Coord_model Coord_spec Adm_model Adm_spec Adm_proofs Adm2_proofs.
Local Open Scope R_scope.
(** Christoffel symbols as functions of (x,y,z) *)
Definition Gam (hi : d3 -> d3 -> fn3) (dh : d3 -> d3 -> d3 -> fn3) (i j k : d3) : fn3 := fun x y z => christoffel (fun i j => hi i j x y z) (fun k i j => dh k i j x y z) i j k.
(** what is assumed: F is known near (X,Y,Z) with its derivatives, the code has been given its values there, hi is the inverse of the physical metric and dh its derivatives *)
Definition setting (a : adm_in) (X Y Z e : R) (F : geometry) (hi : d3 -> d3 -> fn3) (dh : d3 -> d3 -> d3 -> fn3) : Prop :=
  0 < e /\ derivatives_near e X Y Z F /\ symmetric_near e X Y Z F /\ sampled a X Y Z F /\
  (forall x y z, near e X Y Z x y z -> inverse (fun i j => metric F i j x y z) (fun i j => hi i j x y z) /\ forall k i j, pd (metric F i j) k x y z (dh k i j x y z)).
Lemma pd_pow4 (f : fn3) k X Y Z l : pd f k X Y Z l -> pd (fun x y z => f x y z ^ 4) k X Y Z (4 * f X Y Z ^ 3 * l).
Proof. intros D. eapply pd_val; [|apply (pd_ext (fun x y z => f x y z * (f x y z * (f x y z * f x y z))) _ _ _ _ _ _ 1); [lra|intros; cbv beta; ring|repeat apply pd_mult; exact D]]. cbv beta. ring. Qed.
Lemma pd_pow3 (f : fn3) k X Y Z l : pd f k X Y Z l -> pd (fun x y z => f x y z ^ 3) k X Y Z (3 * f X Y Z ^ 2 * l).
Proof. intros D. eapply pd_val; [|apply (pd_ext (fun x y z => f x y z * (f x y z * f x y z)) _ _ _ _ _ _ 1); [lra|intros; cbv beta; ring|repeat apply pd_mult; exact D]]. cbv beta. ring. Qed.
Lemma S3_ext f g : (forall i, f i = g i) -> S3 f = S3 g.
Proof. intros E. unfold S3. now rewrite !E. Qed.
Section S.
Variables (a : adm_in) (X Y Z e : R) (F : geometry) (hi : d3 -> d3 -> fn3) (dh : d3 -> d3 -> d3 -> fn3).
Hypothesis H : setting a X Y Z e F hi dh.
Let He : 0 < e := proj1 H.
Lemma HD : derivatives_near e X Y Z F. Proof. apply H. Qed.
Lemma HS : symmetric_near e X Y Z F. Proof. apply H. Qed.
Lemma HA : sampled a X Y Z F. Proof. apply H. Qed.
Lemma HI x y z : near e X Y Z x y z -> inverse (fun i j => metric F i j x y z) (fun i j => hi i j x y z). Proof. intros N. now apply H. Qed.
Lemma HH x y z k i j : near e X Y Z x y z -> pd (metric F i j) k x y z (dh k i j x y z). Proof. intros N. now apply H. Qed.
Lemma HMS x y z i j : near e X Y Z x y z -> metric F i j x y z = metric F j i x y z.
Proof. intros N. unfold metric. f_equal. now apply HS. Qed.
Lemma N0 : near e X Y Z X Y Z. Proof. now apply near0. Qed.
Lemma f_psi : adm_f a = Fpsi F X Y Z ^ 4.
Proof. unfold adm_f, adm_psi. now rewrite (proj1 HA). Qed.
Lemma dh_near x y z k i j : near e X Y Z x y z -> dh k i j x y z = 4 * Fpsi F x y z ^ 3 * dpsi F k x y z * Fg F i j x y z + Fpsi F x y z ^ 4 * dg F k i j x y z.
Proof.
  intros N. eapply pd_unique; [now apply HH|]. destruct (HD x y z N) as (P & G & _). unfold metric. apply (pd_mult (fun x y z => Fpsi F x y z ^ 4)); [apply pd_pow4|]; auto.
Qed.
Lemma psi4nz : Fpsi F X Y Z ^ 4 <> 0 /\ det3 (fun i j => Fg F i j X Y Z) <> 0.
Proof.
  pose proof (inv_det _ _ (HI X Y Z N0)) as D. cbv beta in D. assert (E : det3 (fun i j => metric F i j X Y Z) = (Fpsi F X Y Z ^ 4) * (Fpsi F X Y Z ^ 4) * (Fpsi F X Y Z ^ 4) * det3 (fun i j => Fg F i j X Y Z)) by (unfold det3, metric; ring).
  rewrite E in D. split; intros Z0; rewrite Z0 in D; lra.
Qed.
Lemma psinz : Fpsi F X Y Z <> 0.
Proof. intros E. destruct psi4nz as [N _]. apply N. rewrite E. ring. Qed.
Lemma dpsi_X k : dpsi F k X Y Z = i_dpop a k * Fpsi F X Y Z.
Proof. symmetry. apply HA. Qed.
Lemma g_X i j : Fg F i j X Y Z = i_g a i j. Proof. symmetry. apply HA. Qed.
Lemma K_X i j : FK F i j X Y Z = i_K a i j. Proof. symmetry. apply HA. Qed.
Lemma dg_X k i j : dg F k i j X Y Z = i_dg a k i j. Proof. symmetry. apply HA. Qed.
Lemma dh_X k i j : dh k i j X Y Z = v_dg a k i j.
Proof. rewrite dh_near by apply N0. rewrite dg_i, delf_i, f_psi, dpsi_X, g_X, dg_X. ring. Qed.
Lemma ddh_X k l i j : pd (dh k i j) l X Y Z (v_ddg a k l i j).
Proof.
  destruct (HD X Y Z N0) as (P & G & _).
  eapply pd_val; [|apply (pd_ext (fun x y z => 4 * Fpsi F x y z ^ 3 * dpsi F k x y z * Fg F i j x y z + Fpsi F x y z ^ 4 * dg F k i j x y z) _ _ _ _ _ _ e He)].
  2: intros x y z N; symmetry; now apply dh_near.
  2:{ apply pd_plus; [apply pd_mult; [apply (pd_mult (fun x y z => 4 * Fpsi F x y z ^ 3)); [apply pd_scal, pd_pow3, P|apply HA]|apply G]|apply (pd_mult (fun x y z => Fpsi F x y z ^ 4)); [apply pd_pow4, P|apply HA]]. }
  cbv beta. rewrite ddg_i, !delf_i, ddf_i, f_psi, !dpsi_X, !g_X, !dg_X. unfold i_ddpop, i_ddg. ring.
Qed.
Lemma hi_X i j : hi i j X Y Z = v_ginv a i j.
Proof.
  apply (inv_unique _ _ _ i j (HI X Y Z N0)). destruct psi4nz as [N1 N2]. assert (ND : det3 (i_g a) <> 0). { intros D. apply N2. rewrite <- D. unfold det3. now rewrite !g_X. }
  rewrite <- f_psi in N1. intros m n. unfold metric. rewrite <- f_psi. unfold S3. rewrite !g_X. rewrite <- !g_i.
  assert (ND' : 2 * adm_g12 a * adm_g13 a * adm_g23 a + adm_g11 a * adm_g22 a * adm_g33 a - adm_g33 a * (adm_g12 a * adm_g12 a) - adm_g22 a * (adm_g13 a * adm_g13 a) - adm_g11 a * (adm_g23 a * adm_g23 a) <> 0). { intros D. apply ND. rewrite <- D. unfold det3. rewrite <- !g_i. cbv beta iota delta [v_g]. ring. }
  destruct m, n; cbv beta iota delta [v_g delta]; u_v_ginv; unfold adm_detginvf, pow2; field; auto.
Qed.
Lemma hi_sym i j : v_ginv a i j = v_ginv a j i.
Proof. destruct i, j; reflexivity. Qed.
Definition dhiX (k i j : d3) : R := - SS (fun c d => v_ginv a i c * v_ginv a j d * v_dg a k c d).
Lemma dhi_X k i j : pd (hi i j) k X Y Z (dhiX k i j).
Proof.
  apply (pd_val _ _ _ _ _ (- SS (fun c d => hi i c X Y Z * hi j d X Y Z * v_dg a k c d))); [unfold dhiX, SS, S3; now rewrite !hi_X|].
  apply (pd_hi (metric F) hi k X Y Z (fun c d => v_dg a k c d) e He).
  - intros x y z N. split; [now apply HI|]. intros m n. now apply HMS.
  - intros m n. rewrite <- dh_X. apply HH, N0.
Qed.
Definition dGX (l i j k : d3) : R := dgamma (v_ginv a) (v_dg a) (fun l k i j => v_ddg a k l i j) dhiX l i j k.
Lemma dGam_X l i j k : pd (Gam hi dh i j k) l X Y Z (dGX l i j k).
Proof.
  unfold Gam, christoffel. eapply pd_val; [|apply pd_scal; apply (pd_S3 (fun m x y z => hi i m x y z * (dh j m k x y z + dh k m j x y z - dh m j k x y z))); intros m; apply pd_mult; [apply dhi_X|apply pd_minus; [apply pd_plus|]; apply ddh_X]].
  unfold dGX, dgamma. f_equal. unfold S3. rewrite !hi_X, !dh_X. ring.
Qed.
Lemma G_X i j k : Gam hi dh i j k X Y Z = v_ga a i j k.
Proof.
  unfold Gam, christoffel. rewrite ga_i. unfold S3. rewrite !hi_X, !dh_X, !gd_i.
  assert (S : forall k m n, v_dg a k m n = v_dg a k n m) by (intros q m n; destruct m, n; reflexivity). rewrite !(S k j), !(S j k), ?(S j _ k), ?(S k _ j). field.
Qed.
Lemma ricci_X i j : ricci (fun i j k => Gam hi dh i j k X Y Z) dGX i j = v_R a i j.
Proof.
  assert (S : forall k m n, v_dg a k m n = v_dg a k n m) by (intros q m n; destruct m, n; reflexivity).
  assert (S4 : forall k l m n, v_ddg a k l m n = v_ddg a k l n m) by (intros q r m n; destruct m, n; reflexivity).
  assert (S5 : forall k l m n, v_ddg a k l m n = v_ddg a l k m n) by (intros q r m n; destruct q, r; reflexivity).
  assert (C : forall i j k, christoffel (v_ginv a) (v_dg a) i j k = v_ga a i j k). { intros m n p. rewrite <- G_X. unfold Gam, christoffel, S3. now rewrite !hi_X, !dh_X. }
  assert (GEN : forall i j, ricci (fun i j k => Gam hi dh i j k X Y Z) dGX i j = ric_form (v_ginv a) (v_dg a) (v_ddg a) i j).
  { intros p q. transitivity (ricci (christoffel (v_ginv a) (v_dg a)) (dgamma (v_ginv a) (v_dg a) (v_ddg a) dhiX) p q).
    - unfold ricci, SS, S3, dGX, dgamma. rewrite !G_X, !C. unfold S3. rewrite !(S5 D1 D2), !(S5 D1 D3), !(S5 D2 D3). rewrite ?(S5 D1 p), ?(S5 D2 p), ?(S5 D3 p), ?(S5 D1 q), ?(S5 D2 q), ?(S5 D3 q), ?(S5 p q). reflexivity.
    - rewrite ricci_formula; [|apply hi_sym|apply S|apply S4|apply S5|reflexivity]. reflexivity. }
  rewrite GEN. assert (RI : forall i j, (n3 j <= n3 i)%nat -> ric_form (v_ginv a) (v_dg a) (v_ddg a) i j = v_R a i j).
  { intros p q L. rewrite (R_i a p q L). unfold ric_form, SS, S3. rewrite !C, !gd_i. reflexivity. }
  destruct (Nat.le_ge_cases (n3 j) (n3 i)) as [L|L]; [now apply RI|]. rewrite ric_form_sym; [|apply hi_sym|apply S|apply S4|apply S5]. rewrite RI by auto. destruct i, j; reflexivity.
Qed.
(** metric compatibility: the derivative of the trace is the trace of the covariant derivative *)
Lemma trace_X k : pd (fun x y z => trace (fun i j => hi i j x y z) (fun i j => FK F i j x y z)) k X Y Z (v_dtrK a k).
Proof.
  unfold trace, SS. eapply pd_val; [|apply (pd_S3 (fun i x y z => S3 (fun j => hi i j x y z * FK F i j x y z))); intros i; apply (pd_S3 (fun j x y z => hi i j x y z * FK F i j x y z)); intros j; apply pd_mult; [apply dhi_X|apply HA]].
  rewrite dtrK_i. unfold trace, dhiX. change (a_dK a (3 * s6 ?i ?j + n3 k)) with (i_dK a k i j). assert (S : forall k m n, v_dg a k m n = v_dg a k n m) by (intros q m n; destruct m, n; reflexivity).
  assert (SK : forall m n, i_K a m n = i_K a n m) by (intros m n; destruct m, n; reflexivity).
  unfold SS, S3. rewrite !cK_i. unfold cov, S3. rewrite !ga_i. unfold S3. rewrite !gd_i, !hi_X, !K_X. unfold i_dK.
  destruct k; rewrite ?(hi_sym D2 D1), ?(hi_sym D3 D1), ?(hi_sym D3 D2), ?(S _ D2 D1), ?(S _ D3 D1), ?(S _ D3 D2), ?(SK D2 D1), ?(SK D3 D1), ?(SK D3 D2); cbn [s6]; field.
Qed.
Lemma mom_X i : v_mom a i = momentum (v_ginv a) (cov (v_ga a) (i_K a) (i_dK a)) i - momrhs a i.
Proof.
  rewrite mom_i. f_equal. transitivity (S3 (fun j => (adm_f a * i_g a i j) * v_momu a j)); [unfold S3; ring|].
  assert (E : forall j, adm_f a * i_g a i j = metric F i j X Y Z) by (intros j; unfold metric; now rewrite f_psi, g_X).
  assert (INV : forall b, S3 (fun j => metric F i j X Y Z * v_ginv a j b) = delta i b). { intros b. rewrite <- (inv_right (fun i j => metric F i j X Y Z) (fun i j => hi i j X Y Z) i b); [unfold S3; now rewrite !hi_X|intros; apply HMS, N0|apply HI, N0]. }
  unfold momentum. set (DT := cov (v_ga a) (i_K a) (i_dK a)).
  transitivity (S3 (fun b => S3 (fun j => metric F i j X Y Z * v_ginv a j b) * S3 (fun c => v_cKu a c b c)) - SS (fun b c => v_ginv a b c * S3 (fun d => S3 (fun j => metric F i j X Y Z * v_ginv a j d) * v_cK a d b c))).
  - unfold S3 at 1. rewrite !E, !momu_i. unfold SS, S3. rewrite (cKu_i a D1 D1 D1). rewrite !cKu_i. unfold S3. ring.
  - transitivity (S3 (fun b => delta i b * S3 (fun c => v_cKu a c b c)) - SS (fun b c => v_ginv a b c * S3 (fun d => delta i d * v_cK a d b c))).
    { f_equal; [apply S3_ext; intros b; now rewrite INV|]. unfold SS. apply S3_ext; intros b. apply S3_ext; intros c. f_equal. apply S3_ext; intros d. now rewrite INV. }
    assert (DS : forall k m n, DT k m n = DT k n m). { intros k m n. unfold DT, cov, S3. assert (SK : forall m n, i_K a m n = i_K a n m) by (intros p q; destruct p, q; reflexivity). assert (SD : i_dK a k m n = i_dK a k n m) by (destruct m, n; reflexivity). rewrite SD, !(SK m), !(SK n). ring. }
    unfold SS, S3. rewrite !cKu_i. unfold S3. rewrite !cK_i. fold DT. rewrite ?(hi_sym D2 D1), ?(hi_sym D3 D1), ?(hi_sym D3 D2). destruct i; cbn [delta]; rewrite ?(DS _ D2 D1), ?(DS _ D3 D1), ?(DS _ D3 D2); ring.
Qed.
End S.
(** matter terms: 16 pi rho and 8 pi j_i, with the decimals of the code, or nothing if the variable has no storage *)
Definition hamrhs (a : adm_in) : R := if a_null a 16 then 0 else 5026548245743669182 / 100000000000000000 * a_u a 16.
Definition jrhs (a : adm_in) (i : d3) : R := if a_null a 17 then 0 else 25132741228718345908 / 1000000000000000000 * a_u a (17 + n3 i).
Theorem C83_constraints a X Y Z e F hi dh : setting a X Y Z e F hi dh ->
  let h := fun i j => hi i j X Y Z in let G := fun i j k => Gam hi dh i j k X Y Z in let K := fun i j => FK F i j X Y Z in
  exists dG dK dtr dda, (forall l i j k, pd (Gam hi dh i j k) l X Y Z (dG l i j k)) /\ (forall k i j, pd (FK F i j) k X Y Z (dK k i j)) /\
    (forall k, pd (fun x y z => trace (fun i j => hi i j x y z) (fun i j => FK F i j x y z)) k X Y Z (dtr k)) /\ (forall k l, pd (dalpha F k) l X Y Z (dda k l)) /\
    let Rs := trace h (ricci G dG) in
    adm_ham a = Rs + trace h K ^ 2 - square h K - hamrhs a /\
    adm_mom1 a = momentum h (cov G K dK) D1 - jrhs a D1 /\ adm_mom2 a = momentum h (cov G K dK) D2 - jrhs a D2 /\ adm_mom3 a = momentum h (cov G K dK) D3 - jrhs a D3 /\
    adm_trK a = trace h K /\
    adm_dtrKdt a = S3 (fun k => a_u a (13 + n3 k) * dtr k) - trace h (hessian G (fun k => dalpha F k X Y Z) dda) +
      Falpha F X Y Z * (Rs + trace h K ^ 2 + 4 * PI * (if a_null a 20 then 0 else trace h (fun i j => a_u a (20 + s6 i j)) - 3 * a_u a 16)).
Proof.
  intros H h G K. exists (dGX a), (i_dK a), (v_dtrK a), (i_ddalp a). split; [intros; eapply dGam_X; eauto|]. split; [intros; apply (HA _ _ _ _ _ _ _ _ H)|]. split; [intros; eapply trace_X; eauto|]. split; [intros; apply (HA _ _ _ _ _ _ _ _ H)|]. cbv zeta.
  assert (EH : forall i j, h i j = v_ginv a i j) by (intros; unfold h; eapply hi_X; eauto). assert (EK : forall i j, K i j = i_K a i j) by (intros; unfold K; eapply K_X; eauto). assert (EG : forall i j k, G i j k = v_ga a i j k) by (intros; unfold G; eapply G_X; eauto).
  assert (TE : forall T T', (forall i j, T i j = T' i j) -> trace h T = trace (v_ginv a) T') by (intros T T' E; unfold trace, SS; apply S3_ext; intros i; apply S3_ext; intros j; now rewrite EH, E).
  assert (ER : trace h (ricci G (dGX a)) = adm_R a) by (rewrite Rs_i; apply TE; intros i j; unfold G; eapply ricci_X; eauto).
  assert (ET : trace h K = adm_K a) by (rewrite K_s; apply TE, EK).
  assert (ES : square h K = adm_KudKud a) by (rewrite KK_s; unfold square, SS, S3; now rewrite !EH, !EK).
  assert (EM : forall i, momentum h (cov G K (i_dK a)) i - jrhs a i = v_mom a i). { intros i. rewrite (mom_X a X Y Z e F hi dh H). assert (ECV : forall k m n, cov G K (i_dK a) k m n = cov (v_ga a) (i_K a) (i_dK a) k m n) by (intros; unfold cov, S3; now rewrite !EG, !EK). f_equal; [unfold momentum, SS, S3; rewrite !EH, !ECV; reflexivity|]. destruct i; reflexivity. }
  rewrite ER, ET, ES, !EM. split; [unfold adm_ham, pow2; change (adm_hamrhs_3 a) with (hamrhs a); ring|]. do 3 (split; [reflexivity|]). split; [reflexivity|].
  rewrite (TE (hessian G (fun k => dalpha F k X Y Z) (i_ddalp a)) (v_cdda a)). 2:{ intros i j. rewrite cdda_i. unfold hessian, S3. rewrite !EG. assert (EA : forall k, dalpha F k X Y Z = i_dalp a k) by (intros k; symmetry; apply (HA _ _ _ _ _ _ _ _ H)). now rewrite !EA. }
  rewrite (TE (fun i j => a_u a (20 + s6 i j)) (fun i j => a_u a (20 + s6 i j))) by reflexivity. rewrite <- trcdda_i. unfold adm_dtrKdt. rewrite bdtrK_i. assert (EF : Falpha F X Y Z = adm_alpha a) by (symmetry; apply (HA _ _ _ _ _ _ _ _ H)). rewrite EF.
  assert (EQ : (if a_null a 20 then 0 else trace (v_ginv a) (fun i j => a_u a (20 + s6 i j)) - 3 * a_u a 16) = adm_Sminus3rho_3 a).
  { unfold adm_Sminus3rho_3, adm_Sminus3rho, adm_Sminus3rho_2. destruct (a_null a 20); auto. unfold trace, SS, S3. cbv beta iota delta [v_ginv]. cbn [s6 Nat.add]. unfold adm_rho, adm_S11, adm_S12, adm_S13, adm_S22, adm_S23, adm_S33. ring. }
  rewrite EQ. unfold pow2. ring.
Qed.
Print Assumptions C83_constraints.

(** A metric given by functions near a point: derivatives of its inverse and of its Christoffel symbols, its Ricci tensor and contracted Christoffel symbols. *)
From Verif Require Import Rutil Coord_model Coord_spec Adm_model Adm_spec Adm_proofs Adm2_proofs Adm_props Conf_proofs.
Local Open Scope R_scope.
Section RG.
Variables (h hi : d3 -> d3 -> fn3) (dh : d3 -> d3 -> d3 -> fn3) (ddh : d3 -> d3 -> d3 -> d3 -> R) (e X Y Z : R).
Hypothesis He : 0 < e.
Hypothesis HI : forall x y z, near e X Y Z x y z -> inverse (fun i j => h i j x y z) (fun i j => hi i j x y z).
Hypothesis HS : forall x y z, near e X Y Z x y z -> forall i j, h i j x y z = h j i x y z.
Hypothesis HD : forall x y z, near e X Y Z x y z -> forall k i j, pd (h i j) k x y z (dh k i j x y z).
Hypothesis HDD : forall k l i j, pd (dh k i j) l X Y Z (ddh k l i j).
Hypothesis H2 : forall k l i j, ddh k l i j = ddh l k i j.
Let g i j := h i j X Y Z.
Let gi i j := hi i j X Y Z.
Let dg k i j := dh k i j X Y Z.
Lemma rg_0 : near e X Y Z X Y Z. Proof. now apply near0. Qed.
Lemma rg_inv : inverse g gi. Proof. apply HI, rg_0. Qed.
Lemma rg_s i j : g i j = g j i. Proof. apply HS, rg_0. Qed.
Lemma rg_is i j : gi i j = gi j i. Proof. apply (inv_sym g gi); [apply rg_s|apply rg_inv]. Qed.
Lemma rg_dsn x y z : near e X Y Z x y z -> forall k i j, dh k i j x y z = dh k j i x y z.
Proof.
  intros (N1 & N2 & N3) k i j. set (e' := Rmin (e - Rabs (x - X)) (Rmin (e - Rabs (y - Y)) (e - Rabs (z - Z)))).
  assert (P : 0 < e'). { unfold e'. repeat apply Rmin_glb_lt; lra. }
  eapply (pd_unique (h i j) k x y z); [apply HD; repeat split; auto|]. apply (pd_ext (h j i) _ _ _ _ _ _ e' P); [|apply HD; repeat split; auto].
  intros x' y' z' (M1 & M2 & M3). apply HS. unfold e' in *.
  assert (Q1 := Rmin_l (e - Rabs (x - X)) (Rmin (e - Rabs (y - Y)) (e - Rabs (z - Z)))). assert (Q2 := Rmin_r (e - Rabs (x - X)) (Rmin (e - Rabs (y - Y)) (e - Rabs (z - Z)))).
  assert (Q3 := Rmin_l (e - Rabs (y - Y)) (e - Rabs (z - Z))). assert (Q4 := Rmin_r (e - Rabs (y - Y)) (e - Rabs (z - Z))).
  repeat split; (eapply Rle_lt_trans; [match goal with |- Rabs (?u - ?w) <= _ => match u with x' => replace (u - w) with ((u - x) + (x - w)) by ring | y' => replace (u - w) with ((u - y) + (y - w)) by ring | z' => replace (u - w) with ((u - z) + (z - w)) by ring end end; apply Rabs_triang|]); lra.
Qed.
Lemma rg_ds k i j : dg k i j = dg k j i. Proof. apply rg_dsn, rg_0. Qed.
Lemma rg_dds k l i j : ddh k l i j = ddh k l j i.
Proof. eapply pd_unique; [apply HDD|]. apply (pd_ext (dh k j i) _ _ _ _ _ _ e He); [|apply HDD]. intros x y z N. now apply rg_dsn. Qed.
Lemma rg_dhi k i j : pd (hi i j) k X Y Z (idg gi dg k i j).
Proof.
  unfold idg, gi. apply (pd_hi h hi k X Y Z (fun c d => dg k c d) e He); [intros x y z N; split; [now apply HI|now apply HS]|]. intros i0 j0. apply HD, rg_0.
Qed.
Lemma rg_dGam l i j k : pd (Gam hi dh i j k) l X Y Z (dgam gi dg ddh l i j k).
Proof.
  unfold Gam, christoffel. eapply pd_val; [|apply pd_scal; apply (pd_S3 (fun m x y z => hi i m x y z * (dh j m k x y z + dh k m j x y z - dh m j k x y z))); intros m; apply pd_mult; [apply rg_dhi|apply pd_minus; [apply pd_plus|]; apply HDD]].
  unfold dgam, dgamma. f_equal. unfold S3. fold (gi i D1) (gi i D2) (gi i D3). unfold dg. rewrite ?(H2 j l), ?(H2 k l), ?(H2 D1 l), ?(H2 D2 l), ?(H2 D3 l). ring.
Qed.
Lemma rg_ricci i j : ricci (fun i j k => Gam hi dh i j k X Y Z) (dgam gi dg ddh) i j = ric_form gi dg ddh i j.
Proof.
  apply (ricci_formula gi dg ddh (idg gi dg) i j); [apply rg_is|apply rg_ds|apply rg_dds|apply H2|reflexivity].
Qed.
Lemma rg_con k l : pd (fun x y z => SS (fun i j => hi i j x y z * christoffel (fun i j => hi i j x y z) (fun k i j => dh k i j x y z) k i j)) l X Y Z (dcontracted gi dg ddh l k).
Proof.
  unfold SS. eapply pd_val; [|apply (pd_S3 (fun i x y z => S3 (fun j => hi i j x y z * Gam hi dh k i j x y z))); intros i; apply (pd_S3 (fun j x y z => hi i j x y z * Gam hi dh k i j x y z)); intros j; apply pd_mult; [apply rg_dhi|apply rg_dGam]].
  unfold dcontracted, SS. unfold S3. unfold Gam. reflexivity.
Qed.
End RG.

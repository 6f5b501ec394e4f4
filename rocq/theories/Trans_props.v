(** C67: 3x3 inverses, and second derivatives of inverse and of composed coordinate maps. *)
From Verif Require Import Rutil Coord_model Coord_spec Cart_spec Cart3_proofs Trans_model Trans_proofs.
Local Open Scope R_scope.
Lemma leb3_le j k : leb3 j k = true <-> d3_le j k.
Proof. unfold d3_le. destruct j, k; cbn; split; intros; auto; try lia; discriminate. Qed.
(** the inverse is the two-sided inverse, and the only one *)
Theorem C67_inverse : forall M, DetOf3Dmatrix M <> 0 ->
  (forall i j, product_of_3Dmatrices (inverse3Dmatrix_from_3Dmatrix M) M i j = delta i j) /\ (forall i j, product_of_3Dmatrices M (inverse3Dmatrix_from_3Dmatrix M) i j = delta i j) /\
  (forall A, (forall i j, S3 (fun k => A i k * M k j) = delta i j) \/ (forall i j, S3 (fun k => M i k * A k j) = delta i j) -> forall i j, A i j = inverse3Dmatrix_from_3Dmatrix M i j).
Proof.
  intros M N. unfold product_of_3Dmatrices, inverse3Dmatrix_from_3Dmatrix. split; [|split].
  - intros i j. rewrite acc_S3. now apply inv_left.
  - intros i j. rewrite acc_S3. revert i j. apply left_right. now apply inv_left.
  - intros A [H|H]; apply left_unique; auto. now apply left_right.
Qed.
Print Assumptions C67_inverse.
(** a matrix has an inverse exactly if the determinant is not zero; determinants multiply *)
Theorem C67_det : forall M, (DetOf3Dmatrix M <> 0 <-> exists A, forall i j, S3 (fun k => A i k * M k j) = delta i j) /\
  (forall A, DetOf3Dmatrix (product_of_3Dmatrices A M) = DetOf3Dmatrix A * DetOf3Dmatrix M) /\ DetOf3Dmatrix (transpose3Dmatrix_from_3Dmatrix M) = DetOf3Dmatrix M /\ DetOf3Dmatrix delta = 1 /\
  (forall A i j, transpose3Dmatrix_from_3Dmatrix (product_of_3Dmatrices A M) i j = product_of_3Dmatrices (transpose3Dmatrix_from_3Dmatrix M) (transpose3Dmatrix_from_3Dmatrix A) i j) /\
  (forall A i j, product_of_3Dmatrices A M i j = S3 (fun k => A i k * M k j)).
Proof.
  intros M. split; [|split; [|split; [|split; [|split]]]].
  - split. + intros N. exists (dXdx_from_dxdX M). now apply inv_left. + intros (A & H). exact (proj1 (left_det A M H)).
  - intros A. rewrite <- det_mul. apply det_ext. intros i j. apply acc_S3.
  - unfold DetOf3Dmatrix, transpose3Dmatrix_from_3Dmatrix. ring.
  - apply det_delta.
  - intros A i j. unfold transpose3Dmatrix_from_3Dmatrix, product_of_3Dmatrices. rewrite !acc_S3. unfold S3. ring.
  - intros. apply acc_S3.
Qed.
Print Assumptions C67_det.
(** on a singular matrix the function does not stop: what it returns annihilates the matrix instead of inverting it *)
Theorem C67_singular : forall M, DetOf3Dmatrix M = 0 -> forall i j, product_of_3Dmatrices (inverse3Dmatrix_from_3Dmatrix M) M i j = 0.
Proof.
  intros M Z i j. unfold product_of_3Dmatrices, inverse3Dmatrix_from_3Dmatrix. rewrite acc_S3. unfold dXdx_from_dxdX. destruct (Req_EM_T _ _) as [_|N]; [|contradiction].
  assert (E := eps3). set (e := dequaleps * dequaleps * dequaleps) in *. unfold S3.
  assert (D : forall x, x = 0 -> x / e = 0) by (intros x ->; unfold Rdiv; ring).
  destruct i, j; unfold DetOf3Dmatrix in Z; match goal with |- ?a / e * ?b + ?c / e * ?d + ?f / e * ?g = 0 => replace (a / e * b + c / e * d + f / e * g) with ((a * b + c * d + f * g) / e) by (field; auto) end; apply D; first [ring|rewrite <- Z; ring].
Qed.
Print Assumptions C67_singular.
(** second derivatives of the inverse map: J is the Jacobian matrix of x(X), K = dX/dx its inverse near the point, H the second derivatives of x(X); only the upper triangle of H is stored *)
Theorem C67_second_of_inverse : forall (J K : d3 -> d3 -> fn3) (H ddx : ten) X Y Z,
  near (fun a b c => forall i l, S3 (fun n => K i n a b c * J n l a b c) = delta i l) X Y Z ->
  (forall n l m, pd (J n l) m X Y Z (H n l m)) -> (forall n l m, H n l m = H n m l) -> (forall n m l, d3_le m l -> ddx n m l = H n m l) ->
  forall i j k, (d3_le j k -> exists G v, ddXdxdx_from_dXdx_ddxdXdX (fun i n => K i n X Y Z) ddx i j k = Some v /\ (forall m, pd (K i j) m X Y Z (G m)) /\ v = S3 (fun m => G m * K m k X Y Z)) /\
  (~ d3_le j k -> ddXdxdx_from_dXdx_ddxdXdX (fun i n => K i n X Y Z) ddx i j k = None).
Proof.
  intros J K H ddx X Y Z Hn HJ HS Hst.
  assert (Nd : near (fun a b c => DetOf3Dmatrix (fun n l => J n l a b c) <> 0) X Y Z). { eapply near_imp; [|exact Hn]. cbn beta. intros a b c E. exact (proj1 (left_det (fun i n => K i n a b c) _ E)). }
  assert (EK : forall i n, near (fun a b c => dXdx_from_dxdX (fun n l => J n l a b c) i n = K i n a b c) X Y Z). { intros i n. eapply near_imp; [|exact Hn]. cbn beta. intros a b c E. symmetry. revert i n. apply (left_unique (fun i n => K i n a b c)). exact E. }
  intros i j k. unfold ddXdxdx_from_dXdx_ddxdXdX. split; intros L.
  - assert (El : leb3 j k = true) by (now apply leb3_le). rewrite El.
    assert (Q : forall m, exists G, forall n, pd (K i n) m X Y Z (G n)).
    { intros m. assert (P : forall n, exists g, pd (K i n) m X Y Z g). { intros n. destruct (pd_inv J (fun n l => H n l m) m X Y Z ltac:(intros; apply HJ) Nd i n) as (g & Hg). exists g. eapply pd_near; [apply EK|exact Hg]. }
      destruct (P D1) as (g1 & P1), (P D2) as (g2 & P2), (P D3) as (g3 & P3). exists (fun n => match n with D1 => g1 | D2 => g2 | D3 => g3 end). now intros []. }
    destruct (Q D1) as (G1 & Q1). destruct (Q D2) as (G2 & Q2). destruct (Q D3) as (G3 & Q3). set (G := fun m => match m with D1 => G1 | D2 => G2 | D3 => G3 end).
    assert (HG : forall m n, pd (K i n) m X Y Z (G m n)) by (intros [] n; [apply Q1|apply Q2|apply Q3]).
    exists (fun m => G m j). eexists. split; [reflexivity|]. split; [intros m; apply HG|].
    assert (R0 : forall m l, S3 (fun n => G m n * J n l X Y Z + K i n X Y Z * H n l m) = 0).
    { intros m l. apply (pd_unique (fun a b c => S3 (fun n => K i n a b c * J n l a b c)) m X Y Z).
      - unfold S3. repeat apply pd_plus; apply pd_mult; auto.
      - eapply pd_near; [|apply (pd_const (delta i l))]. eapply near_imp; [|exact Hn]. cbn beta. intros a b c E. symmetry. apply E. }
    assert (JK : forall n q, S3 (fun l => J n l X Y Z * K l q X Y Z) = delta n q). { apply (left_right (fun i n => K i n X Y Z) (fun n l => J n l X Y Z)). apply (near_here _ _ _ _ Hn). }
    assert (EG : forall m, G m j = - S3 (fun l => S3 (fun n => K i n X Y Z * H n l m) * K l j X Y Z)).
    { intros m. assert (E : S3 (fun l => S3 (fun n => G m n * J n l X Y Z + K i n X Y Z * H n l m) * K l j X Y Z) = 0). { unfold S3 at 1. rewrite !R0. ring. }
      assert (E2 : S3 (fun l => S3 (fun n => G m n * J n l X Y Z + K i n X Y Z * H n l m) * K l j X Y Z) = S3 (fun n => G m n * S3 (fun l => J n l X Y Z * K l j X Y Z)) + S3 (fun l => S3 (fun n => K i n X Y Z * H n l m) * K l j X Y Z)) by (unfold S3; ring).
      rewrite E in E2. assert (E3 : S3 (fun n => G m n * S3 (fun l => J n l X Y Z * K l j X Y Z)) = G m j). { rewrite (S3_ext _ (fun n => G m n * delta n j)) by (intros n; now rewrite JK). apply S3_delta_r. }
      lra. }
    assert (Eh : forall n m l, (if leb3 m l then ddx n m l else ddx n l m) = H n m l). { intros n m l. destruct m, l; cbn [leb3]; rewrite Hst by (unfold d3_le; cbn; lia); auto. }
    rewrite (S3_ext _ _ (fun m => f_equal (fun x => x * K m k X Y Z) (EG m))). unfold each. cbn [fold_left]. rewrite !Eh.
    assert (Sn : forall n, H n D2 D1 = H n D1 D2 /\ H n D3 D1 = H n D1 D3 /\ H n D3 D2 = H n D2 D3) by (intros n; auto).
    unfold S3. destruct (Sn D1) as (-> & -> & ->), (Sn D2) as (-> & -> & ->), (Sn D3) as (-> & -> & ->). ring.
  - assert (El : leb3 j k <> true) by (rewrite leb3_le; exact L). destruct (leb3 j k); congruence.
Qed.
Print Assumptions C67_second_of_inverse.
(** composed maps x = f(U), U = g(X) *)
Definition comp (f : fn3) (g : d3 -> fn3) : fn3 := fun a b c => f (g D1 a b c) (g D2 a b c) (g D3 a b c).
Lemma pd_comp f g m X Y Z gr J : diff3 f (g D1 X Y Z) (g D2 X Y Z) (g D3 X Y Z) gr -> (forall n, pd (g n) m X Y Z (J n)) -> pd (comp f g) m X Y Z (S3 (fun n => gr n * J n)).
Proof. intros Hf Hg. exact (pd_pull (Coords g (fun _ _ _ _ _ => 0) (fun _ _ _ => None)) f m X Y Z gr J Hf Hg). Qed.
Theorem C67_composed : forall (f : d3 -> fn3) (f' : d3 -> d3 -> fn3) (g : d3 -> fn3) (g' : d3 -> d3 -> fn3) (Hf Hg ddf ddg : ten) X Y Z,
  near (fun a b c => (forall i, diff3 (f i) (g D1 a b c) (g D2 a b c) (g D3 a b c) (fun n => comp (f' i n) g a b c)) /\ (forall n m, pd (g n) m a b c (g' n m a b c))) X Y Z ->
  (forall i j, diff3 (f' i j) (g D1 X Y Z) (g D2 X Y Z) (g D3 X Y Z) (Hf i j)) -> (forall n m l, pd (g' n m) l X Y Z (Hg n m l)) -> (forall i j k, Hf i j k = Hf i k j) ->
  (forall i j k, d3_le j k -> ddf i j k = Hf i j k) -> (forall n m l, d3_le m l -> ddg n m l = Hg n m l) ->
  let d1 a b c := dxdX_from_dxdU_dUdX (fun i n => comp (f' i n) g a b c) (fun n m => g' n m a b c) in
  near (fun a b c => forall i m, pd (comp (f i) g) m a b c (d1 a b c i m)) X Y Z /\
  (forall i m n, d3_le m n -> exists v, ddxdXdX_from_dxdU_dUdX_ddxdUdU_ddUdXdX (fun i n => comp (f' i n) g X Y Z) (fun n m => g' n m X Y Z) ddf ddg i m n = Some v /\ pd (fun a b c => d1 a b c i m) n X Y Z v).
Proof.
  intros f f' g g' Hf Hg ddf ddg X Y Z Hn Hf2 Hg2 Sf Sd Sg d1. split.
  - eapply near_imp; [|exact Hn]. cbn beta. intros a b c (A & B) i m. unfold d1, dxdX_from_dxdU_dUdX. rewrite acc_S3. apply pd_comp with (gr := fun n => comp (f' i n) g a b c) (J := fun n => g' n m a b c); auto.
  - intros i m n L. unfold ddxdXdX_from_dxdU_dUdX_ddxdUdU_ddUdXdX. assert (El : leb3 m n = true) by (now apply leb3_le). rewrite El.
    assert (G0 : forall k, pd (g k) n X Y Z (g' k n X Y Z)). { intros k. apply (near_here _ _ _ _ Hn). }
    assert (F1 : forall j, pd (comp (f' i j) g) n X Y Z (S3 (fun k => Hf i j k * g' k n X Y Z))). { intros j. apply pd_comp; auto. }
    assert (P : pd (fun a b c => S3 (fun j => comp (f' i j) g a b c * g' j m a b c)) n X Y Z (S3 (fun j => S3 (fun k => Hf i j k * g' k n X Y Z) * g' j m X Y Z + comp (f' i j) g X Y Z * Hg j m n))).
    { set (q := fun j => S3 (fun k => Hf i j k * g' k n X Y Z)) in *. change (pd (fun a b c => S3 (fun j => comp (f' i j) g a b c * g' j m a b c)) n X Y Z (S3 (fun j => q j * g' j m X Y Z + comp (f' i j) g X Y Z * Hg j m n))). unfold S3. repeat apply pd_plus; apply pd_mult; auto; apply F1. }
    eexists. split; [unfold each; cbn [fold_left]; reflexivity|]. apply (pd_ext (fun a b c => S3 (fun j => comp (f' i j) g a b c * g' j m a b c))); [intros a b c; unfold d1, dxdX_from_dxdU_dUdX; rewrite acc_S3; reflexivity|].
    match goal with |- pd _ _ _ _ _ ?v => replace v with (S3 (fun j => S3 (fun k => Hf i j k * g' k n X Y Z) * g' j m X Y Z + comp (f' i j) g X Y Z * Hg j m n)); [exact P|] end.
    assert (Eh : forall j k, (if leb3 j k then ddf i j k else ddf i k j) = Hf i j k). { intros j k. destruct j, k; cbn [leb3]; rewrite Sd by (unfold d3_le; cbn; lia); auto. }
    cbn beta iota zeta. rewrite !Eh, !Sg by auto. unfold S3. ring.
Qed.
Print Assumptions C67_composed.
(** the self-check returns 0 exactly if the stored dX_dx tables are the inverse of the stored dx_dX tables, and -1 exactly if there are none *)
Theorem C67_check : forall o C X Y Z, (check_box_dx_dX o C X Y Z = - 1 <-> o = None) /\
  (forall J, o = Some J -> DetOf3Dmatrix (fun k l => J k l X Y Z) <> 0 -> (check_box_dx_dX o C X Y Z = 0 <-> forall i j, S3 (fun k => dX_dx C i k X Y Z * J k j X Y Z) = delta i j)).
Proof.
  intros o C X Y Z. split.
  - split; [|intros ->; reflexivity]. destruct o as [J|]; auto. cbn [check_box_dx_dX]. intros E. assert (P := sqrt_pos (fold_left (fun s k => fold_left (fun s l => let temp := dXdx_from_dxdX (fun k l => J k l X Y Z) k l - dX_dx C k l X Y Z in s + temp * temp) each s) each 0)). cbn zeta in *. lra.
  - intros J -> N. cbn [check_box_dx_dX]. unfold each. cbn [fold_left]. cbn zeta. set (I := dXdx_from_dxdX (fun k l => J k l X Y Z)).
    assert (Sq : forall x, 0 <= x * x) by (intros; nra). split.
    + intros E. apply sqrt_eq_0 in E; [|repeat (apply Rplus_le_le_0_compat; [|apply Sq]); lra].
      assert (All : forall i k, dX_dx C i k X Y Z = I i k).
      { set (T := fun i k => I i k - dX_dx C i k X Y Z). intros i k. assert (Zt : T i k * T i k = 0).
        { assert (S1 := fun i k => Sq (T i k)). unfold T in *. pose proof (S1 D1 D1). pose proof (S1 D1 D2). pose proof (S1 D1 D3). pose proof (S1 D2 D1). pose proof (S1 D2 D2). pose proof (S1 D2 D3). pose proof (S1 D3 D1). pose proof (S1 D3 D2). pose proof (S1 D3 D3). destruct i, k; lra. }
        apply Rmult_integral in Zt. unfold T in Zt. destruct Zt; lra. }
      intros i j. rewrite (S3_ext _ (fun k => I i k * J k j X Y Z)) by (intros k; now rewrite All). now apply (inv_left (fun k l => J k l X Y Z)).
    + intros H. assert (All := left_unique (fun i k => dX_dx C i k X Y Z) (fun k l => J k l X Y Z) H). cbn beta in All. fold I in All. rewrite !All.
      match goal with |- sqrt ?x = 0 => replace x with 0 by ring end. apply sqrt_0.
Qed.
Print Assumptions C67_check.
(** examples: x = X^2, y = Y, z = Z at X = 1; d^2X/dx^2 = -1/(4 X^3) = -1/4 *)
Definition exJ (n l : d3) : fn3 := fun X _ _ => match n, l with D1, D1 => 2 * X | _, _ => delta n l end.
Definition exK (n l : d3) : fn3 := fun X _ _ => match n, l with D1, D1 => / (2 * X) | _, _ => delta n l end.
Definition exH : ten := fun n l m => match n, l, m with D1, D1, D1 => 2 | _, _, _ => 0 end.
Example C67_inverse_ex : DetOf3Dmatrix (fun n l => exJ n l 1 0 0) = 2. Proof. unfold DetOf3Dmatrix, exJ. cbn [delta]. ring. Qed.
Example C67_second_of_inverse_ex : ddXdxdx_from_dXdx_ddxdXdX (fun i n => exK i n 1 0 0) exH D1 D1 D1 = Some (- (1 / 4)) /\
  exists G v, ddXdxdx_from_dXdx_ddxdXdX (fun i n => exK i n 1 0 0) exH D1 D1 D1 = Some v /\ (forall m, pd (exK D1 D1) m 1 0 0 (G m)) /\ v = S3 (fun m => G m * exK m D1 1 0 0).
Proof.
  split.
  - unfold ddXdxdx_from_dXdx_ddxdXdX, each, exK, exH. cbn [leb3 fold_left delta]. f_equal. field.
  - apply (C67_second_of_inverse exJ exK exH exH 1 0 0).
    + exists (1 / 2). split; [lra|]. intros X Y Z HX _ _ i l. apply Rabs_def2 in HX. unfold S3, exJ, exK. destruct i, l; cbn [delta]; field; lra.
    + intros n l m. destruct n, l, m; unfold exJ, exH, pd; cbn [delta]; try apply derivable_pt_lim_const. replace 2 with (2 * 1) at 1 by ring. apply derivable_pt_lim_scal, derivable_pt_lim_id.
    + intros [] [] []; reflexivity.
    + auto.
    + unfold d3_le. lia.
Qed.
Definition exf (i : d3) : fn3 := fun u _ _ => u * u.
Definition exf' (i j : d3) : fn3 := fun u _ _ => match j with D1 => 2 * u | _ => 0 end.
Definition exHf : ten := fun i j k => match j, k with D1, D1 => 2 | _, _ => 0 end.
Definition exg (n : d3) : fn3 := fun X Y Z => X * Y.
Definition exg' (n m : d3) : fn3 := fun X Y Z => match m with D1 => Y | D2 => X | D3 => 0 end.
Definition exHg : ten := fun n m l => match m, l with D1, D2 | D2, D1 => 1 | _, _ => 0 end.
Lemma exf_diff i u v w : diff3 (exf i) u v w (fun n => exf' i n u v w).
Proof.
  intros eps He. exists eps. split; auto. intros a b c Ha _ _. unfold exf, exf'. replace ((u + a) * (u + a) - u * u - (2 * u * a + 0 * b + 0 * c)) with (a * a) by ring.
  rewrite Rabs_mult. assert (P := Rabs_pos a). assert (Pb := Rabs_pos b). assert (Pc := Rabs_pos c). nra.
Qed.
Lemma exf'_diff i j u v w : diff3 (exf' i j) u v w (exHf i j).
Proof.
  intros eps He. exists 1. split; [lra|]. intros a b c _ _ _. unfold exf', exHf. assert (P := Rabs_pos a). assert (Pb := Rabs_pos b). assert (Pc := Rabs_pos c).
  destruct j; (match goal with |- Rabs ?x <= _ => replace x with 0 by ring end; rewrite Rabs_R0; nra).
Qed.
(** x = (X Y)^2: d^2x/dXdY = 4 X Y *)
Example C67_composed_ex : forall X Y Z, exists v, ddxdXdX_from_dxdU_dUdX_ddxdUdU_ddUdXdX (fun i n => comp (exf' i n) exg X Y Z) (fun n m => exg' n m X Y Z) exHf exHg D1 D1 D2 = Some v /\ v = 4 * X * Y /\
  pd (fun a b c => dxdX_from_dxdU_dUdX (fun i n => comp (exf' i n) exg a b c) (fun n m => exg' n m a b c) D1 D1) D2 X Y Z v.
Proof.
  intros X Y Z. destruct (C67_composed exf exf' exg exg' exHf exHg exHf exHg X Y Z) as (_ & K).
  - exists 1. split; [lra|]. intros a b c _ _ _. split; [intros; apply exf_diff|]. intros n m. unfold exg, exg'. destruct m; cbn [pd].
    + assert (Q := derivable_pt_lim_mult (fun t => t) (fun _ => b) a 1 0 (derivable_pt_lim_id a) (derivable_pt_lim_const b a)). cbv beta in Q. replace (1 * b + a * 0) with b in Q by ring. exact Q.
    + assert (Q := derivable_pt_lim_mult (fun _ => a) (fun t => t) b 0 1 (derivable_pt_lim_const a b) (derivable_pt_lim_id b)). cbv beta in Q. replace (0 * b + a * 1) with a in Q by ring. exact Q.
    + apply derivable_pt_lim_const.
  - intros; apply exf'_diff.
  - intros n m l. unfold exg', exHg. destruct m, l; cbn [pd]; first [apply derivable_pt_lim_const|apply derivable_pt_lim_id].
  - intros [] [] []; reflexivity.
  - auto. - auto.
  - destruct (K D1 D1 D2) as (v & E & P); [unfold d3_le; cbn; lia|]. exists v. split; auto. split; auto.
    unfold ddxdXdX_from_dxdU_dUdX_ddxdUdU_ddUdXdX, each, comp, exf', exg, exg', exHf, exHg in E. cbn [leb3 fold_left] in E. injection E as <-. ring.
Qed.

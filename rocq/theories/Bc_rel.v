(** The conditions between boxes respect every linear relation between several runs. *)
From Coq Require Import Psatz.
From Verif Require Import Rutil Base Bound_model Faces_model Bc_model Bc_props Poisson_model.
Local Open Scope R_scope.
Section Rel.
Variable n1 n2 n3 : nat -> nat.
Variable bfaces : nat -> nat -> face.
Variable jac : nat -> nat -> option (nat -> v3).
Variable crd : nat -> Z -> nat -> R.
Variable bbox : nat -> nat -> R.
Variable interp3 : nat -> (nat -> R) -> R -> R -> R -> R.
Variable interp2 : nat -> nat -> nat -> (nat -> R) -> R -> R -> R.
Variable K : Type.
Variable k0 : K.
Variable Good : (K -> R) -> Prop.
Hypothesis Gadd : forall x y, Good x -> Good y -> Good (fun k => x k + y k).
Hypothesis Gscal : forall r x, Good x -> Good (fun k => r * x k).
Hypothesis Gext : forall x y, (forall k, x k = y k) -> Good x -> Good y.
Hypothesis G3 : forall o f X Y Z, (forall q, Good (fun k => f k q)) -> Good (fun k => interp3 o (f k) X Y Z).
Hypothesis G2 : forall o n p f X Y, (forall q, Good (fun k => f k q)) -> Good (fun k => interp2 o n p (f k) X Y).
(** the number of a variable in run k *)
Variable rho : K -> nat -> nat.
Hypothesis rho_inj : forall k i j, rho k i = rho k j -> i = j.
Definition rho3 (k : K) (id : ids) : ids := let '(i1, i2, i3) := id in (rho k i1, rho k i2, rho k i3).
(** the places at which the runs are related *)
Variable V : nat -> nat -> nat -> Prop.
Definition FG (s : K -> field) : Prop := forall i b p, V i b p -> Good (fun k => s k (rho k i, b, p)).
Definition RG (S : K -> res field) : Prop := (exists s, (forall k, S k = Ok (s k)) /\ FG s) \/ (forall k, S k = Err) \/ (forall k, S k = UB).
Lemma Gsub x y : Good x -> Good y -> Good (fun k => x k - y k).
Proof. intros Hx Hy. apply (Gext (fun k => x k + -1 * y k)); [intros; ring|]. apply Gadd; auto. Qed.
Lemma RG_ok s : FG s -> RG (fun k => Ok (s k)). Proof. left. exists s. auto. Qed.
Lemma RG_ext S T : (forall k, S k = T k) -> RG S -> RG T.
Proof. intros E [(s & H & F)|[H|H]]; [left; exists s; split; auto; intros; now rewrite <- E|right; left|right; right]; intros; rewrite <- E; auto. Qed.
Lemma RG_err (S : K -> res field) : (forall k, S k = Err) -> RG S. Proof. right. now left. Qed.
Lemma RG_ub (S : K -> res field) : (forall k, S k = UB) -> RG S. Proof. right. now right. Qed.
Lemma RG_bind S (c : K -> field -> res field) : RG S -> (forall s, FG s -> RG (fun k => c k (s k))) -> RG (fun k => rbind (S k) (c k)).
Proof.
  intros [(s & H & F)|[H|H]] HC; [|apply RG_err; intros; now rewrite H|apply RG_ub; intros; now rewrite H]. apply (RG_ext (fun k => c k (s k))); [intros; now rewrite H|]. auto.
Qed.
Lemma RG_rd s i b p (c : K -> R -> res field) : FG s -> V i b (Z.to_nat p) -> (forall x, Good x -> RG (fun k => c k (x k))) -> RG (fun k => rbind (rdv n1 n2 n3 (s k) (rho k i) b p) (c k)).
Proof. intros F HV HC. unfold rdv. destruct (_ && _); cbn [rbind]; [|now apply RG_ub]. apply (HC (fun k => s k (rho k i, b, Z.to_nat p))). now apply F. Qed.
Lemma RG_wr s i b p x : FG s -> Good x -> RG (fun k => wrv n1 n2 n3 (s k) (rho k i) b p (x k)).
Proof.
  intros F G. unfold wrv. destruct (_ <? _)%nat; [|now apply RG_ub]. apply (RG_ok (fun k => setf (s k) (rho k i, b, p) (x k))). intros i' b' p' HV.
  destruct (Nat.eq_dec i' i) as [-> |N1]; [destruct (Nat.eq_dec b' b) as [-> |N2]; [destruct (Nat.eq_dec p' p) as [-> |N3]|]|].
  - apply (Gext x); auto. intros k. symmetry. apply setf_eq.
  - apply (Gext (fun k => s k (rho k i, b, p'))); [intros; symmetry; apply setf_ne; congruence|now apply F].
  - apply (Gext (fun k => s k (rho k i, b', p'))); [intros; symmetry; apply setf_ne; congruence|now apply F].
  - apply (Gext (fun k => s k (rho k i', b', p'))); [intros k; symmetry; apply setf_ne; intros E; injection E as E _ _; apply N1; now apply (rho_inj k)|now apply F].
Qed.
Lemma RG_pts (body : K -> nat -> nat -> field -> res field) : (forall pi p s, FG s -> RG (fun k => body k pi p (s k))) -> forall l i s, FG s -> RG (fun k => pts_from i l (body k) (s k)).
Proof. intros H. induction l as [|p l IH]; intros i s F; cbn [pts_from]; [now apply RG_ok|]. apply RG_bind; auto. Qed.
Lemma RG_for o (body : K -> nat -> nat -> field -> res field) s : (forall pi p s, FG s -> RG (fun k => body k pi p (s k))) -> FG s -> RG (fun k => for_pts o (body k) (s k)).
Proof. intros H F. destruct o as [[|p l]|]; [now apply RG_ub| |now apply RG_ub]. now apply (RG_pts body H (p :: l)). Qed.
Variable nb : nat.
Definition Vall (i : nat) : Prop := forall b p, (b < nb)%nat -> V i b p.
Definition fok (fc : face) : Prop := (fb fc < nb)%nat /\ ((0 <= ob (fx fc))%Z -> (Z.to_nat (ob (fx fc)) < nb)%nat).
Definition Vall3 (id : ids) : Prop := let '(i1, i2, i3) := id in Vall i1 /\ Vall i2 /\ Vall i3.
Lemma RG_rd3 s id b p (c : K -> v3 -> res field) : (b < nb)%nat -> FG s -> Vall3 id -> (forall x y z, Good x -> Good y -> Good z -> RG (fun k => c k (x k, y k, z k))) -> RG (fun k => rbind (rd3 n1 n2 n3 (s k) (rho3 k id) b p) (c k)).
Proof.
  intros Hb F HV HC. destruct id as [[i1 i2] i3]. destruct HV as (V1 & V2 & V3). unfold rd3, rho3. apply (RG_ext (fun k => rbind (rdv n1 n2 n3 (s k) (rho k i1) b p) (fun x => rbind (rdv n1 n2 n3 (s k) (rho k i2) b p) (fun y => rbind (rdv n1 n2 n3 (s k) (rho k i3) b p) (fun z => c k (x, y, z)))))).
  { intros k. unfold rdv. destruct (_ && _); reflexivity. }
  apply (RG_rd s i1 b p (fun k x => rbind (rdv n1 n2 n3 (s k) (rho k i2) b p) (fun y => rbind (rdv n1 n2 n3 (s k) (rho k i3) b p) (fun z => c k (x, y, z))))); auto. intros x Gx.
  apply (RG_rd s i2 b p (fun k y => rbind (rdv n1 n2 n3 (s k) (rho k i3) b p) (fun z => c k (x k, y, z)))); auto. intros y Gy.
  apply (RG_rd s i3 b p (fun k z => c k (x k, y k, z))); auto.
Qed.
Lemma G_dot (n : v3) x y z x' y' z' : Good x -> Good y -> Good z -> Good x' -> Good y' -> Good z' -> Good (fun k => vdot n (vsub (x k, y k, z k) (x' k, y' k, z' k))).
Proof.
  intros. destruct n as [[a b] c]. cbn [vdot vsub]. apply (Gadd (fun k => a * (x k - x' k) + b * (y k - y' k)) (fun k => c * (z k - z' k))); [apply (Gadd (fun k => a * (x k - x' k)) (fun k => b * (y k - y' k)))|]; apply Gscal; now apply Gsub.
Qed.
Notation copyb := (copy_bface n1 n2 n3 jac).
Lemma RG_copy iF fc iP id g s : fok fc -> Vall iP -> Vall3 id -> FG s -> RG (fun k => copyb (rho k iF) fc (rho k iP) (rho3 k id) g (s k)).
Proof.
  intros [Hb Ho] HP Hd F. unfold copy_bface. destruct (ob (fx fc) <? 0)%Z eqn:Eo; [now apply RG_err|]. assert (Ho' : (Z.to_nat (ob (fx fc)) < nb)%nat) by (apply Ho; lia). destruct (negb _).
  - apply (RG_for (fpts (fx fc)) (fun k pi ind u => do oind <- g fc pi; do a <- rdv n1 n2 n3 u (rho k iP) (fb fc) (Z.of_nat ind); do c <- rdv n1 n2 n3 u (rho k iP) (Z.to_nat (ob (fx fc))) oind; wrv n1 n2 n3 u (rho k iF) (fb fc) ind (a - c))); auto.
    intros pi p w Fw. destruct (g fc pi) as [oi| |]; cbn [rbind]; [|now apply RG_err|now apply RG_ub].
    apply (RG_rd w iP (fb fc) (Z.of_nat p) (fun k a => do c <- rdv n1 n2 n3 (w k) (rho k iP) (Z.to_nat (ob (fx fc))) oi; wrv n1 n2 n3 (w k) (rho k iF) (fb fc) p (a - c))); auto. intros x Gx.
    apply (RG_rd w iP _ oi (fun k c => wrv n1 n2 n3 (w k) (rho k iF) (fb fc) p (x k - c))); auto. intros y Gy. apply (RG_wr w iF (fb fc) p (fun k => x k - y k)); auto. now apply Gsub.
  - apply (RG_for (fpts (fx fc)) (fun k pi ind u => do oind <- g fc pi; do n <- face_normal (jac (fb fc) ind) (ff fc); do a <- rd3 n1 n2 n3 u (rho3 k id) (fb fc) (Z.of_nat ind); do c <- rd3 n1 n2 n3 u (rho3 k id) (Z.to_nat (ob (fx fc))) oind; wrv n1 n2 n3 u (rho k iF) (fb fc) ind (vdot n (vsub a c)))); auto.
    intros pi p w Fw. destruct (g fc pi) as [oi| |]; cbn [rbind]; [|now apply RG_err|now apply RG_ub]. destruct (face_normal _ _) as [n| |]; cbn [rbind]; [|now apply RG_err|now apply RG_ub].
    apply (RG_rd3 w id (fb fc) (Z.of_nat p) (fun k a => do c <- rd3 n1 n2 n3 (w k) (rho3 k id) (Z.to_nat (ob (fx fc))) oi; wrv n1 n2 n3 (w k) (rho k iF) (fb fc) p (vdot n (vsub a c)))); auto. intros x y z Gx Gy Gz.
    apply (RG_rd3 w id _ oi (fun k c => wrv n1 n2 n3 (w k) (rho k iF) (fb fc) p (vdot n (vsub (x k, y k, z k) c)))); auto. intros x' y' z' Gx' Gy' Gz'.
    apply (RG_wr w iF (fb fc) p (fun k => vdot n (vsub (x k, y k, z k) (x' k, y' k, z' k)))); auto. now apply G_dot.
Qed.
Lemma RG_interp1 fc d s : FG s -> RG (fun k => interp1_bface bfaces fc d (s k)).
Proof.
  intros F. unfold interp1_bface. destruct (ob (fx fc) <? 0)%Z; [now apply RG_err|]. destruct (ofi (fx fc) <? 0)%Z; [now apply RG_err|]. destruct (_ =? _)%nat; [now apply RG_err|].
  destruct (match d with O => _ | _ => _ end); cbn [rbind]; [|now apply RG_err|now apply RG_ub]. destruct (_ <=? 0)%Z; [now apply RG_err|]. destruct (fpts (fx fc)) as [[|]|]; cbn; [now apply RG_ub|now apply RG_err|now apply RG_ub].
Qed.
(** reading, interpolating and writing *)
Lemma RG_interp_body iF fc iP (I : K -> nat -> nat -> R) (out : nat -> bool) s : (fb fc < nb)%nat -> Vall iP -> (forall p, Good (fun k => I k (rho k iP) p)) -> FG s ->
  RG (fun k => for_pts (fpts (fx fc)) (fun _ ind u => if out ind then Ok u else do a <- rdv n1 n2 n3 u (rho k iP) (fb fc) (Z.of_nat ind); wrv n1 n2 n3 u (rho k iF) (fb fc) ind (a - I k (rho k iP) ind)) (s k)).
Proof.
  intros Hb HP HI F. apply (RG_for (fpts (fx fc)) (fun k _ ind u => if out ind then Ok u else do a <- rdv n1 n2 n3 u (rho k iP) (fb fc) (Z.of_nat ind); wrv n1 n2 n3 u (rho k iF) (fb fc) ind (a - I k (rho k iP) ind))); auto.
  intros pi p w Fw. destruct (out p); [now apply RG_ok|]. apply (RG_rd w iP (fb fc) (Z.of_nat p) (fun k a => wrv n1 n2 n3 (w k) (rho k iF) (fb fc) p (a - I k (rho k iP) p))); auto. intros x Gx.
  apply (RG_wr w iF (fb fc) p (fun k => x k - I k (rho k iP) p)); auto. now apply Gsub.
Qed.
Lemma RG_interp_body3 iF fc i1 i2 i3 (I : K -> nat -> nat -> R) (out : nat -> bool) s : (fb fc < nb)%nat -> Vall3 (i1, i2, i3) -> (forall i p, Vall i -> Good (fun k => I k (rho k i) p)) -> FG s ->
  RG (fun k => for_pts (fpts (fx fc)) (fun _ ind u => if out ind then Ok u else do n <- face_normal (jac (fb fc) ind) (ff fc); do a <- rd3 n1 n2 n3 u (rho k i1, rho k i2, rho k i3) (fb fc) (Z.of_nat ind); wrv n1 n2 n3 u (rho k iF) (fb fc) ind (vdot n (vsub a (I k (rho k i1) ind, I k (rho k i2) ind, I k (rho k i3) ind)))) (s k)).
Proof.
  intros Hb HV HI F. apply (RG_for (fpts (fx fc)) (fun k _ ind u => if out ind then Ok u else do n <- face_normal (jac (fb fc) ind) (ff fc); do a <- rd3 n1 n2 n3 u (rho k i1, rho k i2, rho k i3) (fb fc) (Z.of_nat ind); wrv n1 n2 n3 u (rho k iF) (fb fc) ind (vdot n (vsub a (I k (rho k i1) ind, I k (rho k i2) ind, I k (rho k i3) ind))))); auto.
  intros pi p w Fw. destruct (out p); [now apply RG_ok|]. destruct (face_normal _ _) as [n| |]; cbn [rbind]; [|now apply RG_err|now apply RG_ub].
  apply (RG_rd3 w (i1, i2, i3) (fb fc) (Z.of_nat p) (fun k a => wrv n1 n2 n3 (w k) (rho k iF) (fb fc) p (vdot n (vsub a (I k (rho k i1) p, I k (rho k i2) p, I k (rho k i3) p))))); auto. intros x y z Gx Gy Gz.
  apply (RG_wr w iF (fb fc) p (fun k => vdot n (vsub (x k, y k, z k) (I k (rho k i1) p, I k (rho k i2) p, I k (rho k i3) p)))); auto. destruct HV as (? & ? & ?). apply G_dot; auto.
Qed.
Theorem bc_rel iF fc iP id s : fok fc -> Vall iP -> Vall3 id -> FG s -> RG (fun k => bc_bface n1 n2 n3 bfaces jac crd bbox interp3 interp2 (rho k iF) fc (rho k iP) (rho3 k id) (s k)).
Proof.
  intros Hf HP Hd F. pose proof Hf as [Hb Ho]. unfold bc_bface. destruct (0 <=? ob (fx fc))%Z eqn:Eo; [|now apply RG_ok]. assert (Ho' : (Z.to_nat (ob (fx fc)) < nb)%nat) by (apply Ho; lia). destruct (touch (fx fc)).
  - destruct (same_fpts (fx fc)); [now apply RG_copy|]. destruct (sameX (fx fc) && sameY (fx fc) && sameZ (fx fc)). { destruct (fpts (fx fc)); [now apply RG_copy|now apply RG_err]. }
    destruct (sameX (fx fc) && sameY (fx fc)); [now apply RG_interp1|]. destruct (sameX (fx fc) && sameZ (fx fc)); [now apply RG_interp1|]. destruct (sameY (fx fc) && sameZ (fx fc)); [now apply RG_interp1|].
    destruct (sameX (fx fc) || sameY (fx fc) || sameZ (fx fc)); [|now apply RG_err]. unfold interp2_bface. destruct (ob (fx fc) <? 0)%Z; [now apply RG_err|]. destruct (ofi (fx fc) <? 0)%Z; [now apply RG_err|].
    set (plN := if sameZ (fx fc) then 3%nat else _). destruct (match plN with O => _ | _ => _ end) as [[[[[op oC1] oC2] r1] r2]| |]; cbn [rbind]; [|now apply RG_err|now apply RG_ub]. destruct (_ || _); [now apply RG_err|]. destruct id as [[i1 i2] i3]. cbn [rho3].
    pose (out := fun ind => if Rlt_dec (crd (fb fc) oC1 ind) (bbox (Z.to_nat (ob (fx fc))) r1) then true else if Rlt_dec (bbox (Z.to_nat (ob (fx fc))) (S r1)) (crd (fb fc) oC1 ind) then true else
                 if Rlt_dec (crd (fb fc) oC2 ind) (bbox (Z.to_nat (ob (fx fc))) r2) then true else if Rlt_dec (bbox (Z.to_nat (ob (fx fc))) (S r2)) (crd (fb fc) oC2 ind) then true else false).
    pose (o := Z.to_nat (ob (fx fc))). destruct (negb _).
    + apply (RG_interp_body iF fc iP (fun k i p => interp2 o plN op (fun q => s k (i, o, q)) (crd (fb fc) oC1 p) (crd (fb fc) oC2 p)) out); auto; intros p; apply (G2 o plN op (fun k q => s k (rho k iP, o, q))); intros q; apply F; apply HP; assumption.
    + apply (RG_interp_body3 iF fc i1 i2 i3 (fun k i p => interp2 o plN op (fun q => s k (i, o, q)) (crd (fb fc) oC1 p) (crd (fb fc) oC2 p)) out); auto; intros i p Hi; apply (G2 o plN op (fun k q => s k (rho k i, o, q))); intros q; apply F; apply Hi; assumption.
  - apply (RG_bind _ (fun _ u => if setnd (fx fc) then Err else Ok u)). 2: { intros w Fw. destruct (setnd (fx fc)); [now apply RG_err|now apply RG_ok]. }
    unfold interp3_bface. destruct (ob (fx fc) <? 0)%Z; [now apply RG_err|]. destruct (_ || _); [now apply RG_err|]. destruct id as [[i1 i2] i3]. cbn [rho3]. set (o := Z.to_nat (ob (fx fc))). destruct (negb _).
    + apply (RG_interp_body iF fc iP (fun k i p => interp3 o (fun q => s k (i, o, q)) (crd (fb fc) (oXi fc) p) (crd (fb fc) (oYi fc) p) (crd (fb fc) (oZi fc) p)) (fun _ => false)); auto; intros p; apply (G3 o (fun k q => s k (rho k iP, o, q))); intros q; apply F; apply HP; assumption.
    + apply (RG_interp_body3 iF fc i1 i2 i3 (fun k i p => interp3 o (fun q => s k (i, o, q)) (crd (fb fc) (oXi fc) p) (crd (fb fc) (oYi fc) p) (crd (fb fc) (oZi fc) p)) (fun _ => false)); auto; intros i p Hi; apply (G3 o (fun k q => s k (rho k i, o, q))); intros q; apply F; apply Hi; assumption.
Qed.
(** the conditions of Poisson2 and Poisson3 *)
Variable nf : nat -> nat.
Variable hasx : nat -> bool.
Variable xyz XYZ : nat -> nat -> R * R * R.
Variable erf : R -> R.
Notation bc3f := (bc3_face n1 n2 n3 bfaces jac crd bbox interp3 interp2 hasx xyz XYZ).
Lemma bc3_face_rel iF iP id obc fc s : fok fc -> (forall x y z, Good (fun k => obc k x y z)) -> Vall iP -> Vall3 id -> FG s -> RG (fun k => bc3f (rho k iF) (rho k iP) (rho3 k id) (obc k) fc (s k)).
Proof.
  intros Hf HO HP Hd F. pose proof Hf as [Hb _]. unfold bc3_face. destruct (0 <=? ob (fx fc))%Z; [now apply bc_rel|]. destruct (outerb (fx fc)); [|now apply RG_ok].
  apply (RG_for (fpts (fx fc)) (fun k _ ind u => let '(x, y, z) := if hasx (fb fc) then let '(x, y, z) := xyz (fb fc) ind in (x, z, y) else XYZ (fb fc) ind in
      do a <- rdv n1 n2 n3 u (rho k iP) (fb fc) (Z.of_nat ind); wrv n1 n2 n3 u (rho k iF) (fb fc) ind (a - obc k x y z))); auto.
  intros pi p w Fw. destruct (if hasx (fb fc) then _ else _) as [[x y] z]. apply (RG_rd w iP (fb fc) (Z.of_nat p) (fun k a => wrv n1 n2 n3 (w k) (rho k iF) (fb fc) p (a - obc k x y z))); auto.
  intros a Ga. apply (RG_wr w iF (fb fc) p (fun k => a k - obc k x y z)); auto. apply Gsub; auto.
Qed.
Lemma bc3_faces_rel iF iP id obc : (forall x y z, Good (fun k => obc k x y z)) -> Vall iP -> Vall3 id -> forall l s, Forall fok l -> FG s ->
  RG (fun k => bc3_faces n1 n2 n3 bfaces jac crd bbox interp3 interp2 hasx xyz XYZ (rho k iF) (rho k iP) (rho3 k id) (obc k) l (s k)).
Proof.
  intros HO HP Hd. induction l as [|fc l IH]; intros s Hl F; cbn [bc3_faces]; [now apply RG_ok|]. inversion Hl; subst.
  apply (RG_bind (fun k => bc3f (rho k iF) (rho k iP) (rho3 k id) (obc k) fc (s k)) (fun k u => bc3_faces n1 n2 n3 bfaces jac crd bbox interp3 interp2 hasx xyz XYZ (rho k iF) (rho k iP) (rho3 k id) (obc k) l u)); [now apply bc3_face_rel|]. intros; now apply IH.
Qed.
Lemma bc3_boxes_rel bi iF iP id obc : (forall x y z, Good (fun k => obc k x y z)) -> Vall iP -> Vall3 id -> forall l s, (forall b, In b l -> Forall fok (map (bfaces b) (seq 0 (nf b)))) -> FG s ->
  RG (fun k => bc3_boxes n1 n2 n3 bfaces nf jac crd bbox interp3 interp2 hasx xyz XYZ bi (rho k iF) (rho k iP) (rho3 k id) (obc k) l (s k)).
Proof.
  intros HO HP Hd. induction l as [|b l IH]; intros s Hl F; cbn [bc3_boxes]; [now apply RG_ok|].
  apply (RG_bind (fun k => if match bi with Some c => (b =? c)%nat | None => true end then bc3_faces n1 n2 n3 bfaces jac crd bbox interp3 interp2 hasx xyz XYZ (rho k iF) (rho k iP) (rho3 k id) (obc k) (map (bfaces b) (seq 0 (nf b))) (s k) else Ok (s k))
    (fun k u => bc3_boxes n1 n2 n3 bfaces nf jac crd bbox interp3 interp2 hasx xyz XYZ bi (rho k iF) (rho k iP) (rho3 k id) (obc k) l u)); [|intros; apply IH; auto; intros; apply Hl; now right].
  destruct (match bi with Some c => _ | None => _ end); [apply bc3_faces_rel; auto; apply Hl; now left|now apply RG_ok].
Qed.
Notation bc3' := (bc3 nb n1 n2 n3 bfaces nf jac crd bbox interp3 interp2 erf hasx xyz XYZ).
Lemma bc3_rel (o : K -> nat) (nonlin : K -> bool) blk s : (forall k i, rho k i = (o k + i)%nat) ->
  (forall x y z, Good (fun k => (if nonlin k then outer_Psi erf else outer_0) x y z)) -> (forall x y z, Good (fun k => (if nonlin k then outer_1 else outer_0) x y z)) ->
  (forall i, In i [0; 1; 2; 3; 10; 11; 12; 13]%nat -> Vall i) -> (forall b f, (b < nb)%nat -> (f < nf b)%nat -> fok (bfaces b f)) -> FG s -> RG (fun k => bc3' (o k) (nonlin k) blk (s k)).
Proof.
  intros Hr H0 H1 HV Hok F. unfold bc3. assert (Hl : forall b, In b (seq 0 nb) -> Forall fok (map (bfaces b) (seq 0 (nf b)))).
  { intros b I. apply in_seq in I. apply Forall_forall. intros x X. apply in_map_iff in X. destruct X as (f & <- & X). apply in_seq in X. apply Hok; lia. }
  cbn [Nat.mul Nat.add].
  assert (B : forall vind vd obc w, (forall x y z, Good (fun k => obc k x y z)) -> Vall (10 * vind) -> Vall3 (vd, vd + 1, vd + 2)%nat -> FG w ->
    RG (fun k => if match blk with Some (v, _) => (vind =? v)%nat | None => true end then bc3_boxes n1 n2 n3 bfaces nf jac crd bbox interp3 interp2 hasx xyz XYZ (option_map snd blk) (o k + 22 + vind) (o k + 10 * vind) (o k + vd, o k + vd + 1, o k + vd + 2)%nat (obc k) (seq 0 nb) (w k) else Ok (w k))).
  { intros vind vd obc w HO HP Hd Fw. destruct (match blk with Some _ => _ | None => _ end); [|now apply RG_ok].
    refine (RG_ext _ _ _ (bc3_boxes_rel (option_map snd blk) (22 + vind) (10 * vind) (vd, vd + 1, vd + 2)%nat obc HO HP Hd (seq 0 nb) w Hl Fw)). intros k. unfold rho3. rewrite !Hr. rewrite !Nat.add_assoc. reflexivity. }
  apply (RG_bind (fun k => if match blk with Some (v, _) => (0 =? v)%nat | None => true end then bc3_boxes n1 n2 n3 bfaces nf jac crd bbox interp3 interp2 hasx xyz XYZ (option_map snd blk) (o k + 22 + 0) (o k + 0) (o k + 1, o k + 1 + 1, o k + 1 + 2)%nat (if nonlin k then outer_Psi erf else outer_0) (seq 0 nb) (s k) else Ok (s k))
    (fun k u => if match blk with Some (v, _) => (1 =? v)%nat | None => true end then bc3_boxes n1 n2 n3 bfaces nf jac crd bbox interp3 interp2 hasx xyz XYZ (option_map snd blk) (o k + 22 + 1) (o k + 10) (o k + 11, o k + 11 + 1, o k + 11 + 2)%nat (if nonlin k then outer_1 else outer_0) (seq 0 nb) u else Ok u)).
  - apply (B 0%nat 1%nat (fun k => if nonlin k then outer_Psi erf else outer_0)); auto; [apply HV|repeat split; apply HV]; cbn; tauto.
  - intros w Fw. apply (B 1%nat 11%nat (fun k => if nonlin k then outer_1 else outer_0)); auto; [apply HV|repeat split; apply HV]; cbn; tauto.
Qed.
Lemma setf_rel s i b p x : FG s -> Good x -> FG (fun k => setf (s k) (rho k i, b, p) (x k)).
Proof.
  intros F G i' b' p' HV.
  destruct (Nat.eq_dec i' i) as [-> |N1]; [destruct (Nat.eq_dec b' b) as [-> |N2]; [destruct (Nat.eq_dec p' p) as [-> |N3]|]|].
  - apply (Gext x); auto. intros k. symmetry. apply setf_eq.
  - apply (Gext (fun k => s k (rho k i, b, p'))); [intros; symmetry; apply setf_ne; congruence|now apply F].
  - apply (Gext (fun k => s k (rho k i, b', p'))); [intros; symmetry; apply setf_ne; congruence|now apply F].
  - apply (Gext (fun k => s k (rho k i', b', p'))); [intros k; symmetry; apply setf_ne; intros E; injection E as E _ _; apply N1; now apply (rho_inj k)|now apply F].
Qed.
Lemma fold_setf_rel iF iP b (c : K -> R) : (b < nb)%nat -> Vall iP -> Good c -> forall l s, FG s -> FG (fun k => fold_left (fun u p => setf u (rho k iF, b, p) (u (rho k iP, b, p) - c k)) l (s k)).
Proof.
  intros Hb HP Gc. induction l as [|p l IH]; intros s F; cbn [fold_left]; [exact F|]. apply (IH (fun k => setf (s k) (rho k iF, b, p) (s k (rho k iP, b, p) - c k))).
  apply (setf_rel s iF b p (fun k => s k (rho k iP, b, p) - c k)); auto. apply Gsub; auto.
Qed.
Lemma bc2_rel sph (o : K -> nat) (nl : K -> R) s : (forall k i, rho k i = (o k + i)%nat) -> Good nl -> Vall 0 -> Vall 10 -> FG s -> FG (fun k => bc2 nb n1 n2 n3 sph (o k) (nl k) (s k)).
Proof.
  intros Hr Gn V0 V10 F. unfold bc2. assert (L : Forall (fun vb => (fst vb = 0 \/ fst vb = 1) /\ snd vb < nb)%nat (list_prod [0; 1]%nat (seq 0 nb))).
  { apply Forall_forall. intros [v b] I. apply in_prod_iff in I. destruct I as [I I']. apply in_seq in I'. cbn in I |- *. lia. }
  revert s F. induction L as [|[v b] l Hv L IH]; intros s F; cbn [fold_left]; [exact F|]. apply (IH (fun k => bc2_box n1 n2 n3 sph (o k) (nl k) v b (s k))).
  unfold bc2_box. destruct sph; [|exact F]. cbn [fst snd] in Hv. destruct Hv as [Hv Hb].
  assert (E : forall r p w, FG w -> FG (fun k => fold_left (fun u p => setf u (o k + 22 + v, b, p)%nat (u (o k + 10 * v, b, p)%nat - r * (INR v + 1) * nl k)) p (w k))).
  { intros r p w Fw. assert (E : forall k : K, (o k + 22 + v = rho k (22 + v) /\ o k + 10 * v = rho k (10 * v))%nat) by (intros; rewrite !Hr; lia).
    intros i b' p' HV. refine (Gext _ _ _ (fold_setf_rel (22 + v) (10 * v) b (fun k => r * (INR v + 1) * nl k) Hb _ _ p w Fw i b' p' HV)).
    - intros k. cbv beta. destruct (E k) as [<- <-]. reflexivity.
    - destruct Hv as [-> | ->]; assumption.
    - now apply Gscal. }
  apply (E (/ 2) _ (fun k => fold_left (fun u p => setf u (o k + 22 + v, b, p)%nat (u (o k + 10 * v, b, p)%nat - 1 * (INR v + 1) * nl k)) (plane1 n1 n2 n3 b 0) (s k))). now apply E.
Qed.
End Rel.

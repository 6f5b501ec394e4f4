(** Model of src/utility/boundary/BCs_from_bfaces.c: conditions at the faces between boxes.
    doubles are reals.  box->v[i][p] of box b is [u (i, b, p)]; an index outside 0..nnodes-1 is UB.  The variables X, Y, Z, dXdx and
    oX, oY, oZ, which these functions only read, are not fields: the functions [jac] and [crd] give their values.  Interpolation in the
    other box, spec_Coeffs followed by spec_interpolate (and their versions in a plane), is a function of the values in that box and of
    the point: [interp3], [interp2].  The exits for values that are not finite do not occur with reals; printing is left out. *)
From Verif Require Import Rutil Base Bound_model Faces_model.
Local Open Scope R_scope.

Definition v3 := (R * R * R)%type.
Definition vdot (a b : v3) : R := let '(a1, a2, a3) := a in let '(b1, b2, b3) := b in a1 * b1 + a2 * b2 + a3 * b3.
(** dir = 1 + f/2, sig = 2*(f%2) - 1; directions 0,1,2 here *)
Definition fdir (f : nat) : nat := (f / 2)%nat.
Definition fsig (f : nat) : R := if (f mod 2 =? 0)%nat then -1 else 1.
Definition unit_vec (d : nat) : v3 := match d with 0%nat => (1, 0, 0) | 1%nat => (0, 1, 0) | _ => (0, 0, 1) end.
(** normalize and set sign from sig, BCs_from_bfaces.c:56-61, 132-137, 162-167, 203-208 *)
Definition outward (f : nat) (n : v3) : v3 :=
  let '(n1, n2, n3) := n in
  let smag := fsig f * sqrt (n1 * n1 + n2 * n2 + n3 * n3) in
  let smag := if Req_EM_T smag 0 then fsig f else smag in
  (n1 / smag, n2 / smag, n3 / smag).
(** boxface_normal_at_ijk and boxface_normal_at_XYZ, BCs_from_bfaces.c:10-75, 141-168.  [J] is None in Cartesian boxes (x_of_X[1] is NULL);
    else row a of [J] is (dX^a/dx, dX^a/dy, dX^a/dz) at the point, taken from the variables dXdx or from the functions dX_dx. *)
Definition face_normal (J : option (nat -> v3)) (f : nat) : res v3 :=
  if (5 <? f)%nat then Err else Ok (outward f (match J with Some J => J (fdir f) | None => unit_vec (fdir f) end)).
(** boxface_outwarddir_at_ijk and boxface_outwarddir_at_XYZ, BCs_from_bfaces.c:79-138, 172-209; row a of [K] is (dx/dX^a, dy/dX^a, dz/dX^a),
    None if the pointers dx_dX are NULL *)
Definition face_outdir (J : option (nat -> v3)) (K : option (nat -> v3)) (f : nat) : res v3 :=
  if (5 <? f)%nat then Err else
  match J with
  | None => Ok (outward f (unit_vec (fdir f)))
  | Some _ => match K with Some K => Ok (outward f (K (fdir f))) | None => face_normal J f end
  end.

(** a bface with its box, its face number and the variables oX, oY, oZ *)
Record face := Face { fb : nat; ff : nat; fx : bface; oXi : Z; oYi : Z; oZi : Z }.

Section BC.
Variable n1 n2 n3 : nat -> nat.
(** box->bface[fi] *)
Variable bfaces : nat -> nat -> face.
Variable jac : nat -> nat -> option (nat -> v3).
(** box->v[i][p] for i = oXi, oYi, oZi *)
Variable crd : nat -> Z -> nat -> R.
Variable bbox : nat -> nat -> R.
Variable interp3 : nat -> (nat -> R) -> R -> R -> R -> R.
Variable interp2 : nat -> nat -> nat -> (nat -> R) -> R -> R -> R.

Definition nnod (b : nat) : nat := (n1 b * n2 b * n3 b)%nat.
(** box->v[i][p], p an int *)
Definition rdv (u : field) (i b : nat) (p : Z) : res R := if ((0 <=? p) && (p <? Z.of_nat (nnod b)))%Z then Ok (u (i, b, Z.to_nat p)) else UB.
Definition wrv (u : field) (i b p : nat) (x : R) : res field := if (p <? nnod b)%nat then Ok (setf u (i, b, p) x) else UB.
(** the three indices idPsi[1..3] *)
Definition ids := (nat * nat * nat)%type.
Definition rd3 (u : field) (id : ids) (b : nat) (p : Z) : res v3 :=
  let '(i1, i2, i3) := id in do x <- rdv u i1 b p; do y <- rdv u i2 b p; do z <- rdv u i3 b p; Ok (x, y, z).
Definition vsub (a b : v3) : v3 := let '(a1, a2, a3) := a in let '(b1, b2, b3) := b in (a1 - b1, a2 - b2, a3 - b3).

(** forPointList_inbox, sgrid_MemoryMan_loops.h:84-87: point[b][0] is read before npoints[b] is tested, and point[b] of a list without
    points is NULL *)
Fixpoint pts_from (pi : nat) (l : list nat) (body : nat -> nat -> field -> res field) (u : field) : res field :=
  match l with [] => Ok u | p :: l => do u <- body pi p u; pts_from (S pi) l body u end.
Definition for_pts (l : option (list nat)) (body : nat -> nat -> field -> res field) (u : field) : res field :=
  match l with None => UB | Some [] => UB | Some l => pts_from 0 l body u end.

(** ijk_in_other_box_if_same_fpts, BCs_from_bfaces.c:655-677 *)
Definition oijk_same_fpts (fc : face) (pi : nat) : res Z :=
  if (ob (fx fc) <? 0)%Z || (ofi (fx fc) <? 0)%Z then Ok (-1)%Z else
  match fpts (fx (bfaces (Z.to_nat (ob (fx fc))) (Z.to_nat (ofi (fx fc))))) with
  | None => Ok (-1)%Z
  | Some l => Ok (match nth_error l pi with Some q => Z.of_nat q | None => (-1)%Z end)
  end.
(** ijk_in_other_box_if_touch_samePoints_sameCoords, BCs_from_bfaces.c:620-652; bface[-1] is UB *)
Definition oijk_same_coords (fc : face) (pi : nat) : res Z :=
  match fpts (fx fc) with
  | None => UB
  | Some l => match nth_error l pi with
    | None => Ok (-1)%Z
    | Some ijk =>
      if (ob (fx fc) <? 0)%Z then Ok (-1)%Z else if (ofi (fx fc) <? 0)%Z then UB else
      let b := fb fc in let o := Z.to_nat (ob (fx fc)) in
      let of := ff (bfaces o (Z.to_nat (ofi (fx fc)))) in
      let k := (ijk / (n1 b * n2 b))%nat in
      let j := ((ijk - n1 b * n2 b * k) / n1 b)%nat in
      let i := (ijk - n1 b * n2 b * k - n1 b * j)%nat in
      let i := if (fdir of =? 0)%nat then ((n1 o - 1) * (of mod 2))%nat else i in
      let j := if (fdir of =? 1)%nat then ((n2 o - 1) * (of mod 2))%nat else j in
      let k := if (fdir of =? 2)%nat then ((n3 o - 1) * (of mod 2))%nat else k in
      Ok (Z.of_nat (i + n1 o * (j + n2 o * k)))
    end
  end.
(** FPsi_copy_for_bface, BCs_from_bfaces.c:684-730 *)
Definition copy_bface (iF : nat) (fc : face) (iP : nat) (id : ids) (get_oijk : face -> nat -> res Z) (u : field) : res field :=
  if (ob (fx fc) <? 0)%Z then Err else
  let b := fb fc in let o := Z.to_nat (ob (fx fc)) in
  if negb (setnd (fx fc)) then
    for_pts (fpts (fx fc)) (fun pi ind u =>
      do oind <- get_oijk fc pi; do a <- rdv u iP b (Z.of_nat ind); do c <- rdv u iP o oind; wrv u iF b ind (a - c)) u
  else
    for_pts (fpts (fx fc)) (fun pi ind u =>
      do oind <- get_oijk fc pi; do n <- face_normal (jac b ind) (ff fc);
      do a <- rd3 u id b (Z.of_nat ind); do c <- rd3 u id o oind; wrv u iF b ind (vdot n (vsub a c))) u.
(** FPsi_3Dinterp_for_bface, BCs_from_bfaces.c:534-613.  The coefficients are computed before the loop, from the values before it. *)
Definition interp3_bface (iF : nat) (fc : face) (iP : nat) (id : ids) (u : field) : res field :=
  let x := fx fc in
  if (ob x <? 0)%Z then Err else
  if (oXi fc <=? 0)%Z || (oYi fc <=? 0)%Z || (oZi fc <=? 0)%Z then Err else
  let b := fb fc in let o := Z.to_nat (ob x) in
  let I i ind := interp3 o (fun p => u (i, o, p)) (crd b (oXi fc) ind) (crd b (oYi fc) ind) (crd b (oZi fc) ind) in
  let '(i1, i2, i3) := id in
  if negb (setnd x) then
    for_pts (fpts x) (fun _ ind u => do a <- rdv u iP b (Z.of_nat ind); wrv u iF b ind (a - I iP ind)) u
  else
    for_pts (fpts x) (fun _ ind u => do n <- face_normal (jac b ind) (ff fc);
      do a <- rd3 u id b (Z.of_nat ind); wrv u iF b ind (vdot n (vsub a (I i1 ind, I i2 ind, I i3 ind)))) u.
(** FPsi_2Dinterp_for_bface, BCs_from_bfaces.c:377-525 *)
Definition interp2_bface (iF : nat) (fc : face) (plN : nat) (iP : nat) (id : ids) (u : field) : res field :=
  let x := fx fc in
  if (ob x <? 0)%Z then Err else if (ofi x <? 0)%Z then Err else
  let b := fb fc in let o := Z.to_nat (ob x) in
  let of := ff (bfaces o (Z.to_nat (ofi x))) in
  do (op, oC1, oC2, r1, r2) <- match plN with
    | 1%nat => Ok (((n1 o - 1) * (of mod 2))%nat, oYi fc, oZi fc, 2%nat, 4%nat)
    | 2%nat => Ok (((n2 o - 1) * (of mod 2))%nat, oXi fc, oZi fc, 0%nat, 4%nat)
    | 3%nat => Ok (((n3 o - 1) * (of mod 2))%nat, oXi fc, oYi fc, 0%nat, 2%nat)
    | _ => Err
    end;
  if (oC1 <=? 0)%Z || (oC2 <=? 0)%Z then Err else
  let out ind := if Rlt_dec (crd b oC1 ind) (bbox o r1) then true else if Rlt_dec (bbox o (S r1)) (crd b oC1 ind) then true else
                 if Rlt_dec (crd b oC2 ind) (bbox o r2) then true else if Rlt_dec (bbox o (S r2)) (crd b oC2 ind) then true else false in
  let I i ind := interp2 o plN op (fun p => u (i, o, p)) (crd b oC1 ind) (crd b oC2 ind) in
  let '(i1, i2, i3) := id in
  if negb (setnd x) then
    for_pts (fpts x) (fun _ ind u => if out ind then Ok u else do a <- rdv u iP b (Z.of_nat ind); wrv u iF b ind (a - I iP ind)) u
  else
    for_pts (fpts x) (fun _ ind u => if out ind then Ok u else do n <- face_normal (jac b ind) (ff fc);
      do a <- rd3 u id b (Z.of_nat ind); wrv u iF b ind (vdot n (vsub a (I i1 ind, I i2 ind, I i3 ind)))) u.
(** FPsi_1Dinterp_for_bface, BCs_from_bfaces.c:218-369: the loop over the points begins with an errorexit *)
Definition interp1_bface (fc : face) (idir : nat) (u : field) : res field :=
  let x := fx fc in
  if (ob x <? 0)%Z then Err else if (ofi x <? 0)%Z then Err else
  let of := ff (bfaces (Z.to_nat (ob x)) (Z.to_nat (ofi x))) in
  if (1 + fdir of =? idir)%nat then Err else
  do oCi <- match idir with 1%nat => Ok (oXi fc) | 2%nat => Ok (oYi fc) | 3%nat => Ok (oZi fc) | _ => Err end;
  if (oCi <=? 0)%Z then Err else
  for_pts (fpts x) (fun _ _ _ => Err) u.
(** set_interbox_BCs_for_bface, BCs_from_bfaces.c:733-814 *)
Definition bc_bface (iF : nat) (fc : face) (iP : nat) (id : ids) (u : field) : res field :=
  let x := fx fc in
  if (0 <=? ob x)%Z then
    if touch x then
      if same_fpts x then copy_bface iF fc iP id oijk_same_fpts u
      else if sameX x && sameY x && sameZ x then match fpts x with None => Err | Some _ => copy_bface iF fc iP id oijk_same_coords u end
      else if sameX x && sameY x then interp1_bface fc 3 u
      else if sameX x && sameZ x then interp1_bface fc 2 u
      else if sameY x && sameZ x then interp1_bface fc 1 u
      else if sameX x || sameY x || sameZ x then
        interp2_bface iF fc (if sameZ x then 3 else if sameY x then 2 else 1) iP id u
      else Err
    else
      do u <- interp3_bface iF fc iP id u; if setnd x then Err else Ok u
  else Ok u.
(** set_interbox_BCs_for_boxbfaces, BCs_from_bfaces.c:817-827; [nf b] is box->nbfaces *)
Fixpoint bc_faces (iF : nat) (l : list face) (iP : nat) (id : ids) (u : field) : res field :=
  match l with [] => Ok u | fc :: l => do u <- bc_bface iF fc iP id u; bc_faces iF l iP id u end.
Definition box_faces (nf : nat -> nat) (b : nat) : list face := map (bfaces b) (seq 0 (nf b)).
Definition bc_box (nf : nat -> nat) (b iF iP : nat) (id : ids) (u : field) : res field := bc_faces iF (box_faces nf b) iP id u.
(** set_interbox_BC_onface, BCs_from_bfaces.c:832-855; [nd] is the argument setnormalderiv; the flag has one bit *)
Definition with_flag (nd : Z) (fc : face) : face := if (0 <=? nd)%Z then Face (fb fc) (ff fc) (with_nd (Z.odd nd) (fx fc)) (oXi fc) (oYi fc) (oZi fc) else fc.
Definition bc_onface (nf : nat -> nat) (b iF f iP : nat) (id : ids) (nd : Z) (u : field) : res field :=
  bc_faces iF (map (with_flag nd) (filter (fun fc => (ff fc =? f)%nat) (box_faces nf b))) iP id u.
End BC.

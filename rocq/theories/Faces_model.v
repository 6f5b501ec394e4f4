(** Model of the search for pairs of touching box faces, src/utility/Coordinates/Coordinates_set_bfaces.c:1658-1840
    (set_touching_bfaces_of_boxes_with_same_facepoints, set_all_bfaces_with_ob_minus1_to_outerbound), and of the flags that say on which
    of two faces the values and on which the normal derivatives are matched (lines 1396-1411 and 1550-1632).
    doubles are reals.  Each box has the six bfaces made in lines 1672-1673; [st b f] is bface[f] of box b.  A point list fpts is only
    ever given points of its own box.  xyz b ind are the Cartesian coordinates of a point: the C code computes them with x_of_X for
    one box and takes them from the variables x,y,z for the other; both are the same (see Cart_model.v). *)
From Verif Require Import Rutil Cheb_model.
Local Open Scope R_scope.

(** tBface, src/main/MemoryMan/sgrid_MemoryMan.h, without the pointers back to box and grid and the indices of oX,oY,oZ *)
Record bface := BFace { ob : Z; ofi : Z; touch : bool; sameX : bool; sameY : bool; sameZ : bool; same_fpts : bool; off_face : bool; setnd : bool; outerb : bool; fpts : option (list nat) }.
Record gbox := GBox { g1 : nat; g2 : nat; g3 : nat; xyz : nat -> R * R * R }.
Definition faces := nat -> nat -> bface.
Definition fset (st : faces) (b f : nat) (x : bface) : faces := fun b' f' => if ((b' =? b) && (f' =? f))%nat then x else st b' f'.

(** add_empty_bface, storage.c:157-186; calloc makes the flags 0 *)
Definition empty_bface : bface := BFace (-1) (-1) false false false false false false false false None.
(** Coordinates_set_bfaces.c:1666-1674 for boxes b0 ... b0+nb-1 *)
Definition init_faces (b0 nb : nat) (st : faces) : faces := fun b f => if ((b0 <=? b) && (b <? b0 + nb) && (f <? 6))%nat then empty_bface else st b f.

Definition gidx (g : gbox) (i j k : nat) : nat := (i + g1 g * (j + g2 g * k))%nat.
(** Coordinates_set_bfaces.c:1706-1713 (dir, pl) and the loop forplaneN of line 1716: the points of face f in the order of the loop *)
Definition plane_pts (g : gbox) (f : nat) : list nat :=
  let pl n := ((f mod 2) * (n - 1))%nat in
  match (f / 2)%nat with
  | 0%nat => flat_map (fun k => map (fun j => gidx g (pl (g1 g)) j k) (seq 0 (g2 g))) (seq 0 (g3 g))
  | 1%nat => flat_map (fun k => map (fun i => gidx g i (pl (g2 g)) k) (seq 0 (g1 g))) (seq 0 (g3 g))
  | _ => flat_map (fun j => map (fun i => gidx g i j (pl (g3 g))) (seq 0 (g1 g))) (seq 0 (g2 g))
  end.
Definition dist2 (p q : R * R * R) : R := let '(px, py, pz) := p in let '(x, y, z) := q in (px - x) * (px - x) + (py - y) * (py - y) + (pz - z) * (pz - z).
(** nearestXYZ_of_xyz_inplane, findXYZ_of_xyz.c:546-625: (rmin, ind); ind is not initialised before the loop *)
Definition nearest (g : gbox) (f : nat) (p : R * R * R) : R * nat :=
  let s := fold_left (fun s i => let r := dist2 (xyz g i) p in if Rle_dec r (fst s) then (r, i) else if Rlt_dec (fst s) 0 then (r, i) else s) (plane_pts g f) (-1, 0%nat) in
  (if Rlt_dec 0 (fst s) then sqrt (fst s) else fst s, snd s).
(** add_point_to_bface_inbox, storage.c:190-205, for an existing face *)
Definition add_pt (p : nat) (x : bface) : bface :=
  BFace (ob x) (ofi x) (touch x) (sameX x) (sameY x) (sameZ x) (same_fpts x) (off_face x) (setnd x) (outerb x) (Some (match fpts x with None => [p] | Some l => l ++ [p] end)).
(** Coordinates_set_bfaces.c:1728-1756: one point of the plane; [x1] and [x2] are the two bfaces *)
Definition scan_pt (G1 G2 : gbox) (f2 : nat) (x : bface * bface) (ind : nat) : bface * bface :=
  let '(x1, x2) := x in
  let x1 := add_pt ind x1 in
  let '(rmin, ind2) := nearest G2 f2 (xyz G1 ind) in
  let rmin := if Rlt_dec 0 rmin then rmin * rmin else rmin in
  (x1, if dequal rmin 0 then add_pt ind2 x2 else x2).
(** fpts->npoints[q] of a list fpts with points in box own only *)
Definition npts (own q : nat) (l : option (list nat)) : res nat := match l with None => UB | Some l => Ok (if (q =? own)%nat then List.length l else 0%nat) end.
Definition with_pair (o : nat) (fi : nat) (x : bface) : bface := BFace (Z.of_nat o) (Z.of_nat fi) true (sameX x) (sameY x) (sameZ x) true (off_face x) (setnd x) (outerb x) (fpts x).
Definition with_nd (s : bool) (x : bface) : bface := BFace (ob x) (ofi x) (touch x) (sameX x) (sameY x) (sameZ x) (same_fpts x) (off_face x) s (outerb x) (fpts x).
Definition with_fpts (l : option (list nat)) (x : bface) : bface := BFace (ob x) (ofi x) (touch x) (sameX x) (sameY x) (sameZ x) (same_fpts x) (off_face x) (setnd x) (outerb x) l.

Section Search.
Variable grid : nat -> gbox.
Variables b0 nb : nat.
(** Coordinates_set_bfaces.c:1715-1798 for face fi of box b0+b and face fi2 of box b0+b2, b <> b2; the flag says that the fi2 loop ends.
    NOTE: lines 1768-1769 use npoints[b] and npoints[b2], the points are in boxes b0+b and b0+b2. *)
Definition try_pair (b b2 fi fi2 : nat) (st : faces) : res (faces * bool) :=
  let '(x1, x2) := fold_left (scan_pt (grid (b0 + b)%nat) (grid (b0 + b2)%nat) fi2) (plane_pts (grid (b0 + b)%nat) fi) (st (b0 + b)%nat fi, st (b0 + b2)%nat fi2) in
  do m <- match fpts x2 with
          | None => Ok false
          | Some _ => do n1 <- npts (b0 + b) b (fpts x1); do n2 <- npts (b0 + b2) b2 (fpts x2); Ok (n1 =? n2)%nat
          end;
  if m then
    let x1 := with_pair (b0 + b2) fi2 x1 in
    let x2 := with_pair (b0 + b) fi x2 in
    let x2 := with_nd (negb (setnd x1)) x2 in
    Ok (fset (fset st (b0 + b) fi x1) (b0 + b2) fi2 x2, true)
  else Ok (fset (fset st (b0 + b) fi (with_fpts None x1)) (b0 + b2) fi2 (with_fpts None x2), false).
(** Coordinates_set_bfaces.c:1699-1799, the loop over fi2; the second result counts ifaces *)
Fixpoint fi2_loop (b b2 fi : nat) (l : list nat) (s : faces * nat) : res (faces * nat) :=
  match l with
  | [] => Ok s
  | fi2 :: l =>
      if (0 <=? ob (fst s (b0 + b2)%nat fi2))%Z then fi2_loop b b2 fi l s
      else do (st, m) <- try_pair b b2 fi fi2 (fst s); if m then Ok (st, S (snd s)) else fi2_loop b b2 fi l (st, snd s)
  end.
(** Coordinates_set_bfaces.c:1691-1800 *)
Fixpoint fi_loop (b b2 : nat) (l : list nat) (s : faces * nat) : res (faces * nat) :=
  match l with
  | [] => Ok s
  | fi :: l => do s <- (if (0 <=? ob (fst s (b0 + b)%nat fi))%Z then Ok s else fi2_loop b b2 fi (seq 0 6) s); fi_loop b b2 l s
  end.
(** Coordinates_set_bfaces.c:1684-1801 *)
Fixpoint b2_loop (b : nat) (l : list nat) (s : faces * nat) : res (faces * nat) :=
  match l with
  | [] => Ok s
  | b2 :: l => do s <- (if (b2 =? b)%nat then Ok s else fi_loop b b2 (seq 0 6) s); b2_loop b l s
  end.
Fixpoint b_loop (l : list nat) (s : faces * nat) : res (faces * nat) :=
  match l with [] => Ok s | b :: l => do s <- b2_loop b (seq 0 nb) s; b_loop l s end.
(** set_touching_bfaces_of_boxes_with_same_facepoints, Coordinates_set_bfaces.c:1658-1803: the faces and the number of interfaces *)
Definition set_touching (st : faces) : res (faces * nat) := b_loop (seq 0 nb) (init_faces b0 nb st, 0%nat).

(** set_all_bfaces_with_ob_minus1_to_outerbound, Coordinates_set_bfaces.c:1806-1840 *)
Definition with_outer (x : bface) : bface := BFace (ob x) (ofi x) (touch x) (sameX x) (sameY x) (sameZ x) (same_fpts x) (off_face x) (setnd x) true (fpts x).
Definition set_outer (st : faces) : faces :=
  fun b f => if ((b0 <=? b) && (b <? b0 + nb) && (f <? 6))%nat && (ob (st b f) =? -1)%Z
             then with_outer (fold_left (fun x p => add_pt p x) (plane_pts (grid b) f) (st b f)) else st b f.
End Search.

(** zero_setnormalderiv_flag_in_all_bfaces, Coordinates_set_bfaces.c:1396-1411 *)
Definition zero_nd (nboxes : nat) (st : faces) : faces := fun b f => if ((b <? nboxes) && (f <? 6))%nat then with_nd false (st b f) else st b f.
(** set_consistent_flags_in_all_bfaces, Coordinates_set_bfaces.c:1563-1632, one face; the toggles of setnormalderiv_order3 and 4
    (lines 1633-1647) are not modelled *)
Definition consistent_face (snd2 : bool) (st : faces) (b fi : nat) : res faces :=
  let x := st b fi in
  if (ob x <? 0)%Z then Ok st else if (ofi x <? 0)%Z then Ok st else
  let o := Z.to_nat (ob x) in let oi := Z.to_nat (ofi x) in
  let y := st o oi in
  if touch x then
    if negb (touch y) then Err else
    if (ofi y =? Z.of_nat fi)%Z then
      if snd2 then Ok (fset st b fi (with_nd (negb (setnd y)) x)) else Ok (fset st o oi (with_nd (negb (setnd x)) y))
    else Ok (fset st b fi (with_nd (negb (setnd y)) x))
  else Ok st.
Fixpoint consistent_loop (snd2 : bool) (l : list (nat * nat)) (st : faces) : res faces :=
  match l with [] => Ok st | (b, fi) :: l => do st <- consistent_face snd2 st b fi; consistent_loop snd2 l st end.
Definition set_consistent_flags (snd1 snd2 : bool) (nboxes : nat) (st : faces) : res faces :=
  let st := if snd1 || snd2 then zero_nd nboxes st else st in
  consistent_loop snd2 (flat_map (fun b => map (fun f => (b, f)) (seq 0 6)) (seq 0 nboxes)) st.

(** Model of src/utility/Coordinates/findXYZ_of_xyz.c: from (x,y,z) to the nearest grid point, and to the box and the box coordinates of a point.
    A box holds its size, its arrays X,Y,Z,x,y,z (looked up by name in the code), its bbox, and what its coordinates provide.  doubles are reals. *)
From Verif Require Import Rutil Base Loops Sparse_model Cheb_model Dcov_model.
Local Open Scope R_scope.
Notation pt := (R * R * R)%type.
Record fbox := FBox { fd : dims; fX : list R; fY : list R; fZ : list R; fx : list R; fy : list R; fz : list R }.
(** rmin, *ind, *X,*Y,*Z *)
Definition near : Type := R * (nat * pt).
(** the body of the loops, findXYZ_of_xyz.c:378-389, 464-475, 574-584, 591-601, 608-618 *)
Definition near_step (b : fbox) (x y z : R) (i : nat) (s : near) : res near :=
  let '(rmin, o) := s in
  do pxi <- rd (fx b) i; do pyi <- rd (fy b) i; do pzi <- rd (fz b) i;
  let dxi := pxi - x in let dyi := pyi - y in let dzi := pzi - z in
  let r := dxi * dxi + dyi * dyi + dzi * dzi in
  if (if Rle_dec r rmin then true else if Rlt_dec rmin 0 then true else false) then
    do a <- rd (fX b) i; do c <- rd (fY b) i; do e <- rd (fZ b) i; Ok (r, (i, (a, c, e)))
  else Ok s.
(** if(rmin>0.) rmin = sqrt(rmin); *)
Definition near_end (s : near) : near := let '(rmin, o) := s in (if Rlt_dec 0 rmin then sqrt rmin else rmin, o).
Definition nnodes (b : fbox) : nat := (d1 (fd b) * d2 (fd b) * d3n (fd b))%nat.
(** nearestXYZ_of_xyz, findXYZ_of_xyz.c:364-393; [o] are the values of *ind,*X,*Y,*Z at the call *)
Definition nearestXYZ_of_xyz (b : fbox) (x y z : R) (o : nat * pt) : res near :=
  do s <- for_nat 0 (nnodes b) (near_step b x y z) (-1, o); Ok (near_end s).
(** nearestinnerXYZ_of_xyz, guessXYZ_of_xyz, findXYZ_of_xyz.c:439-478, 535-543 *)
Definition nearestinnerXYZ_of_xyz (b : fbox) (x y z : R) (o : nat * pt) : res near :=
  let '(n1, n2, n3) := (d1 (fd b), d2 (fd b), d3n (fd b)) in
  do s <- for_nat 1 (n3 - 1) (fun k => for_nat 1 (n2 - 1) (fun j => for_nat 1 (n1 - 1) (fun i => near_step b x y z (idx (fd b) i j k)))) (-1, o); Ok (near_end s).
(** nearestXYZ_of_xyz_inplane, findXYZ_of_xyz.c:546-625; px == NULL is not modelled *)
Definition nearestXYZ_of_xyz_inplane (b : fbox) (x y z : R) (plane pind : nat) (o : nat * pt) : res near :=
  let '(n1, n2, n3) := (d1 (fd b), d2 (fd b), d3n (fd b)) in
  do s <- match plane with
    | 1%nat => for_nat 0 n3 (fun k => for_nat 0 n2 (fun j => near_step b x y z (idx (fd b) pind j k))) (-1, o)
    | 2%nat => for_nat 0 n3 (fun k => for_nat 0 n1 (fun i => near_step b x y z (idx (fd b) i pind k))) (-1, o)
    | 3%nat => for_nat 0 n2 (fun j => for_nat 0 n1 (fun i => near_step b x y z (idx (fd b) i j pind))) (-1, o)
    | _ => Err
    end; Ok (near_end s).
(** nearest_b_XYZ_of_xyz (with all active boxes) and nearest_b_XYZ_of_xyz_inboxlist, findXYZ_of_xyz.c:396-436; the state is rmin, *b, *ind, *X,*Y,*Z.
    [j] stands for the uninitialised locals ind1,X1,Y1,Z1 *)
Definition nearest_b_loop (grid : nat -> fbox) (x y z : R) (j : nat * pt) (l : list nat) (o : nat * (nat * pt)) : res (R * (nat * (nat * pt))) :=
  forl l (fun bi s => let '(rmin, o) := s in
    do (r, o1) <- nearestXYZ_of_xyz (grid bi) x y z j;
    if (if Rle_dec r rmin then true else if Rlt_dec rmin 0 then true else false) then Ok (r, (bi, o1)) else Ok s) (-1, o).
Definition nearest_b_XYZ_of_xyz (grid : nat -> fbox) (active : nat -> bool) (nboxes : nat) (x y z : R) (j : nat * pt) (o : nat * (nat * pt)) :=
  nearest_b_loop grid x y z j (filter active (seq 0 nboxes)) o.
(** *** faces *)
(** XYZ_on_face, findXYZ_of_xyz.c:481-503; the face flags and the number of faces *)
Definition comp (X Y Z : R) (dir : nat) : R := match dir with 1%nat => X | 2%nat => Y | _ => Z end.
Definition XYZ_on_face (bb : nat -> R) (X Y Z : R) : list bool * nat :=
  let face := map (fun f => dequal (comp X Y Z (1 + f / 2)) (bb f)) (seq 0 6) in (face, count_occ Bool.bool_dec face true).
(** moveXYZ_off_face, findXYZ_of_xyz.c:506-533: a later face overwrites the step of an earlier one of the same direction *)
Definition face_step (bb : nat -> R) (face : list bool) (d : nat) : R :=
  let LX := bb (2 * d + 1)%nat - bb (2 * d)%nat in
  if nth (2 * d + 1)%nat face false then 1 / 1000000 * LX * (1 - 2 * 1) else if nth (2 * d)%nat face false then 1 / 1000000 * LX * (1 - 2 * 0) else 0.
Definition moveXYZ_off_face (bb : nat -> R) (X Y Z : R) : nat * pt :=
  let '(face, nf) := XYZ_on_face bb X Y Z in
  if Nat.eqb nf 0 then (nf, (X, Y, Z)) else (nf, (X + face_step bb face 0, Y + face_step bb face 1, Z + face_step bb face 2)).
(** *** the box coordinates of a point *)
(** what a box offers: [x_of_X] (None: Cartesian), its own inverse XYZ_Of_xyz called with ind=-1, the singularity test with its recovery, and newton_linesrch_itsP started at a guess: (stat, check, point) *)
Record cbox' := CBox { x_of_X : option (pt -> pt); XYZ_Of : option (R -> R -> R -> res (Z * pt)); recover : pt -> R -> R -> R -> option (res (Z * pt)); newton : pt -> R -> R -> R -> Z * bool * pt; guess : option (pt -> R -> R -> R -> pt) }.
(** check_xyz_error, findXYZ_of_xyz.c:156-191: (stat, err) *)
Definition check_xyz_error (xyz_of : pt -> pt) (p : pt) (x y z tol : R) : Z * R :=
  let '(xg, yg, zg) := xyz_of p in
  let err := sqrt ((xg - x) * (xg - x) + (yg - y) * (yg - y) + (zg - z) * (zg - z)) in
  let r := sqrt (x * x + y * y + z * z) in let err := if Rlt_dec 0 r then err / r else err in
  (if Rlt_dec (tol * 100) err then (-1)%Z else 1%Z, err).
(** XYZ_of_xyz, findXYZ_of_xyz.c:46-153: (return value, *X,*Y,*Z) from the guess [g] *)
Definition XYZ_of_xyz (c : cbox') (tol : R) (g : pt) (x y z : R) : res (Z * pt) :=
  match x_of_X c with
  | None => Ok (0%Z, (x, y, z))
  | Some xyz_of =>
      match XYZ_Of c with
      | Some f => f x y z
      | None =>
          let g := match guess c with Some h => h g x y z | None => g end in
          match recover c g x y z with
          | Some r => r
          | None =>
              let '(stat, check, p) := newton c g x y z in
              if check || (stat <? 0)%Z then
                let '(stat2, err) := check_xyz_error xyz_of p x y z tol in
                let '(stat, check) := if check then if (stat2 =? 1)%Z then (Z.abs stat, false) else (- Z.abs stat - 1, check)%Z else (stat, check) in
                Ok ((stat - (if check then 1 else 0))%Z, p)
              else Ok ((stat - (if check then 1 else 0))%Z, p)
          end
      end
  end.
(** dless, sgrid_main.h:90 *)
Definition dless (a b : R) : bool := if Rlt_dec a (b - dequaleps) then true else false.
(** if(dless(X1,lo) || dless(hi,X1)) *)
Definition outside_by (X lo hi : R) : bool := dless X lo || dless hi X.
(** round inside the box, findXYZ_of_xyz.c:303-308 *)
Definition round_in (X lo hi : R) : R := let X := if Rlt_dec X lo then lo else X in if Rlt_dec hi X then hi else X.
(** the loops of b_XYZ_of_xyz and b_XYZ_of_xyz_inboxlist, findXYZ_of_xyz.c:286-314, 320-361; [solve bi g] is the call of XYZ_of_xyz and [bb bi] the bbox *)
Fixpoint b_loop (solve : nat -> pt -> res (Z * pt)) (bb : nat -> nat -> R) (l : list nat) (g : pt) : res (option (nat * pt)) :=
  match l with
  | [] => Ok None
  | bi :: l =>
      do (stat, (X1, Y1, Z1)) <- solve bi g;
      if (stat <? 0)%Z then b_loop solve bb l g
      else if outside_by X1 (bb bi 0%nat) (bb bi 1%nat) then b_loop solve bb l g
      else if outside_by Y1 (bb bi 2%nat) (bb bi 3%nat) then b_loop solve bb l g
      else if outside_by Z1 (bb bi 4%nat) (bb bi 5%nat) then b_loop solve bb l g
      else Ok (Some (bi, (round_in X1 (bb bi 0%nat) (bb bi 1%nat), round_in Y1 (bb bi 2%nat) (bb bi 3%nat), round_in Z1 (bb bi 4%nat) (bb bi 5%nat))))
  end.
Definition b_XYZ_of_xyz (solve : nat -> pt -> res (Z * pt)) (bb : nat -> nat -> R) (active : nat -> bool) (nboxes : nat) (g : pt) : res (Z * pt) :=
  do o <- b_loop solve bb (filter active (seq 0 nboxes)) g; Ok (match o with Some (bi, p) => (Z.of_nat bi, p) | None => (- Z.of_nat nboxes - 10000, g)%Z end).
Definition b_XYZ_of_xyz_inboxlist (solve : nat -> pt -> res (Z * pt)) (bb : nat -> nat -> R) (blist : list nat) (g : pt) : res (Z * pt) :=
  do o <- b_loop solve bb blist g; Ok (match o with Some (bi, p) => (Z.of_nat bi, p) | None => (- Z.of_nat (last blist 0%nat) - 10000, g)%Z end).

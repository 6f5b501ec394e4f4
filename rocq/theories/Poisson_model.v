(** Model of the two example problems with two coupled fields: src/physics/Poisson2/Poisson2.c:256-398 and src/physics/Poisson3/Poisson3.c:330-427,
    src/physics/Poisson3/Poisson3_BCs.c:17-152: the equations F, their linearisations J and the boundary conditions.
    doubles are reals.  The fields Psi, Chi, their derivatives and the residuals have fixed numbers: VLuAll->index[k] is k (Psi 0, Psix 1-3,
    Psixx 4-9, Chi 10, Chix 11-13, Chixx 14-19, rh1 20, rh2 21), VLFu is 22, 23; the duplicates with names ending in _l (VLlu, VLluAll, VLJlu) have
    the numbers plus 24.  In the C code these are any numbers, different for different variables.  D_and_DD_of_S (see Cart_model.v) is a
    parameter: [DS b m] maps the values in box b to derivative number m = 0..2 (first) and 3..8 (second).  erf is a parameter. *)
From Verif Require Import Rutil Base Bound_model Faces_model Bc_model.
Local Open Scope R_scope.

Section Poisson.
Variable nb : nat.
Variable n1 n2 n3 : nat -> nat.
Variable bfaces : nat -> nat -> face.
Variable nf : nat -> nat.
Variable jac : nat -> nat -> option (nat -> v3).
Variable crd : nat -> Z -> nat -> R.
Variable bbox : nat -> nat -> R.
Variable interp3 : nat -> (nat -> R) -> R -> R -> R -> R.
Variable interp2 : nat -> nat -> nat -> (nat -> R) -> R -> R -> R.
Variable DS : nat -> nat -> (nat -> R) -> nat -> R.
Variable erf : R -> R.
(** px != NULL, the variables x,y,z and X,Y,Z *)
Variable hasx : nat -> bool.
Variable xyz XYZ : nat -> nat -> R * R * R.

(** a loop over all points of a box that sets variable i; numbers beyond the last point do not exist in the C code, here they are set as well *)
Definition set_row (u : field) (i b : nat) (g : nat -> R) : field :=
  fun l => let '(i', b', p) := l in if ((i' =? i) && (b' =? b))%nat then g p else u l.
(** D_and_DD_of_S(box, iS, id, idd) with idd = id + 3 *)
Definition derivs (b iS id : nat) (u : field) : field :=
  fold_left (fun w m => set_row w (id + m) b (DS b m (fun p => u (iS, b, p)))) (seq 0 9) u.

(** Poisson2.c:281-290, 322-331 *)
Definition rows2 (o : nat) (nonlin : bool) (b : nat) (u : field) : field :=
  let u := derivs b (o + 0) (o + 1) u in
  let u := derivs b (o + 10) (o + 11) u in
  let v k p := u (o + k, b, p)%nat in
  let u' := set_row u (o + 22) b (fun p => if nonlin then v 4%nat p + v 7%nat p + v 9%nat p - v 20%nat p else v 4%nat p + v 7%nat p + v 9%nat p) in
  set_row u' (o + 23) b (fun p => if nonlin then v 14%nat p + v 17%nat p + v 19%nat p - v 21%nat p else v 14%nat p + v 17%nat p + v 19%nat p).
(** forplane1, in the order of the C loop *)
Definition plane1 (b i : nat) : list nat := flat_map (fun k => map (fun j => (i + n1 b * (j + n2 b * k))%nat) (seq 0 (n2 b))) (seq 0 (n3 b)).
(** Poisson2_set_BCs, Poisson2.c:366-398; [sph] is Getv("Poisson2_grid","SphericalDF") *)
Definition bc2_box (sph : bool) (o : nat) (nl : R) (vind b : nat) (u : field) : field :=
  if sph then
    let iF := (o + 22 + vind)%nat in let iP := (o + 10 * vind)%nat in
    let u := fold_left (fun u p => setf u (iF, b, p) (u (iP, b, p) - 1 * (INR vind + 1) * nl)) (plane1 b 0) u in
    fold_left (fun u p => setf u (iF, b, p) (u (iP, b, p) - / 2 * (INR vind + 1) * nl)) (plane1 b (n1 b - 1)) u
  else u.
Definition bc2 (sph : bool) (o : nat) (nl : R) (u : field) : field :=
  fold_left (fun u vb => bc2_box sph o nl (fst vb) (snd vb) u) (list_prod [0; 1]%nat (seq 0 nb)) u.
(** F_Poisson2 and J_Poisson2 *)
Definition F2 (sph : bool) (u : field) : field := bc2 sph 0 1 (fold_left (fun u b => rows2 0 true b u) (seq 0 nb) u).
Definition J2 (sph : bool) (u : field) : field := bc2 sph 24 0 (fold_left (fun u b => rows2 24 false b u) (seq 0 nb) u).

(** F_Poisson3, Poisson3.c:356-366 *)
Definition rows3F (b : nat) (u : field) : field :=
  let u := derivs b 0 1 u in
  let u := derivs b 10 11 u in
  let v k p := u (k, b, p) in
  let u' := set_row u 22 b (fun p => v 10%nat p * v 4%nat p + v 7%nat p + v 10%nat p * v 10%nat p * v 9%nat p - v 20%nat p) in
  set_row u' 23 b (fun p => v 14%nat p + v 1%nat p * v 17%nat p + v 19%nat p - v 21%nat p).
(** J_Poisson3, Poisson3.c:411-421; NOTE the last term 2.0*lChi*Psizz *)
Definition rows3J (b : nat) (u : field) : field :=
  let u := derivs b 24 25 u in
  let u := derivs b 34 35 u in
  let v k p := u (k, b, p) in
  let l k p := u (24 + k, b, p)%nat in
  let u' := set_row u 46 b (fun p => v 10%nat p * l 4%nat p + l 10%nat p * v 4%nat p + l 7%nat p + v 10%nat p * v 10%nat p * l 9%nat p + 2 * l 10%nat p * v 9%nat p) in
  set_row u' 47 b (fun p => l 14%nat p + v 1%nat p * l 17%nat p + l 1%nat p * v 17%nat p + l 19%nat p).
(** Poisson3_BCs.c:76-91 *)
Definition outer_Psi (x y z : R) : R := let r := sqrt (x * x + y * y + z * z) in 1 / (4 * PI * r) * erf r.
Definition outer_1 (_ _ _ : R) : R := 1.
Definition outer_0 (_ _ _ : R) : R := 0.
(** one face, Poisson3_BCs.c:35-72.  NOTE: py and pz are exchanged in lines 53-54 *)
Definition bc3_face (iF iP : nat) (id : ids) (obc : R -> R -> R -> R) (fc : face) (u : field) : res field :=
  if (0 <=? ob (fx fc))%Z then bc_bface n1 n2 n3 bfaces jac crd bbox interp3 interp2 iF fc iP id u
  else if outerb (fx fc) then
    let b := fb fc in
    for_pts (fpts (fx fc)) (fun _ ind u =>
      let '(x, y, z) := if hasx b then let '(x, y, z) := xyz b ind in (x, z, y) else XYZ b ind in
      do a <- rdv n1 n2 n3 u iP b (Z.of_nat ind); wrv n1 n2 n3 u iF b ind (a - obc x y z)) u
  else Ok u.
Fixpoint bc3_faces (iF iP : nat) (id : ids) (obc : R -> R -> R -> R) (l : list face) (u : field) : res field :=
  match l with [] => Ok u | fc :: l => do u <- bc3_face iF iP id obc fc u; bc3_faces iF iP id obc l u end.
(** the loop over the boxes, Poisson3_BCs.c:127-146; [bi] is blkinfo->bi *)
Fixpoint bc3_boxes (bi : option nat) (iF iP : nat) (id : ids) (obc : R -> R -> R -> R) (l : list nat) (u : field) : res field :=
  match l with
  | [] => Ok u
  | b :: l => do u <- (if match bi with Some c => (b =? c)%nat | None => true end then bc3_faces iF iP id obc (map (bfaces b) (seq 0 (nf b))) u else Ok u);
              bc3_boxes bi iF iP id obc l u
  end.
(** Poisson3_set_BCs, Poisson3_BCs.c:95-152; [blk] is blkinfo: the variable (as number in its list) and the box.  vindDerivs is 1 and then
    1 + 3 + 6*1 + 1 = 11, as the variables are scalars *)
Definition bc3 (o : nat) (nonlin : bool) (blk : option (nat * nat)) (u : field) : res field :=
  let one vind vd obc u :=
    if match blk with Some (v, _) => (vind =? v)%nat | None => true end
    then bc3_boxes (option_map snd blk) (o + 22 + vind) (o + 10 * vind) (o + vd, o + vd + 1, o + vd + 2)%nat obc (seq 0 nb) u else Ok u in
  do u <- one 0%nat 1%nat (if nonlin then outer_Psi else outer_0) u;
  one 1%nat (1 + 3 + (6 * 1 + 1))%nat (if nonlin then outer_1 else outer_0) u.
Definition F3 (blk : option (nat * nat)) (u : field) : res field := bc3 0 true blk (fold_left (fun u b => rows3F b u) (seq 0 nb) u).
Definition J3 (blk : option (nat * nat)) (u : field) : res field := bc3 24 false blk (fold_left (fun u b => rows3J b u) (seq 0 nb) u).
End Poisson.

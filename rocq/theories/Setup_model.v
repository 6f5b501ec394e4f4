(** Model of src/utility/Coordinates/setup_CubedSpheres.c: arrangements of cubes and sphered cubes.
    A grid is the list of its boxes.  Of a box we keep the parameters that say how it is placed: the coordinates (boxN_Coordinates), the limits (boxN_min1 ... boxN_max3) and box->CI.  Numbers written into parameters as text are read back unchanged.  set_BoxStructures_fromPars, which builds points and bases from these parameters, and the removal of the face information are left out.  The variable Coordinates_CubedSphere_sigma01_def is taken as not enabled, so that the surfaces keep the radii box->CI->s. *)
From Verif Require Import Rutil Base Loops Sparse_model Coord_model Cub_model.
Local Open Scope R_scope.
Inductive cname := Cartesian | CubedSphere | stretchedCubedSphere.
Record gbox := MkG { gname : cname; gmin : d3 -> R; gmax : d3 -> R; gci : CInfo }.
(** box->CI and the limits as used by coordtrans_CubedSphere.c *)
Definition as_cbox (g : gbox) : cbox := MkCB (gci g) 0 0 (gmin g D2) (gmax g D2) (gmin g D3) (gmax g D3) (fun _ => None) (fun _ _ _ _ => 0).
(** the point with box coordinates (X,Y,Z), box->x_of_X[1..3] as chosen by init_CoordTransform_And_Derivs, Coordinates.c, for these names; Cartesian boxes have none and use X,Y,Z *)
Definition box_point (g : gbox) (X Y Z : R) : res (R * R * R) :=
  match gname g with Cartesian => Ok (X, Y, Z) | CubedSphere => xyz_of_lamAB_CubSph (as_cbox g) (-1) X Y Z | stretchedCubedSphere => xyz_of_rhoAB_CubSph (as_cbox g) (-1) X Y Z end.
(** set_AB_min_max_from_Din, setup_CubedSpheres.c:136-189: (Amin, Amax, Bmin, Bmax) *)
Definition set_AB_min_max_from_Din (dm : nat) (Din : nat -> R) : res (R * R * R * R) :=
  match dm with
  | 0 => Ok (- Din 3%nat / Din dm, Din 2%nat / Din dm, - Din 5%nat / Din dm, Din 4%nat / Din dm)
  | 1 => Ok (- Din 2%nat / Din dm, Din 3%nat / Din dm, - Din 4%nat / Din dm, Din 5%nat / Din dm)
  | 2 => Ok (- Din 1%nat / Din dm, Din 0%nat / Din dm, - Din 5%nat / Din dm, Din 4%nat / Din dm)
  | 3 => Ok (- Din 0%nat / Din dm, Din 1%nat / Din dm, - Din 4%nat / Din dm, Din 5%nat / Din dm)
  | 4 => Ok (- Din 3%nat / Din dm, Din 2%nat / Din dm, - Din 1%nat / Din dm, Din 0%nat / Din dm)
  | 5 => Ok (- Din 2%nat / Din dm, Din 3%nat / Din dm, - Din 0%nat / Din dm, Din 1%nat / Din dm)
  | _ => Err
  end.
(** one turn of the loop of convert_6boxes_to_CubedSphere, setup_CubedSpheres.c:239-337 (without the part about sigma01_def) *)
Definition convert_box (g : gbox) (i : nat) (t : ctype) (stretch : bool) (c : d3 -> R) (Din Dout : nat -> R) : res gbox :=
  do (Amin, Amax, Bmin, Bmax) <- set_AB_min_max_from_Din i Din;
  let o := gci g in
  Ok (MkG (if stretch then stretchedCubedSphere else CubedSphere) (tab 0 Amin Bmin) (tab 1 Amax Bmax)
          (MkCI i t (c D1) (c D2) (c D3) (fun si => if si then Dout i else Din i) (iSurf o) (idA o) (idB o) (useF o) (FSurf o) (dFA o) (dFB o))).
(** convert_6boxes_to_CubedSphere, setup_CubedSpheres.c:192-346; the loop ends early when the grid has no more boxes *)
Definition convert_6boxes_to_CubedSphere (g : list gbox) (b0 : nat) (t : ctype) (stretch : bool) (c : d3 -> R) (Din Dout : nat -> R) : res (list gbox * nat) :=
  match t with
  | CoordInfoNotSet => Err
  | _ =>
    let n := Nat.min 6 (List.length g - b0) in
    do g' <- for_nat 0 n (fun i g => do b <- rd g (b0 + i); do b' <- convert_box b i t stretch c Din Dout; wr g (b0 + i) b') g;
    Ok (g', (b0 + n)%nat)
  end.
(** convert_1box_to_cube, setup_CubedSpheres.c:392-429; grid->box[b0] is read before the number of boxes is looked at *)
Definition convert_1box_to_cube (g : list gbox) (b0 : nat) (c : d3 -> R) (dout : R) : res (list gbox * nat) :=
  do b <- rd g b0; do g' <- wr g b0 (MkG Cartesian (fun k => c k - dout) (fun k => c k + dout) (gci b)); Ok (g', (b0 + 1)%nat).
(** arrange_12CubSph_into_empty_cube, setup_CubedSpheres.c:445-469 *)
Definition arrange_12CubSph_into_empty_cube (g : list gbox) (b0 : nat) (c : d3 -> R) (din dmid dout : R) : res (list gbox * nat) :=
  do (g, bl) <- convert_6boxes_to_CubedSphere g b0 outerCubedSphere false c (fun _ => din) (fun _ => dmid);
  convert_6boxes_to_CubedSphere g bl innerCubedSphere false c (fun _ => dmid) (fun _ => dout).
(** arrange_1box12CubSph_into_full_cube, setup_CubedSpheres.c:472-479 *)
Definition arrange_1box12CubSph_into_full_cube (g : list gbox) (b0 : nat) (c : d3 -> R) (din dmid dout : R) : res (list gbox * nat) :=
  do (g, bl) <- convert_1box_to_cube g b0 c din; arrange_12CubSph_into_empty_cube g bl c din dmid dout.
(** two_full_cubes_touching_at_x0, setup_CubedSpheres.c:495-525 *)
Definition two_full_cubes_touching_at_x0 (g : list gbox) (b0 : nat) (dc din1 dmid1 din2 dmid2 : R) : res (list gbox * nat) :=
  do (g, bl) <- arrange_1box12CubSph_into_full_cube g b0 (tab dc 0 0) din1 dmid1 dc;
  arrange_1box12CubSph_into_full_cube g bl (tab (- dc) 0 0) din2 dmid2 dc.
(** sphere_around_two_full_cubes_touching_at_x0, setup_CubedSpheres.c:541-563 *)
Definition sphere_around_two_full_cubes_touching_at_x0 (g : list gbox) (b0 : nat) (dc din1 dmid1 din2 dmid2 r0 : R) : res (list gbox * nat) :=
  do (g, bl) <- two_full_cubes_touching_at_x0 g b0 dc din1 dmid1 din2 dmid2;
  convert_6boxes_to_CubedSphere g bl outerCubedSphere false (tab 0 0 0) (fun i => if (i <? 2)%nat then 2 * dc else dc) (fun _ => r0).
(** two_spheres_around_two_full_cubes, setup_CubedSpheres.c:587-608 *)
Definition two_spheres_around_two_full_cubes (g : list gbox) (b0 : nat) (dc din1 dmid1 din2 dmid2 r0 r1 : R) : res (list gbox * nat) :=
  do (g, bl) <- sphere_around_two_full_cubes_touching_at_x0 g b0 dc din1 dmid1 din2 dmid2 r0;
  convert_6boxes_to_CubedSphere g bl CubedShell true (tab 0 0 0) (fun _ => r0) (fun _ => r1).

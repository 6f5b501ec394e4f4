(** Model of src/utility/Coordinates/cartesianDerivs.c: Cartesian derivatives from spectral derivatives and the coordinate derivatives of a box, and of compute_xyz_dXYZdxyz_ddXYZddxyz of Coordinates.c, which stores the coordinate derivatives.
    A box has variables box->v[i], each NULL or an array; the functions get their arrays as variable indices instead of pointers (every caller modelled here passes box->v[i]).  The spectral derivatives spec_Deriv1 and spec_allDerivs are parameters (D and DD: direction(s) and array to array); the hooks box->Sing_d_dx, which none of the modelled coordinate systems sets, are left out, and the parallel loops over the points are run in order. *)
From Verif Require Import Rutil Base Loops Sparse_model Coord_model.
Local Open Scope R_scope.
(** box->v *)
Definition vars := nat -> option (list R).
Definition deref (v : vars) (i : nat) : res (list R) := match v i with Some a => Ok a | None => UB end.
Definition vset (v : vars) (i : nat) (a : list R) : vars := fun j => if Nat.eqb j i then Some a else v j.
(** v[i][k] and v[i][k] = x *)
Definition ld (v : vars) (i k : nat) : res R := do a <- deref v i; rd a k.
Definition st (v : vars) (i k : nat) (x : R) : res vars := do a <- deref v i; do a' <- wr a k x; Ok (vset v i a').
Definition allocated (v : vars) (i : nat) : bool := match v i with Some _ => true | None => false end.
(** the C loops for(i=1; i<=3; i++); index 1,2,3 minus one *)
Definition dirs : list d3 := [D1; D2; D3].
Definition ix (i : d3) : nat := match i with D1 => 0%nat | D2 => 1%nat | D3 => 2%nat end.
(** for(n=m; n<=3; n++) *)
Definition dirs_from (m : d3) : list d3 := match m with D1 => [D1; D2; D3] | D2 => [D2; D3] | D3 => [D3] end.
(** Ind("X"), ..., Ind("ddZddxx") *)
Record gvars := GVars { vX : nat; vY : nat; vZ : nat; vx : nat; vy : nat; vz : nat; dXd : nat; dYd : nat; dZd : nat; ddXdd : nat; ddYdd : nat; ddZdd : nat }.
(** a box: number of points and coordinate functions; x_of_X[1] == NULL (Cartesian coordinates) is None *)
Record tbox := TBox { nnodes : nat; coord : option coords }.
(** what the index arithmetic dXd+3*(i-1)+m-1 and ddXdd+6*(i-1)+... of cartesianDerivs.c:143, 155-156, 200, 307-308 computes *)
Definition dX_ind (g : gvars) (i m : d3) : nat := (dXd g + 3 * ix i + ix m)%nat.
Definition ddX_ind (g : gvars) (i m n : d3) : nat := (match m with D1 => ddXdd g + 6 * ix i + ix n | _ => ddXdd g + 6 * ix i + (ix m + 1) + ix n end)%nat.
(** X, Y, Z at a point *)
Definition point (g : gvars) (v : vars) (ind : nat) : res (R * R * R) :=
  do X <- ld v (vX g) ind; do Y <- ld v (vY g) ind; do Z <- ld v (vZ g) ind; Ok (X, Y, Z).
(** dX_dx and ddX_dxdx, cartesianDerivs.c:139-162, inlined at 200, 228, 298, 307-318, 359, 367, 375-376; [stored] is the test box->v[dXd] != NULL.  A NULL function pointer is called if ddX_dxdx is not set: UB *)
Definition coefX (g : gvars) (C : coords) (v : vars) (stored : bool) (i m : d3) (ind : nat) : res R :=
  if stored then ld v (dX_ind g i m) ind else do p <- point g v ind; let '(X, Y, Z) := p in Ok (dX_dx C i m X Y Z).
Definition coefXX (g : gvars) (C : coords) (v : vars) (stored : bool) (i m n : d3) (ind : nat) : res R :=
  if stored then ld v (ddX_ind g i m n) ind
  else do p <- point g v ind; let '(X, Y, Z) := p in match ddX_dxdx C i m n with Some F => Ok (F X Y Z) | None => UB end.
(** dv[m] at one point, cartesianDerivs.c:193-201, 222-229 *)
Definition cart_dv (g : gvars) (C : coords) (stored : bool) (du : d3 -> nat) (v : vars) (ind : nat) (m : d3) : res R :=
  forl dirs (fun i s => do a <- coefX g C v stored i m ind; do x <- ld v (du i) ind; Ok (s + a * x)) 0.
(** one pass of the loop over the points, cartesianDerivs.c:187-205, 210-233 *)
Definition cart_point (g : gvars) (C : coords) (stored : bool) (du : d3 -> nat) (ind : nat) (v : vars) : res vars :=
  do d1 <- cart_dv g C stored du v ind D1; do d2 <- cart_dv g C stored du v ind D2; do d3 <- cart_dv g C stored du v ind D3;
  do v <- st v (du D1) ind d1; do v <- st v (du D2) ind d2; st v (du D3) ind d3.
(** spec_Deriv1(box, j, u, uj) *)
Definition deriv1 (D : d3 -> list R -> list R) (j : d3) (iu ij : nat) (v : vars) : res vars :=
  do u <- deref v iu; do _ <- deref v ij; Ok (vset v ij (D j u)).
(** cart_partials, cartesianDerivs.c:168-244 *)
Definition cart_partials (b : tbox) (g : gvars) (D : d3 -> list R -> list R) (iu i1 i2 i3 : nat) (v : vars) : res vars :=
  do v <- deriv1 D D1 iu i1 v; do v <- deriv1 D D2 iu i2 v; do v <- deriv1 D D3 iu i3 v;
  match coord b with
  | None => Ok v
  | Some C => let stored := allocated v (dXd g) in for_nat 0 (nnodes b) (cart_point g C stored (tab i1 i2 i3)) v
  end.
(** the array of pointers ddu[i][j], cartesianDerivs.c:269-271: the entries below the diagonal alias those above *)
Definition ddu_ind (a : nat -> nat) (i j : d3) : nat :=
  a (match i, j with D1, D1 => 0 | D1, D2 | D2, D1 => 1 | D1, D3 | D3, D1 => 2 | D2, D2 => 3 | D2, D3 | D3, D2 => 4 | D3, D3 => 5 end)%nat.
(** ddv[m][n] at one point, cartesianDerivs.c:300-320, 361-378 *)
Definition cart_ddv (g : gvars) (C : coords) (stored : bool) (du : d3 -> nat) (ddu : d3 -> d3 -> nat) (v : vars) (ind : nat) (m n : d3) : res R :=
  do s <- forl dirs (fun i s => do a <- coefXX g C v stored i m n ind; do x <- ld v (du i) ind; Ok (s + a * x)) 0;
  forl dirs (fun i => forl dirs (fun j s => do a <- coefX g C v stored i m ind; do b <- coefX g C v stored j n ind; do x <- ld v (ddu i j) ind; Ok (s + a * b * x))) s.
(** one pass of the loop over the points, cartesianDerivs.c:280-330, 335-388: all values are computed, then copied *)
Definition cart_point_all (g : gvars) (C : coords) (stored : bool) (du : d3 -> nat) (ddu : d3 -> d3 -> nat) (ind : nat) (v : vars) : res vars :=
  do d1 <- cart_dv g C stored du v ind D1; do d2 <- cart_dv g C stored du v ind D2; do d3 <- cart_dv g C stored du v ind D3;
  let dd := cart_ddv g C stored du ddu v ind in
  do d11 <- dd D1 D1; do d12 <- dd D1 D2; do d13 <- dd D1 D3; do d22 <- dd D2 D2; do d23 <- dd D2 D3; do d33 <- dd D3 D3;
  do v <- st v (du D1) ind d1; do v <- st v (ddu D1 D1) ind d11; do v <- st v (ddu D1 D2) ind d12; do v <- st v (ddu D1 D3) ind d13;
  do v <- st v (du D2) ind d2; do v <- st v (ddu D2 D2) ind d22; do v <- st v (ddu D2 D3) ind d23;
  do v <- st v (du D3) ind d3; st v (ddu D3 D3) ind d33.
(** spec_allDerivs(box, u, u1,u2,u3, u11,...,u33) *)
Definition alloc_set (i : nat) (a : list R) (v : vars) : res vars := do _ <- deref v i; Ok (vset v i a).
Definition all_derivs (D : d3 -> list R -> list R) (DD : d3 -> d3 -> list R -> list R) (iu : nat) (du : d3 -> nat) (ddu : d3 -> d3 -> nat) (v : vars) : res vars :=
  do u <- deref v iu;
  do v <- alloc_set (du D1) (D D1 u) v; do v <- alloc_set (du D2) (D D2 u) v; do v <- alloc_set (du D3) (D D3 u) v;
  do v <- alloc_set (ddu D1 D1) (DD D1 D1 u) v; do v <- alloc_set (ddu D1 D2) (DD D1 D2 u) v; do v <- alloc_set (ddu D1 D3) (DD D1 D3 u) v;
  do v <- alloc_set (ddu D2 D2) (DD D2 D2 u) v; do v <- alloc_set (ddu D2 D3) (DD D2 D3 u) v; alloc_set (ddu D3 D3) (DD D3 D3 u) v.
(** cart_partial_all, cartesianDerivs.c:250-391; the six second derivatives are the variables a 0 .. a 5.  stored: box->v[ddXdd] && box->v[dXd] *)
Definition cart_partial_all (b : tbox) (g : gvars) (D : d3 -> list R -> list R) (DD : d3 -> d3 -> list R -> list R) (iu i1 i2 i3 : nat) (a : nat -> nat) (v : vars) : res vars :=
  let du := tab i1 i2 i3 in let ddu := ddu_ind a in
  do v <- all_derivs D DD iu du ddu v;
  match coord b with
  | None => Ok v
  | Some C =>
    match ddX_dxdx C D1 D1 D1 with
    | None => Err
    | Some _ => let stored := (allocated v (ddXdd g) && allocated v (dXd g))%bool in for_nat 0 (nnodes b) (cart_point_all g C stored du ddu) v
    end
  end.
(** compute_xyz_dXYZdxyz_ddXYZddxyz, Coordinates.c:982-1055, for one box: one pass of the loop over the points *)
Definition put (F : fn3) (i ind : nat) (p : R * R * R) (v : vars) : res vars := let '(X, Y, Z) := p in st v i ind (F X Y Z).
Definition compute_point (g : gvars) (C : coords) (s1 s2 : bool) (ind : nat) (v : vars) : res vars :=
  do p <- point g v ind;
  do v <- put (x_of_X C D1) (vx g) ind p v; do v <- put (x_of_X C D2) (vy g) ind p v; do v <- put (x_of_X C D3) (vz g) ind p v;
  do v <- (if s1 then forl dirs (fun j v => do v <- put (dX_dx C D1 j) (dXd g + ix j) ind p v; do v <- put (dX_dx C D2 j) (dYd g + ix j) ind p v; put (dX_dx C D3 j) (dZd g + ix j) ind p v) v else Ok v);
  if s2 then
    do nv <- forl dirs (fun j => forl (dirs_from j) (fun k nv => let '(n, v) := nv in
      let call i := match ddX_dxdx C i j k with Some F => Ok F | None => UB end in
      do F <- call D1; do v <- put F (ddXdd g + n) ind p v; do F <- call D2; do v <- put F (ddYdd g + n) ind p v; do F <- call D3; do v <- put F (ddZdd g + n) ind p v;
      Ok (n + 1, v)%nat)) (0%nat, v);
    Ok (snd nv)
  else Ok v.
(** the loop over the points; [box->v[dXd] != NULL] is tested at every point, but the loop never changes it *)
Definition compute_xyz (b : tbox) (g : gvars) (v : vars) : res vars :=
  match coord b with
  | Some C => for_nat 0 (nnodes b) (compute_point g C (allocated v (dXd g)) (allocated v (ddXdd g))) v
  | None => for_nat 0 (nnodes b) (fun ind v => do p <- point g v ind; do v <- put x_equals_X (vx g) ind p v; do v <- put y_equals_Y (vy g) ind p v; put z_equals_Z (vz g) ind p v) v
  end.
(** derivatives of tensors with consecutive components, cartesianDerivs.c:398-846.  Every function is the same sequence of calls for each component, so one definition with the number of components nc stands for the functions for S (nc = 1), S_a (nc = 3) and S_ab (nc = 6); the calls are made in the order of the source. *)
(** FirstDerivsOf_Sab (399-436), FirstDerivsOf_Sa (536-558), FirstDerivsOf_S (615-627) *)
Definition FirstDerivsOf (nc : nat) (b : tbox) (g : gvars) (D : d3 -> list R -> list R) (iS idS : nat) (v : vars) : res vars :=
  for_nat 0 nc (fun k => cart_partials b g D (iS + k) (idS + 3 * k) (idS + 3 * k + 1) (idS + 3 * k + 2)) v.
(** FirstAndSecondDerivsOf_Sab (440-532), FirstAndSecondDerivsOf_Sa (562-611), FirstAndSecondDerivsOf_S (631-652) *)
Definition second_of_first (b : tbox) (g : gvars) (D : d3 -> list R -> list R) (idS iddS k : nat) (v : vars) : res vars :=
  let d c := (idS + 3 * k + c)%nat in let dd c := (iddS + 6 * k + c)%nat in
  do v <- cart_partials b g D (d 0%nat) (dd 0%nat) (dd 1%nat) (dd 2%nat) v;
  do v <- cart_partials b g D (d 1%nat) (dd 1%nat) (dd 3%nat) (dd 4%nat) v;
  cart_partials b g D (d 2%nat) (dd 2%nat) (dd 4%nat) (dd 5%nat) v.
Definition FirstAndSecondDerivsOf (nc : nat) (b : tbox) (g : gvars) (D : d3 -> list R -> list R) (iS idS iddS : nat) (v : vars) : res vars :=
  do v <- FirstDerivsOf nc b g D iS idS v; for_nat 0 nc (second_of_first b g D idS iddS) v.
(** allDerivsOf_Sab (659-744), allDerivsOf_Sa (749-795), allDerivsOf_S (800-820) *)
Definition allDerivsOf (nc : nat) (b : tbox) (g : gvars) (D : d3 -> list R -> list R) (DD : d3 -> d3 -> list R -> list R) (iS idS iddS : nat) (v : vars) : res vars :=
  for_nat 0 nc (fun k => cart_partial_all b g D DD (iS + k) (idS + 3 * k) (idS + 3 * k + 1) (idS + 3 * k + 2) (fun c => iddS + 6 * k + c)%nat) v.
(** D_and_DD_of_Sab, D_and_DD_of_Sa, D_and_DD_of_S (824-846); [no] is Getv("Coordinates_useDD","no") *)
Definition D_and_DD_of (nc : nat) (no : bool) (b : tbox) (g : gvars) (D : d3 -> list R -> list R) (DD : d3 -> d3 -> list R -> list R) (iS idS iddS : nat) (v : vars) : res vars :=
  if no then FirstAndSecondDerivsOf nc b g D iS idS iddS v else allDerivsOf nc b g D DD iS idS iddS v.

(** src/utility/Coordinates/coordFilters.c and the 2/3-rule filters of src/physics/BSSN/BSSN.c:421-536.
    The arrays of one box are a function from variable indices to lists; [t] is the index of temp1. *)
From Verif Require Import Base Rutil Arrays Loops Params_model Params_spec Output_model Lines_model.
Local Open Scope R_scope.

Definition arrays : Type := nat -> list R.
Definition setv (v : arrays) (i : nat) (x : list R) : arrays := fun j => if (j =? i)%nat then x else v j.

(** The common shape of all loop bodies "for vi": coefficients of variable iu into temp1, change some of them, new values from them.
    If the variable is temp1 itself, both pointers are the same (second argument of [an], [sy] true).
    coordFilters.c:46-76, 99-139; BSSN.c:440-457, 480-510, 530-548 *)
Definition through_coeffs (an sy : bool -> list R -> list R -> res (list R)) (clear : list R -> res (list R)) (t iu : nat) (v : arrays) : res arrays :=
  do c <- an (iu =? t)%nat (v iu) (v t); let v := setv v t c in
  do c <- clear (v t); let v := setv v t c in
  do u <- sy (iu =? t)%nat (v iu) (v t); Ok (setv v iu u).
(** for(vi = 0; vi < unew->n; vi++): position vi of the list holds variable nth vi idx; each call has its own execution environment *)
Definition for_vars (idx : list nat) (body : nat -> nat -> arrays -> res arrays) (v : arrays) : res arrays :=
  for_nat 0 (List.length idx) (fun vi v => body vi (nth vi idx 0%nat) v) v.

(** coordFilters.c:55-72 / 112-135: the coefficients k = ks .. n3-1 of all lines with second index j, where ks = 2 ms - 1,
    ms = n3/2 (integer division); ms *= fabs(sin(theta)) (truncated to int); ms++ *)
Definition first_cut (n3 : nat) (s : R) : nat := Z.to_nat (2 * (Rtrunc (INR (n3 / 2) * Rabs s) + 1) - 1).
Definition clear_phi (b : sbox) (sintheta : nat -> res R) (c : list R) : res (list R) :=
  for_nat 0 (nn b X2) (fun j c =>
    do s <- sintheta j; let ks := first_cut (nn b X3) s in
    if (nn b X3 <=? ks)%nat then Ok c
    else for_nat ks (nn b X3) (fun k c => for_nat 0 (nn b X1) (fun i c => wr c (Ix b i j k) 0) c) c) c.
(** coordFilters.c:57: theta = thm[Index(0,j,0)] + PI/((1+n2%2)*n2) *)
Definition sin_DF (b : sbox) (Y : list R) (j : nat) : res R :=
  do y <- rd Y (Ix b 0 j 0); Ok (sin (y + PI / INR ((1 + nn b X2 mod 2) * nn b X2))).
(** coordFilters.c:114-119: sin(acos(z/r)); 0/0 at the centre (NaN, then converted to int) is UB *)
Definition sin_xyz (b : sbox) (xp yp zp : list R) (j : nat) : res R :=
  do x <- rd xp (Ix b 0 j 0); do y <- rd yp (Ix b 0 j 0); do z <- rd zp (Ix b 0 j 0);
  let r := sqrt (x * x + y * y + z * z) in if Req_EM_T r 0 then UB else Ok (sin (acos (z / r))).
(** coordFilters.c:34-77 coordinateDependentFilter_SphericalDF; iY is the index of "Y".
    The theta are read inside the loop, so from the current arrays; Y is not written, which is why it must not be in the list *)
Definition filter_SphericalDF (b : sbox) (sc scs : nat -> sched) (t iY : nat) (idx : list nat) (v : arrays) : res arrays :=
  for_vars idx (fun vi iu v => through_coeffs (fun al u c => spec_analysis1 b (sc vi) X3 al u c) (fun al u c => spec_synthesis1 b (scs vi) X3 al u c)
    (clear_phi b (sin_DF b (v iY))) t iu v) v.
(** coordFilters.c:82-140 coordinateDependentFilter_Spherical *)
Definition filter_Spherical (b : sbox) (sc scs : nat -> sched) (t ix iy iz : nat) (idx : list nat) (v : arrays) : res arrays :=
  for_vars idx (fun vi iu v => through_coeffs (fun al u c => spec_analysis1 b (sc vi) X3 al u c) (fun al u c => spec_synthesis1 b (scs vi) X3 al u c)
    (clear_phi b (sin_xyz b (v ix) (v iy) (v iz))) t iu v) v.
(** coordFilters.c:12-30 coordinateDependentFilter: the value of box%d_Coordinates selects the filter of each box.
    g i are the arrays of box i, par i the value of its parameter *)
Definition filter_coords (nboxes : nat) (par : nat -> str) (bx : nat -> sbox) (sc scs : nat -> nat -> sched) (t iY ix iy iz : nat) (idx : list nat) (g : nat -> arrays) : res (nat -> arrays) :=
  for_nat 0 nboxes (fun i g =>
    let set x := fun j => if (j =? i)%nat then x else g j in
    if getv (par i) (S_ "SphericalDF") then do x <- filter_SphericalDF (bx i) (sc i) (scs i) t iY idx (g i); Ok (set x)
    else if getv (par i) (S_ "Spherical") || getv (par i) (S_ "Spherical2") || getv (par i) (S_ "Spherical3") then do x <- filter_Spherical (bx i) (sc i) (scs i) t ix iy iz idx (g i); Ok (set x)
    else Ok g) g.

(** BSSN.c: loops "for k in [k0,k1) for j in [j0,j1) for i in [i0,i1): vc[Index(i,j,k)] = 0" *)
Definition clear_range (b : sbox) (i0 i1 j0 j1 k0 k1 : nat) (c : list R) : res (list R) :=
  for_nat k0 k1 (fun k c => for_nat j0 j1 (fun j c => for_nat i0 i1 (fun i c => wr c (Ix b i j k) 0) c) c) c.
Definition two_thirds (n : nat) : nat := (n / 3 * 2)%nat.
(** BSSN.c:422-460 filter_with2o3rule_inX, one box *)
Definition filter_2o3_X (b : sbox) (sc scs : nat -> sched) (t : nat) (idx : list nat) (v : arrays) : res arrays :=
  for_vars idx (fun vi iu v => through_coeffs (fun al u c => spec_analysis1 b (sc vi) X1 al u c) (fun al u c => spec_synthesis1 b (scs vi) X1 al u c)
    (clear_range b (two_thirds (nn b X1)) (nn b X1) 0 (nn b X2) 0 (nn b X3)) t iu v) v.
(** BSSN.c:463-513 filter_with2o3rule_inXYZ, one box.  The upper limits "<=" of the second and third nest are those of the code.
    [alias] is not modelled for spec_Coeffs: temp1 in the list ends the model *)
Definition filter_2o3_XYZ (b : sbox) (sc scs : nat -> dir -> sched) (t : nat) (idx : list nat) (v : arrays) : res arrays :=
  let n1 := nn b X1 in let n2 := nn b X2 in let n3 := nn b X3 in
  for_vars idx (fun vi iu v => through_coeffs (fun al u c => if al : bool then UB else spec_Coeffs b (sc vi) u c) (fun al u c => if al : bool then UB else spec_Eval b (scs vi) u c)
    (fun c => do c <- clear_range b (two_thirds n1) n1 0 n2 0 n3 c;
              do c <- clear_range b 0 (two_thirds n1 + 1) (two_thirds n2) n2 0 n3 c;
              clear_range b 0 (two_thirds n1 + 1) 0 (two_thirds n2 + 1) (two_thirds n3) n3 c) t iu v) v.
(** BSSN.c:517-550 filter_with2o3rule_minus1_inX, one box: icut = (n1/3)*2 - 1, at least 0 *)
Definition filter_2o3_minus1_X (b : sbox) (sc scs : nat -> sched) (t : nat) (idx : list nat) (v : arrays) : res arrays :=
  for_vars idx (fun vi iu v => through_coeffs (fun al u c => spec_analysis1 b (sc vi) X1 al u c) (fun al u c => spec_synthesis1 b (scs vi) X1 al u c)
    (clear_range b (two_thirds (nn b X1) - 1) (nn b X1) 0 (nn b X2) 0 (nn b X3)) t iu v) v.

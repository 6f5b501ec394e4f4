(** Model of the boundary conditions src/utility/boundary/boundary.c, radiative.c, excision.c, and of their use inside the time
    integrators src/utility/evolve/rk.c and icn.c. *)
From Coq Require Import List Arith Bool.
From Verif Require Import Rutil Coord_model Rk_model.
Import ListNotations.
Local Open Scope R_scope.

(** a value is found by the position of its variable in the variable list, the box and the point; the three lists unew, upre, ucur have the same length *)
Definition loc := (nat * nat * nat)%type.
Definition loc_eqb (a b : loc) : bool := match a, b with (j, b1, p), (j', b2, p') => (j =? j') && (b1 =? b2) && (p =? p') end.
Definition field := loc -> R.
Definition setf (u : field) (l : loc) (x : R) : field := fun l' => if loc_eqb l' l then x else u l'.
(** a point list as forPointList_inbox inside forallboxes runs through it (C52): pairs of box and point.  Inactive boxes are left out, as in the lists here *)
Definition points := list (nat * nat).
(** set_boundary_constant, boundary.c:357-373, for the variable at position j *)
Definition set_boundary_constant (PL : points) (j : nat) (pre new : field) : field :=
  fold_left (fun u bp => setf u (j, fst bp, snd bp) (pre (j, fst bp, snd bp))) PL new.
(** set_boundary_simpleExcision, excision.c:10-24 *)
Definition set_boundary_simpleExcision (PL : points) (j : nat) (pre new : field) : field :=
  fold_left (fun u bp => let l := (j, fst bp, snd bp) in let l1 := (j, fst bp, S (snd bp)) in setf u l (pre l + u l1 - pre l1)) PL new.
(** set_boundary_radiative, radiative.c:11-54: x y z are the grid variables "x" "y" "z"; dx dy dz the results of cart_partials on ucur (see Cart_model), which end up in temp1-3 before unew is written (temp1-3 are other variables than unew) *)
Definition rad_rhs (v var0 x y z u ux uy uz : R) : R :=
  let r := sqrt (x * x + y * y + z * z) in
  - v * (u - var0) / r - (v * x / r * ux + v * y / r * uy + v * z / r * uz).
Definition set_boundary_radiative (xs ys zs : nat -> nat -> R) (dx dy dz : field -> field) (PL : points) (j : nat) (c var0 v : R) (pre cur new : field) : field :=
  fold_left (fun u bp => let (b, p) := (bp : nat * nat) in let l := (j, b, p) in
    let rhs := rad_rhs v var0 (xs b p) (ys b p) (zs b p) (cur l) (dx cur l) (dy cur l) (dz cur l) in
    setf u l (if Req_EM_T c 0 then rhs else pre l + c * rhs)) PL new.
(** set_boundary_radiative_analytic, radiative.c:60-161, for one variable; init is uinitial, a copy of upre made when ucur->time was 0.  In a run that never has ucur->time = 0 uinitial stays NULL: this is not modelled *)
Definition rad_rhs_analytic (v x y z u ux uy uz w wx wy wz : R) : R :=
  let r := sqrt (x * x + y * y + z * z) in
  - v * (u - w) / r - (v * x / r * (ux - wx) + v * y / r * (uy - wy) + v * z / r * (uz - wz)).
Definition set_boundary_radiative_analytic (xs ys zs : nat -> nat -> R) (dx dy dz : field -> field) (PL : points) (j : nat) (c v : R) (init pre cur new : field) : field :=
  fold_left (fun u bp => let (b, p) := (bp : nat * nat) in let l := (j, b, p) in
    let rhs := rad_rhs_analytic v (xs b p) (ys b p) (zs b p) (cur l) (dx cur l) (dy cur l) (dz cur l) (init l) (dx init l) (dy init l) (dz init l) in
    setf u l (if Req_EM_T c 0 then rhs else pre l + c * rhs)) PL new.
(** the loops "for all variables" in set_boundary, boundary.c:242-352: what [f j] does for one variable, for all n variables *)
Definition all_vars (n : nat) (f : nat -> field -> field) (new : field) : field := fold_left (fun u j => f j u) (seq 0 n) new.
(** set_boundary, boundary.c:242-352, for boundary = constant or constantExcision; simpleExcision; the parameters are independent, other words of the parameter are not modelled here *)
Record bopts := { b_radiative : bool; b_constant : bool; b_simpleExcision : bool }.
Record bsetup := { bx : nat -> nat -> R; by_ : nat -> nat -> R; bz : nat -> nat -> R; ddx : field -> field; ddy : field -> field; ddz : field -> field; nv : nat;
  speed : nat -> R;   (* VarPropSpeed, or 0 for the variables in boundary_radconstant *)
  far : nat -> R;     (* VarFarLimit *)
  radPL : points; constPL : points; excPL : points }.
Definition set_boundary (o : bopts) (s : bsetup) (c : R) (pre cur new : field) : field :=
  let new := if b_radiative o then all_vars (nv s) (fun j => set_boundary_radiative (bx s) (by_ s) (bz s) (ddx s) (ddy s) (ddz s) (radPL s) j c (far s j) (speed s j) pre cur) new else new in
  let new := if b_constant o then all_vars (nv s) (fun j => set_boundary_constant (constPL s) j pre) new else new in
  if b_simpleExcision o then all_vars (nv s) (fun j => set_boundary_simpleExcision (excPL s) j pre) new else new.

(** ** The time integrators again, now with a right-hand side that also gets upre and the step size, as boundary conditions need (Rk_model has one that ignores upre if the step size is 0) *)
Section Rkb.
Variable I : Type.
Variable G : vl I -> R -> vl I -> vec I.   (* upre, c, ucur *)
Definition brhs (m : mem I) (unew upre : reg) (c : R) (ucur : reg) : mem I := put I m unew (G (m upre) c (m ucur), snd (m unew)).
(** evolve_rk_generic, rk.c:144-178, evolve_algebraicConditions = 0 *)
Definition bstage (dt : R) (T : butcher) (i : nat) (m : mem I) : mem I :=
  let m := if Nat.eqb i 0 then m else vlcopy I m C P in
  let m := adds I dt (fun j => Q2R (aij T i j)) (seq 0 i) m in
  brhs m (K i) P 0 C.
Fixpoint bstages (dt : R) (T : butcher) (is_ : list nat) (m : mem I) : mem I :=
  match is_ with [] => m | i :: r => bstages dt T r (bstage dt T i m) end.
Definition bevolve_rk_generic (dt : R) (T : butcher) (m : mem I) : mem I :=
  let m := vlcopy I m P C in
  let m := bstages dt T (seq 0 (nstages T)) m in
  let m := vlcopy I m C P in
  adds I dt (fun j => Q2R (bj T j)) (seq 0 (nstages T)) m.
(** evolve_rk_rk4, rk.c:182-214 *)
Definition bevolve_rk_rk4 (dt : R) (m : mem I) : mem I :=
  let r := K 0 in let v := K 1 in
  let m := vlcopy I m P C in
  let m := brhs m r P 0 C in
  let m := vladdto I m C (dt / 6) r in
  let m := vladd I m v 1 P (dt / 2) r in
  let m := brhs m r P 0 v in
  let m := vladdto I m C (dt / 3) r in
  let m := vladd I m v 1 P (dt / 2) r in
  let m := brhs m r P 0 v in
  let m := vladdto I m C (dt / 3) r in
  let m := vladd I m v 1 P dt r in
  let m := brhs m r P 0 v in
  vladdto I m C (dt / 6) r.
(** evolve_icn, icn.c:10-38, and evolve_euler, icn.c:42-60 *)
Definition bicn_iter (dt : R) (m : mem I) : mem I := brhs (vlaverage I m Q_ C P) C P dt Q_.
Definition bevolve_icn (dt : R) (m : mem I) : mem I := bicn_iter dt (bicn_iter dt (bicn_iter dt (vlcopy I m P C))).
Definition bevolve_euler (dt : R) (m : mem I) : mem I := brhs (vlcopy I m P C) C P dt P.
End Rkb.
(** the right-hand side of e.g. BSSN_evolve, BSSN.c:14-31: first the equations in the interior, then set_boundary; [f] gives the rates of the equations *)
Definition with_boundary (f : vl loc -> vec loc) (o : bopts) (s : bsetup) (pre : vl loc) (c : R) (cur : vl loc) : vec loc :=
  set_boundary o s c (fst pre) (fst cur) (fun l => if Req_EM_T c 0 then f cur l else fst pre l + c * f cur l).
(** evolve_rk, rk.c:260-282, as in Rk_model *)
Definition bevolve_rk (I : Type) (G : vl I -> R -> vl I -> vec I) (T : butcher) (is_rk4 : bool) (dt : R) (m : mem I) : mem I :=
  let m := set_ktime I m in if is_rk4 then bevolve_rk_rk4 I G dt m else bevolve_rk_generic I G dt T m.

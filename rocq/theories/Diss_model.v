(** Model of addDissipation, src/utility/evolve/addDissipation.c:12-78, and of evolve, src/utility/evolve/evolve.c:68-169, around the integrators of Rk_model.
    The variables of a box, cart_partials and the coordinate tables are those of Cart_model.  The nine work variables Ind("ADMvars_dgxxx"), ..., Ind("ADMvars_ddgxxzz") are given by their indices (Ind stops the program if they are not declared; a work variable without storage is NULL, and using it is UB).  pow(grid->dt, DissOrder) of the C library is the argument dtO.  The printing at iteration 0 is left out. *)
From Verif Require Import Rutil Base Loops Coord_model Cart_model.
Local Open Scope R_scope.
(** the work variables, addDissipation.c:46-54 *)
Record work := Work { wx : nat; wy : nat; wz : nat; wxx : nat; wxy : nat; wxz : nat; wyy : nat; wyz : nat; wzz : nat }.
(** one point of the loop, addDissipation.c:67-78 *)
Definition diss_point (t : work) (dt DissFac dtO : R) (in_ : nat) (ijk : nat) (v : vars) : res vars :=
  do a <- ld v (wxx t) ijk; do b <- ld v (wyy t) ijk; do c <- ld v (wzz t) ijk;
  let Lap_u := a + b + c in
  do u <- ld v in_ ijk;
  if Req_EM_T dt 0 then st v in_ ijk (u + DissFac * dtO * Lap_u) else st v in_ ijk (u + dt * DissFac * dtO * Lap_u).
(** one variable, addDissipation.c:59-79 *)
Definition diss_var (b : tbox) (g : gvars) (D : d3 -> list R -> list R) (t : work) (dt DissFac dtO : R) (ic in_ : nat) (v : vars) : res vars :=
  do v <- cart_partials b g D ic (wx t) (wy t) (wz t) v;
  do v <- cart_partials b g D (wx t) (wxx t) (wxy t) (wxz t) v;
  do v <- cart_partials b g D (wy t) (wxy t) (wyy t) (wyz t) v;
  do v <- cart_partials b g D (wz t) (wxz t) (wyz t) (wzz t) v;
  for_nat 0 (nnodes b) (diss_point t dt DissFac dtO in_) v.
(** the loop over the variables of a box, addDissipation.c:57-80; [ucs] and [uns] are vlu_c->index and vlu_n->index: both have vlu_c->n entries (a shorter vlu_n would be read past its end) *)
Fixpoint diss_box (b : tbox) (g : gvars) (D : d3 -> list R -> list R) (t : work) (dt DissFac dtO : R) (ucs uns : list nat) (v : vars) : res vars :=
  match ucs, uns with
  | [], _ => Ok v
  | ic :: ucs, in_ :: uns => do v <- diss_var b g D t dt DissFac dtO ic in_ v; diss_box b g D t dt DissFac dtO ucs uns v
  | _, [] => UB
  end.
(** a grid: the boxes with their spectral derivatives and their variables *)
Record gbox := GBox { gb : tbox; gD : d3 -> list R -> list R; gv : vars }.
(** addDissipation, addDissipation.c:12-81 *)
Fixpoint diss_boxes (g : gvars) (t : work) (dt DissFac dtO : R) (ucs uns : list nat) (l : list gbox) : res (list gbox) :=
  match l with
  | [] => Ok []
  | x :: l => do v <- diss_box (gb x) g (gD x) t dt DissFac dtO ucs uns (gv x); do l <- diss_boxes g t dt DissFac dtO ucs uns l; Ok (GBox (gb x) (gD x) v :: l)
  end.
Definition addDissipation (g : gvars) (t : work) (dt DissFac dtO : R) (ucs uns : list nat) (l : list gbox) : res (list gbox) :=
  if Rle_dec DissFac 0 then Ok l else diss_boxes g t dt DissFac dtO ucs uns l.

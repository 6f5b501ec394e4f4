(** Model of src/utility/Coordinates/doubleCovering.c (points of SphericalDF boxes that are covered twice) and of find_ijk.c (from a coordinate value to the index of the plane).
    Variables are as in Cart_model; ints are natural numbers. *)
From Verif Require Import Rutil Base Loops Sparse_model Cart_model Cheb_model.
Local Open Scope R_scope.
(** a box: number of points in each direction *)
Record dims := Dims { d1 : nat; d2 : nat; d3n : nat }.
(** Index(i,j,k), sgrid_main.h:16-17 *)
Definition idx (b : dims) (i j k : nat) : nat := (i + d1 b * (j + d2 b * k))%nat.
(** av = (u[p]+u[q])*0.5; u[p]=av; u[q]=av; doubleCovering.c:67-69, 76-78 *)
Definition average2 (p q : nat) (u : list R) : res (list R) :=
  do a <- rd u p; do b <- rd u q; let av := (a + b) * (1 / 2) in do u <- wr u p av; wr u q av.
(** one array, doubleCovering.c:63-79 *)
Definition reset_array (b : dims) (u : list R) : res (list R) :=
  let '(n1, n2, n3) := (d1 b, d2 b, d3n b) in
  do u <- for_nat 0 (n3 / 2) (fun k => for_nat (n2 / 2) n2 (fun j => for_nat 0 n1 (fun i => average2 (idx b i j k) (idx b i (n2 - j - 1) (k + n3 / 2))))) u;
  for_nat (n3 / 2) n3 (fun k => for_nat (n2 / 2) n2 (fun j => for_nat 0 n1 (fun i => average2 (idx b i j k) (idx b i (n2 - j - 1) (k - n3 / 2))))) u.
Definition odd_dims (b : dims) : bool := negb (Nat.eqb (d2 b mod 2) 0) || negb (Nat.eqb (d3n b mod 2) 0).
(** reset_doubleCoveredPoints_SphericalDF, doubleCovering.c:34-81; errorexit is Err *)
Definition reset_DF (b : dims) (unew : list nat) (v : vars) : res vars :=
  forl unew (fun vi v => do u <- deref v vi; if odd_dims b then Err else do u <- reset_array b u; Ok (vset v vi u)) v.
(** reset_doubleCoveredPoints, doubleCovering.c:11-25; [isDF bi] is Getv("box<bi>_Coordinates","SphericalDF"), [grid bi] the size of box bi, a grid has nboxes boxes and its variables are a function of the box number *)
Definition gset (G : nat -> vars) (bi : nat) (v : vars) : nat -> vars := fun c => if Nat.eqb c bi then v else G c.
Definition reset_doubleCovered (nboxes : nat) (isDF : nat -> bool) (grid : nat -> dims) (unew : list nat) (G : nat -> vars) : res (nat -> vars) :=
  for_nat 0 nboxes (fun bi G => if isDF bi then do v <- reset_DF (grid bi) unew (G bi); Ok (gset G bi v) else Ok G) G.
(** var[p] = var[q] *)
Definition copy1 (p q : nat) (u : list R) : res (list R) := do a <- rd u q; wr u p a.
(** copy_to_doubleCoveredPoints_SphericalDF, doubleCovering.c:85-116.  The parallel loops over k run in the orders ks1 and ks2 *)
Definition copy_DF (ks1 ks2 : list nat) (b : dims) (vind : nat) (v : vars) : res vars :=
  let '(n1, n2, n3) := (d1 b, d2 b, d3n b) in
  if odd_dims b then Err else
  do u <- deref v vind;
  do u <- forl ks1 (fun k => for_nat (n2 / 2) n2 (fun j => for_nat 0 n1 (fun i => copy1 (idx b i j k) (idx b i (n2 - j - 1) (k + n3 / 2))))) u;
  do u <- forl ks2 (fun k => for_nat (n2 / 2) n2 (fun j => for_nat 0 n1 (fun i => copy1 (idx b i j k) (idx b i (n2 - j - 1) (k - n3 / 2))))) u;
  Ok (vset v vind u).
(** for(i=0; i<n; i++) if(dequal(A[i*stride], X0)) return i; return -1; the loop of find_ijk.c:14-16, 26-28, 40-42 with n - i passes left *)
Fixpoint find_loop (A : list R) (stride : nat) (X0 : R) (left i : nat) : res Z :=
  match left with
  | O => Ok (-1)%Z
  | S l => do a <- rd A (i * stride); if dequal a X0 then Ok (Z.of_nat i) else find_loop A stride X0 l (S i)
  end.
(** find_i_Of_X, find_ijk.c:9-17 *)
Definition find_i_Of_X (g : gvars) (b : dims) (v : vars) (X0 : R) : res Z := do X <- deref v (vX g); find_loop X 1 X0 (d1 b) 0.
(** find_j_Of_Y, find_ijk.c:20-29 *)
Definition find_j_Of_Y (g : gvars) (b : dims) (v : vars) (Y0 : R) : res Z := do Y <- deref v (vY g); find_loop Y (d1 b) Y0 (d2 b) 0.
(** find_k_Of_Z, find_ijk.c:32-43 *)
Definition find_k_Of_Z (g : gvars) (b : dims) (v : vars) (Z0 : R) : res Z := do Z <- deref v (vZ g); find_loop Z (d1 b * d2 b) Z0 (d3n b) 0.

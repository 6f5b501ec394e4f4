(** Specification of the search for extrema: the function through the data of a box, its partial derivatives, the function whose zeros are searched. *)
From Verif Require Import Rutil Rsum Mat_model Dir_model Dir_spec Lines_model Lines_spec Extr_model.
Local Open Scope R_scope.
(** positions in the coordinates of the box *)
Definition pos : Type := dir -> R.
Definition at3 (X Y Z : R) : pos := fun d => match d with X1 => X | X2 => Y | X3 => Z end.
Definition move (d : dir) (P : pos) (t : R) : pos := match d with X1 => at3 t (P X2) (P X3) | X2 => at3 (P X1) t (P X3) | X3 => at3 (P X1) (P X2) t end.
Definition lo (b : sbox) (d : dir) : R := b_lo (bd b d).
Definition hi (b : sbox) (d : dir) : R := b_hi (bd b d).
Definition within (b : sbox) (P : pos) : Prop := forall d, lo b d <= P d <= hi b d.
Definition gridpos (bs : dir -> basis) (b : sbox) (p : point) : pos := fun d => coord (bs d) (lo b d) (hi b d) (nn b d) (comp d p).
(** f is the function through the data u: in every coordinate an expansion in the basis of that direction, and equal to u at the grid points *)
Definition interpolant (bs : dir -> basis) (b : sbox) (u : list R) (f : pos -> R) : Prop :=
  (forall d P, exists c, List.length c = nn b d /\ forall t, f (move d P t) = expansion (bs d) (lo b d) (hi b d) (nn b d) c t) /\
  forall p, inbox b p -> f (gridpos bs b p) = val b u p.
(** the points of the line in direction d with the other coordinates C1, C2 (in the order X, Y, Z) *)
Definition through (d : dir) (C1 C2 x : R) : pos := match d with X1 => at3 x C1 C2 | X2 => at3 C1 x C2 | X3 => at3 C1 C2 x end.
Definition partial (d : dir) (f : pos -> R) (P : pos) (D : R) : Prop := derivable_pt_lim (fun t => f (move d P t)) (P d) D.
(** the Chebyshev functions of the library take a coordinate closer to an end than 5e-11 widths for that end *)
Definition snap (bs : basis) (a b X : R) : R :=
  match bs with Fourier => X | _ => if Rle_dec (2 * Rabs (X - a)) (1 / 10 ^ 10 * Rabs (b - a)) then a else if Rle_dec (2 * Rabs (X - b)) (1 / 10 ^ 10 * Rabs (b - a)) then b else X end.
Definition snap3 (bs : dir -> basis) (b : sbox) (P : pos) : pos := fun d => snap (bs d) (lo b d) (hi b d) (P d).
(** boxes the search is for: ends in order, Fourier directions start at a multiple of their width *)
Definition searchable (bs : dir -> basis) (b : sbox) : Prop := forall d, lo b d < hi b d /\ (bs d = Fourier -> exists m, lo b d = INR m * (hi b d - lo b d)).
(** the nearest point of the box, and the factor with which component d is continued outside of it *)
Definition nearest (b : sbox) (P : pos) : pos := fun d => Rmax (lo b d) (Rmin (hi b d) (P d)).
Definition factor (b : sbox) (d : dir) (x : R) : R := if Rlt_dec x (lo b d) then x - lo b d else if Rlt_dec (hi b d) x then hi b d - x else 1.
(** the vector function with components g X1, g X2, g X3 in the box, continued outside *)
Definition continuation (b : sbox) (g : dir -> pos -> R) (v : list R) : list R :=
  match v with x :: y :: z :: _ => let P := at3 x y z in map (fun d => g d (nearest b P) * factor b d (P d)) [X1; X2; X3] | _ => [] end.
(** 0 in the box; below the box in X, Y, Z: 1, 2, 4; above: 8, 16, 32 *)
Definition outside (b : sbox) (P : pos) : Z :=
  let low d n := if Rlt_dec (P d) (lo b d) then n else 0%Z in let high d n := if Rlt_dec (hi b d) (P d) then n else 0%Z in
  (low X1 1 + low X2 2 + low X3 4 + high X1 8 + high X2 16 + high X3 32)%Z.
(** the environment of a call has arrays of the right size *)
Definition eenv_ok (b : sbox) (en : eenv) : Prop := (forall d, schedule b d (e_der en d) /\ List.length (e_new en d) = npoints b) /\ (forall q d, schedule b d (e_co en q d)) /\
  forall q X Y Z, let '(ks, B1, B2, B3) := e_int en q X Y Z in Permutation ks (seq 0 (nn b X3)) /\ List.length B1 = nn b X1 /\ List.length B2 = nn b X2 /\ List.length B3 = nn b X3.

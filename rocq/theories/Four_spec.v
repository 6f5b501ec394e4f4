(** Specification vocabulary: real Fourier basis 1, cos t, sin t, cos 2t, sin 2t, ... *)
From Verif Require Export Rutil Rsum.
Local Open Scope R_scope.

(** function number i of the basis at phase t: i = 2j-1 is cos(jt), i = 2j is sin(jt) *)
Definition mode (i : nat) (t : R) : R := if Nat.even i then (if (i =? 0)%nat then 1 else sin (INR (i / 2) * t)) else cos (INR ((i + 1) / 2) * t).
(** weight of coefficient i in the sum over N points: 1/N for the constant and, for even N, for the highest cosine; 2/N otherwise *)
Definition weight (N i : nat) : R := if ((i =? 0) || (Nat.even N && (i + 1 =? N)))%nat then 1 / INR N else 2 / INR N.
(** the trigonometric polynomial represented by the coefficients c_0..c_{N-1}, as function of the phase *)
Definition tpoly (c : list R) (N : nat) (t : R) : R := Sig N (fun i => weight N i * nth i c 0 * mode i t).
(** phase of grid point k, and of the coordinate X in the box [a,b] *)
Definition phase (N k : nat) : R := 2 * PI * INR k / INR N.
Definition phase_at (a b X : R) : R := 2 * PI * (X - a) / (b - a).

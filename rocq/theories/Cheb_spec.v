(** Specification vocabulary: Chebyshev polynomials, series and grids. *)
From Verif Require Export Rutil Rsum.
Local Open Scope R_scope.

(** T_k by the three term recursion *)
Fixpoint cheb_pair (k : nat) (y : R) : R * R := (* (T_k, T_{k+1}) *)
  match k with O => (1, y) | S m => let p := cheb_pair m y in (snd p, 2 * y * snd p - fst p) end.
Definition T (k : nat) (y : R) : R := fst (cheb_pair k y).

(** reduced coordinate: X = a at y = 1, X = b at y = -1 *)
Definition yof (a b X : R) : R := (2 * X - a - b) / (a - b).
Definition Xof (a b y : R) : R := (a - b) / 2 * y + (a + b) / 2.

(** c_0/2 + c_1 T_1(y) + ... + c_n T_n(y) *)
Definition series (c : list R) (n : nat) (y : R) : R := nth 0 c 0 / 2 + Sig n (fun i => nth (i + 1) c 0 * T (i + 1) y).

(** collocation points *)
Definition extremum (N j : nat) : R := cos (INR j * PI / INR N).
Definition zero_of_T (N j : nat) : R := cos (PI * (INR j + / 2) / INR N).

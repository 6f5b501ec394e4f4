(** Specification vocabulary: the function represented by spectral coefficients on [a,b]. *)
From Verif Require Import Rutil Rsum Cheb_spec Four_spec Dir_model.
Local Open Scope R_scope.
Definition spectral (bs : basis) : bool := match bs with ChebExtrema | ChebZeros | Fourier => true | _ => false end.
(** value at X of the function with the n coefficients c *)
Definition expansion (bs : basis) (a b : R) (n : nat) (c : list R) (X : R) : R :=
  match bs with
  | Fourier => tpoly c n (phase_at a b X)
  | _ => series c (n - 1) (yof a b X)
  end.
(** Fourier series on an even number of points contain a highest cosine without its sine *)
Definition has_lone_cosine (bs : basis) (n : nat) : bool := match bs with Fourier => Nat.even n | _ => false end.
(** highest mode of the expansion that has no antiderivative in the space *)
Definition has_top_mode (bs : basis) (n : nat) : bool := match bs with Fourier => Nat.even n | _ => true end.

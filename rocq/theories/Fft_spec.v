(** Specification vocabulary: complex numbers of modulus 1, finite sums, the discrete Fourier transform. *)
From Verif Require Export Rutil Rsum.
From Coquelicot Require Export Complex.
Local Open Scope R_scope.

(** e^{it} *)
Definition cis (t : R) : C := (cos t, sin t).
(** sum of f 0 .. f (n-1) *)
Definition CSig (n : nat) (f : nat -> C) : C := (Sig n (fun i => fst (f i)), Sig n (fun i => snd (f i))).
(** discrete Fourier transform of size n with sign s (1 or -1) *)
Definition dft (s : R) (n : nat) (x : nat -> C) (k : nat) : C := CSig n (fun j => Cmult (x j) (cis (s * (2 * PI * INR j * INR k / INR n)))).

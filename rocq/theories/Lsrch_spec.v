(** Specification vocabulary for newton_linesearch: the system F(x) = 0 for n unknowns. *)
From Verif Require Import Rutil Rsum Lu_spec.
Local Open Scope R_scope.
(** component i of F at x *)
Definition Fi (F : list R -> list R) (x : list R) (i : nat) : R := nth i (F x) 0.
(** half the sum of the squares of F, the function a line search makes smaller *)
Definition energy (n : nat) (F : list R -> list R) (x : list R) : R := Sig n (fun i => Fi F x i ^ 2) / 2.
(** x with h added to component j *)
Definition shifted (x : list R) (j : nat) (h : R) : list R := map (fun i => nth i x 0 + if (i =? j)%nat then h else 0) (seq 0 (List.length x)).
(** the finite-difference step number k used for x_j: 1e-7 |x_j|, at least 1e-10, times 10^k *)
Definition fd_h (xj : R) (k : nat) : R := Rmax (Rabs xj / 10 ^ 7) (/ 10 ^ 10) * 10 ^ k.
Definition fd_quotient (F : list R -> list R) (x : list R) (i j k : nat) : R := (Fi F (shifted x j (fd_h (nth j x 0) k)) i - Fi F x i) / fd_h (nth j x 0) k.
(** J is the matrix of difference quotients of F at x: each column uses the first of the 8 steps whose column is not zero, or the last one *)
Definition fd_matrix (n : nat) (F : list R -> list R) (x J : list R) : Prop := List.length J = (n * n)%nat /\
  forall j, (j < n)%nat -> exists k, (k < 8)%nat /\ (forall i, (i < n)%nat -> ent n J i j = fd_quotient F x i j k) /\
    (forall k' i, (k' < k)%nat -> (i < n)%nat -> fd_quotient F x i j k' = 0) /\ (k = 7%nat \/ exists i, (i < n)%nat /\ ent n J i j <> 0).
(** y is closer to x than 1e-14, relative to max(|x_i|,1), in every component *)
Definition near (n : nat) (x y : list R) : Prop := forall i, (i < n)%nat -> Rabs (nth i y 0 - nth i x 0) < / 10 ^ 14 * Rmax (Rabs (nth i x 0)) 1.
(** all components of F at x are smaller than tol *)
Definition small (n : nat) (F : list R -> list R) (tol : R) (x : list R) : Prop := forall i, (i < n)%nat -> Rabs (Fi F x i) < tol.
(** component i of the gradient of the energy, computed with the matrix J instead of the derivatives *)
Definition grad (n : nat) (F : list R -> list R) (x J : list R) (i : nat) : R := Sig n (fun j => ent n J j i * Fi F x j).

(** What an adaptive integration of y' = f(x,y) may do, step by step. *)
From Verif Require Import Rutil Base Ode_model.
Local Open Scope R_scope.
(** x lies between a and b *)
Definition betw (a b x : R) : Prop := Rmin a b <= x <= Rmax a b.
(** the largest |y_i| of the visited points *)
Fixpoint maxabs (i : nat) (l : list (R * vec)) : R := match l with [] => 0 | p :: l => Rmax (Rabs (snd p i)) (maxabs i l) end.
(** the list of the points visited so far, the last one first.  Every step is a Cash-Karp step of some length h towards x2, whose error
    estimate is, in every component, at most eps times a scale; the scale consists of |y|, the change |f h0| over a step h0 that is at least
    as long, a tiny number and (for odeintegrate_HR) 1e-5 of the largest |y| so far. *)
Inductive path (hr : bool) (f : R -> vec -> vec) (n : nat) (eps x1 x2 : R) (y1 : vec) : list (R * vec) -> Prop :=
| path_start : path hr f n eps x1 x2 y1 [(x1, y1)]
| path_step x y l h h0 : path hr f n eps x1 x2 y1 ((x, y) :: l) -> betw x x2 (x + h) -> Rabs h <= Rabs h0 ->
    (forall i, (1 <= i <= n)%nat -> Rabs (snd (rkck f y (f x y) x h) i) <= eps * ((if hr then 1 / 100000 * maxabs i ((x, y) :: l) else 0) + Rabs (y i) + Rabs (f x y i * h0) + / 10 ^ 250)) ->
    path hr f n eps x1 x2 y1 ((x + h, fst (rkck f y (f x y) x h)) :: (x, y) :: l).

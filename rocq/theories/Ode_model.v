(** Model of the adaptive integrator for ordinary differential equations: src/utility/NumericUtils/rkck.c, rkqs.c and odeintegrate.c.
    The versions with a parameter (rkckP, rkqsP, odeintegrateP) and rkqs_HR are the same code with the extra argument, so they are not repeated.
    doubles are reals.  A vector y[1..n] is a function of the index; loops over 1..n that set y[i] set it at every index (only 1..n exist).
    The right hand side is a pure function f.  vector(), matrix() never fail. *)
From Verif Require Import Rutil Base.
Local Open Scope R_scope.

Definition vec := nat -> R.
(** rkck, rkck.c:14-63 *)
Definition rkck (f : R -> vec -> vec) (y dydx : vec) (x h : R) : vec * vec :=
  let c1 := 37 / 378 in let c3 := 250 / 621 in let c4 := 125 / 594 in let c6 := 512 / 1771 in
  let dc5 := -277 / 14336 in let dc1 := c1 - 2825 / 27648 in let dc3 := c3 - 18575 / 48384 in let dc4 := c4 - 13525 / 55296 in let dc6 := c6 - 1 / 4 in
  let ak2 := f (x + 2 / 10 * h) (fun i => y i + 2 / 10 * h * dydx i) in
  let ak3 := f (x + 3 / 10 * h) (fun i => y i + h * (3 / 40 * dydx i + 9 / 40 * ak2 i)) in
  let ak4 := f (x + 6 / 10 * h) (fun i => y i + h * (3 / 10 * dydx i + -9 / 10 * ak2 i + 12 / 10 * ak3 i)) in
  let ak5 := f (x + 1 * h) (fun i => y i + h * (-11 / 54 * dydx i + 25 / 10 * ak2 i + -70 / 27 * ak3 i + 35 / 27 * ak4 i)) in
  let ak6 := f (x + 875 / 1000 * h) (fun i => y i + h * (1631 / 55296 * dydx i + 175 / 512 * ak2 i + 575 / 13824 * ak3 i + 44275 / 110592 * ak4 i + 253 / 4096 * ak5 i)) in
  (fun i => y i + h * (c1 * dydx i + c3 * ak3 i + c4 * ak4 i + c6 * ak6 i),
   fun i => h * (dc1 * dydx i + dc3 * ak3 i + dc4 * ak4 i + dc5 * ak5 i + dc6 * ak6 i)).

(** what can happen: a result; nrerror (exit); an access outside of an array; still running after the given number of rounds *)
Inductive run (A : Type) := Done (a : A) | Exit | Bad | More.
Arguments Done {A} a. Arguments Exit {A}. Arguments Bad {A}. Arguments More {A}.
Definition FMAX (a b : R) : R := if Rgt_dec a b then a else b.
Definition FMIN (a b : R) : R := if Rlt_dec a b then a else b.
(** rkqs.c:49-51; the quotients are inf or NaN in C if yscal[i] or eps is 0 *)
Fixpoint errloop (k i : nat) (yerr yscal : vec) (errmax : R) : R :=
  match k with O => errmax | S k => errloop k (S i) yerr yscal (FMAX errmax (Rabs (yerr i / yscal i))) end.
(** the loop for(;;) of rkqs, rkqs.c:47-58: at most [fuel] repetitions *)
Fixpoint qs_loop (fuel : nat) (f : R -> vec -> vec) (n : nat) (x eps : R) (y dydx yscal : vec) (h : R) : run (vec * R * R) :=
  let '(ytemp, yerr) := rkck f y dydx x h in
  let errmax := errloop n 1 yerr yscal 0 / eps in
  if Rle_dec errmax 1 then Done (ytemp, errmax, h) else
  match fuel with
  | O => More
  | S fuel =>
    let htemp := 9 / 10 * h * Rpower errmax (-25 / 100) in
    let h := if Rge_dec h 0 then FMAX htemp (1 / 10 * h) else FMIN htemp (1 / 10 * h) in
    if Req_EM_T (x + h) x then Exit else qs_loop fuel f n x eps y dydx yscal h
  end.
(** rkqs, rkqs.c:33-65: new x and y, hdid, hnext *)
Definition rkqs (fuel : nat) (f : R -> vec -> vec) (n : nat) (x htry eps : R) (y dydx yscal : vec) : run (R * vec * R * R) :=
  match qs_loop fuel f n x eps y dydx yscal htry with
  | Done (ytemp, errmax, h) =>
    let hnext := if Rgt_dec errmax (189 / 1000000) then 9 / 10 * h * Rpower errmax (-2 / 10) else 5 * h in
    Done (x + h, ytemp, h, hnext)
  | Exit => Exit | Bad => Bad | More => More
  end.

(** what odeintegrate returns and leaves behind its pointers; yp[1..nvar][k] is the vector number k of r_yp *)
Record oderes := { r_x : R; r_status : Z; r_y : vec; r_nok : nat; r_nbad : nat; r_kcount : Z; r_xp : list R; r_yp : list vec }.
(** list[k] = a, outside: None *)
Fixpoint put {A} (l : list A) (k : nat) (a : A) : option (list A) :=
  match l, k with
  | [], _ => None
  | _ :: l, O => Some (a :: l)
  | b :: l, S k => match put l k a with Some l => Some (b :: l) | None => None end
  end.
(** xp[++kount]=x; for(i) yp[i][kount]=y[i];  both arrays start at 1 *)
Definition store (xp : list R) (yp : list vec) (kount : nat) (x : R) (y : vec) : option (list R * list vec) :=
  match put xp kount x, put yp kount y with Some xp, Some yp => Some (xp, yp) | _, _ => None end.
Section Odeint.
(** [hr]: odeintegrate_HR instead of odeintegrate, odeintegrateP; they differ in yscal and in that only the former sets *kcount on failure *)
Variable hr : bool.
Variable fuel : nat.
Variable f : R -> vec -> vec.
Variable nvar : nat.
Variable ystart : vec.
Variable x1 x2 eps hmin : R.
Variable kmax kcount0 : Z.
Variable dxsav : R.
Definition TINYo : R := / 10 ^ 250.
Definition leave (x : R) (status : Z) (y : vec) (nok nbad : nat) (kc : Z) xp yp := Done {| r_x := x; r_status := status; r_y := y; r_nok := nok; r_nbad := nbad; r_kcount := kc; r_xp := xp; r_yp := yp |}.
(** odeintegrate.c:61-105, 136-180, 213-265: [k] values of nstp are left *)
Fixpoint ode_loop (k : nat) (x h : R) (y mx : vec) (nok nbad kount : nat) (xsav : R) (xp : list R) (yp : list vec) : run oderes :=
  match k with
  | O => leave x (-2) ystart nok nbad (if hr then Z.of_nat kount else kcount0) xp yp
  | S k =>
    let dydx := f x y in
    let mx := fun i => if Rgt_dec (Rabs (y i)) (mx i) then Rabs (y i) else mx i in
    let yscal := fun i => if hr then 1 / 100000 * mx i + Rabs (y i) + Rabs (dydx i * h) + TINYo else Rabs (y i) + Rabs (dydx i * h) + TINYo in
    match (if ((0 <? kmax) && (Z.of_nat kount <? kmax - 1))%Z && (if Rgt_dec (Rabs (x - xsav)) (Rabs dxsav) then true else false)
           then match store xp yp kount x y with Some (xp, yp) => Some (xp, yp, S kount, x) | None => None end
           else Some (xp, yp, kount, xsav)) with
    | None => Bad
    | Some (xp, yp, kount, xsav) =>
      let h := if Rgt_dec ((x + h - x2) * (x + h - x1)) 0 then x2 - x else h in
      match rkqs fuel f nvar x h eps y dydx yscal with
      | Done (x, y, hdid, hnext) =>
        let '(nok, nbad) := if Req_EM_T hdid h then (S nok, nbad) else (nok, S nbad) in
        if Rge_dec ((x - x2) * (x2 - x1)) 0 then
          if (kmax =? 0)%Z then leave x2 0 y nok nbad (Z.of_nat kount) xp yp
          else match store xp yp kount x y with
               | Some (xp, yp) => leave x2 0 y nok nbad (Z.of_nat (S kount)) xp yp
               | None => Bad
               end
        else if Rle_dec (Rabs hnext) hmin then leave x (-1) ystart nok nbad (if hr then Z.of_nat kount else kcount0) xp yp
        else ode_loop k x hnext y mx nok nbad kount xsav xp yp
      | Exit => Exit | Bad => Bad | More => More
      end
    end
  end.
(** odeintegrate.c:42-60 (MAXSTP = 10000); SIGN(a,b) = (b >= 0 ? |a| : -|a|) *)
Definition odeintegrate (h1 : R) (xp : list R) (yp : list vec) : run oderes :=
  let h := if Rge_dec (x2 - x1) 0 then Rabs h1 else - Rabs h1 in
  ode_loop (N.to_nat 10000) x1 h ystart (fun i => Rabs (ystart i)) 0 0 0 (x1 - dxsav * 2) xp yp.
End Odeint.

(** Model of the one-dimensional integration functions src/utility/NumericUtils/integral.c (trapezoidal rule with halved steps, Romberg
    integration), src/utility/NumericUtils/integrals_1Dgrid.c (integrals of functions given on a uniform grid) and
    src/utility/NumericUtils/integral3D.c.
    doubles are reals.  The functions to be integrated are pure.  The work arrays s and h have the indices 0..max+2 and 0..max+3 and are
    only used at 0..max+1: they are functions here, with arbitrary initial contents.  The array f of the grid functions is a list;
    reading outside of it is UB. *)
From Verif Require Import Rutil Base Rsum Sparse_model.
Local Open Scope R_scope.

(** trapezit, integral.c:58-74 *)
Definition trapezit (f : R -> R) (a b : R) (n : nat) (s_old : R) : R :=
  if (n =? 1)%nat then / 2 * (b - a) * (f a + f b)
  else
    let it := Nat.iter (n - 2) (fun i => 2 * i)%nat 1%nat in
    let tnm := INR it in
    let h := (b - a) / tnm in
    let '(sum, _) := Nat.iter it (fun sx : R * R => let '(sum, x) := sx in (sum + f x, x + h)) (0, a + / 2 * h) in
    / 2 * (s_old + (b - a) * sum / tnm).
(** integral, integral.c:33-49: [k] is the number of values of j left *)
Fixpoint integral_loop (f : R -> R) (a b s : R) (k j : nat) (itold itnew : R) : R :=
  match k with
  | O => itnew
  | S k =>
    let itnew := trapezit f a b j itold in
    if Rlt_dec (Rabs (itnew - itold)) (s * Rabs itold) then itnew else integral_loop f a b s k (S j) itnew itnew
  end.
Definition integral_trap (f : R -> R) (a b s : R) (max : nat) : R := let itnew := trapezit f a b 1 0 in integral_loop f a b s (max - 1) 2 itnew itnew.

(** polint, integral.c:145-177.  Arrays start at 1.  Two equal abscissae give Err (the C code prints a message and divides by zero).
    The loop over i changes c[i] and d[i] and reads c[i+1]; [c] and [d] in the last line are read at an index that depends on the data:
    outside of 1..n that is UB *)
Definition updf (v : nat -> R) (i : nat) (x : R) : nat -> R := fun j => if (j =? i)%nat then x else v j.
Fixpoint nearest (x : R) (xa : nat -> R) (i k ns : nat) (dif : R) : nat :=
  match k with O => ns | S k => if Rlt_dec (Rabs (x - xa i)) dif then nearest x xa (S i) k i (Rabs (x - xa i)) else nearest x xa (S i) k ns dif end.
Fixpoint tableau (x : R) (xa : nat -> R) (m i k : nat) (cd : (nat -> R) * (nat -> R)) : res ((nat -> R) * (nat -> R)) :=
  match k with
  | O => Ok cd
  | S k =>
    let '(c, d) := cd in
    let ho := xa i - x in
    let hp := xa (i + m)%nat - x in
    let w := c (i + 1)%nat - d i in
    if Req_EM_T (ho - hp) 0 then Err else
    let den := w / (ho - hp) in
    tableau x xa m (S i) k (updf c i (ho * den), updf d i (hp * den))
  end.
Definition geta (n : nat) (v : nat -> R) (i : Z) : res R := if (1 <=? i)%Z && (i <=? Z.of_nat n)%Z then Ok (v (Z.to_nat i)) else UB.
Fixpoint pol_loop (n : nat) (x : R) (xa : nat -> R) (k m : nat) (cd : (nat -> R) * (nat -> R)) (ns : Z) (y : R) (dy : option R) : res (R * option R) :=
  match k with
  | O => Ok (y, dy)
  | S k =>
    do cd <- tableau x xa m 1 (n - m) cd;
    if (2 * ns <? Z.of_nat n - Z.of_nat m)%Z then do e <- geta n (fst cd) (ns + 1); pol_loop n x xa k (S m) cd ns (y + e) (Some e)
    else do e <- geta n (snd cd) ns; pol_loop n x xa k (S m) cd (ns - 1) (y + e) (Some e)
  end.
Definition polint (xa ya : nat -> R) (n : nat) (x : R) : res (R * option R) :=
  let ns := nearest x xa 1 n 1 (Rabs (x - xa 1%nat)) in
  pol_loop n x xa (n - 1) 1 (ya, ya) (Z.of_nat ns - 1) (ya ns) None.

(** rombintegral, integral.c:105-142 (K = 5); ss is not set before the fifth step: None *)
Fixpoint romb_loop (f : R -> R) (a b eps : R) (k j : nat) (s h : nat -> R) (ss : option R) : res R :=
  match k with
  | O => match ss with Some v => Ok v | None => UB end
  | S k =>
    let s := updf s j (trapezit f a b j (s (j - 1)%nat)) in
    if (5 <=? j)%nat then
      do (ss, dss) <- polint (fun i => h (j - 5 + i)%nat) (fun i => s (j - 5 + i)%nat) 5 0;
      match dss with
      | None => UB
      | Some dss => if Rle_dec (Rabs dss) (eps * Rabs ss) then Ok ss else romb_loop f a b eps k (S j) s (updf h (j + 1) (/ 4 * h j)) (Some ss)
      end
    else romb_loop f a b eps k (S j) s (updf h (j + 1) (/ 4 * h j)) ss
  end.
Definition rombintegral (f : R -> R) (a b eps : R) (max : nat) (s0 h0 : nat -> R) : res R := romb_loop f a b eps max 1 s0 (updf h0 1 1) None.

(** integrate_trapez_1Dgrid, integrals_1Dgrid.c:7-17; i1, i2 >= 0 *)
Fixpoint trapez_loop (f : list R) (dx : R) (k i : nat) (sum : R) : res R :=
  match k with O => Ok sum | S k => do x <- rd f i; do y <- rd f (i + 1); trapez_loop f dx k (S i) (sum + dx / 2 * (x + y)) end.
Definition integrate_trapez_1Dgrid (f : list R) (dx : R) (i1 i2 : nat) : res R := trapez_loop f dx (i2 - i1) i1 0.
(** the Simpson loop: i = lo, lo+2, ... < hi; [k] bounds the number of rounds *)
Fixpoint simpson_loop (f : list R) (dx : R) (k i hi : nat) (sum : R) : res R :=
  match k with
  | O => Ok sum
  | S k => if (i <? hi)%nat then do x <- rd f i; do y <- rd f (i + 1); do z <- rd f (i + 2); simpson_loop f dx k (i + 2) hi (sum + dx / 3 * (x + 4 * y + z)) else Ok sum
  end.
(** 3 * dx * (f[i] + 3 * (f[i+1] + f[i+2]) + f[i+3]) / 8 *)
Definition three_eighth (f : list R) (dx : R) (i : nat) : res R :=
  do w <- rd f i; do x <- rd f (i + 1); do y <- rd f (i + 2); do z <- rd f (i + 3); Ok (3 * dx * (w + 3 * (x + y) + z) / 8).
(** integrate_simpson_1Dgrid, integrals_1Dgrid.c:21-46; for i1 <= i2 *)
Definition integrate_simpson_1Dgrid (f : list R) (dx : R) (i1 i2 : nat) : res R :=
  if (i2 - i1 <? 3)%nat then integrate_trapez_1Dgrid f dx i1 i2 else
  let even := ((i2 - i1 + 1) mod 2 =? 0)%nat in
  let ioff := if even then 3%nat else 0%nat in
  do sum <- simpson_loop f dx (i2 + 1) i1 (i2 - ioff - 1) 0;
  if even then do e <- three_eighth f dx (i2 - 3); Ok (sum + e) else Ok sum.
(** integrate_simpson_old_1Dgrid, integrals_1Dgrid.c:51-70 *)
Definition integrate_simpson_old_1Dgrid (f : list R) (dx : R) (i1 i2 : nat) : res R :=
  let even := ((i2 - i1 + 1) mod 2 =? 0)%nat in
  do sum <- (if even then do e <- three_eighth f dx i1; Ok (0 + e) else Ok 0);
  simpson_loop f dx (i2 + 1) (i1 + if even then 3 else 0)%nat (i2 - 1) sum.

(** integral3D with its static functions f1, f2, f3, integral3D.c:40-85.  The integrator calls its function at some points and
    combines the values.  The static variables x_sav, y_sav are the state: f1 sets x_sav and then integrates f2, f2 sets y_sav and then
    integrates f3.  An integrator is given by the way it combines: it maps a function that changes the state into a value and a new state. *)
Definition st := (R * R)%type.
Definition fst_fun := R -> st -> R * st.
Section Integral3D.
Variable integrator : fst_fun -> R -> R -> R -> nat -> st -> R * st.
Variable func : R -> R -> R -> R.
Variable y_limit1 y_limit2 : R -> R.
Variable z_limit1 z_limit2 : R -> R -> R.
Variable sx sy sz : R.
Variable maxx maxy maxz : nat.
Definition f3 : fst_fun := fun z s => (func (fst s) (snd s) z, s).
Definition f2 : fst_fun := fun y s => let s := (fst s, y) in integrator f3 (z_limit1 (fst s) y) (z_limit2 (fst s) y) sz maxz s.
Definition f1 : fst_fun := fun x s => let s := (x, snd s) in integrator f2 (y_limit1 x) (y_limit2 x) sy maxy s.
Definition integral3D (x1 x2 : R) (s : st) : R := fst (integrator f1 x1 x2 sx maxx s).
End Integral3D.
(** the trapezoidal integrator and the Romberg integrator with functions that use the state: the same code, with the values of f taken in
    the order of the calls *)
Definition trapezit_st (f : fst_fun) (a b : R) (n : nat) (s_old : R) (s : st) : R * st :=
  if (n =? 1)%nat then let '(fa, s) := f a s in let '(fb, s) := f b s in (/ 2 * (b - a) * (fa + fb), s)
  else
    let it := Nat.iter (n - 2) (fun i => 2 * i)%nat 1%nat in
    let tnm := INR it in
    let h := (b - a) / tnm in
    let '(sum, _, s) := Nat.iter it (fun sx : R * R * st => let '(sum, x, s) := sx in let '(v, s) := f x s in (sum + v, x + h, s)) (0, a + / 2 * h, s) in
    (/ 2 * (s_old + (b - a) * sum / tnm), s).
Fixpoint integral_loop_st (f : fst_fun) (a b eps : R) (k j : nat) (itold itnew : R) (s : st) : R * st :=
  match k with
  | O => (itnew, s)
  | S k =>
    let '(itnew, s) := trapezit_st f a b j itold s in
    if Rlt_dec (Rabs (itnew - itold)) (eps * Rabs itold) then (itnew, s) else integral_loop_st f a b eps k (S j) itnew itnew s
  end.
Definition integral_st (f : fst_fun) (a b eps : R) (max : nat) (s : st) : R * st := let '(itnew, s) := trapezit_st f a b 1 0 s in integral_loop_st f a b eps (max - 1) 2 itnew itnew s.

(** Model of src/utility/numerics/newton_linesearch.c:40-360: newton_linesearch and the functions it uses.
    double is R.  vecfuncP is a function from the array x to the array of values (it neither changes x nor keeps a state; par is part of
    it); the shift of all arrays by vecfuncP_ilow is left out, i.e. vecfuncP_ilow = 0.  finit(f) is true for a real number, so
    line 204 (return of -its-itmax*10) is never taken.  malloc never fails.  A division whose divisor may be zero is
    ldiv: UB stands for the inf or NaN of C, which are outside the model.  abort() is Err, and nothing else is.  Uninitialised arrays are lists of arbitrary content, where it matters. *)
From Verif Require Import Rutil Loops Sparse_model Solvers_model Lu_model.
Local Open Scope R_scope.

(** the loops "for(sum=0.0,i=0; i<n; i++) sum += SQR(x[i])", lines 95, 272-273, 296 *)
Definition sumsq (v : list R) : R := fold_left (fun sum a => sum + a * a) v 0.
(** the loops "test=0; for(i..) { temp = ..; if(temp > test) test = temp; }", lines 84-87, 159-162, 172-177, 182-187, 305-310, on the list of the temps *)
Definition maxloop (temps : list R) : R := fold_left (fun test temp => if Rlt_dec test temp then temp else test) temps 0.

Definition ldiv (a b : R) : res R := if Req_EM_T b 0 then UB else Ok (a / b).
Definition EPS : R := / 10 ^ 7.
Definition HMIN : R := / 10 ^ 10.
Definition ALPHA : R := / 10 ^ 4.
Definition TOLX : R := / 10 ^ 14.
Definition TOLMIN : R := / 10 ^ 13.
Definition STPMX : R := 100.

Section Lsrch.
Variable n : nat.
Variable F : list R -> list R.

(** lines 262-275 f_to_minimize_in_linesrchP: its value; the second result, the array newton_linesrch_fvec, is F x *)
Definition fmin (x : list R) : R := 0.5 * sumsq (F x).

(** lines 247-251: column j of df from the values f at x + h e_j; the flag is df_nonzero *)
Definition fd_col (f fvec : list R) (h : R) (j : nat) (df : list R) : res (list R * bool) :=
  for_nat 0 n (fun i r => let '(df, nz) := r in
    do fi <- rd f i; do fv <- rd fvec i; let q := (fi - fv) / h in
    do df <- wrm n df i j q; Ok (df, if Req_EM_T q 0 then nz else true)) (df, false).
(** lines 241-253: the k-loop over h, 10 h, ...; [tries] is 8-k.  h = x[j]-tmp (line 244) changes nothing in exact arithmetic. *)
Fixpoint fd_try (tries : nat) (x fvec : list R) (j : nat) (tmp h : R) (df : list R) : res (list R) :=
  match tries with O => Ok df | S t =>
    do r <- fd_col (F (upd x j (tmp + h))) fvec h j df;
    if snd r then Ok (fst r) else fd_try t x fvec j tmp (h * 10) (fst r)
  end.
(** lines 220-256 fd_jacobianP *)
Definition fd_jacobian (x fvec df : list R) : res (list R) :=
  for_nat 0 n (fun j df => do tmp <- rd x j;
    let h := EPS * Rabs tmp in
    let h := if Rlt_dec h HMIN then HMIN else h in
    fd_try 8 x fvec j tmp h df) df.

(** lines 102-106: g = transpose(fjac) fvec *)
Definition gradient (fjac fvec g : list R) : res (list R) :=
  for_nat 0 n (fun i g =>
    do sum <- for_nat 0 n (fun j sum => do a <- rdm n fjac j i; do f <- rd fvec j; Ok (sum + a * f)) 0;
    wr g i sum) g.

(** lines 112-150: the direction used when lu_decomp reports a zero row or column *)
Definition singular_dir (fjac p : list R) : res (list R) :=
  do r <- for_nat 0 n (fun l r => let '(p, idx) := r in
    do q <- for_nat 0 n (fun k q => let '(ma, idx) := q in
      do a <- rdm n fjac k l;
      if Rlt_dec ma (Rabs a) then
        if existsb (Nat.eqb k) (firstn l idx) then Ok (ma, idx) else do idx <- wr idx l k; Ok (Rabs a, idx)
      else Ok (ma, idx)) (0, idx);
    let idx := snd q in
    do k <- rd idx l;
    do pl <- rd p l;
    do v <- (if (0 <? k)%nat then do a <- rdm n fjac k l; ldiv pl a else Ok 0);
    do p <- wr p l v;
    Ok (p, idx)) (p, repeat 0%nat n);
  Ok (fst r).

(** lines 314-359: the loop of linesrchP; alamin = None is +infinity (TOLX/0); prev = Some (alam2, f2) once they are set; fold2 = fold.
    [fuel] bounds the number of passes, UB when it runs out. *)
Fixpoint ls_loop (xold p : list R) (fold slope : R) (alamin : option R) (fuel : nat) (alam : R) (prev : option (R * R))
  : res (list R * R * list R * bool) :=
  match fuel with O => UB | S fuel' =>
    let x := zip (fun xo pi => xo + alam * pi) xold p in
    let f := fmin x in
    if match alamin with None => true | Some l => if Rlt_dec alam l then true else false end then Ok (xold, f, F x, true)
    else if Rle_dec f (fold + ALPHA * alam * slope) then Ok (x, f, F x, false)
    else
      do tmplam <- (if Req_EM_T alam 1 then ldiv (- slope) (2 * (f - fold - slope))
        else match prev with None => UB | Some (alam2, f2) =>
          let term1 := f - fold - alam * slope in
          let term2 := f2 - fold - alam2 * slope in
          do a <- ldiv (term1 / (alam * alam) - term2 / (alam2 * alam2)) (alam - alam2);
          do b <- ldiv (- alam2 * term1 / (alam * alam) + alam * term2 / (alam2 * alam2)) (alam - alam2);
          do t <- (if Req_EM_T a 0 then ldiv (- slope) (2 * b)
                   else let discrimi := b * b - 3 * a * slope in
                        if Rlt_dec discrimi 0 then Err else ldiv (- b + sqrt discrimi) (3 * a));
          Ok (if Rlt_dec (0.5 * alam) t then 0.5 * alam else t)
        end);
      ls_loop xold p fold slope alamin fuel' (Rmax tmplam (0.1 * alam)) (Some (alam, f))
  end.
(** lines 281-360 linesrchP.  Results: x, *f, newton_linesrch_fvec, *check. *)
Definition linesrch (xold : list R) (fold : R) (g p : list R) (stpmax : R) (fuel : nat) : res (list R * R * list R * bool) :=
  let sum := sqrt (sumsq p) in
  let p := if Rlt_dec stpmax sum then map (fun pi => pi * (stpmax / sum)) p else p in
  let slope := scalarproduct_vectors g p in
  let test := maxloop (zip (fun pi xo => Rabs pi / Rmax (Rabs xo) 1) p xold) in
  let alamin := if Req_EM_T test 0 then None else Some (TOLX / test) in
  ls_loop xold p fold slope alamin fuel 1 None.

(** lines 97-194: the loop over its.  Results: return value, x, *check.  [junk] is what malloc left in fjac, g, p_idx and the vscal
    array of lu_decomp, for each iteration; [todo] = itmax - its + 1. *)
Record junk := { j_fjac : list R; j_g : list R; j_idx : list nat; j_vscal : list R }.
Fixpoint nl_loop (jk : Z -> junk) (stpmax tolf : R) (fuel todo : nat) (its : Z) (x : list R) (f : R) (fvec : list R) (check : bool) : res (Z * list R * bool) :=
  match todo with O => Ok ((- its - 1)%Z, x, check) | S todo' =>
    do fjac <- fd_jacobian x fvec (j_fjac (jk its));
    do g <- gradient fjac fvec (j_g (jk its));
    let xold := x in
    let p := map Ropp fvec in
    do d <- lu_decomp n fjac (j_vscal (jk its)) (j_idx (jk its)) 1;
    let '(j, lu, p_idx, _) := d in
    do p <- (if (j =? 0)%Z then lu_solve n lu p_idx p else singular_dir lu p);
    do q <- linesrch xold f g p stpmax fuel;
    let '(x, f, fvec, check) := q in
    if Rlt_dec (maxloop (map Rabs fvec)) tolf then Ok (its, x, false)
    else if check then
      let denom := Rmax f (0.5 * INR n) in
      let test := maxloop (zip (fun gi xi => Rabs gi * Rmax (Rabs xi) 1 / denom) g x) in
      Ok (its, x, if Rlt_dec test TOLMIN then true else false)
    else
      let test := maxloop (zip (fun xi xo => Rabs (xi - xo) / Rmax (Rabs xi) 1) x xold) in
      if Rlt_dec test TOLX then Ok (its, x, check)
      else nl_loop jk stpmax tolf fuel todo' (its + 1) x f fvec check
  end.
(** lines 52-206 newton_linesearch; check0 is the value of *check at the call *)
Definition newton_linesearch (jk : Z -> junk) (fuel : nat) (x : list R) (check0 : bool) (itmax : Z) (tolf : R) : res (Z * list R * bool) :=
  let fvec := F x in
  let f := fmin x in
  if Rlt_dec (maxloop (map Rabs fvec)) (0.01 * tolf) then Ok (0%Z, x, false)
  else
    let stpmax := STPMX * Rmax (sqrt (sumsq x)) (INR n) in
    nl_loop jk stpmax tolf fuel (Z.to_nat itmax) 1 x f fvec check0.
End Lsrch.

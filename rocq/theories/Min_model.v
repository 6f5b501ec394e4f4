(** Model of the minimization routines in src/utility/NumericUtils: golden.c:7-39, mnbrak.c:9-60, brent.c:10-67, linmin.c:8-37 with f1dim (linmin.c:52-63), powell.c:6-55.  The variants with a pointer to parameters (mnbrak.c:64-119, brent.c:72-139) are the same text with one more argument for the function; a function here is any function of the variable.
    Real numbers instead of doubles.  The loops of golden and mnbrak have no bound: they get a number of passes, and None means that they have not ended after that many.  nrerror prints and exits: also None, in brent after 100 passes and in powell after 200.  In brent the variable d is not initialized: it is None until it is set, and reading it before is UB.  Vectors are lists, index 1 of the code is position 0; the matrix xi is the list of its columns, because powell and linmin use columns only. *)
From Verif Require Import Rutil Base Loops Sparse_model.
Local Open Scope R_scope.
(** nrutil.h: SIGN, FMAX, SQR *)
Definition SIGN (a b : R) : R := if Rle_dec 0 b then Rabs a else - Rabs a.
Definition FMAX (a b : R) : R := if Rlt_dec b a then a else b.
Definition SQR (a : R) : R := if Req_EM_T a 0 then 0 else a * a.

(** golden.c:2-3 *)
Definition gR : R := 61803399 / 100000000.
Definition gC : R := 1 - gR.
Record gst := G { g0 : R; g1 : R; g2 : R; g3 : R; gf1 : R; gf2 : R }.
(** golden.c:12-23 *)
Definition golden_init (f : R -> R) (ax bx cx : R) : gst :=
  if Rlt_dec (Rabs (bx - ax)) (Rabs (cx - bx)) then let x2 := bx + gC * (cx - bx) in G ax bx x2 cx (f bx) (f x2)
  else let x1 := bx - gC * (bx - ax) in G ax x1 bx cx (f x1) (f bx).
(** golden.c:24-32; in the macros each assignment uses the values set by the ones before *)
Definition golden_pass (f : R -> R) (s : gst) : gst :=
  if Rlt_dec (gf2 s) (gf1 s) then let x0 := g1 s in let x1 := g2 s in let x2 := gR * x1 + gC * g3 s in G x0 x1 x2 (g3 s) (gf2 s) (f x2)
  else let x3 := g2 s in let x2 := g1 s in let x1 := gR * x2 + gC * g0 s in G (g0 s) x1 x2 x3 (f x1) (gf1 s).
Fixpoint golden_loop (f : R -> R) (tol : R) (n : nat) (s : gst) : option gst :=
  if Rlt_dec (tol * (Rabs (g1 s) + Rabs (g2 s))) (Rabs (g3 s - g0 s)) then match n with O => None | S n => golden_loop f tol n (golden_pass f s) end else Some s.
(** golden: the pair ( *xmin, return value) *)
Definition golden (f : R -> R) (n : nat) (ax bx cx tol : R) : option (R * R) :=
  match golden_loop f tol n (golden_init f ax bx cx) with
  | None => None
  | Some s => Some (if Rlt_dec (gf1 s) (gf2 s) then (g1 s, gf1 s) else (g2 s, gf2 s))
  end.

(** mnbrak.c:4-6 *)
Definition GOLD : R := 1618034 / 1000000.
Definition GLIMIT : R := 100.
Definition TINY : R := / 10 ^ 20.
Record mst := M { ma : R; mb : R; mc : R; mfa : R; mfb : R; mfc : R }.
(** mnbrak.c:15-22 *)
Definition mnbrak_init (f : R -> R) (ax bx : R) : mst :=
  let '(a, b) := if Rlt_dec (f ax) (f bx) then (bx, ax) else (ax, bx) in
  let c := b + GOLD * (b - a) in M a b c (f a) (f b) (f c).
(** the last lines of a pass, mnbrak.c:57-58 *)
Definition mshift (s : mst) (u fu : R) : mst := M (mb s) (mc s) u (mfb s) (mfc s) fu.
(** one pass, mnbrak.c:24-58: the flag tells that the function returns *)
Definition mnbrak_pass (f : R -> R) (s : mst) : bool * mst :=
  let '(M ax bx cx fa fb fc) := s in
  let r := (bx - ax) * (fb - fc) in let q := (bx - cx) * (fb - fa) in
  let u := bx - ((bx - cx) * q - (bx - ax) * r) / (2 * SIGN (FMAX (Rabs (q - r)) TINY) (q - r)) in
  let ulim := bx + GLIMIT * (cx - bx) in
  if Rlt_dec 0 ((bx - u) * (u - cx)) then
    let fu := f u in
    if Rlt_dec fu fc then (true, M bx u cx fb fu fc)
    else if Rlt_dec fb fu then (true, M ax bx u fa fb fu)
    else let u := cx + GOLD * (cx - bx) in (false, mshift s u (f u))
  else if Rlt_dec 0 ((cx - u) * (u - ulim)) then
    let fu := f u in
    if Rlt_dec fu fc then let u' := u + GOLD * (u - cx) in (false, mshift (M ax cx u fa fc fu) u' (f u'))
    else (false, mshift s u fu)
  else if Rle_dec 0 ((u - ulim) * (ulim - cx)) then (false, mshift s ulim (f ulim))
  else let u := cx + GOLD * (cx - bx) in (false, mshift s u (f u)).
Fixpoint mnbrak_loop (f : R -> R) (n : nat) (s : mst) : option mst :=
  if Rlt_dec (mfc s) (mfb s) then match n with O => None | S n => let '(ret, s) := mnbrak_pass f s in if ret then Some s else mnbrak_loop f n s end else Some s.
Definition mnbrak (f : R -> R) (n : nat) (ax bx : R) : option mst := mnbrak_loop f n (mnbrak_init f ax bx).

(** brent.c:4-6 *)
Definition CGOLD : R := 3819660 / 10000000.
Definition ZEPS : R := / 10 ^ 10.
Record bst := B { ba : R; bb : R; bd : option R; be : R; bx : R; bw : R; bv : R; bfx : R; bfw : R; bfv : R }.
(** brent.c:17-20 *)
Definition brent_init (f : R -> R) (ax b cx : R) : bst := B (if Rlt_dec ax cx then ax else cx) (if Rlt_dec cx ax then ax else cx) None 0 b b b (f b) (f b) (f b).
(** brent.c:28-47: the new d and e *)
Definition brent_step (s : bst) (xm tol1 tol2 : R) : res (R * R) :=
  let '(B a b d e x w v fx fw fv) := s in
  let e' := if Rle_dec xm x then a - x else b - x in
  let section := (CGOLD * e', e') in
  if Rlt_dec tol1 (Rabs e) then
    let r := (x - w) * (fx - fv) in let q := (x - v) * (fx - fw) in let p := (x - v) * q - (x - w) * r in
    let q := 2 * (q - r) in let p := if Rlt_dec 0 q then - p else p in let q := Rabs q in
    match d with
    | None => UB
    | Some d0 =>
      if Rle_dec (Rabs (0.5 * q * e)) (Rabs p) then Ok section else if Rle_dec p (q * (a - x)) then Ok section else if Rle_dec (q * (b - x)) p then Ok section
      else let d := p / q in let u := x + d in
           if Rlt_dec (u - a) tol2 then Ok (SIGN tol1 (xm - x), d0) else if Rlt_dec (b - u) tol2 then Ok (SIGN tol1 (xm - x), d0) else Ok (d, d0)
    end
  else Ok section.
(** brent.c:50-66 *)
Definition brent_update (f : R -> R) (s : bst) (d e tol1 : R) : bst :=
  let '(B a b _ _ x w v fx fw fv) := s in
  let u := if Rle_dec tol1 (Rabs d) then x + d else x + SIGN tol1 d in let fu := f u in
  if Rle_dec fu fx then
    let a' := if Rle_dec x u then x else a in let b' := if Rle_dec x u then b else x in B a' b' (Some d) e u x w fu fx fw
  else
    let a' := if Rlt_dec u x then u else a in let b' := if Rlt_dec u x then b else u in
    if Rle_dec fu fw then B a' b' (Some d) e x u w fx fu fw else if Req_EM_T w x then B a' b' (Some d) e x u w fx fu fw
    else if Rle_dec fu fv then B a' b' (Some d) e x w u fx fw fu else if Req_EM_T v x then B a' b' (Some d) e x w u fx fw fu else if Req_EM_T v w then B a' b' (Some d) e x w u fx fw fu
    else B a' b' (Some d) e x w v fx fw fv.
(** the loop, brent.c:21-67 *)
Fixpoint brent_loop (f : R -> R) (tol : R) (n : nat) (s : bst) : res (option bst) :=
  match n with
  | O => Ok None
  | S n =>
    let xm := 0.5 * (ba s + bb s) in let tol1 := tol * Rabs (bx s) + ZEPS in let tol2 := 2 * tol1 in
    if Rle_dec (Rabs (bx s - xm)) (tol2 - 0.5 * (bb s - ba s)) then Ok (Some s)
    else do de <- brent_step s xm tol1 tol2; let '(d, e) := de in brent_loop f tol n (brent_update f s d e tol1)
  end.
Definition brent (f : R -> R) (ax b cx tol : R) : res (option (R * R)) :=
  do r <- brent_loop f tol 100 (brent_init f ax b cx); Ok (match r with None => None | Some s => Some (bx s, bfx s) end).

(** f1dim, linmin.c:52-63 *)
Definition along_line (p xi : list R) (x : R) : list R := map (fun j => nth j p 0 + x * nth j xi 0) (seq 0 (List.length p)).
(** linmin, linmin.c:8-37: the new p, the new xi and *fret; n is the bound for mnbrak *)
Definition linmin (func : list R -> R) (n : nat) (p xi : list R) : res (option (list R * list R * R)) :=
  let f x := func (along_line p xi x) in
  match mnbrak f n 0 1 with
  | None => Ok None
  | Some s =>
    do r <- brent f (ma s) (mb s) (mc s) (2 / 10000);
    Ok (match r with
        | None => None
        | Some (xmin, fret) => let xi' := map (fun c => c * xmin) xi in Some (map (fun j => nth j p 0 + nth j xi' 0) (seq 0 (List.length p)), xi', fret)
        end)
  end.
(** powell.c:21-29: one line minimization for each column; ibig counts from 1, 0 for none *)
Fixpoint powell_lines (func : list R -> R) (n : nat) (cols : list (list R)) (i : nat) (p : list R) (fret del : R) (ibig : nat) : res (option (list R * R * R * nat)) :=
  match cols with
  | [] => Ok (Some (p, fret, del, ibig))
  | xit :: cols =>
    do r <- linmin func n p xit;
    match r with
    | None => Ok None
    | Some (p', _, fret') =>
      if Rlt_dec del (Rabs (fret - fret')) then powell_lines func n cols (i + 1) p' fret' (Rabs (fret - fret')) i
      else powell_lines func n cols (i + 1) p' fret' del ibig
    end
  end.
(** powell.c:46-49: column ibig gets the last column, the last column gets xit; xi[j][0] is outside of the matrix *)
Definition new_columns (cols : list (list R)) (ibig : nat) (xit : list R) : res (list (list R)) :=
  match ibig with
  | O => UB
  | S i => do last <- rd cols (List.length cols - 1); do cols <- wr cols i last; wr cols (List.length cols - 1) xit
  end.
(** powell.c:18-53: the passes from number 200-k+1 on; the result is p, xi, *fret *)
Fixpoint powell_loop (func : list R -> R) (n : nat) (ftol : R) (k : nat) (cols : list (list R)) (pt p : list R) (fret : R) : res (option (list R * list (list R) * R)) :=
  match k with
  | O => Ok None
  | S k =>
    let fp := fret in
    do r <- powell_lines func n cols 1 p fret 0 0;
    match r with
    | None => Ok None
    | Some (p, fret, del, ibig) =>
      if Rle_dec (2 * Rabs (fp - fret)) (ftol * (Rabs fp + Rabs fret)) then Ok (Some (p, cols, fret))
      else match k with
      | O => Ok None
      | _ =>
        let ptt := map (fun j => 2 * nth j p 0 - nth j pt 0) (seq 0 (List.length p)) in let xit := map (fun j => nth j p 0 - nth j pt 0) (seq 0 (List.length p)) in
        let pt := p in let fptt := func ptt in
        if Rlt_dec fptt fp then
          let t := 2 * (fp - 2 * fret + fptt) * SQR (fp - fret - del) - del * SQR (fp - fptt) in
          if Rlt_dec t 0 then
            do r <- linmin func n p xit;
            match r with
            | None => Ok None
            | Some (p, xit, fret) => do cols <- new_columns cols ibig xit; powell_loop func n ftol k cols pt p fret
            end
          else powell_loop func n ftol k cols pt p fret
        else powell_loop func n ftol k cols pt p fret
      end
    end
  end.
Definition powell (func : list R -> R) (n : nat) (ftol : R) (cols : list (list R)) (p : list R) : res (option (list R * list (list R) * R)) :=
  powell_loop func n ftol 200 cols p p (func p).

(** The projection onto spherical harmonics: src/utility/s2kit/YlmFilter.c and the parts of s2kit it calls: s2kit_makeweights.c:77-100,
    s2kit_primitive.c:49-51, 61-84, 128-259, s2kit_pmls.c:73-120, s2kit_naive_synthesis.c:83-203.
    double is R.  The arrays carved out of one workspace are separate lists; a new array has arbitrary contents. *)
From Verif Require Import Base Rutil Arrays Loops Sparse_model Mat_model Dir_model Lines_model Filt_model.
Local Open Scope R_scope.

(** The decimal literals of the code: PI, which s2kit_primitive.c:49-51 defines because math.h does not, and the first Legendre function for
    m = 0 (s2kit_pmls.c:102).  makeweights uses M_PI, the double nearest to pi, here pi itself. *)
Record literals := { c_pi : R; c_half : R }.
Definition in_code : literals := {| c_pi := 3.14159265358979; c_half := 0.707106781186547 |}.

(** s2kit_makeweights.c:77-100 *)
Definition makeweights (bw : nat) (weights : list R) : res (list R) :=
  let fudge := PI / INR (4 * bw) in
  for_nat 0 (2 * bw) (fun j w =>
    do s <- for_nat 0 bw (fun k s => Ok (s + 1 / INR (2 * k + 1) * sin (INR ((2 * j + 1) * (2 * k + 1)) * fudge))) 0;
    let s := s * sin (INR (2 * j + 1) * fudge) in
    let s := s * (2 / INR bw) in
    do w <- wr w j s; wr w (j + 2 * bw) (s * sin (INR (2 * j + 1) * fudge))) weights.

(** s2kit_primitive.c:61-68 *)
Definition L2_an (m l : nat) : R :=
  sqrt (INR (2 * l + 3) / INR (2 * l + 1) * (INR (l - m + 1) / INR (l + m + 1))) * (INR (2 * l + 1) / INR (l - m + 1)).
(** s2kit_primitive.c:71-84 *)
Definition L2_cn (m l : nat) : R :=
  if (l =? 0)%nat then 0
  else -1 * sqrt (INR (2 * l + 3) / INR (2 * l - 1) * (INR (l - m + 1) / INR (l + m + 1)) * (INR (l - m) / INR (l + m))) * (INR (l + m) / INR (l - m + 1)).

(** s2kit_primitive.c:128-146, 153-172, 176-195: the first n % 4 elements one by one, the others in groups of four *)
Definition unroll4 {S} (n : nat) (body : nat -> S -> res S) (s : S) : res S :=
  do s <- for_nat 0 (n mod 4) body s;
  for_nat 0 (n / 4) (fun q s => let k := (n mod 4 + 4 * q)%nat in
    do s <- body k s; do s <- body (k + 1)%nat s; do s <- body (k + 2)%nat s; body (k + 3)%nat s) s.
Definition vec_add (d1 d2 result : list R) (n : nat) : res (list R) := unroll4 n (fun k r => do x <- rd d1 k; do y <- rd d2 k; wr r k (x + y)) result.
Definition vec_mul (a : R) (d1 result : list R) (n : nat) : res (list R) := unroll4 n (fun k r => do x <- rd d1 k; wr r k (a * x)) result.
Definition vec_pt_mul (d1 d2 result : list R) (n : nat) : res (list R) := unroll4 n (fun k r => do x <- rd d1 k; do y <- rd d2 k; wr r k (x * y)) result.
(** s2kit_primitive.c:202-213 and 217-228 *)
Definition ArcCosEvalPts (c : literals) (n : nat) (e : list R) : res (list R) := for_nat 0 n (fun i e => wr e i ((2 * INR i + 1) * c_pi c / INR (2 * n))) e.
Definition EvalPts (c : literals) (n : nat) (e : list R) : res (list R) := for_nat 0 n (fun i e => wr e i (cos ((2 * INR i + 1) * c_pi c / INR (2 * n)))) e.
(** s2kit_primitive.c:236-259.  pow(x, m) with the integer m is x^m, pow(2, -m/2) is Rpower *)
Definition Pmm_L2 (m : nat) (eval_pts : list R) (n : nat) (result : list R) : res (list R) :=
  let md := INR m in
  do r <- for_nat 0 m (fun i r => let '(mcons, id) := r in Ok (mcons * sqrt ((md - id / 2) / (md - id)), id + 1)) (sqrt (md + / 2), 0);
  let mcons := fst r in
  let mcons := if (m =? 0)%nat then mcons else mcons * Rpower 2 (- md / 2) in
  let mcons := if (m mod 2 =? 0)%nat then mcons else mcons * -1 in
  for_nat 0 n (fun i r => do x <- rd eval_pts i; wr r i (mcons * sin x ^ m)) result.
(** memcpy(dest + off, src, n) *)
Definition memcpy (dest : list R) (off : nat) (src : list R) (n : nat) : res (list R) := for_nat 0 n (fun j d => do x <- rd src j; wr d (off + j) x) dest.
Record wsp := { w_pp : list R; w_p : list R; w_t1 : list R; w_t2 : list R; w_t3 : list R; w_t4 : list R; w_x : list R; w_e : list R }.
(** s2kit_pmls.c:73-120 *)
Definition PmlTableGen (c : literals) (bw m : nat) (st : list R) (w : wsp) : res (list R * wsp) :=
  let n := (2 * bw)%nat in
  do x <- EvalPts c n (w_x w);
  do e <- ArcCosEvalPts c n (w_e w);
  do pp <- for_nat 0 n (fun i l => wr l i 0) (w_pp w);
  do p <- (if (m =? 0)%nat then for_nat 0 n (fun i l => wr l i (c_half c)) (w_p w) else Pmm_L2 m e n (w_p w));
  do st <- memcpy st 0 p n;
  do r <- for_nat 0 (bw - m - 1) (fun i r => let '(st, w) := r in
    do t1 <- vec_mul (L2_cn m (m + i)) (w_pp w) (w_t1 w) n;
    do t2 <- vec_pt_mul (w_p w) x (w_t2 w) n;
    do t3 <- vec_mul (L2_an m (m + i)) t2 (w_t3 w) n;
    do t4 <- vec_add t3 t1 (w_t4 w) n;
    do st <- memcpy st ((i + 1) * n) t4 n;
    do pp <- memcpy (w_pp w) 0 (w_p w) n;
    do p <- memcpy (w_p w) 0 t4 n;
    Ok (st, {| w_pp := pp; w_p := p; w_t1 := t1; w_t2 := t2; w_t3 := t3; w_t4 := t4; w_x := x; w_e := e |}))
    (st, {| w_pp := pp; w_p := p; w_t1 := w_t1 w; w_t2 := w_t2 w; w_t3 := w_t3 w; w_t4 := w_t4 w; w_x := x; w_e := e |});
  Ok r.

(** s2kit_naive_synthesis.c:83-149: four partial sums *)
Definition Naive_AnalysisX (data : list R) (bw m : nat) (weights result plmtable wdata : list R) : res (list R) :=
  let n := (2 * bw)%nat in
  do result <- for_nat 0 (bw - m) (fun i r => wr r i 0) result;
  do wdata <- for_nat 0 n (fun i w => do x <- rd data i; do y <- rd weights i; wr w i (x * y)) wdata;
  for_nat 0 (bw - m) (fun i r =>
    let term j := do x <- rd wdata j; do y <- rd plmtable (i * n + j); Ok (x * y) in
    do s <- for_nat 0 (n mod 4) (fun j s => let '(r0, r1, r2, r3) := s in do x <- term j; Ok (r0 + x, r1, r2, r3)) (0, 0, 0, 0);
    do s <- for_nat 0 (n / 4) (fun q s => let '(r0, r1, r2, r3) := s in let j := (n mod 4 + 4 * q)%nat in
      do x0 <- term j; do x1 <- term (j + 1)%nat; do x2 <- term (j + 2)%nat; do x3 <- term (j + 3)%nat; Ok (r0 + x0, r1 + x1, r2 + x2, r3 + x3)) s;
    let '(r0, r1, r2, r3) := s in wr r i (r0 + r1 + r2 + r3)) result.
(** s2kit_naive_synthesis.c:183-203 *)
Definition Naive_SynthesizeX (coeffs : list R) (bw m : nat) (result plmtable : list R) : res (list R) :=
  let n := (2 * bw)%nat in
  do result <- for_nat 0 n (fun j r => wr r j 0) result;
  for_nat 0 (bw - m) (fun i r => do a <- rd coeffs i;
    if Req_EM_T a 0 then Ok r else for_nat 0 n (fun j r => do x <- rd r j; do y <- rd plmtable (i * n + j); wr r j (x + a * y)) r) result.

(** the execution environment of one box: contents of new arrays, and the orders in which the parallel loops run, for each variable *)
Record yenv := { y_plm : nat -> list R; y_weights : list R; y_ws : wsp; y_an : nat -> sched; y_sy : nat -> sched; y_order : nat -> list nat;
  y_alloc : nat -> nat -> list R * list R * list R; y_copy1 : nat -> list nat; y_copy2 : nat -> list nat }.
(** YlmFilter.c:54-56 *)
Definition all_tables (c : literals) (bw : nat) (plm : nat -> list R) (w : wsp) : res (nat -> list R) :=
  do r <- for_nat 0 bw (fun m r => let '(plm, w) := r in do r <- PmlTableGen c bw m (plm m) w; Ok (setv plm m (fst r), snd r)) (plm, w); Ok (fst r).
(** YlmFilter.c:71-121: the coefficients k of all lines *)
Definition filter_k (b : sbox) (bw : nat) (lmshift : Z) (plm : nat -> list R) (weights : list R) (alloc : list R * list R * list R) (k : nat) (vc : list R) : res (list R) :=
  let m := ((k + 1) / 2)%nat in
  if (Z.of_nat m <? Z.of_nat bw + lmshift)%Z then
    do r <- for_nat 0 (nn b X1) (fun i r => let '(vc, (samples, coeffs, ws)) := r in
      do samples <- get_memline b vc samples X2 i k;
      do coeffs <- Naive_AnalysisX samples bw m weights coeffs (plm m) ws;
      do coeffs <- for_nat (Z.to_nat (Z.of_nat bw - Z.of_nat m + lmshift)) (bw - m) (fun l c => wr c l 0) coeffs;
      do samples <- Naive_SynthesizeX coeffs bw m samples (plm m);
      do vc <- put_memline b vc samples X2 i k;
      Ok (vc, (samples, coeffs, ws))) (vc, alloc);
    Ok (fst r)
  else for_nat 0 (nn b X2) (fun j vc => for_nat 0 (nn b X1) (fun i vc => wr vc (Ix b i j k) 0) vc) vc.
(** YlmFilter.c:126-141: copy into the double covered region; k' is the point opposite to k *)
Definition copy_cover (b : sbox) (order : list nat) (opp : nat -> nat) (var : list R) : res (list R) :=
  forl order (fun k var => for_nat (nn b X2 / 2) (nn b X2) (fun j var => for_nat 0 (nn b X1) (fun i var =>
    do x <- rd var (Ix b i (nn b X2 - j - 1) (opp k)); wr var (Ix b i j k) x) var) var) var.
(** YlmFilter.c:16-149 Naive_YlmFilter_lmshift, one box; t is the index of temp1, idx the list of variables *)
Definition ylm_box (c : literals) (b : sbox) (lmshift : Z) (en : yenv) (t : nat) (idx : list nat) (v : arrays) : res arrays :=
  if negb (nn b X2 mod 4 =? 0)%nat then Err else if negb (nn b X3 mod 2 =? 0)%nat then Err else
  let bw := (nn b X2 / 4)%nat in
  do plm <- all_tables c bw (y_plm en) (y_ws en);
  do weights <- makeweights bw (y_weights en);
  for_vars idx (fun vi iu v =>
    do vc <- spec_analysis1 b (y_an en vi) X3 (iu =? t)%nat (v iu) (v t); let v := setv v t vc in
    do vc <- forl (y_order en vi) (fun k vc => filter_k b bw lmshift plm weights (y_alloc en vi k) k vc) (v t); let v := setv v t vc in
    do var <- spec_synthesis1 b (y_sy en vi) X3 (iu =? t)%nat (v iu) (v t); let v := setv v iu var in
    do var <- copy_cover b (y_copy1 en vi) (fun k => k + nn b X3 / 2)%nat (v iu); let v := setv v iu var in
    do var <- copy_cover b (y_copy2 en vi) (fun k => k - nn b X3 / 2)%nat (v iu); Ok (setv v iu var)) v.
(** the loop over boxes; g i are the arrays of box i *)
Definition YlmFilter (c : literals) (nboxes : nat) (bx : nat -> sbox) (lmshift : Z) (en : nat -> yenv) (t : nat) (idx : list nat) (g : nat -> arrays) : res (nat -> arrays) :=
  if (0 <? lmshift)%Z then Err else
  for_nat 0 nboxes (fun i g => do x <- ylm_box c (bx i) lmshift (en i) t idx (g i); Ok (fun j => if (j =? i)%nat then x else g j)) g.

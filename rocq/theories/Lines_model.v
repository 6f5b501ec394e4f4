(** Model of the three-dimensional spectral operations, which work line by line:
    src/utility/Spectral/derivs.c:78-135 (get_memline, put_memline), 746-840 (spec_Deriv1), 843-1294 (spec_allDerivs), 1298-1394
    (spec_Deriv2), spec_coeffs.c:190-363 (spec_analysis1, spec_synthesis1), interpolate.c:9-130, integrals.c:9-160 and 261-269,
    filters.c:75-171, OpenMPsave_loops.h:24-49.
    double is R.  A variable on a box is a list of n1*n2*n3 values. *)
From Verif Require Import Rutil Loops Sparse_model Mat_model Dir_model.
Local Open Scope R_scope.

Inductive dir := X1 | X2 | X3.
(** one direction of a box: number of points, bounding box, TransformType flag, function pointers, matrices (struct tBox) *)
Record bdir := { b_n : nat; b_lo : R; b_hi : R; b_T : bool; b_f : funs; b_m : dirbox }.
Record sbox := { bd1 : bdir; bd2 : bdir; bd3 : bdir }.
Definition bd (b : sbox) (d : dir) : bdir := match d with X1 => bd1 b | X2 => bd2 b | X3 => bd3 b end.
Definition nn (b : sbox) (d : dir) : nat := b_n (bd b d).
(** macro Index(i,j,k) of sgrid_MemoryMan.h *)
Definition Ix (b : sbox) (i j k : nat) : nat := (i + nn b X1 * (j + nn b X2 * k))%nat.

(** The numbers that differ between the branches direc==1, 2 and 3: the pointer offset u_i1_i2 - u and the stride in get_memline and
    put_memline (derivs.c:86-104), and the bounds of the inner and outer loop of the callers, e.g. derivs.c:759, 788, 816 *)
Definition base (b : sbox) (d : dir) (i1 i2 : nat) : nat := match d with X1 => Ix b 0 i1 i2 | X2 => Ix b i1 0 i2 | X3 => Ix b i1 i2 0 end.
Definition stride (b : sbox) (d : dir) : nat := match d with X1 => 1 | X2 => nn b X1 | X3 => nn b X1 * nn b X2 end%nat.
Definition n_inner (b : sbox) (d : dir) : nat := match d with X1 => nn b X2 | X2 => nn b X1 | X3 => nn b X1 end.
Definition n_outer (b : sbox) (d : dir) : nat := match d with X1 => nn b X3 | X2 => nn b X3 | X3 => nn b X2 end.

(** derivs.c:82-107 get_memline: line[i] = u_i1_i2[i*stride] *)
Definition get_memline (b : sbox) (u line : list R) (d : dir) (i1 i2 : nat) : res (list R) :=
  for_nat 0 (nn b d) (fun i l => do x <- rd u (base b d i1 i2 + i * stride b d); wr l i x) line.
(** derivs.c:111-135 put_memline: u_i1_i2[i*stride] = line[i] *)
Definition put_memline (b : sbox) (u line : list R) (d : dir) (i1 i2 : nat) : res (list R) :=
  for_nat 0 (nn b d) (fun i u => do x <- rd line i; wr u (base b d i1 i2 + i * stride b d) x) u.

(** OpenMPsave_loops.h:24-49 forLines_alloc2Lines and forLines_alloc3Lines.  The iterations of the outer loop may be run in any
    order [order] (omp parallel for); each allocates its own lines, whose contents [alloc k] are arbitrary. *)
Definition forLines {S B : Type} (order : list nat) (ninner : nat) (alloc : nat -> B) (body : nat -> nat -> S * B -> res (S * B)) (s : S) : res S :=
  forl order (fun k s => do r <- for_nat 0 ninner (fun j r => body j k r) (s, alloc k); Ok (fst r)) s.
(** the environment: the order of the outer loop and the contents of freshly allocated lines *)
Record sched := { s_order : list nat; s_alloc : nat -> list R * list R; s_alloc3 : nat -> list R * list R * list R }.

(** spec_coeffs.c:190-275 spec_analysis1; alias says that u and c are the same array.
    The FFT branch calls get_coeffs, the other multiplies with Mcoeffs. *)
Definition spec_analysis1 (b : sbox) (sc : sched) (d : dir) (alias : bool) (u c : list R) : res (list R) :=
  forLines (s_order sc) (n_inner b d) (s_alloc sc) (fun j k r => let '(c, (uline, cline)) := r in
    do uline <- get_memline b (if alias then c else u) uline d j k;
    do cline <- (if b_T (bd b d) then f_coeffs (b_f (bd b d)) cline uline (nn b d - 1)%nat else matrix_times_vector (m_coeffs (b_m (bd b d))) uline cline (nn b d));
    do c <- put_memline b c cline d j k;
    Ok (c, (uline, cline))) c.
(** spec_coeffs.c:279-363 spec_synthesis1 *)
Definition spec_synthesis1 (b : sbox) (sc : sched) (d : dir) (alias : bool) (u c : list R) : res (list R) :=
  forLines (s_order sc) (n_inner b d) (s_alloc sc) (fun j k r => let '(u, (uline, cline)) := r in
    do cline <- get_memline b (if alias then u else c) cline d j k;
    do uline <- (if b_T (bd b d) then f_eval (b_f (bd b d)) cline uline (nn b d - 1)%nat else matrix_times_vector (m_eval (b_m (bd b d))) cline uline (nn b d));
    do u <- put_memline b u uline d j k;
    Ok (u, (uline, cline))) u.

(** derivs.c:746-840 spec_Deriv1 *)
Definition spec_Deriv1 (b : sbox) (sc : sched) (d : dir) (alias : bool) (u du : list R) : res (list R) :=
  let f := b_f (bd b d) in let n := nn b d in
  forLines (s_order sc) (n_inner b d) (s_alloc sc) (fun j k r => let '(du, (uline, duline)) := r in
    if b_T (bd b d) then
      do uline <- get_memline b (if alias then du else u) uline d j k;
      do duline <- f_coeffs f duline uline (n - 1)%nat;
      do uline <- f_deriv f duline uline (n - 1)%nat;
      do duline <- f_eval f uline duline (n - 1)%nat;
      do du <- put_memline b du duline d j k;
      Ok (du, (uline, duline))
    else match d with
    | X1 => do du <- mtv_at alias (m_D (b_m (bd b d))) u (Ix b 0 j k) du (Ix b 0 j k) n; Ok (du, (uline, duline))
    | _ => do uline <- get_memline b (if alias then du else u) uline d j k;
           do duline <- matrix_times_vector (m_D (b_m (bd b d))) uline duline n;
           do du <- put_memline b du duline d j k;
           Ok (du, (uline, duline))
    end) du.
(** derivs.c:1298-1394 spec_Deriv2 *)
Definition spec_Deriv2 (b : sbox) (sc : sched) (d : dir) (alias : bool) (u du : list R) : res (list R) :=
  let f := b_f (bd b d) in let n := nn b d in
  forLines (s_order sc) (n_inner b d) (s_alloc sc) (fun j k r => let '(du, (uline, duline)) := r in
    if b_T (bd b d) then
      do uline <- get_memline b (if alias then du else u) uline d j k;
      do duline <- f_coeffs f duline uline (n - 1)%nat;
      do uline <- f_deriv f duline uline (n - 1)%nat;
      do duline <- f_deriv f uline duline (n - 1)%nat;
      do uline <- f_eval f duline uline (n - 1)%nat;
      do du <- put_memline b du uline d j k;
      Ok (du, (uline, duline))
    else match d with
    | X1 => do du <- mtv_at alias (m_DD (b_m (bd b d))) u (Ix b 0 j k) du (Ix b 0 j k) n; Ok (du, (uline, duline))
    | _ => do uline <- get_memline b (if alias then du else u) uline d j k;
           do duline <- matrix_times_vector (m_DD (b_m (bd b d))) uline duline n;
           do du <- put_memline b du duline d j k;
           Ok (du, (uline, duline))
    end) du.

(** derivs.c:843-1294 spec_allDerivs.  The ten arrays are distinct; they are the components of a store. *)
Inductive arr := U | U1 | U2 | U3 | U11 | U12 | U13 | U22 | U23 | U33.
Definition arr_eqb (x y : arr) : bool :=
  match x, y with U, U | U1, U1 | U2, U2 | U3, U3 | U11, U11 | U12, U12 | U13, U13 | U22, U22 | U23, U23 | U33, U33 => true | _, _ => false end.
Definition store := arr -> list R.
Definition put (s : store) (x : arr) (v : list R) : store := fun y => if arr_eqb x y then v else s y.
Definition lines3 : Type := list R * list R * list R.

(** get_memline(u, uline); first and second derivative into u1 and u11: FFT branch (derivs.c:863-873) *)
Definition both_fft (b : sbox) (d : dir) (u u1 u11 : arr) (j k : nat) (r : store * lines3) : res (store * lines3) :=
  let f := b_f (bd b d) in let n := nn b d in let '(s, (uline, duline, dduline)) := r in
  do uline <- get_memline b (s u) uline d j k;
  do duline <- f_coeffs f duline uline (n - 1)%nat;
  do uline <- f_deriv f duline uline (n - 1)%nat;
  do duline <- f_eval f uline duline (n - 1)%nat;
  do v <- put_memline b (s u1) duline d j k;
  let s := put s u1 v in
  do duline <- f_deriv f uline duline (n - 1)%nat;
  do dduline <- f_eval f duline dduline (n - 1)%nat;
  do v <- put_memline b (s u11) dduline d j k;
  Ok (put s u11 v, (uline, duline, dduline)).
(** the same with matrices: through lines (derivs.c:925-929) or, in direction 1, directly on the arrays (derivs.c:888-889) *)
Definition both_mat (b : sbox) (d : dir) (u u1 u11 : arr) (j k : nat) (r : store * lines3) : res (store * lines3) :=
  let m := b_m (bd b d) in let n := nn b d in let '(s, (uline, duline, dduline)) := r in
  match d with
  | X1 => do v <- mtv_at false (m_D m) (s u) (Ix b 0 j k) (s u1) (Ix b 0 j k) n;
          let s := put s u1 v in
          do v <- mtv_at false (m_DD m) (s u) (Ix b 0 j k) (s u11) (Ix b 0 j k) n;
          Ok (put s u11 v, (uline, duline, dduline))
  | _ => do uline <- get_memline b (s u) uline d j k;
         do duline <- matrix_times_vector (m_D m) uline duline n;
         do dduline <- matrix_times_vector (m_DD m) uline dduline n;
         do v <- put_memline b (s u1) duline d j k;
         let s := put s u1 v in
         do v <- put_memline b (s u11) dduline d j k;
         Ok (put s u11 v, (uline, duline, dduline))
  end.
(** one first derivative: FFT branch (derivs.c:912-916), matrices (derivs.c:931-933; direction 1: 1088) *)
Definition one_fft (b : sbox) (d : dir) (u1 u12 : arr) (j k : nat) (r : store * lines3) : res (store * lines3) :=
  let f := b_f (bd b d) in let n := nn b d in let '(s, (uline, duline, dduline)) := r in
  do uline <- get_memline b (s u1) uline d j k;
  do duline <- f_coeffs f duline uline (n - 1)%nat;
  do uline <- f_deriv f duline uline (n - 1)%nat;
  do duline <- f_eval f uline duline (n - 1)%nat;
  do v <- put_memline b (s u12) duline d j k;
  Ok (put s u12 v, (uline, duline, dduline)).
Definition one_mat (b : sbox) (d : dir) (u1 u12 : arr) (j k : nat) (r : store * lines3) : res (store * lines3) :=
  let m := b_m (bd b d) in let n := nn b d in let '(s, (uline, duline, dduline)) := r in
  match d with
  | X1 => do v <- mtv_at false (m_D m) (s u1) (Ix b 0 j k) (s u12) (Ix b 0 j k) n;
          Ok (put s u12 v, (uline, duline, dduline))
  | _ => do uline <- get_memline b (s u1) uline d j k;
         do duline <- matrix_times_vector (m_D m) uline duline n;
         do v <- put_memline b (s u12) duline d j k;
         Ok (put s u12 v, (uline, duline, dduline))
  end.
(** one pass over the lines of a direction: u to its first and second derivative, then the first derivatives in [more] *)
Definition dpass (b : sbox) (sc : sched) (fft_ok : bool) (d : dir) (more : list (arr * arr)) (s : store) : res store :=
  let ud := match d with X1 => U1 | X2 => U2 | X3 => U3 end in
  let udd := match d with X1 => U11 | X2 => U22 | X3 => U33 end in
  if b_T (bd b d) then
    if fft_ok then forLines (s_order sc) (n_inner b d) (s_alloc3 sc) (fun j k r => do r <- both_fft b d U ud udd j k r; forl more (fun p r => one_fft b d (fst p) (snd p) j k r) r) s
    else Err
  else forLines (s_order sc) (n_inner b d) (s_alloc3 sc) (fun j k r => do r <- both_mat b d U ud udd j k r; forl more (fun p r => one_mat b d (fst p) (snd p) j k r) r) s.
(** the value of parameter Spectral_second_deriv_order *)
Inductive order2 := o123 | o132 | o213 | o231 | o312 | o321.
Definition spec_allDerivs (b : sbox) (sc : dir -> sched) (o : order2) (s : store) : res store :=
  let P fft d more s := dpass b (sc d) fft d more s in
  match o with
  | o123 => do s <- P true X1 [] s; do s <- P true X2 [(U1, U12)] s; P true X3 [(U1, U13); (U2, U23)] s        (* 855-980 *)
  | o132 => do s <- P false X1 [] s; do s <- P false X3 [(U1, U13)] s; P false X2 [(U1, U12); (U3, U23)] s     (* 981-1053 *)
  | o213 => do s <- P false X2 [] s; do s <- P false X1 [(U2, U12)] s; P false X3 [(U1, U13); (U2, U23)] s     (* 1054-1115 *)
  | o231 => do s <- P false X2 [] s; do s <- P false X3 [(U2, U23)] s; P false X1 [(U2, U12); (U3, U13)] s     (* 1116-1172 *)
  | o312 => do s <- P false X3 [] s; do s <- P false X1 [(U3, U13)] s; P false X2 [(U1, U12); (U3, U23)] s     (* 1173-1230 *)
  | o321 => do s <- P false X3 [] s; do s <- P false X2 [(U3, U23)] s; P false X1 [(U2, U12); (U3, U13)] s     (* 1231-1289 *)
  end.

(** interpolate.c:10-16 spec_Coeffs: the second and third analysis work in place *)
Definition spec_Coeffs (b : sbox) (sc : dir -> sched) (u c : list R) : res (list R) :=
  do c <- spec_analysis1 b (sc X1) X1 false u c; do c <- spec_analysis1 b (sc X2) X2 true c c; spec_analysis1 b (sc X3) X3 true c c.
(** interpolate.c:20-26 spec_Eval *)
Definition spec_Eval (b : sbox) (sc : dir -> sched) (u c : list R) : res (list R) :=
  do u <- spec_synthesis1 b (sc X1) X1 false u c; do u <- spec_synthesis1 b (sc X2) X2 true u u; spec_synthesis1 b (sc X3) X3 true u u.

(** interpolate.c:81-130 spec_interpolate.  The sum runs downwards; with OpenMP the iterations over k are summed in any order [ks],
    a permutation of n3-1,...,0.  A NULL basis function ends the program. *)
Definition basis_values (f : nat -> nat -> R -> R) (n : nat) (X : R) (B : list R) : res (list R) :=
  forl (rev (seq 0 n)) (fun i B => wr B i (f i n X)) B.
Definition spec_interpolate (b : sbox) (ks : list nat) (B1 B2 B3 : list R) (c : list R) (X Y Z : R) : res R :=
  match f_basis (b_f (bd1 b)), f_basis (b_f (bd2 b)), f_basis (b_f (bd3 b)) with
  | Some f1, Some f2, Some f3 =>
      do B1 <- basis_values f1 (nn b X1) X B1;
      do B2 <- basis_values f2 (nn b X2) Y B2;
      do B3 <- basis_values f3 (nn b X3) Z B3;
      forl ks (fun k sum => forl (rev (seq 0 (nn b X2))) (fun j sum => forl (rev (seq 0 (nn b X1))) (fun i sum =>
        do x <- rd c (Ix b i j k); do x1 <- rd B1 i; do x2 <- rd B2 j; do x3 <- rd B3 k; Ok (sum + x * x1 * x2 * x3)) sum) sum) 0
  | _, _, _ => Err
  end.

(** integrals.c:11-138 spec_Integral1 after the analysis: the coefficients along a line are replaced by the integral.
    The kind of basis is recognised from the function pointer get_coeffs: 1 Chebyshev, 2 Fourier, 0 anything else. *)
Inductive ikind := chebmeth | fourmeth | nometh.
Definition imethod (bs : basis) : ikind := match bs with ChebExtrema | ChebZeros => chebmeth | Fourier => fourmeth | _ => nometh end.
Definition fill_line (b : sbox) (d : dir) (Uu : list R) (j k : nat) (x : R) : res (list R) :=
  for_nat 0 (nn b d) (fun i Uu => wr Uu (base b d j k + i * stride b d) x) Uu.
Definition spec_Integral1 (b : sbox) (sc : sched) (kind : ikind) (d : dir) (alias : bool) (u Uu : list R) : res (list R) :=
  do Uu <- spec_analysis1 b sc d alias u Uu;
  let L := b_hi (bd b d) - b_lo (bd b d) in let n := nn b d in
  let at_ (i j k : nat) := (base b d j k + i * stride b d)%nat in
  match kind with
  | chebmeth => for_nat 0 (n_outer b d) (fun k Uu => for_nat 0 (n_inner b d) (fun j Uu =>
      do x0 <- rd Uu (at_ 0%nat j k);
      do sum <- for_nat 0 ((n - 1) / 2) (fun h sum => let i := (2 + 2 * h)%nat in do x <- rd Uu (at_ i j k); Ok (sum + x * L / (1.0 - INR (i * i)))) (0.5 * x0 * L);
      fill_line b d Uu j k sum) Uu) Uu
  | fourmeth => for_nat 0 (n_outer b d) (fun k Uu => for_nat 0 (n_inner b d) (fun j Uu =>
      do x0 <- rd Uu (at_ 0%nat j k);
      fill_line b d Uu j k (x0 * L / INR n)) Uu) Uu
  | nometh => Err
  end.
(** integrals.c:142-162 spec_2dIntegral, 262-269 spec_3dIntegral *)
Definition spec_2dIntegral (b : sbox) (sc : dir -> sched) (kind : dir -> ikind) (norm : dir) (alias : bool) (u Uu : list R) : res (list R) :=
  let I d al u Uu := spec_Integral1 b (sc d) (kind d) d al u Uu in
  match norm with
  | X1 => do Uu <- I X2 alias u Uu; I X3 true Uu Uu
  | X2 => do Uu <- I X1 alias u Uu; I X3 true Uu Uu
  | X3 => do Uu <- I X1 alias u Uu; I X2 true Uu Uu
  end.
Definition spec_3dIntegral (b : sbox) (sc : dir -> sched) (kind : dir -> ikind) (u Uu : list R) : res (R * list R) :=
  let I d al u Uu := spec_Integral1 b (sc d) (kind d) d al u Uu in
  do Uu <- I X1 false u Uu; do Uu <- I X2 true Uu Uu; do Uu <- I X3 true Uu Uu; do x <- rd Uu 0; Ok (x, Uu).

(** filters.c:76-128 spec_filter1: always with matrices, in place; the lines are allocated once (zeros) *)
Definition spec_filter1 (b : sbox) (d : dir) (u : list R) : res (list R) :=
  do r <- for_nat 0 (n_outer b d) (fun k r => for_nat 0 (n_inner b d) (fun j r => let '(u, (uline, ufline)) := r in
      do uline <- get_memline b u uline d j k;
      do ufline <- matrix_times_vector (m_F (b_m (bd b d))) uline ufline (nn b d);
      do u <- put_memline b u ufline d j k;
      Ok (u, (uline, ufline))) r) (u, (repeat 0 (nn b d), repeat 0 (nn b d)));
  Ok (fst r).
(** filters.c:134-171 spec_filter3d_inbox; nf1, nf2, nf3 are ints and may be negative: then the loops start below 0 *)
Definition zfor (lo : Z) (hi : nat) (body : Z -> list R -> res (list R)) (s : list R) : res (list R) :=
  forl (map (fun m => (lo + Z.of_nat m)%Z) (seq 0 (Z.to_nat (Z.of_nat hi - lo)))) body s.
Definition wrz (l : list R) (i : Z) (x : R) : res (list R) := if (i <? 0)%Z then UB else wr l (Z.to_nat i) x.
Definition Ixz (b : sbox) (i j k : Z) : Z := (i + Z.of_nat (nn b X1) * (j + Z.of_nat (nn b X2) * k))%Z.
Definition zmin (nf : Z) (n : nat) : nat := Z.to_nat (Z.min nf (Z.of_nat n)).
Definition spec_filter3d_inbox (b : sbox) (sc scs : dir -> sched) (nf1 nf2 nf3 : Z) (var vc : list R) : res (list R * list R) :=
  do vc <- spec_Coeffs b sc var vc;
  let n1 := nn b X1 in let n2 := nn b X2 in let n3 := nn b X3 in
  do vc <- zfor nf3 n3 (fun k vc => zfor 0 n2 (fun j vc => zfor 0 n1 (fun i vc => wrz vc (Ixz b i j k) 0) vc) vc) vc;
  do vc <- zfor 0 (zmin nf3 n3) (fun k vc => zfor nf2 n2 (fun j vc => zfor 0 n1 (fun i vc => wrz vc (Ixz b i j k) 0) vc) vc) vc;
  do vc <- zfor 0 (zmin nf3 n3) (fun k vc => zfor 0 (zmin nf2 n2) (fun j vc => zfor nf1 n1 (fun i vc => wrz vc (Ixz b i j k) 0) vc) vc) vc;
  do var <- spec_synthesis1 b (scs X3) X3 false var vc;
  do var <- spec_synthesis1 b (scs X2) X2 true var var;
  do var <- spec_synthesis1 b (scs X1) X1 true var var;
  Ok (var, vc).

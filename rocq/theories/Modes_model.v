(** Model of the mode decomposition, src/physics/ModeComputer/ModeComputer.c: the functions on the grid, one time level of the data, its modes.
    Doubles are real numbers, arrays are lists of the values in one box with Index(i,j,k) = i + n1*(j + n2*k).  Not modelled: the text format of the files (a file
    is the list of its time levels, a time level the table of its numbers), names of output files, and the parameters set in ModeComputer_set_boxsize (ModeComputer.c:28-70)
    except that n1 >= (lmax+1)^2 is a hypothesis of the theorems.  Arrays of different variables are different, so a loop that fills two of them is two loops. *)
From Verif Require Import Rutil Base Loops Sparse_model Cart_model Mat_model Dir_model Lines_model Dcov_model Sphere_model Swsh_model.
Local Open Scope R_scope.

(** for(l=0; l<=lmax; l++) for(m=-l; m<=l; m++), ModeComputer.c:96-97, 346-347: the pairs (l,m) in the order of the loops *)
Definition mode_pairs (lmax : nat) : list (Z * Z) := flat_map (fun l => map (fun q => (Z.of_nat l, Z.of_nat q - Z.of_nat l)%Z) (seq 0 (2 * l + 1))) (seq 0 (lmax + 1)).
(** the counter i of these loops, ModeComputer.c:95, 113 and 345, 379 and 391, 406 *)
Definition numbered {A} (l : list A) : list (nat * A) := combine (seq 0 (List.length l)) l.
(** the loops ModeComputer.c:95-114 and 345-380: u[ijk] = g(l, m, ijk) for the points of the first half of theta *)
Definition set_points (b : sbox) (lmax : nat) (g : Z -> Z -> nat -> res R) (u : list R) : res (list R) :=
  forl (numbered (mode_pairs lmax)) (fun x u => let '(i, (l, m)) := x in
    for_nat 0 (nn b X3) (fun k u => for_nat 0 (nn b X2 / 2) (fun j u => do v <- g l m (Ix b i j k); wr u (Ix b i j k) v) u) u) u.
(** theta = Yp[ijk] + PI/((1+n2%2)*n2), ModeComputer.c:106 *)
Definition theta_of (b : sbox) (y : R) : R := y + PI / (INR (1 + nn b X2 mod 2) * INR (nn b X2)).
(** Re_sYlmp[ijk] = Re_sYlm(l,m,s, theta, phi), ModeComputer.c:103-111; f is Re_sYlm or Im_sYlm *)
Definition sYlm_at (f : Z -> Z -> Z -> R -> R -> R) (b : sbox) (Y Z_ : list R) (s : Z) (l m : Z) (ijk : nat) : res R :=
  do y <- rd Y ijk; do z <- rd Z_ ijk; Ok (f l m s (theta_of b y) z).
(** copy_to_doubleCoveredPoints_SphericalDF of one variable; the parallel loops over k run in the orders (ks1, ks2) *)
Definition copy_arr (ks : list nat * list nat) (b : sbox) (u : list R) : res (list R) :=
  do v <- copy_DF (fst ks) (snd ks) (Dims (nn b X1) (nn b X2) (nn b X3)) 0 (fun _ => Some u); deref v 0.
(** ModeComputer_set_sYlm_inbox, ModeComputer.c:79-122, for one of the two variables *)
Definition set_sYlm_inbox (f : Z -> Z -> Z -> R -> R -> R) (ks : list nat * list nat) (b : sbox) (Y Z_ : list R) (s : Z) (lmax : nat) (u : list R) : res (list R) :=
  do u <- set_points b lmax (sYlm_at f b Y Z_ s) u; copy_arr ks b u.
(** the integrands ModeComputer.c:352-377; [c] combines RsYlm, IsYlm, R, I *)
Definition mode_at (c : R -> R -> R -> R -> R) (X RY IY RV IV : list R) (_ _ : Z) (ijk : nat) : res R :=
  do r <- rd X ijk; do rY <- rd RY ijk; do iY <- rd IY ijk; do rv <- rd RV ijk; do iv <- rd IV ijk; Ok (c rY iY rv iv / (r * r)).
(** the output loop ModeComputer.c:391-407: l, m and element i of the two arrays *)
Definition out_modes (lmax : nat) (RM IM : list R) : res (list (Z * Z * R * R)) :=
  forl (numbered (mode_pairs lmax)) (fun x out => let '(i, (l, m)) := x in do a <- rd RM i; do c <- rd IM i; Ok (out ++ [(l, m, a, c)])) [].
(** ModeComputer.c:275 and 345-407: the modes of one time level with the data RV, IV.  ks n is the order of the loops of the n-th copy, sc the execution environment of the integrals *)
Definition modes_of (b : sbox) (ks : nat -> list nat * list nat) (sc : dir -> sched) (X Y Z_ : list R) (s : Z) (lmax : nat) (RV IV RY IY RM IM : list R) : res (list (Z * Z * R * R)) :=
  do RY <- set_sYlm_inbox Re_sYlm (ks 0%nat) b Y Z_ s lmax RY;
  do IY <- set_sYlm_inbox Im_sYlm (ks 1%nat) b Y Z_ s lmax IY;
  do RM <- set_points b lmax (mode_at (fun RsYlm IsYlm R I => RsYlm * R + IsYlm * I) X RY IY RV IV) RM;
  do IM <- set_points b lmax (mode_at (fun RsYlm IsYlm R I => RsYlm * I - IsYlm * R) X RY IY RV IV) IM;
  do RM <- copy_arr (ks 2%nat) b RM;
  do IM <- copy_arr (ks 3%nat) b IM;
  do RM <- spec_sphericalDF2dIntegral b sc (fun _ => fourmeth) X true RM RM;
  do IM <- spec_sphericalDF2dIntegral b sc (fun _ => fourmeth) X true IM IM;
  out_modes lmax RM IM.

(** gridtype of the data *)
Inductive gtype := full | bitant | rotant | quadrant | octant.
(** for(k=k0; k<k1; k++) for(j=j0; j<j1; j++) for(i=0; i<n1; i++) var[Index(i,j,k)] = g(i,j,k,var) *)
Definition fill3 (b : sbox) (k0 k1 j0 j1 : nat) (g : nat -> nat -> nat -> list R -> res R) (u : list R) : res (list R) :=
  for_nat k0 k1 (fun k u => for_nat j0 j1 (fun j u => for_nat 0 (nn b X1) (fun i u => do v <- g i j k u; wr u (Ix b i j k) v) u) u) u.
(** ModeComputer_read_spheredata, ModeComputer.c:181-232; [vals j k] is the number read in pass (k,j) of the loops, and bs, rs, os are the three symmetry parameters of the variable *)
Definition read_spheredata (ks : list nat * list nat) (b : sbox) (gt : gtype) (ntheta nphi : nat) (bs rs os : Z) (vals : nat -> nat -> R) (var : list R) : res (list R) :=
  let '(n2, n3) := (nn b X2, nn b X3) in
  do var <- fill3 b 0 nphi 0 ntheta (fun i j k u => Ok (vals j k)) var;
  do var <- match gt with bitant | quadrant | octant => fill3 b 0 nphi ntheta (n2 / 2) (fun i j k u => do x <- rd u (Ix b i (n2 / 2 - j - 1) k); Ok (IZR bs * x)) var | _ => Ok var end;
  do var <- match gt with octant => fill3 b nphi (n3 / 2) 0 (n2 / 2) (fun i j k u => do x <- rd u (Ix b i j (n3 / 2 - k)); Ok (IZR os * x)) var | _ => Ok var end;
  do var <- match gt with rotant | quadrant | octant => fill3 b (n3 / 2) n3 0 (n2 / 2) (fun i j k u => do x <- rd u (Ix b i j (k - n3 / 2)); Ok (IZR rs * x)) var | _ => Ok var end;
  copy_arr ks b var.

(** A time level is (time, data).  Reading the next one, ModeComputer_read_spheredata, gives None at the end of the file (ModeComputer.c:175-179, fgotonext(..)==EOF).
    while(time1>time2 && ret!=EOF) read the next time level of Im, ModeComputer.c:324-328; the result None is ret==EOF.  [lt] is < on times *)
Fixpoint forward {A} (before : R -> bool) (t : R * A) (f : list (R * A)) : option (R * A) * list (R * A) :=
  if before (fst t) then match f with [] => (None, []) | t' :: f => forward before t' f end else (Some t, f).
Definition ltb (x y : R) : bool := if Rlt_dec x y then true else false.
(** while(time1!=time2), ModeComputer.c:319-338: the two time levels with equal times and the rests of the files; None: ret==EOF.
    [fuel] bounds the passes; the theorems show that the lengths of the files are enough *)
Fixpoint match_times {A} (fuel : nat) (t1 t2 : R * A) (f1 f2 : list (R * A)) : res (option ((R * A) * (R * A) * list (R * A) * list (R * A))) :=
  if Req_EM_T (fst t1) (fst t2) then Ok (Some (t1, t2, f1, f2)) else
  match fuel with O => Err | S fuel =>
    let '(r, f2) := forward (fun time2 => ltb time2 (fst t1)) t2 f2 in
    match r with None => Ok None | Some t2 =>
      let '(r, f1) := forward (fun time1 => ltb time1 (fst t2)) t1 f1 in
      match r with None => Ok None | Some t1 => match_times fuel t1 t2 f1 f2 end end end.
(** the loop over time levels, ModeComputer.c:309-408; [f1], [f2] are the time levels of the two files; the result lists the pairs of time levels whose modes are written *)
Fixpoint time_loop {A} (fuel : nat) (f1 f2 : list (R * A)) : res (list ((R * A) * (R * A))) :=
  match f1, f2 with
  | [], _ | _, [] => Ok []
  | t1 :: f1, t2 :: f2 => match fuel with O => Err | S fuel =>
      do r <- match_times (List.length f1 + List.length f2 + 1) t1 t2 f1 f2;
      match r with None => Ok [] | Some (t1, t2, f1, f2) => do l <- time_loop fuel f1 f2; Ok ((t1, t2) :: l) end end end.

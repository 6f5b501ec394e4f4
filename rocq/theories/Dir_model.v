(** Model of one direction of a box: coordinates, function pointers and matrices.
    src/main/MemoryMan/grid.c:65-256 set_BoxStructures_fromPars, src/utility/Spectral/spec_coeffs.c:636-862.
    The value of parameter box<b>_basis<dir> is one of five words; other values end the program.  This file
    has TransformType = 0; the other transform types are in Fftw_model.v. *)
From Verif Require Import Rutil Loops Sparse_model Mat_model Cheb_model Four_model Fd_model.
Local Open Scope R_scope.

Inductive basis := ChebExtrema | ChebZeros | Fourier | fd2_onesided | fd2_periodic.

(** grid.c:155-181: coordinate of point m of nb along a direction with bounding box [x0,x1] *)
Definition coord (bs : basis) (x0 x1 : R) (nb m : nat) : R :=
  match bs with
  | ChebExtrema => if (m =? 0)%nat then x0 else if (m =? nb - 1)%nat then x1
                   else 0.5 * ((x0 - x1) * cos (INR m * PI / INR (nb - 1)) + (x0 + x1))
  | ChebZeros => 0.5 * ((x0 - x1) * cos ((INR m + 0.5) * PI / INR nb) + (x0 + x1))
  | Fourier | fd2_periodic => (x1 - x0) * INR m / INR nb + x0
  | fd2_onesided => (x1 - x0) * INR m / INR (nb - 1) + x0
  end.
(** grid.c:112-120 *)
Definition periodic (bs : basis) : bool := match bs with Fourier | fd2_periodic => true | _ => false end.

(** explicit_Four_trafos.c:211-216 four_filter *)
Definition four_filter (c : list R) (k n : nat) : res (list R) := for_nat k (n + 1) (fun j c => wr c j 0) c.

(** the function pointers of one direction; a NULL pointer is None; a and b of the box are already supplied *)
Record funs := { f_coeffs : coefF; f_deriv : coefF; f_2nd : option coefF; f_int : option coefF; f_eval : coefF;
                 f_filter : list R -> nat -> nat -> res (list R); f_basis : option (nat -> nat -> R -> R) }.
(** spec_coeffs.c:636-742 get_spec_functionpointers_from_pars with TransformType = 0; basis functions of the fd2 bases are NULL *)
Definition funs_from_pars (bs : basis) (a b : R) : funs :=
  match bs with
  | ChebExtrema => {| f_coeffs := cheb_coeffs_fromExtrema; f_deriv := cheb_deriv a b; f_2nd := None; f_int := Some (cheb_int a b); f_eval := cheb_eval_onExtrema;
                      f_filter := cheb_filter; f_basis := Some (fun k _ X => cheb_basisfunc a b k X) |}
  | Fourier => {| f_coeffs := four_coeffs; f_deriv := four_deriv a b; f_2nd := None; f_int := Some (four_int a b); f_eval := four_eval;
                  f_filter := four_filter; f_basis := Some (fun k N X => four_basisfunc a b k N X) |}
  | fd2_onesided => {| f_coeffs := fd2_coeffs; f_deriv := fd2_deriv_onesidedBC a b; f_2nd := Some (fd2_2ndderiv_onesidedBC a b); f_int := None; f_eval := fd2_eval;
                       f_filter := fd2_filter; f_basis := None |}
  | fd2_periodic => {| f_coeffs := fd2_coeffs; f_deriv := fd2_deriv_periodic a b; f_2nd := Some (fd2_2ndderiv_periodic a b); f_int := None; f_eval := fd2_eval;
                       f_filter := fd2_filter; f_basis := None |}
  | ChebZeros => {| f_coeffs := cheb_coeffs_fromZeros; f_deriv := cheb_deriv a b; f_2nd := None; f_int := Some (cheb_int a b); f_eval := cheb_eval_onZeros;
                    f_filter := cheb_filter; f_basis := Some (fun k _ X => cheb_basisfunc a b k X) |}
  end.
(** spec_coeffs.c:761-862 init_spec_functionpointers writes six of the seven pointers into the box, get_spec_functionpointers reads
    these six back; the pointer to the second derivative has no place in the box and keeps the NULL given to it in grid.c:190 *)
Definition through_box (f : funs) : funs :=
  {| f_coeffs := f_coeffs f; f_deriv := f_deriv f; f_2nd := None; f_int := f_int f; f_eval := f_eval f; f_filter := f_filter f; f_basis := f_basis f |}.

(** the matrices of one direction; storage.c:74-124 allocates them with zeros *)
Record dirbox := { m_D : list R; m_DD : list R; m_F : list R; m_coeffs : list R; m_eval : list R; m_Int : list R }.
(** a call through a NULL pointer *)
Definition callp (f : option coefF) : coefF := match f with Some g => g | None => fun _ _ _ => UB end.
(** grid.c:208-224 (direction 1; 226-240 and 242-256 are the same for directions 2 and 3) *)
Definition setup_dir (bs : basis) (a b : R) (n : nat) (filt : Z) : res dirbox :=
  let f := through_box (funs_from_pars bs a b) in
  let z := repeat 0 (n * n) in
  do DDD <- initdiffmatrix z z n (f_coeffs f) (f_deriv f) (f_eval f);
  let '(D, DD) := DDD in
  do F <- initfiltermatrix z (Z.of_nat n + 1 - filt) n (f_coeffs f) (f_filter f) (f_eval f);
  do DD <- match f_2nd f with Some g => initdiffmatrix2 DD n (f_coeffs f) g (f_eval f) | None => Ok DD end;
  do Mc <- initMatrix_ForCoeffs z n (f_coeffs f);
  do Me <- initMatrix_ToEvaluate z n (f_eval f);
  do In <- initIntegrationMatrix z n (f_coeffs f) (callp (f_int f)) (f_eval f);
  Ok {| m_D := D; m_DD := DD; m_F := F; m_coeffs := Mc; m_eval := Me; m_Int := In |}.

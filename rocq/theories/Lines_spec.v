(** Specification vocabulary: values of a 3d array at points, lines of points, and operations along lines. *)
From Coq Require Export Permutation.
From Verif Require Import Rutil Rsum Mat_model Mat_spec Dir_model Dir_spec Lines_model.
Local Open Scope R_scope.

Definition point : Type := nat * nat * nat.
Definition comp (d : dir) (p : point) : nat := let '(i, j, k) := p in match d with X1 => i | X2 => j | X3 => k end.
(** the point with component d replaced by m *)
Definition setc (d : dir) (p : point) (m : nat) : point := let '(i, j, k) := p in match d with X1 => (m, j, k) | X2 => (i, m, k) | X3 => (i, j, m) end.
Definition npoints (b : sbox) : nat := (nn b X1 * nn b X2 * nn b X3)%nat.
Definition inbox (b : sbox) (p : point) : Prop := forall d, (comp d p < nn b d)%nat.
Definition val (b : sbox) (u : list R) (p : point) : R := let '(i, j, k) := p in nth (i + nn b X1 * (j + nn b X2 * k)) u 0.
(** the values on the line through p in direction d *)
Definition line (b : sbox) (d : dir) (u : list R) (p : point) : list R := map (fun m => val b u (setc d p m)) (seq 0 (nn b d)).
(** u' arises from u by applying F to every line in direction d *)
Definition along (b : sbox) (d : dir) (F : list R -> list R) (u u' : list R) : Prop :=
  List.length u' = npoints b /\ forall p, inbox b p -> val b u' p = nth (comp d p) (F (line b d u p)) 0.

(** the 1d function f(in,out,n-1) overwrites out by F(in) whatever out contains *)
Definition realises (n : nat) (f : list R -> list R -> nat -> res (list R)) (F : list R -> list R) : Prop :=
  forall i o, List.length i = n -> List.length o = n -> f i o (n - 1)%nat = Ok (F i) /\ List.length (F i) = n.
(** the matrix stored in M, and its application to a line *)
Definition mat (n : nat) (M : list R) : nat -> nat -> R := fun i j => nth (n * i + j) M 0.
(** F is the map from values to coefficients (from coefficients to values, first derivative, second derivative, filter) that a box direction
    provides: by function pointers if it has a TransformType, otherwise by a matrix of the right size *)
Definition by_matrix (n : nat) (M : list R) (F : list R -> list R) : Prop := List.length M = (n * n)%nat /\ forall l, F l = apply n (mat n M) l.
Definition analysis_of (D : bdir) (F : list R -> list R) : Prop :=
  if b_T D then realises (b_n D) (swap (f_coeffs (b_f D))) F else by_matrix (b_n D) (m_coeffs (b_m D)) F.
Definition synthesis_of (D : bdir) (F : list R -> list R) : Prop :=
  if b_T D then realises (b_n D) (f_eval (b_f D)) F else by_matrix (b_n D) (m_eval (b_m D)) F.
Definition deriv_of (D : bdir) (F : list R -> list R) : Prop :=
  if b_T D then exists A B E, realises (b_n D) (swap (f_coeffs (b_f D))) A /\ realises (b_n D) (f_deriv (b_f D)) B /\ realises (b_n D) (f_eval (b_f D)) E /\ forall l, F l = E (B (A l))
  else by_matrix (b_n D) (m_D (b_m D)) F.
Definition deriv2_of (D : bdir) (F : list R -> list R) : Prop :=
  if b_T D then exists A B E, realises (b_n D) (swap (f_coeffs (b_f D))) A /\ realises (b_n D) (f_deriv (b_f D)) B /\ realises (b_n D) (f_eval (b_f D)) E /\ forall l, F l = E (B (B (A l)))
  else by_matrix (b_n D) (m_DD (b_m D)) F.
(** the execution environment: any order of the outer loop, any contents of new lines *)
Definition schedule (b : sbox) (d : dir) (sc : sched) : Prop :=
  Permutation (s_order sc) (seq 0 (n_outer b d)) /\
  (forall k, List.length (fst (s_alloc sc k)) = nn b d /\ List.length (snd (s_alloc sc k)) = nn b d) /\
  (forall k, let '(x, y, z) := s_alloc3 sc k in List.length x = nn b d /\ List.length y = nn b d /\ List.length z = nn b d).
(** a box direction set up from a spectral basis *)
Definition built (bs : basis) (D : bdir) : Prop :=
  spectral bs = true /\ b_lo D <> b_hi D /\ (2 <= b_n D)%nat /\ b_f D = through_box (funs_from_pars bs (b_lo D) (b_hi D)) /\
  exists filt, (0 <= filt <= Z.of_nat (b_n D))%Z /\ setup_dir bs (b_lo D) (b_hi D) (b_n D) filt = Ok (b_m D).

(** Specification of the mode decomposition: spin-weighted spherical harmonics by Wigner's formula, fields that are finite sums of them, the sample points on the sphere. *)
From Verif Require Import Rutil Rsum Swsh_spec Lines_model Lines_spec Integ_spec Dcov_model Mat_model Dir_model Dir_spec.
From Coq Require Export Sorting.Sorted.
Local Open Scope R_scope.

(** the spin-weighted spherical harmonic sYlm: real and imaginary part *)
Definition ylm_amp (l m s : Z) (th : R) : R := (-1) ^ Z.abs_nat s * sqrt (IZR (2 * l + 1) / (4 * PI)) * wigner_d l m (- s) th.
Definition ylm_re (l m s : Z) (th ph : R) : R := ylm_amp l m s th * cos (IZR m * ph).
Definition ylm_im (l m s : Z) (th ph : R) : R := ylm_amp l m s th * sin (IZR m * ph).
(** a field: the terms (l, m, x, y) stand for (x + i y) sYlm *)
Definition expansion_terms := list (Z * Z * R * R).
Fixpoint total {A} (f : A -> R) (l : list A) : R := match l with [] => 0 | x :: l => f x + total f l end.
Definition field_re (D : expansion_terms) (s : Z) (th ph : R) : R := total (fun '(l, m, x, y) => x * ylm_re l m s th ph - y * ylm_im l m s th ph) D.
Definition field_im (D : expansion_terms) (s : Z) (th ph : R) : R := total (fun '(l, m, x, y) => x * ylm_im l m s th ph + y * ylm_re l m s th ph) D.
(** the coefficient of sYlm in the field *)
Definition is_mode (l m l' m' : Z) : bool := ((l =? l') && (m =? m'))%Z%bool.
Definition coef_re (D : expansion_terms) (l m : Z) : R := total (fun '(l', m', x, y) => if is_mode l m l' m' then x else 0) D.
Definition coef_im (D : expansion_terms) (l m : Z) : R := total (fun '(l', m', x, y) => if is_mode l m l' m' then y else 0) D.
(** the field has spin weight s and no l above L *)
Definition bandlimited (D : expansion_terms) (s : Z) (L : nat) : Prop := forall l m x y, In (l, m, x, y) D -> modes l m s /\ (l <= Z.of_nat L)%Z.
(** the points on the sphere *)
Definition theta (b : sbox) (j : nat) : R := (2 * INR j + 1) * PI / INR (nn b X2).
Definition phi (b : sbox) (k : nat) : R := 2 * PI * INR k / INR (nn b X3).
(** a box for the mode computer: Fourier on [0, 2 pi] in both angles, even numbers of points *)
Definition mode_box (b : sbox) : Prop := built Fourier (bd b X2) /\ built Fourier (bd b X3) /\ b_lo (bd b X2) = 0 /\ b_hi (bd b X2) = 2 * PI /\ b_lo (bd b X3) = 0 /\ b_hi (bd b X3) = 2 * PI /\
  Nat.Even (nn b X2) /\ Nat.Even (nn b X3) /\ (4 <= nn b X2)%nat /\ (2 <= nn b X3)%nat.
(** the coordinates X (the radius rad(i)), Y and Z at the points of the box *)
Definition mode_coords (b : sbox) (rad : nat -> R) (X Y Z_ : list R) : Prop := List.length X = npoints b /\ List.length Y = npoints b /\ List.length Z_ = npoints b /\
  forall i j k, inbox b (i, j, k) -> rad i <> 0 /\ val b X (i, j, k) = rad i /\ val b Y (i, j, k) = 2 * PI * INR j / INR (nn b X2) /\ val b Z_ (i, j, k) = phi b k.
(** u holds the values of F on the first half of the theta points: these cover the sphere *)
Definition samples (b : sbox) (F : R -> R -> R) (u : list R) : Prop := List.length u = npoints b /\
  forall i j k, inbox b (i, j, k) -> (j < nn b X2 / 2)%nat -> val b u (i, j, k) = F (theta b j) (phi b k).
(** orders of the two parallel loops of a copy *)
Definition copy_orders (b : sbox) (ks : list nat * list nat) : Prop := Permutation (fst ks) (seq 0 (nn b X3 / 2)) /\ Permutation (snd ks) (seq (nn b X3 / 2) (nn b X3 / 2)).
(** The data in a file of the given grid type are the values of F at ntheta x nphi points, and the symmetries give it elsewhere: bitant: reflection at the equator; rotant: rotation by pi;
    octant: reflection phi -> pi - phi.  The bounds on ntheta and nphi say that the points in the file and their images cover the sphere. *)
Definition sym_theta (F : R -> R -> R) (c : Z) : Prop := forall th ph, F (PI - th) ph = IZR c * F th ph.
Definition sym_rot (F : R -> R -> R) (c : Z) : Prop := forall th ph, F th (ph + PI) = IZR c * F th ph.
Definition sym_phi (F : R -> R -> R) (c : Z) : Prop := forall th ph, F th (PI - ph) = IZR c * F th ph.
Definition covers_theta (b : sbox) (n : nat) : Prop := (n <= nn b X2 / 2 <= 2 * n)%nat.
(** time levels in the order of their times *)
Definition increasing {A} (f : list (R * A)) : Prop := StronglySorted (fun a b => fst a < fst b) f.
(** a pair of time levels, one of each file, with the same time *)
Definition same_time {A} (f1 f2 : list (R * A)) (p : (R * A) * (R * A)) : Prop := In (fst p) f1 /\ In (snd p) f2 /\ fst (fst p) = fst (snd p).

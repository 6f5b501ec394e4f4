(** Specification of the spherical filter: polynomials on the sphere, the sample points, the execution environment of the filter. *)
From Verif Require Import Rutil Rsum Lines_model Lines_spec Mat_model Dir_model Dir_spec Integ_spec Filt_model Yfil_model.
Local Open Scope R_scope.

(** the unit vector in the direction (theta, phi) *)
Definition ux (th ph : R) : R := sin th * cos ph.
Definition uy (th ph : R) : R := sin th * sin ph.
Definition uz (th ph : R) : R := cos th.
(** functions of (theta, phi) that are polynomials of degree <= L in the components of the unit vector: the span of the spherical harmonics with l <= L *)
Inductive sphere_poly : nat -> (R -> R -> R) -> Prop :=
  | SPconst L c : sphere_poly L (fun _ _ => c)
  | SPx L f : sphere_poly L f -> sphere_poly (S L) (fun th ph => ux th ph * f th ph)
  | SPy L f : sphere_poly L f -> sphere_poly (S L) (fun th ph => uy th ph * f th ph)
  | SPz L f : sphere_poly L f -> sphere_poly (S L) (fun th ph => uz th ph * f th ph)
  | SPplus L f g : sphere_poly L f -> sphere_poly L g -> sphere_poly L (fun th ph => f th ph + g th ph)
  | SPext L f g : sphere_poly L f -> (forall th ph, f th ph = g th ph) -> sphere_poly L g.
(** the points of the double covered sphere: theta runs from 0 to 2 pi, half a step off the poles *)
Definition theta_pt (n2 j : nat) : R := PI * INR (2 * j + 1) / INR n2.
Definition phi_pt (n3 k : nat) : R := 2 * PI * INR k / INR n3.
Definition sampled (b : sbox) (f : nat -> R -> R -> R) (u : list R) : Prop :=
  List.length u = npoints b /\ forall i j k, inbox b (i, j, k) -> val b u (i, j, k) = f i (theta_pt (nn b X2) j) (phi_pt (nn b X3) k).
(** the integral over theta in [0,pi] with weight sin theta, of a polynomial in cos theta of degree < 2 bw, as a sum over the 2 bw points with theta < pi *)
Definition quadrature (bw : nat) (w : nat -> R) : Prop := forall d (a : nat -> R), (d < 2 * bw)%nat -> forall x,
  integral (fun th => sin th * Sig (S d) (fun q => a q * cos th ^ q)) 0 PI x -> Sig (2 * bw) (fun j => w j * Sig (S d) (fun q => a q * cos (theta_pt (4 * bw) j) ^ q)) = x.
(** the weights of Driscoll and Healy *)
Definition dh_weight (bw j : nat) : R := 2 / INR bw * (sin (theta_pt (4 * bw) j) * Sig bw (fun k => sin (INR (2 * k + 1) * theta_pt (4 * bw) j) / INR (2 * k + 1))).
(** the literals in the code are what they stand for *)
Definition exact (c : literals) : Prop := c_pi c = PI /\ 0 < c_half c /\ 2 * (c_half c * c_half c) = 1.
(** allocated sizes and loop orders of one call of the filter in a box *)
Definition env_ok (b : sbox) (bw : nat) (en : yenv) : Prop :=
  (forall m, (m < bw)%nat -> List.length (y_plm en m) = (2 * bw * bw)%nat) /\ List.length (y_weights en) = (4 * bw)%nat /\
  (List.length (w_pp (y_ws en)) = (2 * bw)%nat /\ List.length (w_p (y_ws en)) = (2 * bw)%nat /\ List.length (w_t1 (y_ws en)) = (2 * bw)%nat /\ List.length (w_t2 (y_ws en)) = (2 * bw)%nat /\
   List.length (w_t3 (y_ws en)) = (2 * bw)%nat /\ List.length (w_t4 (y_ws en)) = (2 * bw)%nat /\ List.length (w_x (y_ws en)) = (2 * bw)%nat /\ List.length (w_e (y_ws en)) = (2 * bw)%nat) /\
  forall vi, schedule b X3 (y_an en vi) /\ schedule b X3 (y_sy en vi) /\ Permutation (y_order en vi) (seq 0 (nn b X3)) /\
    Permutation (y_copy1 en vi) (seq 0 (nn b X3 / 2)) /\ Permutation (y_copy2 en vi) (seq (nn b X3 / 2) (nn b X3 / 2)) /\
    forall k, let '(x, y, z) := y_alloc en vi k in List.length x = nn b X2 /\ List.length y = bw /\ (2 * bw <= List.length z)%nat.
(** a box of the filter: 4 bw points in theta, an even number in phi with a Fourier basis, arrays of the right size *)
Definition ylm_ready (b : sbox) (bw : nat) (t : nat) (idx : list nat) (v : arrays) : Prop :=
  nn b X2 = (4 * bw)%nat /\ (1 <= bw)%nat /\ Nat.Even (nn b X3) /\ built Fourier (bd b X3) /\ NoDup idx /\ ~ In t idx /\ forall w, In w (t :: idx) -> List.length (v w) = npoints b.
(** u' is the projection of u onto the polynomials of degree <= lmax: on every sphere it is such a polynomial g, and u - g is orthogonal to all of them *)
Definition projected (b : sbox) (bw lmax : nat) (u u' : list R) : Prop := exists g, sampled b g u' /\ (forall i, sphere_poly lmax (g i)) /\
  forall i h, (i < nn b X1)%nat -> sphere_poly lmax h ->
    Sig (2 * bw) (fun j => dh_weight bw j * Sig (nn b X3) (fun k => (val b u (i, j, k) - g i (theta_pt (nn b X2) j) (phi_pt (nn b X3) k)) * h (theta_pt (nn b X2) j) (phi_pt (nn b X3) k))) = 0.
(** the boxes of a grid *)
Definition all_ready (nboxes : nat) (bx : nat -> sbox) (bw : nat -> nat) (en : nat -> yenv) (t : nat) (idx : list nat) (g : nat -> arrays) : Prop :=
  forall i, (i < nboxes)%nat -> env_ok (bx i) (bw i) (en i) /\ ylm_ready (bx i) (bw i) t idx (g i).

(** Space-time indices, the Kerr-Schild metric of a spinning black hole and Christoffel symbols, as in textbooks. *)
From Verif Require Import Rutil Coord_model Coord_spec Ks_spec.
Local Open Scope R_scope.
(** t, x, y, z *)
Inductive d4 := Tm | Sp (i : d3).
Definition S4 (f : d4 -> R) : R := f Tm + S3 (fun i => f (Sp i)).
Definition eta (m n : d4) : R := match m, n with Tm, Tm => - 1 | Sp i, Sp j => delta i j | _, _ => 0 end.
Definition delta4 (m n : d4) : R := match m, n with Tm, Tm => 1 | Sp i, Sp j => delta i j | _, _ => 0 end.
(** the covector (1, l) *)
Definition kerr_L (a b c x y z r : R) (m : d4) : R := match m with Tm => 1 | Sp i => kerr_l a b c x y z r i end.
(** (a, b, c) is the spin (Sx, Sy, Sz) per mass; without a mass it is the spin *)
Definition spin_per_mass (M Sx Sy Sz a b c : R) : Prop := (M <> 0 -> Sx = M * a /\ Sy = M * b /\ Sz = M * c) /\ (M = 0 -> Sx = a /\ Sy = b /\ Sz = c).
(** derivative of a field that does not depend on the time *)
Definition pd4 (f : fn3) (k : d4) (X Y Z v : R) : Prop := match k with Tm => v = 0 | Sp i => pd f i X Y Z v end.
(** Gamma^m_np for the inverse metric gup and dg k m n = d_k g_mn *)
Definition christoffel (gup : d4 -> d4 -> R) (dg : d4 -> d4 -> d4 -> R) (m n p : d4) : R := / 2 * S4 (fun q => gup m q * (dg n q p + dg p q n - dg q n p)).
(** the place of a component in the lists xx, xy, ... of variables *)
Definition n4 (m : d4) : nat := match m with Tm => 0 | Sp D1 => 1 | Sp D2 => 2 | Sp D3 => 3 end.
Definition n10 (m n : d4) : nat :=
  match m, n with
  | Tm, q | q, Tm => n4 q
  | Sp D1, Sp q | Sp q, Sp D1 => match q with D1 => 4 | D2 => 5 | D3 => 6 end
  | Sp D2, Sp q | Sp q, Sp D2 => match q with D3 => 8 | _ => 7 end
  | Sp D3, Sp D3 => 9
  end.

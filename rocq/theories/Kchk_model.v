(** Model of KerrChecker in src/physics/ScalarOnKerr/ScalarOnKerr.c (202-434), which the start-up of ScalarOnKerr calls for every grid (177-178).
    Simplified: exact reals; the 3+1 tables at a point are a slice (Sokr_model.v); what is printed is left out; pow with the exponents -1.5 and -2 is Rpower. *)
From Verif Require Import Rutil Loops Sokr_model.
Local Open Scope R_scope.
(** fabs(a-b)>tiny (ScalarOnKerr.c:319-427) with tiny = 1e-13 (259) *)
Definition kc_off (a b : R) : bool := if Rlt_dec (/ 10 ^ 13) (Rabs (a - b)) then true else false.
Section K.
Variables (s : slice) (x y z : R).
Definition kc_M : R := 1. (* ScalarOnKerr.c:258 *)
Definition kc_r : R := sqrt (x * x + y * y + z * z). (* ScalarOnKerr.c:264 *)
Definition kc_n (i : nat) : R := match i with 0%nat => x / kc_r | 1%nat => y / kc_r | _ => z / kc_r end. (* ScalarOnKerr.c:265-267 *)
Definition kc_dn (i j : nat) : R := ((if (i =? j)%nat then 1 else 0) - kc_n i * kc_n j) / kc_r. (* ScalarOnKerr.c:268-276 *)
Definition kc_N : R := sqrt (kc_r / (kc_r + 2 * kc_M)). (* ScalarOnKerr.c:278 *)
Definition kc_dNdr : R := kc_M / (kc_N * (kc_r + 2 * kc_M) * (kc_r + 2 * kc_M)). (* ScalarOnKerr.c:279 *)
Definition kc_L : R := 1 / kc_N. (* ScalarOnKerr.c:283 *)
Definition kc_Vr : R := 2 * kc_M / (kc_r + 2 * kc_M). (* ScalarOnKerr.c:284 *)
Definition kc_V (i : nat) : R := kc_Vr * kc_n i. (* ScalarOnKerr.c:285-287 *)
Definition kc_dVrdr : R := - 2 * kc_M / ((kc_r + 2 * kc_M) * (kc_r + 2 * kc_M)). (* ScalarOnKerr.c:288 *)
Definition kc_dV (i j : nat) : R := kc_dVrdr * kc_n j * kc_n i + kc_Vr * kc_dn i j. (* ScalarOnKerr.c:289-300 *)
Definition kc_gup (i j : nat) : R := (1 / (kc_L * kc_L) - 1) * kc_n i * kc_n j + (if (i =? j)%nat then 1 else 0). (* ScalarOnKerr.c:301-306 *)
Definition kc_J (i : nat) : R := kc_n i * 2 * kc_M * (kc_r + 4 * kc_M) / (kc_r * (kc_r + 2 * kc_M) * (kc_r + 2 * kc_M)). (* ScalarOnKerr.c:308-310 *)
Definition kc_K : R := 2 * kc_M * (kc_r + 3 * kc_M) / (kc_r * (kc_r + 2 * kc_M) * (kc_r + 2 * kc_M)) / kc_N. (* ScalarOnKerr.c:311 *)
Definition kc_H : R := 2 * kc_M / kc_r. (* ScalarOnKerr.c:313 *)
Definition kc_Kp : R := Rpower (1 + kc_H) (- (3 / 2)) * (kc_H / kc_r) * (1 + 3 * kc_M / kc_r). (* ScalarOnKerr.c:314 *)
Definition kc_Gp (i : nat) : R := 1 / 2 * Rpower (1 + kc_H) (- 2) * (kc_H / kc_r) * (3 + 8 * kc_M / kc_r) * kc_n i. (* ScalarOnKerr.c:315-317 *)
(** gda_up over alpha subtracted from G3 (ScalarOnKerr.c:348-353) *)
Definition kc_G3m (i : nat) : R := match i with
  | 0%nat => w_G s 0 - (w_gup s 0 * w_dalpha s 0 + w_gup s 1 * w_dalpha s 1 + w_gup s 2 * w_dalpha s 2) / w_alpha s
  | 1%nat => w_G s 1 - (w_gup s 1 * w_dalpha s 0 + w_gup s 3 * w_dalpha s 1 + w_gup s 4 * w_dalpha s 2) / w_alpha s
  | _ => w_G s 2 - (w_gup s 2 * w_dalpha s 0 + w_gup s 4 * w_dalpha s 1 + w_gup s 5 * w_dalpha s 2) / w_alpha s end.
(** err at the end of the pass (ScalarOnKerr.c:319-427) *)
Definition kc_err : bool :=
  kc_off (w_gup s 0) (kc_gup 0 0) || kc_off (w_gup s 1) (kc_gup 0 1) || kc_off (w_gup s 2) (kc_gup 0 2) || kc_off (w_gup s 3) (kc_gup 1 1) || kc_off (w_gup s 4) (kc_gup 1 2) || kc_off (w_gup s 5) (kc_gup 2 2) ||
  kc_off (w_alpha s) kc_N ||
  (kc_off (w_beta s 0) (kc_V 0) || kc_off (w_beta s 1) (kc_V 1) || kc_off (w_beta s 2) (kc_V 2)) ||
  (kc_off (kc_G3m 0) (kc_J 0) || kc_off (kc_G3m 1) (kc_J 1) || kc_off (kc_G3m 2) (kc_J 2)) ||
  (kc_off (w_G s 0) (kc_Gp 0) || kc_off (w_G s 1) (kc_Gp 1) || kc_off (w_G s 2) (kc_Gp 2)) ||
  kc_off (w_TrK s) kc_K || kc_off (w_TrK s) kc_Kp ||
  (kc_off (w_dalpha s 0) (kc_dNdr * kc_n 0) || kc_off (w_dalpha s 1) (kc_dNdr * kc_n 1) || kc_off (w_dalpha s 2) (kc_dNdr * kc_n 2)) ||
  (kc_off (w_dbeta s 0) (kc_dV 0 0) || kc_off (w_dbeta s 1) (kc_dV 0 1) || kc_off (w_dbeta s 2) (kc_dV 0 2)) ||
  (kc_off (w_dbeta s 3) (kc_dV 1 0) || kc_off (w_dbeta s 4) (kc_dV 1 1) || kc_off (w_dbeta s 5) (kc_dV 1 2)) ||
  (kc_off (w_dbeta s 6) (kc_dV 2 0) || kc_off (w_dbeta s 7) (kc_dV 2 1) || kc_off (w_dbeta s 8) (kc_dV 2 2)).
End K.
(** the loops over boxes and points (ScalarOnKerr.c:209, 256): the first point with err ends the program (429) *)
Definition KerrChecker (tab : R -> R -> R -> slice) (points : list (R * R * R)) : res unit :=
  forl points (fun p _ => let '(x, y, z) := p in if kc_err (tab x y z) x y z then Err else Ok tt) tt.

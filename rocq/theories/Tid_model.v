(** Model of src/physics/TestID (TestID_1dGaugeWave.c, TestID_1dLinearWave.c, TestID_RandomNoise.c): initial data for tests, at one point.
    The values psi, dpsiopsi, ddpsiopsi are given in the order of the list psiandderivs (sgrid_ADMvars.c:57-60: component 0, 1-3, 4-9), those of g, K, alpha, beta in the order of the list wl of computeADMconstraints (ADMvars.c:40-43: 0-5, 6-11, 12, 13-15).
    A is TestID_amplitude, Lx is bbox[1]-bbox[0] of the box, t is 0.  Doubles are real numbers.  Not modelled: the messages and the allocation of memory in TestID.c. *)
From Verif Require Import Rutil Base Conv_model.
From Coq Require Import List.
Import ListNotations.
Local Open Scope R_scope.
(** the conformal factor, TestID_1dGaugeWave.c:62-65, TestID_1dLinearWave.c:62-65, TestID_RandomNoise.c:65-68 *)
Definition psi_one : nat -> R := fun n => nth n [1; 0; 0; 0; 0; 0; 0; 0; 0; 0] 0.
(** TestID_1dGaugeWave, TestID_1dGaugeWave.c:58-85 *)
Definition gauge_wave (A Lx x1 : R) : (nat -> R) * (nat -> R) :=
  let t := 0 in
  let arg := 2 * PI * (x1 - t) / Lx in
  let Ac := A * cos arg in
  let As := A * sin arg in
  (psi_one, fun n => nth n [1 + As; 0; 0; 1; 0; 1; PI * Ac / (Lx * sqrt (1 + As)); 0; 0; 0; 0; 0; sqrt (1 + As); 0; 0; 0] 0).
(** TestID_1dLinearWave, TestID_1dLinearWave.c:58-86 *)
Definition linear_wave (A Lx x1 : R) : (nat -> R) * (nat -> R) :=
  let t := 0 in
  let arg := 2 * PI * (x1 - t) / Lx in
  let Ac := A * cos arg in
  let As := A * sin arg in
  (psi_one, fun n => nth n [1; 0; 0; 1 + As; 0; 1 - As; 0; 0; 0; PI * Ac / Lx; 0; - PI * Ac / Lx; 1; 0; 0; 0] 0).
(** the macro RND, TestID_RandomNoise.c:7, where A is 1 (16); k is what rand() returns and RM is RAND_MAX *)
Definition RND (RM n1 k : R) : R := 25 / 100000000 * 1 * (2 * k / RM - 1) / (n1 * n1).
(** TestID_RandomNoise, TestID_RandomNoise.c:60-94; r is the sequence of numbers that rand() returns at this point *)
Definition random_noise (RM n1 : R) (r : nat -> R) : (nat -> R) * (nat -> R) :=
  let d n := match n with 0%nat | 3%nat | 5%nat | 12%nat => 1 | _ => 0 end in
  (psi_one, fun n => if Nat.ltb n 16 then d n + RND RM n1 (r n) else 0).
(** TestID_type (TestID.c:26-38) and SingleBH_type (SingleBH.c:25-35) choose the data; then TestID.c:41-85 and SingleBH.c:38-79 are the same.
    lapse and shift tell whether the parameters initial_lapse and initial_shift are "one" and "zero".  The result: psi and derivatives, the other variables, K_initial, and betadot if it is enabled. *)
Definition id_driver (data : res ((nat -> R) * (nat -> R))) (lapse shift : bool) : res ((nat -> R) * (nat -> R) * R * option (nat -> R)) :=
  do d <- data;
  let psi := fst d in let u := snd d in
  let K_initial := ut_K_initial (psi 0%nat) u (fun n => u (6 + n)%nat) in
  let u1 := fun n => if lapse && Nat.eqb n 12 then 1 else u n in
  let u2 := fun n => if shift && (Nat.leb 13 n && Nat.leb n 15) then 0 else u1 n in
  Ok (psi, u2, K_initial, if shift then Some (fun _ => 0) else None).

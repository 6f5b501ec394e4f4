(** Model of the boundary conditions of the scalar field in first order form, src/physics/ScalarOnKerr/ScalarOnKerr.c: set_Up_Um_U0_onBoundary (3008-3189), compute_unew_from_Up_Um_U0_onBoundary (3192-3274), set_psi_Pi_phi_boundary (2504-2652) and set_psi_Pi_phi_boundary_CP (2659-2826).
    Simplified: exact reals; arrays are functions of the box and the flat index; the penalty terms in if(0) (3094-3144) and the values of Up, Um, U0 in ucur, which only they read, are left out; cart_partials is a parameter. *)
From Verif Require Import Rutil.
From Coq Require Import List Arith Lia.
Local Open Scope R_scope.
(** one box: its numbers of points, coordinates and inverse 3-metric, lapse and shift at all points (ScalarOnKerr.c:2536-2555, 3040-3048) *)
Record kbox := KBox { b_n1 : nat; b_x : nat -> nat -> R; b_gup : nat -> nat -> R; b_alpha : nat -> R; b_beta : nat -> nat -> R }.
(** the variables of a variable list in one box: psi 0, Pi 1, Up 2, Um 3, phix phiy phiz 4 5 6, U0x U0y U0z 7 8 9 (ScalarOnKerr.c:3017-3035) *)
Definition kvars := nat -> nat -> R.
(** Index(i,j,k) and Ind_n1n2(i,j,k, n1,n2): src/main/MemoryMan/sgrid_MemoryMan_loops.h *)
Definition kind (n1 n2 i j k : nat) : nat := (i + n1 * (j + n2 * k))%nat.
Section POINT.
Variables (B : kbox) (p : nat).
Definition k_r : R := sqrt (b_x B 0 p * b_x B 0 p + b_x B 1 p * b_x B 1 p + b_x B 2 p * b_x B 2 p). (* ScalarOnKerr.c:3060 *)
Definition k_n (i : nat) : R := b_x B i p / k_r. (* ScalarOnKerr.c:3061-3063 *)
Definition k_gnn : R := b_gup B 0 p * k_n 0 * k_n 0 + b_gup B 3 p * k_n 1 * k_n 1 + b_gup B 5 p * k_n 2 * k_n 2 + 2 * (b_gup B 1 p * k_n 0 * k_n 1 + b_gup B 2 p * k_n 0 * k_n 2 + b_gup B 4 p * k_n 1 * k_n 2). (* ScalarOnKerr.c:3064-3065 *)
Definition k_c (i : nat) : R := k_n i / sqrt k_gnn. (* ScalarOnKerr.c:3067-3069 *)
Definition k_cup (i : nat) : R := match i with (* ScalarOnKerr.c:3070-3072 *)
  | 0%nat => b_gup B 0 p * k_c 0 + b_gup B 1 p * k_c 1 + b_gup B 2 p * k_c 2
  | 1%nat => b_gup B 1 p * k_c 0 + b_gup B 3 p * k_c 1 + b_gup B 4 p * k_c 2
  | _ => b_gup B 2 p * k_c 0 + b_gup B 4 p * k_c 1 + b_gup B 5 p * k_c 2 end.
Definition k_dot (v : nat -> R) : R := k_cup 0 * v 0%nat + k_cup 1 * v 1%nat + k_cup 2 * v 2%nat. (* ScalarOnKerr.c:3073 *)
(** the characteristic variables at the point (ScalarOnKerr.c:3079-3087) *)
Definition k_chars (u : kvars) (v : nat) : R := let phic := k_dot (fun i => u (4 + i)%nat p) in match v with
  | 2%nat => u 1%nat p + phic | 3%nat => u 1%nat p - phic
  | 7%nat => u 4%nat p - phic * k_c 0 | 8%nat => u 5%nat p - phic * k_c 1 | 9%nat => u 6%nat p - phic * k_c 2 | _ => u v p end.
(** Pi and phi from them (ScalarOnKerr.c:3260-3264) *)
Definition k_back (u : kvars) (v : nat) : R := let phic := (u 2%nat p - u 3%nat p) * (1 / 2) in match v with
  | 1%nat => (u 2%nat p + u 3%nat p) * (1 / 2)
  | 4%nat => u 7%nat p + phic * k_c 0 | 5%nat => u 8%nat p + phic * k_c 1 | 6%nat => u 9%nat p + phic * k_c 2 | _ => u v p end.
End POINT.
Section GRID.
Variables (nb n2 n3 : nat) (G : nat -> kbox) (onb : nat -> nat -> bool).
Definition kstate := nat -> kvars.
Definition kupd (s : kstate) (b v p : nat) (x : R) : kstate := fun b' v' p' => if ((b' =? b) && (v' =? v) && (p' =? p))%nat%bool then x else s b' v' p'.
(** The first loop: every point of boxBoundaryPointList, here those with onb, is treated on its own and only Up, Um, U0 are written (ScalarOnKerr.c:3015-3091).  A pass reads nothing another one writes, so the loop is a map. *)
Definition set_chars (s : kstate) : kstate := fun b v p => if onb b p then k_chars (G b) p (s b) v else s b v p.
(** one point of the transfer between the boxes b and b+1 (ScalarOnKerr.c:3177-3186) *)
Definition xfer1 (b : nat) (s : kstate) (jk : nat * nat) : kstate :=
  let '(j, k) := jk in let p := kind (b_n1 (G b)) n2 (b_n1 (G b) - 1) j k in let q := kind (b_n1 (G (S b))) n2 0 j k in
  let s := kupd s (S b) 2 q (s b 2%nat p) in
  let s := kupd s b 3 p (s (S b) 3%nat q) in
  let s := kupd s b 0 p (s (S b) 0%nat q) in
  let s := kupd s b 7 p (s (S b) 7%nat q) in
  let s := kupd s b 8 p (s (S b) 8%nat q) in
  kupd s b 9 p (s (S b) 9%nat q).
(** the pairs (j, k) of forplane1, j running faster (sgrid_MemoryMan_loops.h:31-33) *)
Definition plane1 : list (nat * nat) := flat_map (fun k => map (fun j => (j, k)) (seq 0 n2)) (seq 0 n3).
(** the transfer between all boxes (ScalarOnKerr.c:3147-3188) *)
Definition xfer (s : kstate) : kstate := fold_left (fun s b => fold_left (xfer1 b) plane1 s) (seq 0 (nb - 1)) s.
(** the points of compute_unew_from_Up_Um_U0_onBoundary (ScalarOnKerr.c:3228-3236): inner and outer plane of every box, but not the inner one of the first and the outer one of the last box; n1 is at least 2 *)
Definition inplane (b p : nat) : bool := existsb (fun jk => existsb (fun i => (p =? kind (b_n1 (G b)) n2 i (fst jk) (snd jk))%nat) ((if (b =? 0)%nat then nil else (0%nat :: nil)) ++ (if (b =? nb - 1)%nat then nil else ((b_n1 (G b) - 1)%nat :: nil)))) plane1.
(** every point is treated on its own: only Pi and phi are written, and only Up, Um, U0 are read (ScalarOnKerr.c:3198-3272) *)
Definition compute_unew (s : kstate) : kstate := fun b v p => if (b <? nb)%nat then if inplane b p then k_back (G b) p (s b) v else s b v p else s b v p.
(** ScalarOnKerr.c:2482-2485 *)
Definition join (s : kstate) : kstate := compute_unew (xfer (set_chars s)).
End GRID.
(** ** outer boundary, last box only (ScalarOnKerr.c:2510-2513, 2665-2668) *)
Section OUTER.
Variables (n2 n3 : nat) (B : kbox) (part : (nat -> R) -> nat -> nat -> R) (dt : R) (pre cur : kvars).
(** the points of forplane1(i,j,k, n1,n2,n3, n1-1); i is n1-1 throughout *)
Definition outerp (p : nat) : bool := existsb (fun jk => (p =? kind (b_n1 B) n2 (b_n1 B - 1) (fst jk) (snd jk))%nat) (plane1 n2 n3).
(** new value or rate (ScalarOnKerr.c:2575-2576, 2638-2651) *)
Definition o_new (v p : nat) (rate : R) : R := if Req_EM_T dt 0 then rate else pre v p + dt * rate.
(** the rate of psi in set_psi_Pi_phi_boundary: shift and phi are read at the flat index i, not at the point (ScalarOnKerr.c:2569-2572) *)
Definition o_psi (p : nat) : R := let i := (b_n1 B - 1)%nat in
  - b_alpha B p * cur 1%nat p + b_beta B 0 i * cur 4%nat i + b_beta B 1 i * cur 5%nat i + b_beta B 2 i * cur 6%nat i.
(** the rate of psi in set_psi_Pi_phi_boundary_CP (ScalarOnKerr.c:2742-2747) *)
Definition o_psi_CP (p : nat) : R := - k_dot B p (fun i => cur (4 + i)%nat p) - cur 0%nat p / k_r B p.
(** the first loop, which sets psi (ScalarOnKerr.c:2562-2577, 2717-2752) *)
Definition o_first (cp : bool) (new : kvars) : kvars := fun v p => if outerp p then match v with 0%nat => o_new 0 p (if cp then o_psi_CP p else o_psi p) | _ => new v p end else new v p.
(** the second loop, which sets Pi and phi (ScalarOnKerr.c:2583-2651, 2758-2825) *)
Definition o_point (cp : bool) (new : kvars) (p v : nat) : R :=
  let nphic := k_dot B p (fun i => new (4 + i)%nat p) in (* :2609, :2784 *)
  let d i := part (new 0%nat) i p in (* :2580, :2624, :2785 *)
  let nUpsic := k_dot B p d in (* :2625, :2786 *)
  let nUp := new 1%nat p + nphic in (* :2615, :2792 *)
  let nUm := if cp then nUp - 2 * nUpsic else - cur 1%nat p / k_r B p in (* :2618, :2795 *)
  let nU0 i := d i - nUpsic * k_c B p i in (* :2626-2628, :2800-2802 *)
  let rPi := 1 / 2 * (nUp + nUm) in (* :2631, :2805 *)
  let nphic := 1 / 2 * (nUp - nUm) in (* :2632, :2806 *)
  match v with 1%nat => o_new 1 p rPi | 4%nat => o_new 4 p (nphic * k_c B p 0 + nU0 0%nat) | 5%nat => o_new 5 p (nphic * k_c B p 1 + nU0 1%nat) | 6%nat => o_new 6 p (nphic * k_c B p 2 + nU0 2%nat) | _ => new v p end. (* :2633-2651, :2807-2825 *)
Definition outer_bc (cp : bool) (new : kvars) : kvars := let new := o_first cp new in fun v p => if outerp p then o_point cp new p v else new v p.
End OUTER.

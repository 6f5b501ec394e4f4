(** Model of the time integrators, src/utility/evolve/rk.c and icn.c. *)
From Verif Require Import Rutil.
From Coq Require Import QArith.
Local Open Scope R_scope.

(** tButcher, rk.c:30-36; c[] is never used.  The coefficients are the exact fractions written in the code
    (as doubles they are rounded). Entries that are not written are 0. *)
Record butcher := { nstages : nat; a_ : list (list Q); b_ : list Q }.
Definition aij (T : butcher) (i j : nat) : Q := nth j (nth i (a_ T) []) 0%Q.
Definition bj (T : butcher) (j : nat) : Q := nth j (b_ T) 0%Q.
(** rk.c:38-109 *)
Definition rk1 := {| nstages := 1; a_ := [[0%Q]]; b_ := [1%Q] |}.
Definition rk2 := {| nstages := 2; a_ := [[0%Q]; [1%Q]]; b_ := [1#2; 1#2]%Q |}.
Definition rk2a := {| nstages := 2; a_ := [[0%Q]; [1#2]%Q]; b_ := [0; 1]%Q |}.
Definition rk3 := {| nstages := 3; a_ := [[0]; [1#2]; [-1; 2]]%Q; b_ := [1#6; 2#3; 1#6]%Q |}.
Definition rk3a := {| nstages := 3; a_ := [[0]; [1#3]; [0; 2#3]]%Q; b_ := [1#4; 0; 3#4]%Q |}.
Definition rk3b := {| nstages := 3; a_ := [[0]; [1#2]; [0; 3#4]]%Q; b_ := [2#9; 1#3; 4#9]%Q |}.
Definition rk4 := {| nstages := 4; a_ := [[0]; [1#2]; [0; 1#2]; [0; 0; 1]]%Q; b_ := [1#6; 1#3; 1#3; 1#6]%Q |}.
Definition rk4a := {| nstages := 4; a_ := [[0]; [2#5]; [-3#20; 3#4]; [19#44; -15#44; 10#11]]%Q; b_ := [11#72; 25#72; 25#72; 11#72]%Q |}.
Definition rk5 := {| nstages := 6;
  a_ := [[0]; [1#5]; [3#40; 9#40]; [44#45; -56#15; 32#9]; [19372#6561; -25360#2187; 64448#6561; -212#729];
         [9017#3168; -355#33; 46732#5247; 49#176; -5103#18656]]%Q;
  b_ := [35#384; 0; 500#1113; 125#192; -2187#6784; 11#84]%Q |}.
(** evolve_rk, rk.c:224-239: the table, by the value of evolution_method_rk ([getv w]: is w one of its words?); None: errorexits *)
Definition pick (getv : str -> bool) : option butcher :=
  if getv (S_ "rk5") then Some rk5 else if getv (S_ "rk4a") then Some rk4a else if getv (S_ "rk4") then Some rk4
  else if getv (S_ "rk3b") then Some rk3b else if getv (S_ "rk3a") then Some rk3a else if getv (S_ "rk3") then Some rk3
  else if getv (S_ "rk2a") then Some rk2a else if getv (S_ "rk2") then Some rk2 else if getv (S_ "rk1") then Some rk1
  else if getv (S_ "midpoint") then Some rk2a else if getv (S_ "euler") then Some rk1 else None.

Section Rk.
(** the index set of the values in a variable list: component, box and grid point *)
Variable I : Type.
Definition vec := I -> R.
(** the values and the time of a tVarList *)
Definition vl := (vec * R)%type.
(** the lists u_c, u_p, u_q and u_k[i]; they are different variables *)
Inductive reg := C | P | Q_ | K (i : nat).
Definition reg_eqb (r s : reg) : bool :=
  match r, s with C, C => true | P, P => true | Q_, Q_ => true | K i, K j => Nat.eqb i j | _, _ => false end.
Definition mem := reg -> vl.
Definition put (m : mem) (r : reg) (x : vl) : mem := fun s => if reg_eqb s r then x else m s.
(** variables.c:589-614, 685-712, 753-793, 812-844 (see Algebra_model): these act on every value and on the time in the same way *)
Definition comb (ca : R) (x : vl) (cb : R) (y : vl) : vl := (fun i => ca * fst x i + cb * fst y i, ca * snd x + cb * snd y).
Definition scal (c : R) (x : vl) : vl := (fun i => c * fst x i, c * snd x).
Definition vlcopy (m : mem) (v u : reg) : mem := put m v (m u).
Definition vladd (m : mem) (r : reg) (ca : R) (a : reg) (cb : R) (b : reg) : mem :=
  put m r (if Req_EM_T ca 0 then (if Req_EM_T cb 0 then (fun _ => 0, 0) else scal cb (m b))
           else if Req_EM_T cb 0 then scal ca (m a) else comb ca (m a) cb (m b)).
Definition vladdto (m : mem) (r : reg) (ca : R) (a : reg) : mem :=
  if Req_EM_T ca 0 then m else put m r (comb 1 (m r) ca (m a)).
Definition vlaverage (m : mem) (r a b : reg) : mem := put m r (scal (1/2) (comb 1 (m a) 1 (m b))).
(** The registered right-hand side, called with step size 0.0: writes the values (not the time) of its first argument; reads values
    and time of the last one. *)
Variable F : vl -> vec.
Definition rhs0 (m : mem) (unew ucur : reg) : mem := put m unew (F (m ucur), snd (m unew)).
(** called with step size c: unew = upre + c F(ucur) *)
Definition rhs (m : mem) (unew upre : reg) (c : R) (ucur : reg) : mem :=
  put m unew (fun i => fst (m upre) i + c * F (m ucur) i, snd (m unew)).
(** evolve_algebraicConditions(unew, upre) changes the values of unew; None: no function is registered *)
Variable alg : option (vl -> vl -> vec).
Definition conditions (m : mem) (unew upre : reg) : mem :=
  match alg with Some g => put m unew (g (m unew) (m upre), snd (m unew)) | None => m end.

(** evolve_rk_generic, rk.c:144-178 *)
Fixpoint adds (dt : R) (c : nat -> R) (js : list nat) (m : mem) : mem :=
  match js with [] => m | j :: r => adds dt c r (vladd m C 1 C (dt * c j) (K j)) end.
Definition stage (dt : R) (T : butcher) (i : nat) (m : mem) : mem :=
  let m := if Nat.eqb i 0 then m else vlcopy m C P in
  let m := adds dt (fun j => Q2R (aij T i j)) (seq 0 i) m in
  let m := conditions m C P in
  rhs0 m (K i) C.
Fixpoint stages (dt : R) (T : butcher) (is_ : list nat) (m : mem) : mem :=
  match is_ with [] => m | i :: r => stages dt T r (stage dt T i m) end.
Definition evolve_rk_generic (dt : R) (T : butcher) (m : mem) : mem :=
  let m := vlcopy m P C in
  let m := stages dt T (seq 0 (nstages T)) m in
  let m := vlcopy m C P in
  let m := adds dt (fun j => Q2R (bj T j)) (seq 0 (nstages T)) m in
  conditions m C P.
(** evolve_rk_rk4, rk.c:182-214 *)
Definition evolve_rk_rk4 (dt : R) (m : mem) : mem :=
  let r := K 0 in let v := K 1 in
  let m := vlcopy m P C in
  let m := conditions m C P in
  let m := rhs0 m r C in
  let m := vladdto m C (dt / 6) r in
  let m := vladd m v 1 P (dt / 2) r in
  let m := conditions m v P in
  let m := rhs0 m r v in
  let m := vladdto m C (dt / 3) r in
  let m := vladd m v 1 P (dt / 2) r in
  let m := conditions m v P in
  let m := rhs0 m r v in
  let m := vladdto m C (dt / 3) r in
  let m := vladd m v 1 P dt r in
  let m := conditions m v P in
  let m := rhs0 m r v in
  let m := vladdto m C (dt / 6) r in
  conditions m C P.
(** evolve_rk, rk.c:260-282: the lists u_k get time 1.0, so that the times of the stages come out right; memory handling is not modelled *)
Definition set_ktime (m : mem) : mem := fun r => match r with K i => (fst (m (K i)), 1) | _ => m r end.
Definition evolve_rk (T : butcher) (is_rk4 : bool) (dt : R) (m : mem) : mem :=
  let m := set_ktime m in if is_rk4 then evolve_rk_rk4 dt m else evolve_rk_generic dt T m.
(** evolve_icn, icn.c:10-38: three iterations; and evolve_euler, icn.c:42-60, without the debug option *)
Definition icn_iter (dt : R) (m : mem) : mem :=
  let m := vlaverage m Q_ C P in
  let m := rhs m C P dt Q_ in
  conditions m C P.
Definition evolve_icn (dt : R) (m : mem) : mem := icn_iter dt (icn_iter dt (icn_iter dt (vlcopy m P C))).
Definition evolve_euler (dt : R) (m : mem) : mem :=
  let m := vlcopy m P C in
  let m := rhs m C P dt P in
  conditions m C P.
End Rk.

(** Model of src/utility/ParManipulator/ParManipulator.c:9-134 ParManipulator_setPars and of src/utility/NumberChecker/NumberChecker.c:11-141. *)
From Coq Require Import DecimalNat DecimalString.
From Verif Require Import Rutil Params_model Evolve_model.
Local Open Scope R_scope.

(** ** ParManipulator *)
(** the parameter data base as the map from names to values that it is by C02; Gets of a parameter that does not exist is an error exit *)
Definition pars := str -> option str.
Definition setp (s : pars) (n v : str) : pars := fun m => if str_eqb m n then Some v else s m.
(** printf's "%d" of a number that is not negative *)
Definition dec (b : nat) : str := list_ascii_of_string (NilEmpty.string_of_uint (Nat.to_uint b)).
(** snprintf(buf, 999, ...) keeps 998 characters *)
Definition snprintf999 (t : str) : str := firstn 998 t.
(** the name "box%d_n1" etc. (ParManipulator.c:22, 28, ..., 98) *)
Definition boxname (b : nat) (k : str) : str := snprintf999 (S_ "box" ++ dec b ++ S_ "_" ++ k).
(** ParManipulator.c:21-104: the twelve parameters of a box, in this order *)
Definition keys : list str := [S_ "n1"; S_ "n2"; S_ "n3"; S_ "min1"; S_ "min2"; S_ "min3"; S_ "max1"; S_ "max2"; S_ "max3"; S_ "basis1"; S_ "basis2"; S_ "basis3"].
(** ParManipulator.c:22-27: if(Getv(str, "n1")) { snprintf(val, 999, "%s n1", Gets("n1")); Sets(str, val); }.  Sets translates pi-words only if they are the whole value, which is not so here as the value ends in the word k *)
Definition set_key (b : nat) (s : pars) (k : str) : res pars :=
  match s (boxname b k) with
  | None => Err
  | Some v => if getv v k then match s k with None => Err | Some g => Ok (setp s (boxname b k) (snprintf999 (g ++ S_ " " ++ k))) end else Ok s
  end.
Fixpoint set_keys (b : nat) (ks : list str) (s : pars) : res pars :=
  match ks with [] => Ok s | k :: r => match set_key b s k with Ok s' => set_keys b r s' | e => e end end.
(** the loop over boxes without the part that sets dt, which does not touch the parameters of the boxes; they do not depend on it *)
Fixpoint set_boxes (bs : list nat) (s : pars) : res pars :=
  match bs with [] => Ok s | b :: r => match set_keys b keys s with Ok s' => set_boxes r s' | e => e end end.
Definition setPars_boxes (nboxes : nat) (s : pars) : res pars := set_boxes (seq 0 nboxes) s.
(** ParManipulator.c:107-131: the part that sets dt.  n1 of the box b is n1s[b]; [square]: dt_scaling is 1/n1^2, otherwise 1/n1.  Numbers are real numbers (Setd prints 21 digits, so that the value read back is the same double); int overflow of n1*n1 and of 1 + time/dt is not modelled *)
Record dts := { ds_min : R; dt_par : R; dtmin : R }.
Definition box_dt (square : bool) (coeff dtfac time n1 : R) : R * R :=
  let ds := if square then coeff / (n1 * n1) else coeff / n1 in
  let dt := dtfac * ds in
  (ds, if Rlt_dec 0 time then time / IZR (Rtrunc (1 + time / dt)) else dt).
Definition dt_step (square : bool) (coeff dtfac time : R) (st : dts) (n1 : R) : dts :=
  let (ds, dt) := box_dt square coeff dtfac time n1 in
  if Rlt_dec dt (dtmin st) then {| ds_min := ds; dt_par := dt; dtmin := dt |} else {| ds_min := ds; dt_par := dt_par st; dtmin := dtmin st |}.
(** 1e300 *)
Definition huge : R := 10 ^ 300.
Definition setPars_dt (square : bool) (coeff dtfac time : R) (n1s : list R) (dt0 ds0 : R) : dts :=
  fold_left (dt_step square coeff dtfac time) n1s {| ds_min := ds0; dt_par := dt0; dtmin := huge |}.

(** ** NumberChecker *)
Section Num.
(** the values (double), and the test of NumberChecker.c:72: not finite, or larger in size than NumberChecker_INF *)
Variable V : Type.
Variable bad : V -> bool.
(** a message: first bad point (point, box) or last bad point of a run, with the value printed *)
Inductive msg := First (p b : nat) (v : V) | Til (p b : nat) (v : V).
(** ijk_old, b_old (None: not yet set), messageflag, num *)
Record nst := { old : option (nat * nat); mflag : nat; num : nat; out : list msg }.
(** NumberChecker.c:70-98 for the point p of a box b whose variable has the values [var]; x,y,z,X,Y,Z have as many values as var.
    num is a double that counts by 1.0, modelled by a number *)
Definition point (b : nat) (var : list V) (p : nat) (s : nst) : res nst :=
  match nth_error var p with
  | None => UB
  | Some v =>
    if bad v then Ok {| old := Some (p, b); mflag := S (mflag s); num := S (num s); out := if mflag s =? 0 then out s ++ [First p b v] else out s |}
    else if 1 <? mflag s then
      match old s with None => UB | Some (po, bo) => match nth_error var po with None => UB | Some vo => Ok {| old := old s; mflag := 0; num := num s; out := out s ++ [Til po bo vo] |} end end
    else Ok {| old := old s; mflag := 0; num := num s; out := out s |}
  end.
Fixpoint points_loop (b : nat) (var : list V) (ps : list nat) (s : nst) : res nst :=
  match ps with [] => Ok s | p :: r => match point b var p s with Ok s' => points_loop b var r s' | e => e end end.
(** NumberChecker.c:51-99: all boxes, also inactive ones; None: no storage *)
Fixpoint boxes_loop (b : nat) (vs : list (option (list V))) (s : nst) : res nst :=
  match vs with
  | [] => Ok s
  | None :: r => boxes_loop (S b) r s
  | Some var :: r => match points_loop b var (seq 0 (List.length var)) s with Ok s' => boxes_loop (S b) r s' | e => e end
  end.
(** NumberChecker.c:100-109: num is 0 or at least 1, so the return value is num *)
Definition CheckIfFinite (vs : list (option (list V))) : res (nat * list msg) :=
  match boxes_loop 0 vs {| old := None; mflag := 0; num := 0; out := [] |} with Ok s => Ok (num s, out s) | Err => Err | UB => UB end.
(** NumberChecker_CheckIfFinite_VarList, NumberChecker.c:147-160 *)
Fixpoint CheckIfFinite_VarList (vl : list (list (option (list V)))) : res nat :=
  match vl with [] => Ok 0%nat | vs :: r => match CheckIfFinite vs with Ok (n, _) => match CheckIfFinite_VarList r with Ok k => Ok (n + k)%nat | e => e end | Err => Err | UB => UB end end.
End Num.
(** NumberChecker_ExitIfNAN, NumberChecker.c:120-143, for a check with result n; the rest of the program state is W *)
Definition ExitIfNAN (W : Type) (finaltime : W -> R) (iterations : W -> Z) (check : W -> nat) (s : estate W) : estate W :=
  if (check (w W s) =? 0)%nat then s else {| it := itmax_of W finaltime iterations s; tm := tm W s; dt := dt W s; w := w W s |}.

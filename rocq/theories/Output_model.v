(** Model of src/utility/output/output.c:16-36, 130-219. *)
From Verif Require Import Rutil.
Local Open Scope R_scope.

(** timeforoutput_di_dt, output.c:16-36. [iteration], [time], [gdt] are the fields of the grid. *)
Definition timeforoutput_di_dt (iteration : Z) (time gdt : R) (di : Z) (dt : R) : Z :=
  let Time := Rabs time in
  let dT := Rabs gdt in
  if ((0 <? di)%Z && (Z.rem iteration di =? 0)%Z)%bool then (Z.quot iteration di + 1)%Z
  else if Rlt_dec 0 dt then
    let i := Rtrunc (0.5 + Time / dt) in
    if Rlt_dec (-0.5 * dT) (Time - IZR i * dt) then
      if Rle_dec (Time - IZR i * dt) (0.5 * dT) then (i + 1)%Z else 0%Z
    else 0%Z
  else 0%Z.

(** the while loop of the three find_ind functions, output.c:144-152; [X i] is the coordinate array at
    position i of the line; None: the number of rounds [fuel] was not enough *)
Fixpoint find_loop (fuel : nat) (X : Z -> R) (X0 : R) (i k : Z) : option (Z * Z) :=
  if (1 <? k - i)%Z then
    match fuel with
    | O => None
    | S f => let j := Z.quot (i + k) 2 in
             if Rle_dec ((X i - X0) * (X j - X0)) 0 then find_loop f X X0 i j else find_loop f X X0 j k
    end
  else Some (i, k).
(** output.c:138-156 for a line of n points *)
Definition find_ind (X : Z -> R) (n : Z) (X0 : R) : option Z :=
  let i := 0%Z in let k := (n - 1)%Z in
  if Rle_dec (X k) X0 then Some k else if Rle_dec X0 (X i) then Some i else
  match find_loop (Z.to_nat n) X X0 i k with
  | None => None
  | Some (i, k) => if Rlt_dec (Rabs (X i - X0)) (Rabs (X k - X0)) then Some i else Some k
  end.
(** Index(i,j,k), src/main/main/sgrid_main.h:14 *)
Definition Index (n1 n2 i j k : Z) : Z := (i + n1 * (j + n2 * k))%Z.
(** find_ind_closest_to_X0, _Y0, _Z0: output.c:130-157, 160-187, 190-219; v is the array of the coordinate *)
Definition find_ind_closest_to_X0 (n1 n2 : Z) (v : Z -> R) (X0 : R) := find_ind (fun i => v (Index n1 n2 i 0 0)) n1 X0.
Definition find_ind_closest_to_Y0 (n1 n2 : Z) (v : Z -> R) (Y0 : R) := find_ind (fun i => v (Index n1 n2 0 i 0)) n2 Y0.
Definition find_ind_closest_to_Z0 (n1 n2 n3 : Z) (v : Z -> R) (Z0 : R) := find_ind (fun i => v (Index n1 n2 0 0 i)) n3 Z0.

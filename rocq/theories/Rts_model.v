(** Model of src/utility/NumericUtils/rtsafe_itsP.c: Newton's method inside a bracket.
    Simplified: arithmetic is that of the real numbers, so only the caller's numbers and the values of the function can be infinite or not a number; the function is one that returns the same for the same x. *)
From Verif Require Import Rutil.
Local Open Scope R_scope.
(** a double *)
Inductive fv := Fin (r : R) | PInf | NInf | NaN.
(** v <= 0.0, v >= 0.0, v == 0.0, v < 0.0 for a double (rtsafe_itsP.c:36-48) *)
Definition fle0 (v : fv) : bool := match v with Fin r => if Rle_dec r 0 then true else false | NInf => true | _ => false end.
Definition fge0 (v : fv) : bool := match v with Fin r => if Rle_dec 0 r then true else false | PInf => true | _ => false end.
Definition feq0 (v : fv) : bool := match v with Fin r => if Req_EM_T r 0 then true else false | _ => false end.
Definition flt0 (v : fv) : bool := match v with Fin r => if Rlt_dec r 0 then true else false | NInf => true | _ => false end.
(** rtsafe_itsP.c:26-27: the guess is used if it is in the bracket *)
Definition rts_start (x0 : fv) (x1 x2 : R) : R :=
  match x0 with Fin x => if Rle_dec x1 x then if Rle_dec x x2 then x else if Rle_dec x2 x then if Rle_dec x x1 then x else 0.5 * (x1 + x2) else 0.5 * (x1 + x2) else if Rle_dec x2 x then if Rle_dec x x1 then x else 0.5 * (x1 + x2) else 0.5 * (x1 + x2) | _ => 0.5 * (x1 + x2) end.
(** rtsafe_itsP.c:64-103; the result is the code returned and what is written to *x0, if anything *)
Fixpoint rts_loop (fd : R -> fv * fv) (xacc : R) (n : nat) (j : Z) (rts xl xh dxold dx : R) : Z * option R :=
  match n with
  | O => (j, Some rts)
  | S n =>
      match fst (fd rts) with
      | Fin f =>
          if Req_EM_T f 0 then (j, Some rts)
          else
            let xl := if Rlt_dec f 0 then rts else xl in
            let xh := if Rlt_dec f 0 then xh else rts in
            let goal rts' dx' := if Rlt_dec (Rabs dx') xacc then (j, Some rts') else rts_loop fd xacc n (j + 1) rts' xl xh dx dx' in
            let bisection := let dx' := 0.5 * (xh - xl) in let rts' := xl + dx' in if Req_EM_T xl rts' then (j, Some rts') else goal rts' dx' in
            match snd (fd rts) with
            | Fin df =>
                if Rlt_dec (Rabs (dxold * df)) (Rabs (2 * f)) then bisection
                else
                  let dx' := f / df in let rts' := rts - dx' in
                  if Req_EM_T rts rts' then (j, Some rts') else if Rlt_dec 0 ((rts' - xh) * (rts' - xl)) then bisection else goal rts' dx'
            | _ => bisection
            end
      | _ => ((- j)%Z, None)
      end
  end.
(** rtsafe_itsP.c:14-104 *)
Definition rtsafe_itsP (x0 : fv) (fd : R -> fv * fv) (x1 x2 : fv) (MAXIT : Z) (xacc : R) : Z * option R :=
  match x1 with
  | Fin x1 =>
      match x2 with
      | Fin x2 =>
          let fl := fst (fd x1) in let fh := fst (fd x2) in
          if negb ((fle0 fl && fge0 fh) || (fge0 fl && fle0 fh)) then ((-2 * MAXIT - 3)%Z, None)
          else if feq0 fl then (0%Z, Some x1)
          else if feq0 fh then (0%Z, Some x2)
          else
            let xl := if flt0 fl then x1 else x2 in let xh := if flt0 fl then x2 else x1 in
            rts_loop fd xacc (Z.to_nat MAXIT) 1 (rts_start x0 x1 x2) xl xh (Rabs (x2 - x1)) (Rabs (x2 - x1))
      | _ => ((-2 * MAXIT - 2)%Z, None)
      end
  | _ => ((-2 * MAXIT - 1)%Z, None)
  end.

(** Abstract meaning of the parameter API calls (C02), on the abstract map of Params_spec. *)
From Verif Require Import Base Params_model Params_spec.

Section Spec.
Variable fmt : str -> str.   (* printing of pi, 2*pi, ... *)

(** The abstract meaning of each API call. *)
Definition spec_step (s : pmap * nat) (o : pop) : res (pmap * nat) :=
  match o with
  | AddPar n v _ => pcreate fmt s n v
  | AddOrModifyPar n v _ => passign fmt s n v
  | Sets n v => match fst s n with Some _ => Ok (pset (fst s) n (stored fmt v), snd s) | None => Err end
  | Appends n v =>
      match fst s n with
      | Some old => if getv old v then Ok s
                    else Ok (pset (fst s) n (stored fmt (old ++ cSP :: v)), snd s)
      | None => Err end
  | SetStart n => match fst s n with Some _ => Ok s | None => Err end
  | ReadFile f => do l <- parse_text f; passign_all fmt s l
  | FreeAll => Ok (pempty, 0)
  end.
Fixpoint spec_run (s : pmap * nat) (os : list pop) : res (pmap * nat) :=
  match os with [] => Ok s | o :: r => do s' <- spec_step s o; spec_run s' r end.
End Spec.

(** Reading a file: the last value given in the file wins, others stay. *)
Fixpoint last_value (l : list (str * str)) (n : str) : option str :=
  match l with
  | [] => None
  | (m, v) :: r => match last_value r n with Some w => Some w | None => if str_eqb m n then Some v else None end
  end.

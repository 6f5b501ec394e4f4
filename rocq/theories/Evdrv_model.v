(** Model of evolve, src/utility/evolve/evolve.c:66-169, with the allocation of the auxiliary lists in evolve_rk, rk.c:243-282.  The integrators are those of Rk_model, with the same memory: one value list for each of u_c, u_p, u_q and u_k[i].  What is kept between calls: whether a right-hand side and a list of variables are registered, whether u_p and u_q exist, and how many u_k exist.  A list that does not exist is a null pointer: using it is UB.  Storage of the auxiliary lists is switched on before and off after the step (unless evolve_persist); what they contain at the start is arbitrary here.  [getm], [getrk] and [listed]: is the word in evolution_method, in evolution_method_rk; is the name of the variable of this value in evolve_compute_change?  The variables NAME_change are one value list; the debug output and the messages are left out. *)
From Verif Require Import Rutil Base Rk_model.
Local Open Scope R_scope.
Record drv := Drv { has_rhs : bool; has_vars : bool; has_p : bool; has_q : bool; n_k : option nat }.
(** rk.c:224-241: which table, and whether the low-storage version of rk4 is used; it needs 2 lists *)
Definition takes_rk4 (getrk : str -> bool) : bool := (negb (getrk (S_ "rk5")) && negb (getrk (S_ "rk4a")) && getrk (S_ "rk4"))%bool.
Definition lists_needed (getrk : str -> bool) (T : butcher) : nat := if takes_rk4 getrk then 2%nat else nstages T.
Section Drv.
Variable I : Type.
Variable F : vl I -> vec I.
Variable alg : option (vl I -> vl I -> vec I).
(** u->time = grid->time, evolve.c:80-81, 105-107 *)
Definition set_time (t : R) (m : mem I) : mem I := fun r => match r with K i => m (K i) | _ => (fst (m r), t) end.
(** the step, evolve.c:116-124 *)
Definition step (getm getrk : str -> bool) (dt : R) (e : drv) (m : mem I) : res (drv * mem I) :=
  if getm (S_ "icn") then if (has_p e && has_q e)%bool then Ok (e, evolve_icn I F alg dt m) else UB
  else if getm (S_ "euler") then if has_p e then Ok (e, evolve_euler I F alg dt m) else UB
  else if getm (S_ "rk") then
    match pick getrk with
    | None => Err
    | Some T =>
      let need := lists_needed getrk T in let k := match n_k e with None => need | Some k => k end in
      let e := Drv (has_rhs e) (has_vars e) (has_p e) (has_q e) (Some k) in
      if (has_p e && (need <=? k)%nat)%bool then Ok (e, evolve_rk I F alg T (takes_rk4 getrk) dt m) else UB
    end
  else Err.
(** evolve, evolve.c:66-169; the result has the new state, the lists, and the values of NAME_change *)
Definition evolve (getm getrk : str -> bool) (listed : I -> bool) (iteration : Z) (time dt : R) (e : drv) (m : mem I) (ch : vec I) : res (drv * mem I * vec I) :=
  if negb (has_rhs e) then Ok (e, m, ch)
  else if negb (has_vars e) then Err
  else
    let e := if Z.eqb iteration 0 then Drv true true (has_p e || getm (S_ "euler") || getm (S_ "icn") || getm (S_ "rk")) (has_q e || getm (S_ "icn")) (n_k e) else e in
    do r <- step getm getrk dt e (set_time time m);
    let '(e, m) := r in
    Ok (e, m, fun i => if listed i then fst (m C) i - fst (m P) i else ch i).
End Drv.

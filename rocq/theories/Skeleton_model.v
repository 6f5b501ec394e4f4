(** Model of the function bins, src/main/main/skeleton.c. *)
From Verif Require Import Base.

(** NFUNCTIONS, the number of bins: last value of the enum in src/main/main/sgrid_main.h:142-163 *)
Definition NFUNCTIONS : nat := 18.

Section Bins.
Variable F : Type.       (* function pointers *)

(** struct tTODO, skeleton.c:13-17: a chain of nodes; the last node is an empty sentinel whose
    f is NULL.  The pointer next is the tail of the chain. *)
Inductive todo := Todo (f : option F) (name : str) (next : option todo).

(** fps[] and sgrid_restarts *)
Record fstate := { fps : list (option todo); frestarts : nat }.
Definition finit : fstate := {| fps := repeat None NFUNCTIONS; frestarts := 0 |}.

(** for (t = fps[step]; t->next; t = t->next); then fill the sentinel and append a new one,
    skeleton.c:34-38 *)
Fixpoint append (t : todo) (f : F) (name : str) : todo :=
  match t with
  | Todo f0 n0 (Some t') => Todo f0 n0 (Some (append t' f name))
  | Todo _ _ None => Todo (Some f) name (Some (Todo None [] None))
  end.
(** AddFun, skeleton.c:23-39 *)
Definition AddFun (step : nat) (f : F) (name : str) (s : fstate) : res fstate :=
  if 0 <? frestarts s then Ok s else
  match nth_error (fps s) step with
  | None => UB
  | Some b =>
      let t := match b with None => Todo None [] None | Some t => t end in
      Ok {| fps := upd (fps s) step (Some (append t f name)); frestarts := frestarts s |}
  end.

(** remove_all_Funs, skeleton.c:42-61 *)
Definition remove_all_Funs (s : fstate) : fstate :=
  {| fps := repeat None NFUNCTIONS; frestarts := frestarts s |}.

(** RunFun, skeleton.c:64-73: the functions called, in order.  Calling the NULL pointer of a
    sentinel would be UB.  Simplification: the called functions do not add functions. *)
Fixpoint run_chain (t : todo) : res (list F) :=
  match t with
  | Todo f _ (Some t') =>
      match f with
      | None => UB
      | Some g => do r <- run_chain t'; Ok (g :: r)
      end
  | Todo _ _ None => Ok []
  end.
Definition RunFun (step : nat) (s : fstate) : res (list F) :=
  match nth_error (fps s) step with
  | None => UB
  | Some None => Ok []
  | Some (Some t) => run_chain t
  end.

Inductive fop := FAdd (step : nat) (f : F) (name : str) | FRemoveAll | FRestart.
Definition fstep (s : fstate) (o : fop) : res fstate :=
  match o with
  | FAdd b f n => AddFun b f n s
  | FRemoveAll => Ok (remove_all_Funs s)
  | FRestart => Ok {| fps := fps s; frestarts := S (frestarts s) |}
  end.
Fixpoint frun (s : fstate) (os : list fop) : res fstate :=
  match os with [] => Ok s | o :: r => do s' <- fstep s o; frun s' r end.
End Bins.

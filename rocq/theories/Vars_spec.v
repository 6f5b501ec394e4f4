(** Specification for the variable registry (C05-C07), independent of variables.c. *)
From Verif Require Import Base.

(** A declaration: base name and component suffixes, e.g. ("g", ["xx";"xy";...]). *)
Definition decl := (str * list str)%type.
(** The registry a list of declarations should give: full name, number within its group,
    size of the group; the position in the list is the index of the variable. *)
Definition entry := (str * nat * nat)%type.
Definition group (d : decl) : list entry :=
  map (fun js => (fst d ++ snd js, fst js, List.length (snd d)))
      (combine (seq 0 (List.length (snd d))) (snd d)).
Definition registry (ds : list decl) : list entry := flat_map group ds.
Definition full_names (ds : list decl) : list str := map (fun e => fst (fst e)) (registry ds).

(** Remove the first occurrence of x. *)
Fixpoint remove1 (x : Z) (l : list Z) : list Z :=
  match l with
  | [] => []
  | y :: r => if (y =? x)%Z then r else y :: remove1 x r
  end.
(** vi, vi+1, ..., vi+n-1 *)
Definition zrange (vi : Z) (n : nat) : list Z := map (fun i => (vi + Z.of_nat i)%Z) (seq 0 n).

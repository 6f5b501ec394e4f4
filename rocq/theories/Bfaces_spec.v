(** Specification of box-face lists (C12): for each box a sequence of faces. *)
From Verif Require Import Base Bfaces_model.
(** face number (or -1 if points of several faces), other box, other index, points *)
Record aface := { a_f : Z; a_ob : Z; a_ofi : Z; a_pts : option (list nat) }.
Definition bst := list (list aface).
Definition newf (f : Z) : aface := {| a_f := f; a_ob := -1; a_ofi := -1; a_pts := None |}.
Definition addp (ijk : nat) (f : Z) (x : aface) : aface :=
  {| a_f := if Z.eqb (a_f x) f then f else (-1)%Z; a_ob := a_ob x; a_ofi := a_ofi x;
     a_pts := Some (match a_pts x with None => [] | Some l => l end ++ [ijk]) |}.
Definition seto (ob ofi : Z) (x : aface) : aface := {| a_f := a_f x; a_ob := ob; a_ofi := ofi; a_pts := a_pts x |}.
(** the sequence without its i-th element *)
Definition without {A} (i : nat) (l : list A) : list A := firstn i l ++ skipn (S i) l.
Definition mod_at {A} (i : nat) (g : A -> A) (l : list A) : list A :=
  firstn i l ++ match skipn i l with [] => [] | x :: r => g x :: r end.
Definition haspts (x : aface) : bool := match a_pts x with Some _ => true | None => false end.
Definition exists_face (fi : Z) (l : list aface) : bool := (0 <=? fi)%Z && (fi <? Z.of_nat (List.length l))%Z.
(** new sequence and return value of a call on the box it is about *)
Definition bspec (o : bop) (l : list aface) : list aface * nat :=
  match o with
  | AddFace _ f => (l ++ [newf f], List.length l)
  | AddPoint _ fi ijk f =>
      if exists_face fi l then (mod_at (Z.to_nat fi) (addp ijk f) l, Z.to_nat fi)
      else (l ++ [addp ijk f (newf f)], List.length l)
  | RmFace _ fi => if exists_face fi l then (without (Z.to_nat fi) l, 1) else (l, 0)
  | RmEmpty _ => (filter haspts l, List.length (filter (fun x => negb (haspts x)) l))
  | FreeAll _ => ([], 0)
  | SetOther _ fi ob ofi => (mod_at fi (seto ob ofi) l, 0)
  end.
Definition obox (o : bop) : nat :=
  match o with AddFace b _ | AddPoint b _ _ _ | RmFace b _ | RmEmpty b | FreeAll b | SetOther b _ _ _ => b end.
(** a history: the box exists; for SetOther the face exists *)
Inductive bhist : bst -> list bop -> bst -> list nat -> Prop :=
| bh_nil s : bhist s [] s []
| bh_cons s o os l l' x s' xs :
    nth_error s (obox o) = Some l ->
    match o with SetOther _ fi _ _ => fi < List.length l | _ => True end ->
    bspec o l = (l', x) -> bhist (upd s (obox o) l') os s' xs -> bhist s (o :: os) s' (x :: xs).

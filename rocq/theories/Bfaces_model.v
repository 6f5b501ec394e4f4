(** Model of the box-face lists, src/main/MemoryMan/storage.c:157-302. *)
From Verif Require Import Base.

(** tBface, src/main/MemoryMan/sgrid_MemoryMan.h; the point list fpts is NULL or the points of this
    box in the order they were added (see Points_model for point lists). Bit fields set by
    Coordinates are not included. *)
Record face := { fb : nat; ff : Z; ffi : nat; fob : Z; fofi : Z; foX : Z; foY : Z; foZ : Z; fpts : option (list nat) }.
(** heap of faces (None = freed) and for every box its pointer array bface[] (its length is nbfaces) *)
Record bworld := { fheap : list (option face); arrs : list (list nat) }.

Definition fget (w : bworld) (p : nat) : res face :=
  match nth_error (fheap w) p with Some (Some f) => Ok f | _ => UB end.
Definition fput (w : bworld) (p : nat) (f : face) : bworld := {| fheap := upd (fheap w) p (Some f); arrs := arrs w |}.
Definition arr (w : bworld) (b : nat) : res (list nat) :=
  match nth_error (arrs w) b with Some a => Ok a | None => UB end.
Definition aset (w : bworld) (b : nat) (a : list nat) : bworld := {| fheap := fheap w; arrs := upd (arrs w) b a |}.
Definition at_ (a : list nat) (i : nat) : res nat := match nth_error a i with Some p => Ok p | None => UB end.
Definition set_fi (f : face) (i : nat) : face :=
  {| fb := fb f; ff := ff f; ffi := i; fob := fob f; fofi := fofi f; foX := foX f; foY := foY f; foZ := foZ f; fpts := fpts f |}.
(** add_empty_bface, storage.c:157-186 *)
Definition add_empty_bface (b : nat) (f : Z) (w : bworld) : res (bworld * nat) :=
  do a <- arr w b;
  let fi := List.length a in
  let q := List.length (fheap w) in
  Ok ({| fheap := fheap w ++ [Some {| fb := b; ff := f; ffi := fi; fob := -1; fofi := -1; foX := -1; foY := -1; foZ := -1; fpts := None |}];
         arrs := upd (arrs w) b (a ++ [q]) |}, fi).
(** add_point_to_bface_inbox, storage.c:190-205 *)
Definition add_point_to_bface_inbox (b : nat) (fi : Z) (ijk : nat) (f : Z) (w : bworld) : res (bworld * nat) :=
  do a <- arr w b;
  do (w1, i) <- (if ((fi <? 0) || (Z.of_nat (List.length a) <=? fi))%Z then add_empty_bface b f w else Ok (w, Z.to_nat fi));
  do a1 <- arr w1 b;
  do p <- at_ a1 i;
  do x <- fget w1 p;
  let pts := match fpts x with None => [] | Some l => l end in
  Ok (fput w1 p {| fb := fb x; ff := if Z.eqb (ff x) f then ff x else (-1)%Z; ffi := ffi x; fob := fob x; fofi := fofi x;
                   foX := foX x; foY := foY x; foZ := foZ x; fpts := Some (pts ++ [ijk]) |}, i).
(** the shifting loop in remove_bface, storage.c:271-275, [k] remaining iterations *)
Fixpoint shift_loop (k i : nat) (a : list nat) (w : bworld) : res (list nat * bworld) :=
  match k with
  | O => Ok (a, w)
  | S k =>
      do p <- at_ a (i + 1);
      do x <- fget w p;
      shift_loop k (i + 1) (upd a i p) (fput w p (set_fi x i))
  end.
(** free_bface, storage.c:237-245, for a non-NULL pointer *)
Definition free_bface (w : bworld) (p : nat) : res bworld :=
  do _ <- fget w p; Ok {| fheap := upd (fheap w) p None; arrs := arrs w |}.
(** remove_bface, storage.c:258-287 *)
Definition remove_bface (b : nat) (fi : Z) (w : bworld) : res (bworld * nat) :=
  do a <- arr w b;
  let n := List.length a in
  if ((fi <? 0) || (Z.of_nat n <=? fi))%Z then Ok (w, 0) else
  let i := Z.to_nat fi in
  do p <- at_ a i;
  do w1 <- free_bface w p;
  do (a2, w2) <- shift_loop (n - 1 - i) i a w1;
  Ok (aset w2 b (firstn (n - 1) a2), 1).
(** remove_bfaces_with_NULL_fpts, storage.c:290-302; the counter of the for loop, after fi=fi-r and
    fi++, is fi+1-r. [fuel] bounds the number of iterations *)
Fixpoint rm_null (fuel : nat) (b fi n : nat) (w : bworld) : res (bworld * nat) :=
  match fuel with
  | O => UB
  | S fuel =>
      do a <- arr w b;
      if fi <? List.length a then
        do p <- at_ a fi;
        do x <- fget w p;
        match fpts x with
        | Some _ => rm_null fuel b (fi + 1) n w
        | None => do (w1, r) <- remove_bface b (Z.of_nat fi) w; rm_null fuel b (fi + 1 - r) (n + 1) w1
        end
      else Ok (w, n)
  end.
Definition remove_bfaces_with_NULL_fpts (b : nat) (w : bworld) : res (bworld * nat) :=
  do a <- arr w b; rm_null (S (List.length a)) b 0 0 w.
(** free_all_bfaces, storage.c:248-255 *)
Fixpoint free_list (l : list nat) (w : bworld) : res bworld :=
  match l with [] => Ok w | p :: r => do w1 <- free_bface w p; free_list r w1 end.
Definition free_all_bfaces (b : nat) (w : bworld) : res bworld :=
  do a <- arr w b; do w1 <- free_list a w; Ok (aset w1 b []).
(** a program setting bface[fi]->ob and ofi *)
Definition set_other (b fi : nat) (ob ofi : Z) (w : bworld) : res bworld :=
  do a <- arr w b; do p <- at_ a fi; do x <- fget w p;
  Ok (fput w p {| fb := fb x; ff := ff x; ffi := ffi x; fob := ob; fofi := ofi; foX := foX x; foY := foY x; foZ := foZ x; fpts := fpts x |}).
(** box->bface[fi] *)
Definition bface (b fi : nat) (w : bworld) : res face := do a <- arr w b; do p <- at_ a fi; fget w p.

Inductive bop :=
| AddFace (b : nat) (f : Z) | AddPoint (b : nat) (fi : Z) (ijk : nat) (f : Z) | RmFace (b : nat) (fi : Z)
| RmEmpty (b : nat) | FreeAll (b : nat) | SetOther (b fi : nat) (ob ofi : Z).
(** one call and its return value (0 for void) *)
Definition bstep (o : bop) (w : bworld) : res (bworld * nat) :=
  match o with
  | AddFace b f => add_empty_bface b f w
  | AddPoint b fi ijk f => add_point_to_bface_inbox b fi ijk f w
  | RmFace b fi => remove_bface b fi w
  | RmEmpty b => remove_bfaces_with_NULL_fpts b w
  | FreeAll b => do w1 <- free_all_bfaces b w; Ok (w1, 0)
  | SetOther b fi ob ofi => do w1 <- set_other b fi ob ofi w; Ok (w1, 0)
  end.
Fixpoint brun (os : list bop) (w : bworld) : res (bworld * list nat) :=
  match os with
  | [] => Ok (w, [])
  | o :: r => do (w1, x) <- bstep o w; do (w2, xs) <- brun r w1; Ok (w2, x :: xs)
  end.
(** boxes start without faces (alloc_box, storage.c:55-71) *)
Definition bw0 (nboxes : nat) : bworld := {| fheap := []; arrs := repeat [] nboxes |}.

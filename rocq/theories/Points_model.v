(** Model of point lists, src/main/MemoryMan/points.c, and of the loop macros over them. *)
From Verif Require Import Base Lists_model.

(** tPointList, sgrid_MemoryMan.h: per box a buffer point[b] with npoints[b] entries in use
    (point[b]==NULL is the empty buffer), and the list blist of boxes. *)
Record plist := { pts : list (tlist Z); blist : tlist Z }.

(** AllocatePointList, points.c:17-49 *)
Definition AllocatePointList (nboxes : nat) : plist :=
  {| pts := repeat (alloc Z) nboxes; blist := alloc Z |}.
(** addto_blist, points.c:52-61: search, then write at position n; the caller allocated the
    buffer. *)
Definition addto_blist (bi : Z) (bl : tlist Z) : res (tlist Z) :=
  do f <- search Z Z.eqb (n bl) 0 bi bl;
  match f with
  | Some _ => Ok bl
  | None => do bl' <- lset Z bl (n bl) bi; Ok {| e := e bl'; n := n bl + 1 |}
  end.
(** AddToPointList, points.c:64-85 *)
Definition AddToPointList (PL : plist) (b : nat) (p : Z) : res plist :=
  match nth_error (pts PL) b with
  | None => UB
  | Some l =>
      do l' <- lset Z {| e := lrealloc Z (e l) (n l + 2); n := n l |} (n l) p;
      do bl <- addto_blist (Z.of_nat b) {| e := lrealloc Z (e (blist PL)) (n (blist PL) + 2); n := n (blist PL) |};
      Ok {| pts := upd (pts PL) b {| e := e l'; n := n l + 1 |}; blist := bl |}
  end.
(** DropFromPointList, points.c:88-99 *)
Definition DropFromPointList (PL : plist) (b : nat) (p : Z) : res plist :=
  match nth_error (pts PL) b with
  | None => UB
  | Some l => do l' <- drop Z Z.eqb l p; Ok {| pts := upd (pts PL) b l'; blist := blist PL |}
  end.
(** DropListFromPointList, points.c:102-113 *)
Definition DropListFromPointList (PL : plist) (b : nat) (d : tlist Z) : res plist :=
  match nth_error (pts PL) b with
  | None => UB
  | Some l => do l' <- droplist Z Z.eqb l d; Ok {| pts := upd (pts PL) b l'; blist := blist PL |}
  end.
(** the copying loops of DuplicatePointList_for_grid, points.c:221 and 230 *)
Fixpoint copy_loop (k i : nat) (src dst : tlist Z) : res (tlist Z) :=
  match k with
  | O => Ok dst
  | S k' => do x <- lget Z src i; do dst' <- lset Z dst i x; copy_loop k' (S i) src dst'
  end.
Fixpoint dup_boxes (l : list (tlist Z)) : res (list (tlist Z)) :=
  match l with
  | [] => Ok []
  | s :: r =>
      do d <- copy_loop (n s) 0 s {| e := repeat None (n s + 2); n := n s |};
      do r' <- dup_boxes r; Ok (d :: r')
  end.
(** DuplicatePointList(_for_grid) for a grid with the same number of boxes, points.c:204-243.
    In line 225 PL->nblist is still 0, so blist gets room for two entries. *)
Definition DuplicatePointList (PL0 : plist) : res plist :=
  do ps <- dup_boxes (pts PL0);
  do bl <- copy_loop (n (blist PL0)) 0 (blist PL0) {| e := repeat None 2; n := n (blist PL0) |};
  Ok {| pts := ps; blist := bl |}.

Inductive pop := Padd (b : nat) (p : Z) | Pdrop (b : nat) (p : Z) | Pdroplist (b : nat) (d : tlist Z).
Definition pstep (PL : plist) (o : pop) : res plist :=
  match o with
  | Padd b p => AddToPointList PL b p
  | Pdrop b p => DropFromPointList PL b p
  | Pdroplist b d => DropListFromPointList PL b d
  end.
Fixpoint prun (PL : plist) (os : list pop) : res plist :=
  match os with [] => Ok PL | o :: r => do PL' <- pstep PL o; prun PL' r end.

(** forPointList, sgrid_MemoryMan_loops.h:77-81: the points visited in the active boxes.  The
    initialisation reads point[b][0] before npoints[b] is tested; an entry that was never
    written may be read (its value is not used) but it has to be inside the buffer. *)
Definition peek (l : tlist Z) (i : nat) : res Z :=
  match nth_error (e l) i with Some (Some x) => Ok x | Some None => Ok 0%Z | None => UB end.
Fixpoint visit_box (k pi : nat) (ijk : Z) (l : tlist Z) : res (list Z) :=
  match k with
  | O => Ok []
  | S k' =>                                          (* here pi < npoints *)
      let pi' := S pi in
      do nxt <- peek l (if pi' =? n l then pi' - 1 else pi');
      do r <- visit_box k' pi' nxt l; Ok (ijk :: r)
  end.
Fixpoint forPointList (inactive : nat -> bool) (b : nat) (ps : list (tlist Z)) : res (list (nat * Z)) :=
  match ps with
  | [] => Ok []
  | l :: r =>
      if inactive b then forPointList inactive (S b) r else
      do ijk <- peek l 0;
      do v <- visit_box (n l) 0 ijk l;
      do rest <- forPointList inactive (S b) r;
      Ok (map (pair b) v ++ rest)
  end.

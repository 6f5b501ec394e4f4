(** Model of the copies between variable lists and plain arrays, src/utility/GridIterators/utility.c:76-319. *)
From Verif Require Import Base Loops.

Section M.
Variable F : Type.
(** box number, variable number: the array box->v[v]; None is NULL *)
Definition fmem := nat -> nat -> option (list F).
(** per box: active?, nnodes *)
Definition fgrid := list (bool * nat).
Definition nnodes (g : fgrid) (b : nat) : nat := match nth_error g b with Some (_, n) => n | None => 0 end.
(** the boxes visited by forallboxes: the active ones in increasing order (see C15), src/main/MemoryMan/sgrid_MemoryMan_loops.h:7-12 *)
Definition actives (g : fgrid) : list nat :=
  filter (fun b => match nth_error g b with Some (a, _) => a | None => false end) (seq 0 (List.length g)).
(** px[i] with px = box->v[v] *)
Definition rdp (m : fmem) (b v i : nat) : res F :=
  match m b v with Some l => match nth_error l i with Some a => Ok a | None => UB end | None => UB end.
Definition wrp (m : fmem) (b v i : nat) (a : F) : res fmem :=
  match m b v with
  | Some l => if i <? List.length l then Ok (fun b' v' => if (b' =? b) && (v' =? v) then Some (upd l i a) else m b' v') else UB
  | None => UB
  end.
(** array elements x[k] *)
Definition rda (x : list F) (k : nat) : res F := match nth_error x k with Some a => Ok a | None => UB end.
Definition wra (x : list F) (k : nat) (a : F) : res (list F) := if k <? List.length x then Ok (upd x k a) else UB.
(** vlx->index[j] *)
Definition vix (vl : list nat) (j : nat) : res nat := match nth_error vl j with Some v => Ok v | None => UB end.
(** x[line] = px[i]; line++  (utility.c:94-96) *)
Definition put1 (m : fmem) (vl : list nat) (bi i j : nat) (s : list F * nat) : res (list F * nat) :=
  do v <- vix vl j; do a <- rdp m bi v i; do x <- wra (fst s) (snd s) a; Ok (x, snd s + 1).
(** px[i] = x[line]; line++  (utility.c:146-148) *)
Definition get1 (x : list F) (vl : list nat) (bi i j : nat) (s : fmem * nat) : res (fmem * nat) :=
  do v <- vix vl j; do a <- rda x (snd s); do m <- wrp (fst s) bi v i a; Ok (m, snd s + 1).

(** copy_varlist_into_array, utility.c:79-100 *)
Definition copy_varlist_into_array (g : fgrid) (vl : list nat) (m : fmem) (x : list F) : res (list F) :=
  do s <- forl (actives g) (fun bi => for_nat 0 (nnodes g bi) (fun i => for_nat 0 (List.length vl) (fun j => put1 m vl bi i j))) (x, 0);
  Ok (fst s).
(** copy_array_into_varlist, utility.c:131-152 *)
Definition copy_array_into_varlist (g : fgrid) (x : list F) (vl : list nat) (m : fmem) : res fmem :=
  do s <- forl (actives g) (fun bi => for_nat 0 (nnodes g bi) (fun i => for_nat 0 (List.length vl) (fun j => get1 x vl bi i j))) (m, 0);
  Ok (fst s).
(** copy_varlist_into_array_forSortedVars, utility.c:184-202 *)
Definition copy_varlist_into_array_forSortedVars (g : fgrid) (vl : list nat) (m : fmem) (x : list F) : res (list F) :=
  do s <- forl (actives g) (fun bi => for_nat 0 (List.length vl) (fun j => for_nat 0 (nnodes g bi) (fun i => put1 m vl bi i j))) (x, 0);
  Ok (fst s).
(** copy_array_into_varlist_forSortedVars, utility.c:205-223 *)
Definition copy_array_into_varlist_forSortedVars (g : fgrid) (x : list F) (vl : list nat) (m : fmem) : res fmem :=
  do s <- forl (actives g) (fun bi => for_nat 0 (List.length vl) (fun j => for_nat 0 (nnodes g bi) (fun i => get1 x vl bi i j))) (m, 0);
  Ok (fst s).
(** copy_vl_into_array_outervlloop, utility.c:227-243 *)
Definition copy_vl_into_array_outervlloop (g : fgrid) (vl : list nat) (m : fmem) (x : list F) : res (list F) :=
  do s <- for_nat 0 (List.length vl) (fun j => forl (actives g) (fun bi => for_nat 0 (nnodes g bi) (fun i => put1 m vl bi i j))) (x, 0);
  Ok (fst s).
(** copy_array_into_vl_outervlloop, utility.c:247-263 *)
Definition copy_array_into_vl_outervlloop (g : fgrid) (x : list F) (vl : list nat) (m : fmem) : res fmem :=
  do s <- for_nat 0 (List.length vl) (fun j => forl (actives g) (fun bi => for_nat 0 (nnodes g bi) (fun i => get1 x vl bi i j))) (m, 0);
  Ok (fst s).
(** Ind_n1n2, src/main/main/sgrid_main.h:17, on non-negative arguments *)
Definition Ind_n1n2 (i j k n1 n2 : nat) : nat := i + n1 * (j + n2 * k).
(** copy_varlistCompInSubbox_into_array, utility.c:266-291; the index ranges (IndexRangesInSubbox, see C18)
    are i1..i2-1 etc., v is vlx->index[vi], box sizes n1, n2 *)
Definition subbox_into_array (m : fmem) (bi v n1 n2 i1 i2 j1 j2 k1 k2 : nat) (x : list F) : res (list F) :=
  for_nat k1 k2 (fun k => for_nat j1 j2 (fun j => for_nat i1 i2 (fun i x =>
    do a <- rdp m bi v (Ind_n1n2 i j k n1 n2);
    wra x (Ind_n1n2 (i - i1) (j - j1) (k - k1) (i2 - i1) (j2 - j1)) a))) x.
(** copy_array_into_varlistCompInSubbox, utility.c:294-319 *)
Definition array_into_subbox (x : list F) (bi v n1 n2 i1 i2 j1 j2 k1 k2 : nat) (m : fmem) : res fmem :=
  for_nat k1 k2 (fun k => for_nat j1 j2 (fun j => for_nat i1 i2 (fun i m =>
    do a <- rda x (Ind_n1n2 (i - i1) (j - j1) (k - k1) (i2 - i1) (j2 - j1));
    wrp m bi v (Ind_n1n2 i j k n1 n2) a))) m.
End M.

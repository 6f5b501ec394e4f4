(** Model of the construction of a matrix by probing a linear operator with unit vectors
    (src/utility/LinAlg/ReadMatrixFrom_Fx.c).

    The grid data are a function from locations (box, variable, point) to real numbers; Fx is an arbitrary
    transformer of all the data (it may write any variable).  Only active boxes are listed, since the macro forallboxes skips
    the others (src/main/MemoryMan/sgrid_MemoryMan_loops.h:21-23).  The stores into the sparse vectors are
    collected in a list and performed afterwards: Fx does not read them. *)
From Verif Require Import Base Loops Rutil Sparse_model.
Local Open Scope R_scope.

Notation loc := (nat * nat * nat)%type.   (* box, variable, point *)
Definition mem : Type := loc -> R.
Definition loc_eqb (a b : loc) : bool :=
  let '(a1, a2, a3) := a in let '(b1, b2, b3) := b in Nat.eqb a1 b1 && Nat.eqb a2 b2 && Nat.eqb a3 b3.
Definition put (m : mem) (l : loc) (v : R) : mem := fun k => if loc_eqb k l then v else m k.

(** active boxes with their numbers of points *)
Notation boxlist := (list (nat * nat)).

(** loops over boxes, points and variables, as in ReadMatrixFrom_Fx.c:138-145 *)
Definition locs_points (boxes : boxlist) (vl : list nat) : list loc :=
  flat_map (fun bn => flat_map (fun i => map (fun v => (fst bn, v, i)) vl) (seq 0 (snd bn))) boxes.
(** loops over boxes, variables and points, as in ReadMatrixFrom_Fx.c:283-296 *)
Definition locs_vars (boxes : boxlist) (vl : list nat) : list loc :=
  flat_map (fun bn => flat_map (fun v => map (fun i => (fst bn, v, i)) (seq 0 (snd bn))) vl) boxes.

(** vladd(vlx, 0.0,NULL, 0.0,NULL): all variables of the list become zero in all active boxes *)
Definition vl_zero (boxes : boxlist) (vl : list nat) (m : mem) : mem :=
  fold_left (fun m l => put m l 0) (locs_vars boxes vl) m.

(** a store AddToSparseVector(Aline[line], col, val) or AddToSparseVector(Acol[col], line, val) *)
Notation store := (nat * nat * R)%type.   (* line, col, value *)
(** ReadMatrixFrom_Fx.c:137-151: go over all locations ys of the result, counting lines *)
Fixpoint scan (drop : R) (col : nat) (ys : list loc) (line : nat) (m : mem) : list store :=
  match ys with
  | [] => []
  | y :: r => (if Rle_dec (Rabs (m y)) drop then [] else [(line, col, m y)]) ++ scan drop col r (line + 1) m
  end.
(** ReadMatrixFrom_Fx.c:129-154: x[i]=1; Fx(...); scan; x[i]=0, for a list of columns with the
    locations of their unknowns.  Result: the data and the stores. *)
Definition probe (drop : R) (Fx : mem -> mem) (ys : list loc) (work : list (nat * loc)) (m : mem) : mem * list store :=
  fold_left (fun s cl => let m1 := Fx (put (fst s) (snd cl) 1) in
                         (put m1 (snd cl) 0, snd s ++ scan drop (fst cl) ys 0 m1)) work (m, []).

(** the stores into an array of sparse vectors *)
Definition store_line (s : store) (A : list (list (nat * R))) : res (list (list (nat * R))) :=
  let '(line, col, v) := s in do a <- rd A line; wr A line (AddToSparseVector a col v).
Definition store_col (s : store) (A : list (list (nat * R))) : res (list (list (nat * R))) :=
  let '(line, col, v) := s in do a <- rd A col; wr A col (AddToSparseVector a line v).

(** ReadMatrixFrom_Fx.c:73-80, 380-387: offset[b] of the active boxes *)
Fixpoint offsets (n : nat) (boxes : boxlist) (offset_prev nnodes_prev : nat) : list nat :=
  match boxes with
  | [] => []
  | bn :: r => let o := (offset_prev + nnodes_prev * n)%nat in o :: offsets n r o (snd bn)
  end.
(** ReadMatrixFrom_Fx.c:116-123: columns and unknowns of the given points of a box, col = offset[b] + i*n + j *)
Definition work_points (vlx : list nat) (b offset : nat) (points : list nat) : list (nat * loc) :=
  flat_map (fun i => map (fun j => ((offset + i * List.length vlx + j)%nat, (b, nth j vlx 0%nat, i))) (seq 0 (List.length vlx))) points.
Definition work_all (boxes : boxlist) (vlx : list nat) : list (nat * loc) :=
  flat_map (fun p => work_points vlx (fst (fst p)) (snd p) (seq 0 (snd (fst p))))
    (combine boxes (offsets (List.length vlx) boxes 0 0)).

(** *** Built without LEVEL6_Pragmas: SetMatrixLines_slowly (48-186) and SetMatrixColumns_slowly (355-494).
    grid_p is a copy of the grid made before vlx is set to zero (lines 64-70, 83); vladd clears vlx on the
    original grid, probing uses the copy.  Result: data of the original grid, stores. *)
Definition probe_serial (drop : R) (Fx : mem -> mem) (boxes : boxlist) (vlFx vlx : list nat) (m : mem) : mem * list store :=
  let grid_p := m in
  (vl_zero boxes vlx m, snd (probe drop Fx (locs_points boxes vlFx) (work_all boxes vlx) grid_p)).

(** *** Built with LEVEL6_Pragmas: for every box every thread copies the grid, now after vlx was set to zero, and
    works on its share of the points (lines 94-165).  [share b] lists the points of each thread for box b.  The
    stores of all threads are performed in any order ("omp critical", line 148; for columns every Acol[col]
    belongs to one thread). *)
Definition probe_parallel (drop : R) (Fx : mem -> mem) (boxes : boxlist) (vlFx vlx : list nat) (share : nat -> list (list nat)) (m : mem)
  : mem * list store :=
  let grid := vl_zero boxes vlx m in
  (grid, flat_map (fun p => flat_map (fun points =>
       snd (probe drop Fx (locs_points boxes vlFx) (work_points vlx (fst (fst p)) (snd p) points) grid)) (share (fst (fst p))))
     (combine boxes (offsets (List.length vlx) boxes 0 0))).

(** SetMatrixLines_slowly / SetMatrixColumns_slowly for freshly allocated vectors, given the stores *)
Definition set_lines (nlines : nat) (stores : list store) : res (list (list (nat * R))) := forl stores store_line (repeat [] nlines).
Definition set_columns (ncols : nat) (stores : list store) : res (list (list (nat * R))) := forl stores store_col (repeat [] ncols).

(** *** SetMatrixLines_forSortedVars_slowly (236-314), SetMatrixColumns_forSortedVars_slowly (538-616): on the grid itself, unknowns sorted
    by box, variable, point, col++ *)
Definition probe_sorted (drop : R) (Fx : mem -> mem) (boxes : boxlist) (vlFx vlx : list nat) (m : mem) : mem * list store :=
  let xs := locs_vars boxes vlx in
  probe drop Fx (locs_vars boxes vlFx) (combine (seq 0 (List.length xs)) xs) (vl_zero boxes vlx m).

(** *** SetMatrixColumns_ForOneVarInOneBox_slowly (646-721): one variable of the list in one box; the points are shared
    among threads as above *)
Definition probe_onevar (drop : R) (Fx : mem -> mem) (boxes : boxlist) (vlFx vlx : list nat) (vlind b nnodes : nat) (share : list (list nat)) (m : mem)
  : mem * list store :=
  let grid := vl_zero boxes vlx m in
  (grid, flat_map (fun points => snd (probe drop Fx (map (fun i => (b, nth vlind vlFx 0%nat, i)) (seq 0 nnodes))
            (map (fun i => (i, (b, nth vlind vlx 0%nat, i))) points) grid)) share).

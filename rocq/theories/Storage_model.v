(** Model of variable storage, src/main/MemoryMan/storage.c, with an explicit heap.
    Allocation never fails (errorexit on out of memory is not modelled). *)
From Verif Require Import Base.

Section S.
Variable V : Type.
Variable zero : V.

(** box->nnodes and the data pointers box->v[] (None = NULL, Some p = heap block p) *)
Record sbox := { nn : nat; v : list (option nat) }.
Record sgrid := { nvars : nat; boxes : list sbox }.
(** heap blocks (None = freed), the global counter nenabled (storage.c:364), the grids of the
    program (None = freed) *)
Record world := { heap : list (option (list V)); nen : Z; grids : list (option sgrid) }.
Definition w0 : world := {| heap := []; nen := 0; grids := [] |}.

Definition get_grid (w : world) (g : nat) : res sgrid :=
  match nth_error (grids w) g with Some (Some gr) => Ok gr | _ => UB end.
Definition get_box (w : world) (g b : nat) : res sbox :=
  do gr <- get_grid w g;
  match nth_error (boxes gr) b with Some bx => Ok bx | None => UB end.
Definition get_v (w : world) (g b i : nat) : res (option nat) :=
  do bx <- get_box w g b;
  match nth_error (v bx) i with Some p => Ok p | None => UB end.
Definition set_v (w : world) (g b i : nat) (p : option nat) : world :=
  match nth_error (grids w) g with
  | Some (Some gr) =>
      match nth_error (boxes gr) b with
      | Some bx =>
          {| heap := heap w; nen := nen w;
             grids := upd (grids w) g (Some {| nvars := nvars gr;
               boxes := upd (boxes gr) b {| nn := nn bx; v := upd (v bx) i p |} |}) |}
      | None => w
      end
  | _ => w
  end.
(** enablevarcomp_inbox, storage.c:368-386 *)
Definition enablevarcomp_inbox (g b i : nat) (w : world) : res world :=
  do bx <- get_box w g b;
  do p <- get_v w g b i;
  match p with
  | Some _ => Ok w
  | None =>
      let q := List.length (heap w) in                       (* calloc *)
      Ok (set_v {| heap := heap w ++ [Some (repeat zero (nn bx))]; nen := nen w + 1; grids := grids w |} g b i (Some q))
  end.
(** disablevarcomp_inbox, storage.c:390-404 *)
Definition disablevarcomp_inbox (g b i : nat) (w : world) : res world :=
  do p <- get_v w g b i;
  match p with
  | None => Ok w
  | Some q =>
      match nth_error (heap w) q with                        (* free *)
      | Some (Some _) =>
          Ok (set_v {| heap := upd (heap w) q None; nen := nen w - 1; grids := grids w |} g b i None)
      | _ => UB
      end
  end.
(** for (x in l) f(x) *)
Fixpoint each {X} (l : list X) (f : X -> world -> res world) (w : world) : res world :=
  match l with [] => Ok w | x :: r => do w' <- f x w; each r f w' end.
(** enablevarcomp, storage.c:430-441 *)
Definition enablevarcomp (g i : nat) (w : world) : res world :=
  do gr <- get_grid w g; each (seq 0 (List.length (boxes gr))) (fun b => enablevarcomp_inbox g b i) w.
(** disablevarcomp, storage.c:446-457 *)
Definition disablevarcomp (g i : nat) (w : world) : res world :=
  do gr <- get_grid w g; each (seq 0 (List.length (boxes gr))) (fun b => disablevarcomp_inbox g b i) w.
(** enablevar_inbox, disablevar_inbox, storage.c:408-424; n is VarNComponents(i) *)
Definition enablevar_inbox (g b i n : nat) (w : world) : res world :=
  each (seq 0 n) (fun j => enablevarcomp_inbox g b (i + j)) w.
Definition disablevar_inbox (g b i n : nat) (w : world) : res world :=
  each (seq 0 n) (fun j => disablevarcomp_inbox g b (i + j)) w.
(** enablevar, disablevar, storage.c:463-481 *)
Definition enablevar (g i n : nat) (w : world) : res world :=
  each (seq 0 n) (fun j => enablevarcomp g (i + j)) w.
Definition disablevar (g i n : nat) (w : world) : res world :=
  each (seq 0 n) (fun j => disablevarcomp g (i + j)) w.
(** enablevarlist, disablevarlist, storage.c:487-507 *)
Definition enablevarlist (g : nat) (l : list nat) (w : world) : res world := each l (enablevarcomp g) w.
Definition disablevarlist (g : nat) (l : list nat) (w : world) : res world := each l (disablevarcomp g) w.
(** enablesamevars, storage.c:513-537 *)
Definition enablesamevars (g g2 : nat) (w : world) : res world :=
  do gr <- get_grid w g; do gr2 <- get_grid w g2;
  if negb (nvars gr =? nvars gr2) then Err else
  if negb (List.length (boxes gr) =? List.length (boxes gr2)) then Err else
  each (seq 0 (nvars gr2)) (fun i => each (seq 0 (List.length (boxes gr2))) (fun b w =>
    do p <- get_v w g b i;
    match p with Some _ => enablevarcomp_inbox g2 b i w | None => Ok w end)) w.
(** realloc_boxvariables and realloc_gridvariables, storage.c:542-571 *)
Definition realloc_gridvariables (g n : nat) (w : world) : res world :=
  do gr <- get_grid w g;
  let re bx := {| nn := nn bx; v := firstn n (v bx) ++ repeat None (n - nvars gr) |} in
  Ok {| heap := heap w; nen := nen w;
        grids := upd (grids w) g (Some {| nvars := n; boxes := map re (boxes gr) |}) |}.
(** alloc_grid and alloc_box (with box->v set to NULLs), storage.c:17-71; only the part about
    variables *)
Definition new_grid (n : nat) (sizes : list nat) (w : world) : res world :=
  Ok {| heap := heap w; nen := nen w;
        grids := grids w ++ [Some {| nvars := n; boxes := map (fun s => {| nn := s; v := repeat None n |}) sizes |}] |}.
(** free_grid, storage.c:305-358 *)
Definition free_grid (g : nat) (w : world) : res world :=
  do gr <- get_grid w g;
  do w' <- each (seq 0 (List.length (boxes gr))) (fun b =>
             each (seq 0 (nvars gr)) (fun i => disablevarcomp_inbox g b i)) w;
  Ok {| heap := heap w'; nen := nen w'; grids := upd (grids w') g None |}.
(** box->v[i][k] = x *)
Definition write (g b i k : nat) (x : V) (w : world) : res world :=
  do p <- get_v w g b i;
  match p with
  | None => UB
  | Some q =>
      match nth_error (heap w) q with
      | Some (Some d) => if k <? List.length d then Ok {| heap := upd (heap w) q (Some (upd d k x)); nen := nen w; grids := grids w |} else UB
      | _ => UB
      end
  end.
(** the values a program sees: the whole block, or NULL *)
Definition look (g b i : nat) (w : world) : res (option (list V)) :=
  do p <- get_v w g b i;
  match p with
  | None => Ok None
  | Some q => match nth_error (heap w) q with Some (Some d) => Ok (Some d) | _ => UB end
  end.

Inductive sop :=
| NewGrid (n : nat) (sizes : list nat) | FreeGrid (g : nat) | ReallocVars (g n : nat)
| EnBoxComp (g b i : nat) | DisBoxComp (g b i : nat) | EnBoxVar (g b i n : nat) | DisBoxVar (g b i n : nat)
| EnComp (g i : nat) | DisComp (g i : nat) | EnVar (g i n : nat) | DisVar (g i n : nat)
| EnList (g : nat) (l : list nat) | DisList (g : nat) (l : list nat)
| EnSame (g g2 : nat) | Write (g b i k : nat) (x : V).
Definition sstep (o : sop) : world -> res world :=
  match o with
  | NewGrid n s => new_grid n s | FreeGrid g => free_grid g | ReallocVars g n => realloc_gridvariables g n
  | EnBoxComp g b i => enablevarcomp_inbox g b i | DisBoxComp g b i => disablevarcomp_inbox g b i
  | EnBoxVar g b i n => enablevar_inbox g b i n | DisBoxVar g b i n => disablevar_inbox g b i n
  | EnComp g i => enablevarcomp g i | DisComp g i => disablevarcomp g i
  | EnVar g i n => enablevar g i n | DisVar g i n => disablevar g i n
  | EnList g l => enablevarlist g l | DisList g l => disablevarlist g l
  | EnSame g g2 => enablesamevars g g2 | Write g b i k x => write g b i k x
  end.
Fixpoint srun (os : list sop) (w : world) : res world :=
  match os with [] => Ok w | o :: r => do w' <- sstep o w; srun r w' end.
End S.

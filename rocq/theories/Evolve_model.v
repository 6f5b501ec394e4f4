(** Model of evolve_grid, src/main/main/main.c:418-470. *)
From Verif Require Import Rutil.
Local Open Scope R_scope.

(** the places where functions run in one iteration; CHECKPOINT stands for the call checkpoint(grid) *)
Inductive bin := PRE_EVOLVE | EVOLVE | PRE_POST_EVOLVE | POST_EVOLVE | ANALYZE | OUTPUT | POST_OUTPUT | CHECKPOINT.

Section Evolve.
(** everything else that the hooks can change (variables, parameters, files) *)
Variable W : Type.
Record estate := { it : Z; tm : R; dt : R; w : W }.
(** Getd("finaltime") and Geti("iterations") *)
Variable finaltime : W -> R.
Variable iterations : W -> Z.
(** RunFun(bin, grid): what all functions in the bin do, unrestricted: they may change the fields of the grid and the parameters *)
Variable hook : bin -> estate -> estate.

(** a call is recorded with the iteration and time that its functions see *)
Definition event := (bin * Z * R)%type.
Definition run1 (b : bin) (st : estate * list event) : estate * list event :=
  let (s, tr) := st in (hook b s, tr ++ [(b, it s, tm s)]).

(** main.c:428 and 466: int iterationmax = finaltime/dt + 0.5 or Geti("iterations") *)
Definition itmax_of (s : estate) : Z :=
  if Rlt_dec 0 (finaltime (w s)) then Rtrunc (finaltime (w s) / dt s + 0.5) else iterations (w s).
(** body of the while loop, main.c:439-463 *)
Definition advance (s : estate) : estate := {| it := it s + 1; tm := IZR (it s + 1) * dt s; dt := dt s; w := w s |}.
Definition body (st : estate * list event) : estate * list event :=
  let st := run1 POST_EVOLVE (run1 PRE_POST_EVOLVE (run1 EVOLVE (run1 PRE_EVOLVE st))) in
  let st := (advance (fst st), snd st) in
  run1 CHECKPOINT (run1 POST_OUTPUT (run1 OUTPUT (run1 ANALYZE st))).
(** the while loop, main.c:437-467: [loop imax st st'] holds if it ends, in state st' *)
Inductive loop : Z -> estate * list event -> estate * list event -> Prop :=
| loop_end imax st : (imax <= it (fst st))%Z -> loop imax st st
| loop_step imax st st' : (it (fst st) < imax)%Z -> loop (itmax_of (fst (body st))) (body st) st' -> loop imax st st'.
(** evolve_grid, main.c:418-470 *)
Inductive evolve_grid : estate -> estate * list event -> Prop :=
| ev_none s : (itmax_of s <= 0)%Z -> evolve_grid s (s, [])
| ev_loop s st' : (0 < itmax_of s)%Z -> loop (itmax_of s) (s, []) st' -> evolve_grid s st'.
End Evolve.

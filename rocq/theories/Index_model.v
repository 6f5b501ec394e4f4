(** Model of the index macros (src/main/main/sgrid_main.h), the loops over planes
    (src/main/MemoryMan/sgrid_MemoryMan_loops.h) and the active boxes (grid.c).  C int arithmetic is
    modelled in Z without overflow; / is division truncated to zero. *)
From Verif Require Import Base.
Local Open Scope Z_scope.

(** Index and Ind_n1n2, sgrid_main.h:16-17 *)
Definition Index (n1 n2 i j k : Z) : Z := i + n1 * (j + n2 * k).
(** sgrid_main.h:22-24 *)
Definition kOfInd (ijk n1 n2 : Z) : Z := Z.quot ijk (n1 * n2).
Definition jOfInd (ijk n1 n2 k : Z) : Z := Z.quot (ijk - n1 * n2 * k) n1.
Definition iOfInd (ijk n1 n2 j k : Z) : Z := ijk - n1 * n2 * k - n1 * j.

(** A C loop for(x=start; cond(x); x=next(x)) body(x): [cloop cond next body start t] holds if the
    loop terminates and its bodies leave the trace t. *)
Section Loop.
Context {A : Type}.
Variable cond : Z -> bool.
Variable next : Z -> Z.
Variable body : Z -> list A -> Prop.
Inductive cloop : Z -> list A -> Prop :=
| cl_stop x : cond x = false -> cloop x []
| cl_step x t r : cond x = true -> body x t -> cloop (next x) r -> cloop x (t ++ r).
End Loop.
Definition visit {A} (a : A) (t : list A) : Prop := t = [a].
Notation point := (Z * Z * Z)%type.

(** forallijk, sgrid_main.h:25-28 *)
Definition forallijk (n1 n2 n3 : Z) (t : list point) : Prop :=
  cloop (fun k => k <? n3) Z.succ (fun k =>
   cloop (fun j => j <? n2) Z.succ (fun j =>
    cloop (fun i => i <? n1) Z.succ (fun i => visit (i, j, k)) 0) 0) 0 t.
(** forinnerijk, sgrid_main.h:30-33 *)
Definition forinnerijk (n1 n2 n3 : Z) (t : list point) : Prop :=
  cloop (fun k => k <? n3 - 1) Z.succ (fun k =>
   cloop (fun j => j <? n2 - 1) Z.succ (fun j =>
    cloop (fun i => i <? n1 - 1) Z.succ (fun i => visit (i, j, k)) 1) 1) 1 t.
(** forplane1/2/3, sgrid_MemoryMan_loops.h:31-41 *)
Definition forplane1 (n1 n2 n3 p : Z) (t : list point) : Prop :=
  cloop (fun k => k <? n3) Z.succ (fun k => cloop (fun j => j <? n2) Z.succ (fun j => visit (p, j, k)) 0) 0 t.
Definition forplane2 (n1 n2 n3 p : Z) (t : list point) : Prop :=
  cloop (fun k => k <? n3) Z.succ (fun k => cloop (fun i => i <? n1) Z.succ (fun i => visit (i, p, k)) 0) 0 t.
Definition forplane3 (n1 n2 n3 p : Z) (t : list point) : Prop :=
  cloop (fun j => j <? n2) Z.succ (fun j => cloop (fun i => i <? n1) Z.succ (fun i => visit (i, j, p)) 0) 0 t.
(** forplaneN, sgrid_MemoryMan_loops.h:44-47; [b2z] is the value of a C comparison *)
Definition b2z (b : bool) : Z := if b then 1 else 0.
Definition forplaneN (N n1 n2 n3 p : Z) (t : list point) : Prop :=
  cloop (fun k => (k <? n3) && ((k =? p) || negb (N =? 3))) Z.succ (fun k =>
   cloop (fun j => (j <? n2) && ((j =? p) || negb (N =? 2))) Z.succ (fun j =>
    cloop (fun i => (i <? n1) && ((i =? p) || negb (N =? 1))) Z.succ (fun i => visit (i, j, k))
    (p * b2z (N =? 1))) (p * b2z (N =? 2))) (p * b2z (N =? 3)) t.
(** forinnerplaneN, sgrid_MemoryMan_loops.h:50-53 *)
Definition forinnerplaneN (N n1 n2 n3 p : Z) (t : list point) : Prop :=
  cloop (fun k => (k <? n3 - b2z (negb (N =? 3))) && ((k =? p) || negb (N =? 3))) Z.succ (fun k =>
   cloop (fun j => (j <? n2 - b2z (negb (N =? 2))) && ((j =? p) || negb (N =? 2))) Z.succ (fun j =>
    cloop (fun i => (i <? n1 - b2z (negb (N =? 1))) && ((i =? p) || negb (N =? 1))) Z.succ (fun i => visit (i, j, k))
    (1 + (p - 1) * b2z (N =? 1))) (1 + (p - 1) * b2z (N =? 2))) (1 + (p - 1) * b2z (N =? 3)) t.
(** forplane1/2/3_nojump, sgrid_MemoryMan_loops.h:56-66 *)
Definition snake (n k : Z) (body : Z -> list point -> Prop) : list point -> Prop :=
  cloop (fun x => (x <? n) && (x >=? 0)) (fun x => x + 1 - 2 * Z.rem k 2) body ((n - 1) * Z.rem k 2).
Definition forplane1_nojump (n1 n2 n3 p : Z) (t : list point) : Prop :=
  cloop (fun k => k <? n3) Z.succ (fun k => snake n2 k (fun j => visit (p, j, k))) 0 t.
Definition forplane2_nojump (n1 n2 n3 p : Z) (t : list point) : Prop :=
  cloop (fun k => k <? n3) Z.succ (fun k => snake n1 k (fun i => visit (i, p, k))) 0 t.
Definition forplane3_nojump (n1 n2 n3 p : Z) (t : list point) : Prop :=
  cloop (fun j => j <? n2) Z.succ (fun j => snake n1 j (fun i => visit (i, j, p))) 0 t.

(** * Active boxes, src/main/MemoryMan/grid.c *)
(** inactive flags of the boxes and grid->ninactive (alloc_grid, storage.c:17-43: all zero) *)
Record agrid := { inactive : list bool; ninactive : Z }.
Definition alloc_agrid (nboxes : nat) : agrid := {| inactive := repeat false nboxes; ninactive := 0 |}.
(** set_ninactive, grid.c:576-581 *)
Fixpoint count_active (l : list bool) (n : Z) : Z :=
  match l with [] => n | fl :: r => count_active r (if fl then n else n + 1) end.
Definition set_ninactive (g : agrid) : agrid :=
  {| inactive := inactive g; ninactive := Z.of_nat (List.length (inactive g)) - count_active (inactive g) 0 |}.
(** set_box_inactiveflags, grid.c:584-589 *)
Fixpoint set_flags (fs : list bool) (il : list Z) (fl : bool) : res (list bool) :=
  match il with
  | [] => Ok fs
  | b :: r => if (0 <=? b) && (b <? Z.of_nat (List.length fs)) then set_flags (upd fs (Z.to_nat b) fl) r fl else UB
  end.
Definition set_box_inactiveflags (g : agrid) (il : list Z) (fl : bool) : res agrid :=
  do fs <- set_flags (inactive g) il fl; Ok (set_ninactive {| inactive := fs; ninactive := ninactive g |}).
Inductive aop := Deact (il : list Z) | Act (il : list Z) | DeactAll | ActAll.
(** deactivate_boxes .. activate_allboxes, grid.c:591-613 *)
Definition astep (g : agrid) (o : aop) : res agrid :=
  match o with
  | Deact il => set_box_inactiveflags g il true
  | Act il => set_box_inactiveflags g il false
  | DeactAll => Ok (set_ninactive {| inactive := map (fun _ => true) (inactive g); ninactive := ninactive g |})
  | ActAll => Ok (set_ninactive {| inactive := map (fun _ => false) (inactive g); ninactive := ninactive g |})
  end.
Fixpoint arun (g : agrid) (os : list aop) : res agrid :=
  match os with [] => Ok g | o :: r => do g' <- astep g o; arun g' r end.
(** IndexOf_ith_ActiveBox, grid.c:618-634 *)
Fixpoint ith_loop (l : list bool) (b nn i : Z) : Z :=
  match l with
  | [] => -1
  | fl :: r => if fl then ith_loop r (b + 1) nn i
               else if nn =? i then b else ith_loop r (b + 1) (nn + 1) i
  end.
Definition IndexOf_ith_ActiveBox (g : agrid) (i : Z) : Z :=
  if ninactive g =? 0 then
    if (0 <=? i) && (i <? Z.of_nat (List.length (inactive g))) then i else -1
  else ith_loop (inactive g) 0 0 i.

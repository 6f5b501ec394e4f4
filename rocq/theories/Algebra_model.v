(** Model of the arithmetic on variable lists, src/main/main/variables.c:561-844. *)
From Verif Require Import Base.

Section M.
(** doubles and their operations; == is [feqb] *)
Variable F : Type.
Variables (fzero fone fmone fhalf : F).
Variables (fadd fsub fmul : F -> F -> F).
Variable feqb : F -> F -> bool.

(** At one grid point of one box: the value of every variable, None if the variable has no storage
    there. Different variables never share storage (C11). *)
Definition column := nat -> option F.
(** box, grid point ijk *)
Definition amem := nat -> nat -> column.
(** per box: active flag and nnodes *)
Definition agrid := list (bool * nat).
(** a tVarList: index[] (n is its length) and time *)
Record vlo := { idx : list nat; vtime : F }.
(** memory and the variable lists of the program; a tVarList* is an index into [vls] *)
Record aworld := { am : amem; vls : list vlo }.

Definition cset (c : column) (v : nat) (x : F) : column := fun v' => if v' =? v then Some x else c v'.
(** read and write of p[i] where p = box->v[v] *)
Definition rd (c : column) (v : nat) : res F := match c v with Some x => Ok x | None => UB end.
Definition wr (c : column) (v : nat) (x : F) : res column := match c v with Some _ => Ok (cset c v x) | None => UB end.
Definition ix (l : list nat) (n : nat) : res nat := match nth_error l n with Some v => Ok v | None => UB end.
(** for (i = 0; i < nnodes; i++) body at point i of box b *)
Fixpoint iloop (t : column -> res column) (b : nat) (is_ : list nat) (m : amem) : res amem :=
  match is_ with
  | [] => Ok m
  | i :: r => do c <- t (m b i);
      iloop t b r (fun b' i' => if (b' =? b) && (i' =? i) then c else m b' i')
  end.
(** for (n = 0; n < N; n++) *)
Fixpoint nloop (t : nat -> column -> res column) (b nn : nat) (ns : list nat) (m : amem) : res amem :=
  match ns with [] => Ok m | n :: r => do m1 <- iloop (t n) b (seq 0 nn) m; nloop t b nn r m1 end.
(** forallboxes: active boxes only (sgrid_MemoryMan.h, see C15), from box number b on *)
Fixpoint bloop (t : nat -> column -> res column) (N : nat) (g : agrid) (b : nat) (m : amem) : res amem :=
  match g with
  | [] => Ok m
  | (act, nn) :: r =>
      do m1 <- (if act : bool then nloop t b nn (seq 0 N) m else Ok m); bloop t N r (S b) m1
  end.
Definition obj (w : aworld) (p : option nat) : res vlo :=
  match p with Some k => match nth_error (vls w) k with Some o => Ok o | None => UB end | None => UB end.
Definition settime (w : aworld) (p : option nat) (t : F) : aworld :=
  match p with
  | Some k => match nth_error (vls w) k with
              | Some o => {| am := am w; vls := upd (vls w) k {| idx := idx o; vtime := t |} |} | None => w end
  | None => w
  end.
Definition setmem (w : aworld) (m : amem) : aworld := {| am := m; vls := vls w |}.

(** vlsetconstant, variables.c:562-583 *)
Definition vlsetconstant (g : agrid) (u : option nat) (c : F) (w : aworld) : res aworld :=
  do ou <- obj w u;
  do m <- bloop (fun n k => do v <- ix (idx ou) n; wr k v c) (List.length (idx ou)) g 0 (am w);
  Ok (setmem w m).
(** vlcopy, variables.c:589-614; v->time = u->time comes first *)
Definition vlcopy (g : agrid) (v u : option nat) (w : aworld) : res aworld :=
  do ov <- obj w v; do ou <- obj w u;
  let w := settime w v (vtime ou) in
  do m <- bloop (fun n k => do iu <- ix (idx ou) n; do iv <- ix (idx ov) n; do x <- rd k iu; wr k iv x)
                (List.length (idx ov)) g 0 (am w);
  Ok (setmem w m).
(** vlswap, variables.c:637-669 *)
Definition vlswap (g : agrid) (v u : option nat) (w : aworld) : res aworld :=
  do ov <- obj w v; do ou <- obj w u;
  let w := settime (settime w v (vtime ou)) u (vtime ov) in
  do m <- bloop (fun n k => do iu <- ix (idx ou) n; do iv <- ix (idx ov) n;
                   do tmp <- rd k iv; do x <- rd k iu; do k1 <- wr k iv x; wr k1 iu tmp)
                (List.length (idx ov)) g 0 (am w);
  Ok (setmem w m).
(** vlaverage, variables.c:685-712 *)
Definition vlaverage (g : agrid) (r a b : option nat) (w : aworld) : res aworld :=
  do or <- obj w r; do oa <- obj w a; do ob <- obj w b;
  do m <- bloop (fun n k => do ir <- ix (idx or) n; do ia <- ix (idx oa) n; do ib <- ix (idx ob) n;
                   do x <- rd k ia; do y <- rd k ib; wr k ir (fmul fhalf (fadd x y)))
                (List.length (idx or)) g 0 (am w);
  Ok (settime (setmem w m) r (fmul fhalf (fadd (vtime oa) (vtime ob)))).
(** vlsubtract, variables.c:718-743 *)
Definition vlsubtract (g : agrid) (r a b : option nat) (w : aworld) : res aworld :=
  do or <- obj w r; do oa <- obj w a; do ob <- obj w b;
  do m <- bloop (fun n k => do ir <- ix (idx or) n; do ia <- ix (idx oa) n; do ib <- ix (idx ob) n;
                   do x <- rd k ia; do y <- rd k ib; wr k ir (fsub x y))
                (List.length (idx or)) g 0 (am w);
  Ok (settime (setmem w m) r (fsub (vtime oa) (vtime ob))).
(** vladd, variables.c:753-793; a and b are only dereferenced if their coefficient is not 0 *)
Definition vladd (g : agrid) (r : option nat) (ca : F) (a : option nat) (cb : F) (b : option nat) (w : aworld) : res aworld :=
  do or <- obj w r;
  do m <- bloop (fun n k =>
      do ir <- ix (idx or) n;
      if feqb ca fzero then
        if feqb cb fzero then wr k ir fzero
        else do ob <- obj w b; do ib <- ix (idx ob) n; do y <- rd k ib; wr k ir (fmul cb y)
      else
        do oa <- obj w a; do ia <- ix (idx oa) n;
        if feqb cb fzero then do x <- rd k ia; wr k ir (fmul ca x)
        else do ob <- obj w b; do ib <- ix (idx ob) n; do x <- rd k ia; do y <- rd k ib;
             wr k ir (fadd (fmul ca x) (fmul cb y)))
    (List.length (idx or)) g 0 (am w);
  let w1 := setmem w m in
  if feqb ca fzero then
    if feqb cb fzero then Ok (settime w1 r fzero)
    else do ob <- obj w b; Ok (settime w1 r (fmul cb (vtime ob)))
  else do oa <- obj w a;
    if feqb cb fzero then Ok (settime w1 r (fmul ca (vtime oa)))
    else do ob <- obj w b; Ok (settime w1 r (fadd (fmul ca (vtime oa)) (fmul cb (vtime ob)))).
(** vladdto, variables.c:812-844 *)
Definition vladdto (g : agrid) (r : option nat) (ca : F) (a : option nat) (w : aworld) : res aworld :=
  do or <- obj w r;
  if feqb ca fzero then Ok w else
  do oa <- obj w a;
  do m <- bloop (fun n k => do ir <- ix (idx or) n; do ia <- ix (idx oa) n; do z <- rd k ir; do x <- rd k ia;
       wr k ir (if feqb ca fone then fadd z x else if feqb ca fmone then fsub z x else fadd z (fmul ca x)))
    (List.length (idx or)) g 0 (am w);
  Ok (settime (setmem w m) r (fadd (vtime or) (fmul ca (vtime oa)))).
(** varcopy, varswap, varadd, variables.c:624-634, 672-682, 796-808: fresh lists of one variable,
    freed afterwards *)
Definition with1 (i : nat) (w : aworld) : aworld := {| am := am w; vls := vls w ++ [{| idx := [i]; vtime := fzero |}] |}.
Definition drop_to (k : nat) (w : aworld) : aworld := {| am := am w; vls := firstn k (vls w) |}.
Definition varcopy (g : agrid) (iv iu : nat) (w : aworld) : res aworld :=
  let k := List.length (vls w) in
  do w1 <- vlcopy g (Some k) (Some (S k)) (with1 iu (with1 iv w)); Ok (drop_to k w1).
Definition varswap (g : agrid) (iv iu : nat) (w : aworld) : res aworld :=
  let k := List.length (vls w) in
  do w1 <- vlswap g (Some k) (Some (S k)) (with1 iu (with1 iv w)); Ok (drop_to k w1).
Definition varadd (g : agrid) (ir : nat) (ca : F) (ia : nat) (cb : F) (ib : nat) (w : aworld) : res aworld :=
  let k := List.length (vls w) in
  do w1 <- vladd g (Some (S (S k))) ca (Some k) cb (Some (S k)) (with1 ir (with1 ib (with1 ia w))); Ok (drop_to k w1).
End M.

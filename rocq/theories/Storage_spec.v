(** Specification of variable storage (C11): a partial map from (grid, box, variable) to data. *)
From Verif Require Import Base Storage_model.
Section S.
Variable V : Type.
Variable zero : V.
(** [shape]: for every grid its number of variables and the sizes of its boxes (None: freed);
    [val]: the data of a variable in a box, None if it has no storage. *)
Record ast := { shape : list (option (nat * list nat)); val : nat -> nat -> nat -> option (list V) }.
Definition here (s : ast) (g b i : nat) : Prop :=
  exists nv sz, nth_error (shape s) g = Some (Some (nv, sz)) /\ b < List.length sz /\ i < nv.
Definition size (s : ast) (g b : nat) : nat :=
  match nth_error (shape s) g with Some (Some (_, sz)) => nth b sz 0 | _ => 0 end.
(** all selected variables that have no storage get zeros, the others keep their data *)
Definition enable (s : ast) (sel : nat -> nat -> nat -> bool) : ast :=
  {| shape := shape s; val := fun g b i =>
      if sel g b i then match val s g b i with Some d => Some d | None => Some (repeat zero (size s g b)) end
      else val s g b i |}.
Definition disable (s : ast) (sel : nat -> nat -> nat -> bool) : ast :=
  {| shape := shape s; val := fun g b i => if sel g b i then None else val s g b i |}.
(** what is selected by a call *)
Definition nb (s : ast) (g : nat) : nat := match nth_error (shape s) g with Some (Some (_, sz)) => List.length sz | _ => 0 end.
Definition selected (s : ast) (o : sop V) (g b i : nat) : bool :=
  match o with
  | EnBoxComp _ g' b' i' | DisBoxComp _ g' b' i' => (g =? g') && (b =? b') && (i =? i')
  | EnBoxVar _ g' b' i' n | DisBoxVar _ g' b' i' n => (g =? g') && (b =? b') && (i' <=? i) && (i <? i' + n)
  | EnComp _ g' i' | DisComp _ g' i' => (g =? g') && (b <? nb s g') && (i =? i')
  | EnVar _ g' i' n | DisVar _ g' i' n => (g =? g') && (b <? nb s g') && (i' <=? i) && (i <? i' + n)
  | EnList _ g' l | DisList _ g' l => (g =? g') && (b <? nb s g') && existsb (Nat.eqb i) l
  | EnSame _ g1 g2 => (g =? g2) && (b <? nb s g2) && match val s g1 b i with Some _ => true | None => false end
  | FreeGrid _ g' => g =? g'
  | _ => false
  end.
(** arguments the calls accept: existing grids, boxes and variables *)
Definition valid (s : ast) (o : sop V) : Prop :=
  match o with
  | NewGrid _ _ _ => True
  | FreeGrid _ g => exists sh, nth_error (shape s) g = Some (Some sh)
  | ReallocVars _ g n => exists nv sz, nth_error (shape s) g = Some (Some (nv, sz)) /\ nv <= n
  | EnBoxComp _ g b i | DisBoxComp _ g b i => here s g b i
  | EnBoxVar _ g b i n | DisBoxVar _ g b i n => forall j, j < n -> here s g b (i + j)
  | EnComp _ g i | DisComp _ g i => exists nv sz, nth_error (shape s) g = Some (Some (nv, sz)) /\ i < nv
  | EnVar _ g i n | DisVar _ g i n => exists nv sz, nth_error (shape s) g = Some (Some (nv, sz)) /\ i + n <= nv
  | EnList _ g l | DisList _ g l => exists nv sz, nth_error (shape s) g = Some (Some (nv, sz)) /\ forall i, In i l -> i < nv
  | EnSame _ g g2 => exists nv sz sz2, nth_error (shape s) g = Some (Some (nv, sz)) /\
      nth_error (shape s) g2 = Some (Some (nv, sz2)) /\ List.length sz = List.length sz2
  | Write _ g b i k _ => exists d, val s g b i = Some d /\ k < List.length d
  end.
Definition post (s : ast) (o : sop V) : ast :=
  match o with
  | NewGrid _ n sz => {| shape := shape s ++ [Some (n, sz)]; val := val s |}
  | FreeGrid _ g => {| shape := upd (shape s) g None; val := val (disable s (selected s o)) |}
  | ReallocVars _ g n =>
      {| shape := upd (shape s) g (match nth_error (shape s) g with Some (Some (_, sz)) => Some (n, sz) | _ => None end); val := val s |}
  | Write _ g b i k x => {| shape := shape s; val := fun g' b' i' =>
      if (g' =? g) && (b' =? b) && (i' =? i) then option_map (fun d => upd d k x) (val s g' b' i') else val s g' b' i' |}
  | EnBoxComp _ _ _ _ | EnBoxVar _ _ _ _ _ | EnComp _ _ _ | EnVar _ _ _ _ | EnList _ _ _ | EnSame _ _ _ => enable s (selected s o)
  | DisBoxComp _ _ _ _ | DisBoxVar _ _ _ _ _ | DisComp _ _ _ | DisVar _ _ _ _ | DisList _ _ _ => disable s (selected s o)
  end.
Definition s0 : ast := {| shape := []; val := fun _ _ _ => None |}.
Inductive hist : ast -> list (sop V) -> ast -> Prop :=
| h_nil s : hist s [] s
| h_cons s o os s' : valid s o -> hist (post s o) os s' -> hist s (o :: os) s'.
(** heap blocks in use *)
Definition live (w : world V) : nat :=
  List.length (filter (fun x => match x with Some _ => true | None => false end) (heap V w)).
End S.

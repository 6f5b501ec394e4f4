(** Specification of the array layouts (C30). *)
From Verif Require Import Base Flatten_model.
Section S.
Variable F : Type.
(** value of variable v at point i of box b *)
Definition getv (m : fmem F) (b v i : nat) : option F := match m b v with Some l => nth_error l i | None => None end.
(** every listed variable has storage in all active boxes *)
Definition stored (g : fgrid) (vl : list nat) (m : fmem F) : Prop :=
  forall b n v, nth_error g b = Some (true, n) -> In v vl -> exists l, m b v = Some l /\ List.length l = n.
End S.
(** (box, point, position in the list) triples that have a place in the array *)
Definition slot (g : fgrid) (n b i j : nat) : Prop := (exists nn, nth_error g b = Some (true, nn) /\ i < nn) /\ j < n.
(** number of points in active boxes before box b *)
Fixpoint pts_before (g : fgrid) (b : nat) : nat :=
  match b, g with S b, (a, nn) :: r => (if a : bool then nn else 0) + pts_before r b | _, _ => 0 end.
Definition total (g : fgrid) : nat := pts_before g (List.length g).
(** the three layouts: n variables, position of variable j at point i of box b *)
Definition by_point (g : fgrid) (n b i j : nat) : nat := n * pts_before g b + n * i + j.
Definition by_var (g : fgrid) (n b i j : nat) : nat := n * pts_before g b + nnodes g b * j + i.
Definition by_var_outer (g : fgrid) (n b i j : nat) : nat := total g * j + pts_before g b + i.
(** positions fill 0..n*total-1 without gaps or collisions *)
Definition bijective_layout (g : fgrid) (n : nat) (pos : nat -> nat -> nat -> nat) : Prop :=
  (forall b i j, slot g n b i j -> pos b i j < n * total g) /\
  (forall b i j b' i' j', slot g n b i j -> slot g n b' i' j' -> pos b i j = pos b' i' j' -> b = b' /\ i = i' /\ j = j') /\
  (forall k, k < n * total g -> exists b i j, slot g n b i j /\ pos b i j = k).
(** what a pair of copy functions must do for a layout *)
Definition copies_into {F} (g : fgrid) (vl : list nat) (pos : nat -> nat -> nat -> nat)
    (into : fmem F -> list F -> res (list F)) : Prop :=
  forall m x, stored F g vl m -> List.length vl * total g <= List.length x ->
  exists x', into m x = Ok x' /\ List.length x' = List.length x /\
    (forall b i j v, slot g (List.length vl) b i j -> nth_error vl j = Some v -> nth_error x' (pos b i j) = getv F m b v i) /\
    (forall k, List.length vl * total g <= k -> nth_error x' k = nth_error x k).
Definition copies_back {F} (g : fgrid) (vl : list nat) (pos : nat -> nat -> nat -> nat)
    (back : list F -> fmem F -> res (fmem F)) : Prop :=
  forall m x, stored F g vl m -> NoDup vl -> List.length vl * total g <= List.length x ->
  exists m', back x m = Ok m' /\ stored F g vl m' /\
    (forall b i j v, slot g (List.length vl) b i j -> nth_error vl j = Some v -> getv F m' b v i = nth_error x (pos b i j)) /\
    (forall b v i, ~ (exists j, slot g (List.length vl) b i j /\ nth_error vl j = Some v) -> getv F m' b v i = getv F m b v i).
(** copying into an array and back restores the memory (even if a variable is listed twice) *)
Definition round_trip {F} (g : fgrid) (vl : list nat)
    (into : fmem F -> list F -> res (list F)) (back : list F -> fmem F -> res (fmem F)) : Prop :=
  forall m x, stored F g vl m -> List.length vl * total g <= List.length x ->
  exists x' m', into m x = Ok x' /\ back x' m = Ok m' /\ forall b v, m' b v = m b v.
(** copying an array into variables and back to another array restores it *)
Definition array_round_trip {F} (g : fgrid) (vl : list nat)
    (into : fmem F -> list F -> res (list F)) (back : list F -> fmem F -> res (fmem F)) : Prop :=
  forall m x y, stored F g vl m -> NoDup vl -> List.length vl * total g = List.length x -> List.length y = List.length x ->
  exists m', back x m = Ok m' /\ into m' y = Ok x.

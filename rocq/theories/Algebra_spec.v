(** Specification of arithmetic on variable lists (C10). *)
From Verif Require Import Base Algebra_model.
Section S.
Variable F : Type.
(** grid points on which the functions act *)
Definition active_pt (g : agrid) (b i : nat) : Prop := exists nn, nth_error g b = Some (true, nn) /\ i < nn.
(** the variables [r] get the values f b i n; nothing else changes *)
Definition sets (g : agrid) (r : list nat) (m m' : amem F) (f : nat -> nat -> nat -> F) : Prop :=
  (forall b i, active_pt g b i -> forall n v, nth_error r n = Some v -> m' b i v = Some (f b i n)) /\
  (forall b i v, ~ (active_pt g b i /\ In v r) -> m' b i v = m b i v).
(** every variable in l has storage on active points *)
Definition stored (g : agrid) (l : list nat) (m : amem F) : Prop :=
  forall b i, active_pt g b i -> forall v, In v l -> m b i v <> None.
(** input a may share variables with the result r, if they are not at a later position in a *)
Definition alias_ok (r a : list nat) : Prop := forall n k v, nth_error r n = Some v -> nth_error a k = Some v -> k <= n.
(** value of the n-th variable of a list *)
Definition val_of (dflt : F) (m : amem F) (a : list nat) (b i n : nat) : F :=
  match nth_error a n with Some v => match m b i v with Some x => x | None => dflt end | None => dflt end.
(** input list [p] can be read at all positions up to N *)
Definition input (g : agrid) (w : aworld F) (r : list nat) (p : option nat) (o : vlo F) : Prop :=
  obj F w p = Ok o /\ List.length r <= List.length (idx F o) /\ stored g (idx F o) (am F w) /\ alias_ok r (idx F o).
Definition output (g : agrid) (w : aworld F) (p : option nat) (o : vlo F) : Prop :=
  obj F w p = Ok o /\ NoDup (idx F o) /\ stored g (idx F o) (am F w).
(** the lists afterwards: only the time of r changed *)
Definition times (w w' : aworld F) (p : option nat) (t : F) : Prop :=
  exists k o, p = Some k /\ nth_error (vls F w) k = Some o /\ nth_error (vls F w') k = Some {| idx := idx F o; vtime := t |} /\
  List.length (vls F w') = List.length (vls F w) /\
  forall j, j <> k -> nth_error (vls F w') j = nth_error (vls F w) j.
End S.

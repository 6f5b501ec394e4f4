(** Specification of lists (C13): plain finite sequences. *)
From Coq Require Import List ZArith.
Import ListNotations.
Section S.
Variable T : Type.
Variable dec : forall a b : T, {a = b} + {a <> b}.
(** remove the first occurrence *)
Fixpoint rem1 (x : T) (l : list T) : list T :=
  match l with [] => [] | y :: r => if dec y x then r else y :: rem1 x r end.
Definition add_new (l : list T) (x : T) : list T := if in_dec dec x l then l else l ++ [x].
(** [i] is the first position holding an element with property P, or -1 if there is none
    (positions below i0 are ignored) *)
Definition first_at (P : T -> Prop) (i0 : nat) (l : list T) (i : Z) : Prop :=
  (i = (-1)%Z /\ forall j x, i0 <= j -> nth_error l j = Some x -> ~ P x) \/
  (exists k x, i = Z.of_nat k /\ i0 <= k /\ nth_error l k = Some x /\ P x /\
     forall j y, i0 <= j < k -> nth_error l j = Some y -> ~ P y).
End S.

(** Common definitions used by all model files. *)
From Coq Require Export Ascii String.
From Coq Require Export Arith ZArith Lia Bool List.
Export ListNotations.
#[global] Open Scope list_scope.

(** Outcome of a C function: a value, a controlled abort of the program
    (the macro errorexit, src/main/main/sgrid_main.h), or undefined behaviour
    (out-of-bounds access, use of NULL, ...). *)
Inductive res (A : Type) : Type :=
| Ok (a : A)
| Err
| UB.
Arguments Ok {A} a.
Arguments Err {A}.
Arguments UB {A}.

Definition rbind {A B} (m : res A) (f : A -> res B) : res B :=
  match m with Ok a => f a | Err => Err | UB => UB end.
Definition rmap {A B} (f : A -> B) (m : res A) : res B :=
  match m with Ok a => Ok (f a) | Err => Err | UB => UB end.
Notation "'do' x <- m ; k" := (rbind m (fun x => k))
  (at level 200, x pattern, right associativity).

(** C strings: lists of characters without the terminating NUL. *)
Notation str := (list ascii).
Definition S_ (s : string) : str := list_ascii_of_string s.
Definition str_eqb (a b : str) : bool :=
  if list_eq_dec ascii_dec a b then true else false.
Lemma str_eqb_spec a b : reflect (a = b) (str_eqb a b).
Proof. unfold str_eqb; destruct (list_eq_dec ascii_dec a b); constructor; auto. Qed.
Lemma str_eqb_eq a b : str_eqb a b = true <-> a = b.
Proof. destruct (str_eqb_spec a b); split; intros; auto; discriminate. Qed.
Lemma str_eqb_refl a : str_eqb a a = true.
Proof. now apply str_eqb_eq. Qed.
Lemma str_eqb_neq a b : a <> b -> str_eqb a b = false.
Proof. destruct (str_eqb_spec a b); intros; auto; contradiction. Qed.

Definition ceq (a b : ascii) : bool := Ascii.eqb a b.
Lemma ceq_spec a b : reflect (a = b) (ceq a b).
Proof. apply Ascii.eqb_spec. Qed.

Definition NUL : ascii := Ascii.zero.
Definition cSP : ascii := " "%char.
Definition cNL : ascii := "010"%char.
Definition cEQ : ascii := "="%char.
Definition cHASH : ascii := "#"%char.
Definition cQUOTE : ascii := """"%char.

(** In-place array assignment a[i]=x; out of range leaves the list unchanged,
    the models check the range themselves. *)
Fixpoint upd {A} (l : list A) (i : nat) (x : A) : list A :=
  match l, i with
  | [], _ => []
  | _ :: r, O => x :: r
  | y :: r, S j => y :: upd r j x
  end.

Lemma upd_length {A} (l : list A) i x : List.length (upd l i x) = List.length l.
Proof. revert i; induction l as [|y r IH]; intros [|i]; simpl; auto. Qed.
Lemma nth_error_upd_eq {A} (l : list A) i x :
  (i < List.length l)%nat -> nth_error (upd l i x) i = Some x.
Proof. revert i; induction l as [|y r IH]; intros [|i] H; simpl in *; try lia; auto. apply IH; lia. Qed.
Lemma nth_error_upd_ne {A} (l : list A) i j x :
  i <> j -> nth_error (upd l i x) j = nth_error l j.
Proof. revert i j; induction l as [|y r IH]; intros [|i] [|j] H; simpl in *; try lia; auto. Qed.

(** Words joined by single blanks. *)
Fixpoint join_sp (ws : list str) : str :=
  match ws with
  | [] => []
  | [w] => w
  | w :: r => w ++ cSP :: join_sp r
  end.

Lemma NoDup_app_l {A} (a b : list A) : NoDup (a ++ b) -> NoDup a.
Proof.
  induction a as [|x a IH]; simpl; intros H; constructor; inversion H; subst; auto.
  intros I. apply H2. apply in_or_app. now left.
Qed.

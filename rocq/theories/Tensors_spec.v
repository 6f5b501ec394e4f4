(** Specification of tensor index strings (C08), independent of the model. *)
From Verif Require Import Base.

(** Values an index letter can take: i,j,k,l are spatial; a,b,c run over space-time;
    q,r,s,t over two coordinates. *)
Definition letter_range (c : ascii) : option str :=
  if existsb (ceq c) (S_ "ijkl") then Some (S_ "xyz")
  else if existsb (ceq c) (S_ "abc") then Some (S_ "txyz")
  else if existsb (ceq c) (S_ "qrst") then Some (S_ "12")
  else None.

(** A tensor: its index letters and groups of adjacent positions in which it is symmetric
    ([true]) or antisymmetric ([false]): position p with p+1. *)
Record tensor := { letters : str; symm : list (nat * bool) }.

(** All value strings: one character out of its range for every letter. *)
Fixpoint all_values (ls : str) : list str :=
  match ls with
  | [] => [[]]
  | l :: r =>
      match letter_range l with
      | Some vs => flat_map (fun v => map (cons v) (all_values r)) vs
      | None => []
      end
  end.

(** Exchange positions p and p+1. *)
Fixpoint swap_at (p : nat) (s : str) : str :=
  match p, s with
  | O, a :: b :: r => b :: a :: r
  | S p', a :: r => a :: swap_at p' r
  | _, _ => s
  end.

(** Equal up to exchanges allowed by the symmetries. *)
Inductive same (g : list (nat * bool)) : str -> str -> Prop :=
| same_refl s : same g s s
| same_swap p b s s' : In (p, b) g -> same g (swap_at p s) s' -> same g s s'.

(** Vanishes identically: antisymmetric in two equal indices. *)
Definition vanishes (g : list (nat * bool)) (s : str) : Prop :=
  exists p, In (p, false) g /\ swap_at p s = s.

(** The component list is right: every listed component is an independent component, every
    non-vanishing index choice equals exactly one listed component up to symmetry. *)
Definition components_ok (T : tensor) (comps : list str) : Prop :=
  NoDup comps /\
  (forall c, In c comps -> In c (all_values (letters T)) /\ ~ vanishes (symm T) c) /\
  (forall s, In s (all_values (letters T)) -> ~ vanishes (symm T) s ->
     exists! c, In c comps /\ same (symm T) s c).

(** Number of indices pointing in direction d (0=x, 1=y, 2=z).  The first coordinate of a 2d
    index is counted as direction 0, the second as 1 (the source marks this as provisional). *)
Definition dir_names (d : nat) : str := nth d [S_ "x1"; S_ "y2"; S_ "z"] [].
Definition count_dir (d : nat) (comp : str) : nat :=
  List.length (filter (fun c => existsb (ceq c) (dir_names d)) comp).
Definition parity (n : nat) : Z := if Nat.even n then 1%Z else (-1)%Z.

(** The strings of the documentation (list printed on errors) and what they mean. *)
Definition T0 l := {| letters := S_ l; symm := [] |}.
Definition T1 l p := {| letters := S_ l; symm := [(p, true)] |}.
Definition T2 l p := {| letters := S_ l; symm := [(p, false)] |}.
Definition documented : list (str * tensor) := [
  (S_ "", T0 ""); (S_ "i", T0 "i"); (S_ "ij", T0 "ij");
  (S_ "(ij)", T1 "ij" 0); (S_ "ij+ji", T1 "ij" 0);
  (S_ "[ij]", T2 "ij" 0); (S_ "ij-ji", T2 "ij" 0);
  (S_ "ijk", T0 "ijk");
  (S_ "i(jk)", T1 "ijk" 1); (S_ "ijk+ikj", T1 "ijk" 1);
  (S_ "(ij)k", T1 "ijk" 0); (S_ "ijk+jik", T1 "ijk" 0);
  (S_ "[ij]k", T2 "ijk" 0); (S_ "ijk-jik", T2 "ijk" 0);
  (S_ "ijkl", T0 "ijkl");
  (S_ "(ij)(kl)", {| letters := S_ "ijkl"; symm := [(0, true); (2, true)] |});
  (S_ "a", T0 "a"); (S_ "ab", T0 "ab"); (S_ "ai", T0 "ai");
  (S_ "(ab)", T1 "ab" 0); (S_ "ab+ba", T1 "ab" 0);
  (S_ "a(bc)", T1 "abc" 1); (S_ "abc+acb", T1 "abc" 1);
  (S_ "a(ij)", T1 "aij" 1); (S_ "aij+aji", T1 "aij" 1);
  (S_ "(ab)c", T1 "abc" 0); (S_ "abc+bac", T1 "abc" 0);
  (S_ "(ab)i", T1 "abi" 0); (S_ "abi+bai", T1 "abi" 0);
  (S_ "(ab)(ij)", {| letters := S_ "abij"; symm := [(0, true); (2, true)] |});
  (S_ "q", T0 "q"); (S_ "qr", T0 "qr");
  (S_ "(qr)", T1 "qr" 0); (S_ "qr+rq", T1 "qr" 0);
  (S_ "(qr)s", T1 "qrs" 0); (S_ "qrs+rqs", T1 "qrs" 0);
  (S_ "(qr)(st)", {| letters := S_ "qrst"; symm := [(0, true); (2, true)] |});
  (S_ "qrst+qrts+rqst+rqts", {| letters := S_ "qrst"; symm := [(0, true); (2, true)] |});
  (S_ "iq", T0 "iq"); (S_ "iqr", T0 "iqr");
  (S_ "i(qr)", T1 "iqr" 1); (S_ "iqr+irq", T1 "iqr" 1)].

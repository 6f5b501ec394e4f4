(** What the argument file and the command line mean. *)
From Verif Require Import Base.
(** lines of a text: the pieces between newlines; a last piece without newline counts *)
Fixpoint lines (f : str) : list str :=
  match f with
  | [] => [[]]
  | c :: r => match lines r with
              | l :: ls => if ceq c cNL then [] :: l :: ls else (c :: l) :: ls
              | [] => []
              end
  end.
(** lines that are commands: not empty, not starting with # *)
Definition is_command (l : str) : bool := match l with [] => false | c :: _ => negb (ceq c cHASH) end.
Definition commands (f : str) : list str := filter is_command (lines f).
(** blank separated non-empty words *)
Fixpoint pieces (s : str) : list str :=
  match s with
  | [] => [[]]
  | c :: r => match pieces r with
              | w :: ws => if ceq c cSP then [] :: w :: ws else (c :: w) :: ws
              | [] => []
              end
  end.
Definition words (s : str) : list str := filter (fun w => match w with [] => false | _ => true end) (pieces s).
(** the commands with number = rank modulo size, in file order; [i] is the number of the first *)
Fixpoint share (rank size i : nat) (cs : list str) : list str :=
  match cs with
  | [] => []
  | c :: r => if i mod size =? rank then c :: share rank size (S i) r else share rank size (S i) r
  end.
(** a command line option: modify a parameter, or some other option *)
Inductive opt := OModify (par val : str) | OOther (text : str).
Definition show_opt (o : opt) : str :=
  match o with
  | OModify p v => S_ "--modify-par:" ++ p ++ S_ "=" ++ v
  | OOther t => t
  end.
Definition contains (w s : str) : Prop := exists a b, s = a ++ w ++ b.
Definition opt_ok (o : opt) : Prop :=
  match o with
  | OModify p v => ~ In cEQ p /\ ~ contains (S_ "--modify-par:") v /\ ~ contains (S_ " --") v
  | OOther t => (exists r, t = S_ "--" ++ r) /\ ~ contains (S_ "--modify-par:") t
  end.
Definition modifications (os : list opt) : list (str * str) :=
  flat_map (fun o => match o with OModify p v => [(p, v)] | OOther _ => [] end) os.

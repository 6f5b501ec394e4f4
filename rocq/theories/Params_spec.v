(** Specification used to state the parameter properties (C01-C04).
    Nothing here refers to the model of parameters.c. *)
From Verif Require Import Base.

(** White space of the C locale. *)
Definition blank (c : ascii) : Prop :=
  In c [" "; "009"; "010"; "011"; "012"; "013"]%char.
(** Characters that may form names and words: anything but white space, the
    special characters '#', '=' and the quote, and NUL. *)
Definition plain (c : ascii) : Prop :=
  ~ blank c /\ ~ In c ["#"; "="; """"; "000"]%char.
Definition word (w : str) : Prop := w <> [] /\ Forall plain w.

(** What may stand between tokens. *)
Inductive gapitem :=
| GBlank (c : ascii)        (* a white space character *)
| GQuote                    (* a quote counts as white space *)
| GComment (text : str).    (* # text newline *)
Definition gap := list gapitem.
Definition gapitem_ok (g : gapitem) : Prop :=
  match g with
  | GBlank c => blank c
  | GQuote => True
  | GComment t => Forall (fun c => c <> "010"%char /\ c <> "000"%char) t
  end.
Definition gap_ok (g : gap) : Prop := Forall gapitem_ok g.
Definition show_gapitem (g : gapitem) : str :=
  match g with
  | GBlank c => [c]
  | GQuote => [""""%char]
  | GComment t => "#"%char :: t ++ ["010"%char]
  end.
Definition show_gap (g : gap) : str := concat (map show_gapitem g).

(** One assignment  name = word word ...  with its layout. *)
Record asg := {
  a_lead : gap;                    (* in front of the name *)
  a_name : str;
  a_eq : gap;                      (* between name and '=' *)
  a_words : list (gap * str)       (* each word with the gap in front of it *)
}.
Definition show_word (gw : gap * str) : str := show_gap (fst gw) ++ snd gw.
Definition show_asg (a : asg) : str :=
  show_gap (a_lead a) ++ a_name a ++ show_gap (a_eq a) ++
  "="%char :: concat (map show_word (a_words a)).

(** Words must be separated from each other; the first one may touch the '='. *)
Definition words_ok (l : list (gap * str)) : Prop :=
  Forall (fun gw => gap_ok (fst gw) /\ word (snd gw)) l /\
  Forall (fun gw => fst gw <> []) (tl l).
Definition asg_ok (a : asg) : Prop :=
  gap_ok (a_lead a) /\ word (a_name a) /\ gap_ok (a_eq a) /\ words_ok (a_words a).
(** A file: assignments, a last gap and possibly a comment without newline. *)
Record pfile := { f_asgs : list asg; f_tail : gap; f_open : option str }.
Definition show_file (f : pfile) : str :=
  concat (map show_asg (f_asgs f)) ++ show_gap (f_tail f) ++
  match f_open f with Some t => "#"%char :: t | None => [] end.
Definition file_ok (f : pfile) : Prop :=
  Forall asg_ok (f_asgs f) /\
  Forall (fun a => a_lead a <> []) (tl (f_asgs f)) /\
  gap_ok (f_tail f) /\
  match f_open f with
  | Some t => Forall (fun c => c <> "010"%char /\ c <> "000"%char) t
  | None => True end.

(** What the file says: names with the words joined by single blanks. *)
Definition meaning (f : pfile) : list (str * str) :=
  map (fun a => (a_name a, join_sp (map snd (a_words a)))) (f_asgs f).

(** The space separated words of a value. *)
Fixpoint words_of (v : str) : list str :=
  match v with
  | [] => [[]]
  | c :: r =>
      match words_of r with
      | w :: ws => if ceq c cSP then [] :: w :: ws else (c :: w) :: ws
      | [] => []
      end
  end.

(** * Abstract parameter data base (C02): a partial map and a counter. *)
Definition pmap := str -> option str.
Definition pempty : pmap := fun _ => None.
Definition pset (M : pmap) (n v : str) : pmap := fun m => if str_eqb m n then Some v else M m.
Definition pi_words : list str :=
  [S_ "pi"; S_ "-pi"; S_ "pi/2"; S_ "-pi/2"; S_ "2*pi"; S_ "-2*pi"].
(** Values pi, 2*pi, ... are stored as numbers printed by [fmt]. *)
Definition stored (fmt : str -> str) (v : str) : str :=
  if in_dec (list_eq_dec ascii_dec) v pi_words then fmt v else v.
(** Room for fewer than 10000 parameters. *)
Definition pcreate (fmt : str -> str) (s : pmap * nat) (n v : str) : res (pmap * nat) :=
  let (M, c) := s in
  match M n with
  | Some _ => Ok (M, c)
  | None => if (10000 <=? Z.of_nat (S c))%Z then Err else Ok (pset M n (stored fmt v), S c)
  end.
Definition passign (fmt : str -> str) (s : pmap * nat) (n v : str) : res (pmap * nat) :=
  let (M, c) := s in
  match M n with
  | Some _ => Ok (pset M n (stored fmt v), c)
  | None => pcreate fmt s n v
  end.
Fixpoint passign_all (fmt : str -> str) (s : pmap * nat) (l : list (str * str)) : res (pmap * nat) :=
  match l with
  | [] => Ok s
  | (n, v) :: r => do s' <- passign fmt s n v; passign_all fmt s' r
  end.

(** Model of src/main/main/parameters.c: parameter file parser, parameter
    data base, Getv, NextEntry. *)
From Verif Require Import Base.

(* ------------------------------------------------------------------ *)
(** * parse_parameter_file, parameters.c:38-149 *)

(** isspace in the C locale (called at parameters.c:89-90).  Bytes >= 128 are
    treated as non-space (glibc, C locale). *)
Definition isspace (c : ascii) : bool :=
  ceq c cSP || ceq c "009"%char || ceq c cNL || ceq c "011"%char
  || ceq c "012"%char || ceq c "013"%char.

(** What strlen makes of a buffer: text up to the first NUL. *)
Fixpoint cstr (l : list ascii) : str :=
  match l with
  | [] => []
  | c :: r => if ceq c NUL then [] else c :: cstr r
  end.

(** parameters.c:57-74: the file is read with one blank added at the beginning
    and one at the end.  The growing of the buffer aborts when the index i
    reaches 1000998 (nbuffer=1001000 > 1000000 at line 62), i.e. for files of
    more than 1000996 bytes. *)
Definition read_buffer (file : list ascii) : res str :=
  if (1000996 <? Z.of_nat (List.length file))%Z then Err
  else Ok (cstr (cSP :: file ++ [cSP])).

(** parameters.c:78-85: white out comments and quotes.  The flag says that the
    inner while loop (lines 81-82) is running. *)
Fixpoint whiteout (incomment : bool) (l : str) : str :=
  match l with
  | [] => []
  | c :: r =>
      if incomment then
        if ceq c cNL then c :: whiteout false r else cSP :: whiteout true r
      else if ceq c cHASH then cSP :: whiteout true r
      else if ceq c cQUOTE then cSP :: whiteout false r
      else c :: whiteout false r
  end.

(** parameters.c:87-92: collapse white space; [prev] is buffer[j-1], the last
    character kept so far. *)
Fixpoint collapse (prev : ascii) (l : str) : str :=
  match l with
  | [] => []
  | c :: r =>
      if negb (isspace c) then c :: collapse c r
      else if negb (isspace prev) then cSP :: collapse cSP r
      else collapse prev r
  end.
Definition collapse_all (b : str) : str :=
  match b with [] => [] | c :: r => c :: collapse c r end.

(** parameters.c:96-105: put a # in front of each name.  The buffer is split at
    j: [jc] is buffer[j] (newest blank, maybe already overwritten by #),
    [seg] is buffer[j+1..i-1], the list argument is buffer[i..].  The loop runs
    while i<nbuffer-2, i.e. while three characters are left; after a match i
    is increased twice. *)
Fixpoint mark (jc : ascii) (seg : str) (l : str) : str :=
  match l with
  | c0 :: ((c1 :: ((c2 :: _) as l2)) as l1) =>
      let hit := ceq c1 cEQ || ceq c2 cEQ in
      if ceq c0 cSP then
        (jc :: seg) ++
        (if hit then mark cHASH [c1] l2 else mark c0 [] l1)
      else if hit then mark cHASH (seg ++ [c0; c1]) l2
      else mark jc (seg ++ [c0]) l1
  | _ => (jc :: seg) ++ l
  end.
(** buffer[0] is a blank, so j=0 after the first test at line 99 (if the
    buffer is too short for the loop to run nothing happens). *)
Definition mark_all (b : str) : str :=
  match b with
  | c0 :: ((c1 :: ((c2 :: _) as l2)) as l1) =>
      if ceq c1 cEQ || ceq c2 cEQ then mark cHASH [c1] l2 else mark c0 [] l1
  | _ => b
  end.

(** parameters.c:108-112: remove blanks around '='; [prev] is buffer[i-1], the
    head of the rest is buffer[i+1] (NUL at the end). *)
Fixpoint squeeze (prev : ascii) (l : str) : str :=
  match l with
  | [] => []
  | c :: r =>
      let next := match r with [] => NUL | d :: _ => d end in
      if negb (ceq c cSP) || (negb (ceq prev cEQ) && negb (ceq next cEQ))
      then c :: squeeze c r
      else squeeze c r
  end.
Definition squeeze_all (b : str) : str :=
  match b with [] => [] | c :: r => c :: squeeze c r end.

(** parameters.c:113-115: cut one trailing blank. *)
Fixpoint chop_space (b : str) : str :=
  match b with
  | [] => []
  | [c] => if ceq c cSP then [] else [c]
  | c :: r => c :: chop_space r
  end.

(** parameters.c:122-127: '#' and '=' become NUL, so the text behind
    buffer[0] is seen as a sequence of C strings. *)
Definition is_sep (c : ascii) : bool := ceq c cHASH || ceq c cEQ.
Fixpoint segments (l : str) : list str :=
  match l with
  | [] => [[]]
  | c :: r =>
      if is_sep c then [] :: segments r
      else match segments r with
           | s :: ss => (c :: s) :: ss
           | [] => [[c]]
           end
  end.

(** parameters.c:129-141: loop over name/value pairs.  [i<nbuffer] fails exactly
    when nothing, or only one empty string, is left.  A name that is the last
    C string of the buffer takes its value from the stale bytes behind the
    terminator: this is the outcome UB. *)
Fixpoint pair_up (ss : list str) : res (list (str * str)) :=
  match ss with
  | [] => Ok []
  | [s] => match s with [] => Ok [] | _ => UB end
  | s :: v :: r => do ps <- pair_up r; Ok ((s, v) :: ps)
  end.

(** The assignments made by parse_parameter_file for a given file content. *)
Definition parse_text (file : list ascii) : res (list (str * str)) :=
  do b0 <- read_buffer file;
  let b := chop_space (squeeze_all (mark_all (collapse_all (whiteout false b0)))) in
  match b with
  | [] => Ok []
  | _ :: r => pair_up (segments r)
  end.

(* ------------------------------------------------------------------ *)
(** * strstr and Getv *)

(** Is [w] a prefix of [s]? *)
Fixpoint prefixb (w s : str) : bool :=
  match w, s with
  | [], _ => true
  | _ :: _, [] => false
  | a :: w', b :: s' => ceq a b && prefixb w' s'
  end.

(** strstr: offset of the first occurrence of [w] in [s]. *)
Fixpoint strstr (s w : str) : option nat :=
  if prefixb w s then Some 0
  else match s with
       | [] => None
       | _ :: r => match strstr r w with Some k => Some (S k) | None => None end
       end.

(** parameters.c:428-434: while loop of GetvFlag.  [p] is parval - p->value;
    result is s - p->value.  [fuel] is the length of the rest + 1; each round moves
    p forward.  Out of fuel (None) is shown not to occur before the text ends. *)
Fixpoint getv_loop (fuel : nat) (v w : str) (p : nat) : option nat :=
  match fuel with
  | O => None
  | S f =>
      match strstr (skipn p v) w with
      | None => None
      | Some k =>
          let s := p + k in
          match nth_error v (s + List.length w) with
          | None => Some s                                (* s[lv]==0 *)
          | Some c => if ceq c cSP then Some s else getv_loop f v w (S s)
          end
      end
  end.

(** parameters.c:419-441 for a parameter with value [v]: endok (line 439) is always
    true because s+strlen(s) is the end of the value. *)
Definition getv (v w : str) : bool :=
  match getv_loop (S (List.length v)) v w 0 with
  | None => false
  | Some s =>
      match s with
      | O => true
      | S s1 => match nth_error v s1 with Some c => ceq c cSP | None => false end
      end
  end.

(* ------------------------------------------------------------------ *)
(** * NextEntry, parameters.c:463-488 *)

(** Static variables copyoflist, i, l. *)
Record ne_state := { ne_copy : list ascii; ne_i : nat; ne_l : nat }.
Definition ne_init := {| ne_copy := []; ne_i := 0; ne_l := 0 |}.

(** Line 484: advance i to the next blank or to l; returns the new i. *)
Fixpoint ne_scan (rest : list ascii) (i : nat) : nat :=
  match rest with
  | [] => i
  | c :: r => if ceq c cSP then i else ne_scan r (S i)
  end.

(** [lst = None] models a NULL argument. *)
Definition next_entry (st : ne_state) (lst : option str) : ne_state * option str :=
  match lst with
  | None => ({| ne_copy := ne_copy st; ne_i := 0; ne_l := 0 |}, None)
  | Some [] => ({| ne_copy := ne_copy st; ne_i := 0; ne_l := 0 |}, None)
  | Some txt =>
      if negb (ne_i st =? 0) && (ne_i st =? ne_l st) then
        ({| ne_copy := ne_copy st; ne_i := 0; ne_l := 0 |}, None)
      else
        let '(copy, i0, l) :=
          if ne_i st =? 0 then (txt, 0, List.length txt)
          else (ne_copy st, S (ne_i st), ne_l st) in
        let i1 := ne_scan (skipn i0 copy) i0 in
        let copy' := upd copy i1 NUL in    (* line 485; no effect at i1 = l *)
        ({| ne_copy := copy'; ne_i := i1; ne_l := l |},
         Some (cstr (skipn i0 copy')))
  end.

(** k calls of NextEntry with the same list. *)
Fixpoint next_entries (k : nat) (st : ne_state) (lst : option str)
  : ne_state * list (option str) :=
  match k with
  | O => (st, [])
  | S k' => let '(st1, e) := next_entry st lst in
            let '(st2, es) := next_entries k' st1 lst in (st2, e :: es)
  end.

(* ------------------------------------------------------------------ *)
(** * Parameter data base *)

Section PDB.
(** sprintf(newvalue,"%.18e",x) for the six translated values, and the cached
    atof / atoi, are left open: they are parameters of the model. *)
Variable D : Type.
Variable atof : str -> D.
Variable atoi : str -> Z.
Variable fmt_pi : str -> str.

(** parameters.c:252-269 translatevalue *)
Definition is_pi_word (v : str) : bool :=
  existsb (str_eqb v) [S_ "pi"; S_ "-pi"; S_ "pi/2"; S_ "-pi/2"; S_ "2*pi"; S_ "-2*pi"].
Definition translatevalue (v : str) : str := if is_pi_word v then fmt_pi v else v.

(** parameters.c:287-310 set_booleanvalue_byIndex *)
Definition bool_words : list str :=
  [S_ "yes"; S_ "Yes"; S_ "YES"; S_ "on"; S_ "On"; S_ "ON"; S_ "true"; S_ "True"; S_ "TRUE"].
Definition boolvalue (v : str) : Z :=
  if existsb (fun w => match strstr v w with Some _ => true | None => false end) bool_words
  then 1%Z else atoi v.

(** tParameter, src/main/main/sgrid_main.h *)
Record param := { p_name : str; p_value : str; p_desc : str; p_num : D; p_bool : Z }.
(** pdb, npdb (= length), pdb_iStart: parameters.c:23-24 *)
Record pdb_state := { db : list param; iStart : Z }.
Definition pdb_init := {| db := []; iStart := 0%Z |}.
(** npdbmax, parameters.c:24 *)
Definition npdbmax : Z := 10000%Z.

(** parameters.c:222-228: one of the two search loops; [i] is the index of the head. *)
Fixpoint scan (l : list param) (i : nat) (name : str) : option nat :=
  match l with
  | [] => None
  | p :: r => if str_eqb (p_name p) name then Some i else scan r (S i) name
  end.

(** parameters.c:214-234 findparameterindex(name,0) *)
Definition findparameterindex (st : pdb_state) (name : str) : option nat :=
  let n := List.length (db st) in
  let iS := if ((iStart st <? 0) || (Z.of_nat n <=? iStart st))%Z then 0
            else Z.to_nat (iStart st) in
  match scan (skipn iS (db st)) iS name with
  | Some i => Some i
  | None => scan (firstn iS (db st)) 0 name
  end.

Definition mkparam (name value desc : str) : param :=
  let v := translatevalue value in
  {| p_name := name; p_value := v; p_desc := desc; p_num := atof v; p_bool := boolvalue v |}.
Definition setval (p : param) (value : str) : param :=
  mkparam (p_name p) value (p_desc p).
Definition setdesc (p : param) (desc : str) : param :=
  {| p_name := p_name p; p_value := p_value p; p_desc := desc; p_num := p_num p; p_bool := p_bool p |}.

Definition setat (st : pdb_state) (i : nat) (f : param -> param) : pdb_state :=
  match nth_error (db st) i with
  | Some p => {| db := upd (db st) i (f p); iStart := iStart st |}
  | None => st
  end.

(** parameters.c:159-193 makeparameter *)
Definition makeparameter (st : pdb_state) (name value desc : str) : res pdb_state :=
  let st' :=
    match findparameterindex st name with
    | None => {| db := db st ++ [mkparam name value desc]; iStart := iStart st |}
    | Some i => setat st i (fun p => setdesc p desc)
    end in
  if (npdbmax <=? Z.of_nat (List.length (db st')))%Z then Err else Ok st'.

(** parameters.c:199-208 setparameter with a value that does not live in the
    parameter's own value string. *)
Definition setparameter (st : pdb_state) (name value : str) : res pdb_state :=
  match findparameterindex st name with
  | None => Err
  | Some i => Ok (setat st i (fun p => setval p value))
  end.

(** parameters.c:392-402 Gets, GetsLax *)
Definition gets_lax (st : pdb_state) (name : str) : option str :=
  match findparameterindex st name with
  | None => None
  | Some i => option_map p_value (nth_error (db st) i)
  end.
Definition gets (st : pdb_state) (name : str) : res str :=
  match gets_lax st name with Some v => Ok v | None => Err end.

(** Sets(name, Gets(from)): the value argument points into the data base.  If both
    names denote the same parameter, strdup at line 204 reads freed memory. *)
Definition sets_from_gets (st : pdb_state) (name from : str) : res pdb_state :=
  match gets st from with
  | Ok v => match findparameterindex st name, findparameterindex st from with
            | Some i, Some j => if i =? j then UB else setparameter st name v
            | _, _ => setparameter st name v
            end
  | Err => Err
  | UB => UB
  end.

(** parameters.c:344-351 AddOrModifyPar; also the loop body of
    parse_parameter_file, lines 137-140 (with its own description text). *)
Definition addormodify (st : pdb_state) (name value desc : str) : res pdb_state :=
  match findparameterindex st name with
  | None => makeparameter st name value desc
  | Some _ => setparameter st name value
  end.

(** parameters.c:375-386 Appends *)
Definition appends (st : pdb_state) (name value : str) : res pdb_state :=
  match gets st name with
  | Ok old => if getv old value then Ok st
              else setparameter st name (old ++ cSP :: value)
  | Err => Err
  | UB => UB
  end.

(** parameters.c:539-543 Set_pdb_iStart_AtPar *)
Definition set_istart (st : pdb_state) (name : str) : res pdb_state :=
  match findparameterindex st name with
  | None => Err
  | Some i => Ok {| db := db st; iStart := Z.of_nat i |}
  end.

(** parameters.c:762-767 free_global_parameter_database_contents *)
Definition free_pdb (st : pdb_state) : pdb_state := pdb_init.

(** parse_parameter_file: all assignments of a file. *)
Fixpoint assign_all (st : pdb_state) (ps : list (str * str)) : res pdb_state :=
  match ps with
  | [] => Ok st
  | (n, v) :: r => do st' <- addormodify st n v (S_ "not in libs"); assign_all st' r
  end.
Definition parse_parameter_file (st : pdb_state) (file : list ascii) : res pdb_state :=
  do ps <- parse_text file; assign_all st ps.

(** The API calls that change the data base. *)
Inductive pop : Type :=
| AddPar (name value desc : str)          (* parameters.c:338-342 *)
| AddOrModifyPar (name value desc : str)  (* 344-351 *)
| Sets (name value : str)                 (* 356-359 *)
| Appends (name value : str)              (* 375-386 *)
| SetStart (name : str)                   (* 539-543 *)
| ReadFile (file : list ascii)            (* 38-149 *)
| FreeAll.                                (* 762-767 *)

(** AddPar and AddOrModifyPar end with a fatal Gets(name) (lines 341, 350). *)
Definition then_gets (r : res pdb_state) (name : str) : res pdb_state :=
  do st <- r; do _ <- gets st name; Ok st.

Definition pstep (st : pdb_state) (o : pop) : res pdb_state :=
  match o with
  | AddPar n v d => then_gets (makeparameter st n v d) n
  | AddOrModifyPar n v d => then_gets (addormodify st n v d) n
  | Sets n v => setparameter st n v
  | Appends n v => appends st n v
  | SetStart n => set_istart st n
  | ReadFile f => parse_parameter_file st f
  | FreeAll => Ok (free_pdb st)
  end.

Fixpoint prun (st : pdb_state) (os : list pop) : res pdb_state :=
  match os with
  | [] => Ok st
  | o :: r => do st' <- pstep st o; prun st' r
  end.
End PDB.

(** Model of the start of a run: src/main/main/main.c:28-113 (main), 120-174 (get_next_argument_line),
    178-251 (read_command_line), 330-368 (parse_command_line_options) and of
    src/main/main/utilities.c:410-426 (construct_argv), src/utility/checkpoint/wolfio.c:181-197 (fscanline). *)
From Verif Require Import Base Params_model.

(** fscanline, wolfio.c:185-198.  The rest of the stream is the list of its bytes; result None is EOF,
    otherwise the line and the rest of the stream. *)
Fixpoint scan_line (f : str) : str * str * bool :=
  match f with
  | [] => ([], [], true)                                  (* z==EOF *)
  | c :: r => if ceq c cNL then ([], r, false)
              else let '(l, r', e) := scan_line r in (c :: l, r', e)
  end.
Definition fscanline (f : str) : option (str * str) :=
  let '(l, r, e) := scan_line f in
  match l with [] => if e then None else Some (l, r) | _ => Some (l, r) end.

(** construct_argv, utilities.c:410-426: strtok_r with the separator " " until it returns NULL.
    [tok] is the token that is being read, in reverse. *)
Fixpoint strtoks (tok : str) (s : str) : list str :=
  match s with
  | [] => match tok with [] => [] | _ => [rev tok] end
  | c :: r => if ceq c cSP then match tok with [] => strtoks [] r | _ => rev tok :: strtoks [] r end
              else strtoks (c :: tok) r
  end.
Definition construct_argv (s : str) : list str := strtoks [] s.

(** size of the buffers line and buffer, main.c:56,132 *)
Definition BUFLEN : nat := 50 * 100.

(** static variables of get_next_argument_line, main.c:123-124 *)
Record argstate := { fp : option str; arglinenum : nat }.
Definition args_init := {| fp := None; arglinenum := 0 |}.

(** the do-while loop, main.c:149-154; None: EOF.  Each round takes at least one byte from the stream, so that
    [fuel] = length of the stream + 1 rounds are enough. line[5000] overflows with 5000 characters. *)
Fixpoint next_line (fuel : nat) (f : str) : res (option (str * str)) :=
  match fuel with
  | O => Err
  | S k =>
      match fscanline f with
      | None => Ok None
      | Some (l, r) => if BUFLEN <=? List.length l then UB else
          match l with
          | [] => next_line k r
          | c :: _ => if ceq c cHASH then next_line k r else Ok (Some (l, r))
          end
      end
  end.
(** get_next_argument_line: main.c:120-166.  [content] is the content of the args file, None if it cannot be opened.
    Result: new static variables, return value, largv (largc is its length), lnum.
    buffer[5000] of main overflows if argv[0], a blank and the line do not fit. *)
Definition get_next_argument_line (content : option str) (argv : list str) (st : argstate) : res (argstate * bool * list str * nat) :=
  match argv with
  | [a0; a1; a2] =>
      if str_eqb a1 (S_ "--argsfile") then
        match (match fp st with Some f => Some f | None => content end) with
        | None => Err
        | Some f =>
            do o <- next_line (S (List.length f)) f;
            match o with
            | None => Ok ({| fp := None; arglinenum := 0 |}, false, argv, arglinenum st)
            | Some (l, r) =>
                if BUFLEN <=? List.length (a0 ++ cSP :: l) then UB else
                Ok ({| fp := Some r; arglinenum := S (arglinenum st) |}, true, construct_argv (a0 ++ cSP :: l), arglinenum st)
            end
        end
      else Ok (st, false, argv, arglinenum st)
  | _ => Ok (st, false, argv, arglinenum st)
  end.
(** the restart loop of main, main.c:49-101.  One run of sgrid (69-97) is represented by its argument vector; the result
    is the list of the runs.  [fuel] bounds the number of rounds; Err when it is not enough. *)
Fixpoint main_loop (fuel : nat) (content : option str) (argv : list str) (rank size : nat) (st : argstate) (restarts : nat) : res (list (list str)) :=
  match fuel with
  | O => Err
  | S k =>
      do q <- get_next_argument_line content argv st;
      let '(st', restart, largv, lnum) := q in
      let continue_ (restarts : nat) := if restart then main_loop k content argv rank size st' restarts else Ok [] in
      if (0 <? rank) && negb restart then Ok []                                   (* break *)
      else if lnum <? rank then continue_ restarts                                (* continue *)
      else if negb ((lnum - rank) mod size =? 0) then continue_ restarts
      else if (0 <? restarts) && negb restart then Ok []                          (* break *)
      else do rs <- continue_ (S restarts); Ok (largv :: rs)
  end.

(** ** read_command_line, main.c:178-251 *)
Definition ends_with (w s : str) : bool := (List.length w <=? List.length s) && str_eqb (skipn (List.length s - List.length w) s) w.
(** the name of the parameter file, main.c:212-216: strstr(parfile+len-4, ".par") looks at the last four characters *)
Definition parfile_name (a1 : str) : str :=
  let p := if (match strstr a1 (S_ ".par") with None => true | Some _ => false end) || (List.length a1 <? 5) then a1 ++ S_ ".par" else a1 in
  match strstr (skipn (List.length p - 4) p) (S_ ".par") with None => p ++ S_ ".par" | Some _ => p end.
Definition outdir_name (a1 : str) : str := let p := parfile_name a1 in firstn (List.length p - 4) p.
(** the loop over the other arguments, main.c:229-247.  Result: the string options with the number of options and the
    arguments that are not options, in order.  strncat(options, s, 999) appends up to 999 characters to options[1000]
    and so overflows as soon as 1000 characters are reached. *)
Fixpoint read_args (args : list str) (options : str) (nopts : nat) : res (str * nat * list str) :=
  match args with
  | [] => Ok (options, nopts, [])
  | a :: r =>
      match a with
      | c :: a' => if ceq c "-"%char then
          match a' with
          | [] => Err
          | d :: _ => if ceq d "-"%char then
              let o := (if 0 <? nopts then options ++ [cSP] else options) ++ firstn 999 a in
              if 1000 <=? List.length o then UB else read_args r o (S nopts)
            else Err
          end
          else do q <- read_args r options nopts; let '(o, n, l) := q in Ok (o, n, a :: l)
      | [] => do q <- read_args r options nopts; let '(o, n, l) := q in Ok (o, n, a :: l)
      end
  end.
(** ** parse_command_line_options, main.c:330-368: the sequence of calls AddOrModifyPar(par, val).
    [s] is the rest of the option string from str1; each round moves str1 forward by at least 13 characters. *)
Definition OPT : str := S_ "--modify-par:".
Fixpoint modify_pars (fuel : nat) (s : str) : res (list (str * str)) :=
  match fuel with
  | O => Err
  | S k =>
      match strstr s OPT with
      | None => Ok []
      | Some i =>
          let s1 := skipn (i + 13) s in
          match strstr s1 [cEQ] with
          | None => Ok []                                                         (* break *)
          | Some e =>
              let par := firstn e s1 in
              let val := skipn (S e) s1 in
              let v := match strstr val (S_ " --") with None => val | Some j => firstn j val end in
              do r <- modify_pars k val; Ok ((par, v) :: r)
          end
      end
  end.
Definition parse_command_line_options (options : str) : res (list (str * str)) := modify_pars (S (List.length options)) options.

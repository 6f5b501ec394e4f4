(** Model of the checkpoint files: src/utility/checkpoint/checkpoint_write.c:70-168 (checkpoint_write_local),
    src/utility/checkpoint/checkpoint_read.c:85-241 and the text reading functions of
    src/utility/checkpoint/wolfio.c.  A file is the list of its bytes (as characters). *)
From Verif Require Import Base Params_model Args_model Endian_model.

(** printf("%d") and atoi of the C library *)
Definition digit (n : nat) : ascii := ascii_of_nat (48 + n).
Fixpoint dec (fuel n : nat) : str :=
  match fuel with
  | O => []
  | S k => if n <? 10 then [digit n] else dec k (n / 10) ++ [digit (n mod 10)]
  end.
Definition pr_n (n : nat) : str := dec (S n) n.
Definition pr_d (z : Z) : str := if (z <? 0)%Z then "-"%char :: pr_n (Z.to_nat (- z)) else pr_n (Z.to_nat z).
Definition isdigit (c : ascii) : bool := (48 <=? nat_of_ascii c) && (nat_of_ascii c <=? 57).
Fixpoint digits (acc : Z) (s : str) : Z :=
  match s with
  | c :: r => if isdigit c then digits (10 * acc + Z.of_nat (nat_of_ascii c - 48))%Z r else acc
  | [] => acc
  end.
Fixpoint skip_sp (f : str) : str :=
  match f with [] => [] | c :: r => if isspace c then skip_sp r else f end.
Definition atoi (s : str) : Z :=
  match skip_sp s with
  | c :: r => if ceq c "-"%char then (- digits 0 r)%Z else if ceq c "+"%char then digits 0 r else digits 0 (c :: r)
  | [] => 0%Z
  end.

(** fscan_str_using_getc (called as fscanf1), wolfio.c:309-345: skip white space, read up to the next white space or
    the end; the stream is left before the character that ended the word.  None is EOF.  [size] is the size of the
    buffer the word is written to; the buffer holds a C string, so a NUL in the word ends it. *)
Fixpoint take_word (f : str) : str * str :=
  match f with
  | [] => ([], [])
  | c :: r => if isspace c then ([], f) else let '(w, q) := take_word r in (c :: w, q)
  end.
Definition fscan (size : Z) (f : str) : res (option (str * str)) :=
  match skip_sp f with
  | [] => Ok None
  | g => let '(w, r) := take_word g in
         if (size <=? Z.of_nat (List.length w))%Z then UB else Ok (Some (cstr w, r))
  end.
(** fgotonext, wolfio.c:72-83; every round takes at least one byte, so that fuel = length + 1 is enough.
    MAXSTRINGLEN is 65535. None is EOF. *)
Fixpoint gotonext (fuel : nat) (f label : str) : res (option str) :=
  match fuel with
  | O => Ok None
  | S k => do o <- fscan 65535 f;
           match o with
           | None => Ok None
           | Some (w, r) => if str_eqb w label then Ok (Some r) else gotonext k r label
           end
  end.
Definition fgotonext (f label : str) : res (option str) := gotonext (S (List.length f)) f label.
(** extrstr_before_after_EQ, wolfio.c:157-177: the text before and after the first '=' (without '=': all and nothing) *)
Fixpoint before_EQ (s : str) : str :=
  match s with [] => [] | c :: r => if ceq c cEQ then [] else c :: before_EQ r end.
Fixpoint after_EQ (s : str) : str :=
  match s with [] => [] | c :: r => if ceq c cEQ then r else after_EQ r end.
(** FSCANF1 whose result is not looked at: at EOF the buffer keeps its content [w] *)
Definition fscan_keep (size : Z) (w f : str) : res (str * str) :=
  do o <- fscan size f; match o with None => Ok (w, []) | Some p => Ok p end.
(** fgetparameter, wolfio.c:90-134; strncmp(par,str,parlength)==0 says that par is a prefix of str.
    None is EOF (then str becomes empty). [size] is the size of the caller's buffer str. *)
Fixpoint getpar (fuel : nat) (size : Z) (f par : str) : res (option (str * str)) :=
  match fuel with
  | O => Ok None
  | S k =>
      do o <- fscan size f;
      match o with
      | None => Ok None
      | Some (w, r) =>
          if prefixb par w then
            if List.length par =? List.length w then
              do q <- fscan_keep size w r;
              let '(w2, r2) := q in
              match w2 with
              | c :: t => if ceq c cEQ then
                            match t with
                            | [] => do q3 <- fscan_keep size w2 r2; Ok (Some q3)
                            | _ => Ok (Some (after_EQ w2, r2))
                            end
                          else Ok (Some (w2, r2))
              | [] => Ok (Some (w2, r2))
              end
            else if List.length par + 1 <? List.length w then Ok (Some (after_EQ w, r))
            else do q <- fscan_keep size w r; Ok (Some q)
          else getpar k size r par
      end
  end.
Definition fgetparameter (size : Z) (f par : str) : res (option (str * str)) := getpar (S (List.length f)) size f par.
(** a call whose result is not looked at: after EOF the value is the empty string *)
Definition fgetparameter_keep (size : Z) (f par : str) : res (str * str) :=
  do o <- fgetparameter size f par; match o with None => Ok ([], []) | Some p => Ok p end.

(** fields of tBox that matter: nnodes and for every variable the array v[i] (None: NULL) as bytes in memory *)
Record cbox := { c_nnodes : nat; c_v : list (option (list byte)) }.
Definition asc (b : byte) : ascii := ascii_of_N (Z.to_N b).
Definition zof (c : ascii) : byte := Z.of_N (N_of_ascii c).

Section CK.
Variable D : Type.
(** printf("%g"), printf of pi, atof are left open *)
Variable fmt_g : D -> str.
Variable atof : str -> D.
Variable fmt_pi : str -> str.

(** checkpoint_write_local, checkpoint_write.c:79-84 *)
Definition put_header (nboxes : nat) (time : D) (iteration : Z) : str :=
  S_ "$BEGIN_checkpoint_header:  " ++ S_ "$bmin = " ++ pr_d 0 ++ S_ " , $bmax = " ++ pr_d (Z.of_nat nboxes - 1) ++ S_ " , "
  ++ S_ "$time = " ++ fmt_g time ++ S_ " , " ++ S_ "$iteration = " ++ pr_d iteration ++ cNL :: S_ "$END_checkpoint_header" ++ [cNL; cNL].
(** checkpoint_write.c:89-96; [ps] are the names and values in the order of their index *)
Definition put_pars (ps : list (str * str)) : str :=
  S_ "$BEGIN_parameter_database:  " ++ S_ "$number_of_parameters = " ++ pr_d (Z.of_nat (List.length ps)) ++ cNL ::
  flat_map (fun p => fst p ++ S_ " = " ++ snd p ++ [cNL]) ps ++ S_ "$END_parameter_database" ++ [cNL; cNL].
(** one variable, checkpoint_write.c:112-116 and 144-148.  [h], [c0]: byte order of the host, local array of endianIO.c *)
Definition put_var (h : bool) (c0 : list byte) (name : str) (b nnodes : nat) (data : list byte) : res str :=
  do r <- fwrite_double_little h c0 data nnodes [];
  Ok (S_ "$variable = " ++ name ++ S_ " : box = " ++ pr_d (Z.of_nat b) ++ S_ " , box->nnodes = " ++ pr_d (Z.of_nat nnodes) ++ cNL ::
      map asc (snd r) ++ [cNL]).
(** the loop over the variables of one box, checkpoint_write.c:108-126 (vl = all indices) and 137-158 (vl = checkpoint_varlist) *)
Fixpoint put_box (h : bool) (c0 : list byte) (names : list str) (b : nat) (x : cbox) (vl : list nat) : res str :=
  match vl with
  | [] => Ok []
  | i :: r =>
      match nth_error (c_v x) i, nth_error names i with
      | Some (Some data), Some name =>
          do t <- put_var h c0 name b (c_nnodes x) data; do s <- put_box h c0 names b x r; Ok (t ++ s)
      | Some None, _ => put_box h c0 names b x r
      | _, _ => UB
      end
  end.
(** the loop over the boxes, checkpoint_write.c:100-163 *)
Fixpoint put_boxes (h : bool) (c0 : list byte) (names : list str) (b : nat) (xs : list cbox) (vl : list nat) : res str :=
  match xs with
  | [] => Ok []
  | x :: r => do t <- put_box h c0 names b x vl; do s <- put_boxes h c0 names (S b) r vl; Ok (t ++ s)
  end.
(** checkpoint_write_local: all that is written *)
Definition checkpoint_write_local (h : bool) (c0 : list byte) (time : D) (iteration : Z) (ps : list (str * str))
  (names : list str) (xs : list cbox) (vl : list nat) : res str :=
  do t <- put_boxes h c0 names 0 xs vl;
  Ok (put_header (List.length xs) time iteration ++ put_pars ps ++ S_ "$BEGIN_variables:" ++ cNL :: t ++ S_ "$END_variables" ++ [cNL; cNL]).

(** checkpoint_read_ParsAndIterations_local, checkpoint_read.c:119-157: the loop over the lines.  The two nested loops
    skip empty lines and stop at the end of the file or at the end line.  The buffers have 10000 characters. *)
Definition SIZE : Z := 10000%Z.
Notation pdb := (pdb_state D).
Fixpoint read_pars (fuel : nat) (st : pdb) (f : str) : res (pdb * str) :=
  match fuel with
  | O => Err
  | S k =>
      match fscanline f with
      | None => Ok (st, f)
      | Some ([], r) => read_pars k st r
      | Some (l, r) =>
          if (SIZE <=? Z.of_nat (List.length l))%Z then UB
          else if str_eqb l (S_ "$END_parameter_database") then Ok (st, r)
          else
            let name := match skip_sp (before_EQ l) with [] => before_EQ l | g => fst (take_word g) end in
            let value := match after_EQ l with c :: v => if ceq c cSP then v else c :: v | [] => [] end in
            match gets_lax D st name with
            | None => read_pars k st r
            | Some cur =>
                if str_eqb value cur then read_pars k st r
                else do nr <- gets D st (S_ "checkpoint_no_read_parlist");
                     if getv nr name then read_pars k st r
                     else do st' <- setparameter D atof atoi fmt_pi st name value; read_pars k st' r
            end
      end
  end.
(** checkpoint_read.c:85-160; result: the data base, time, iteration and the rest of the file *)
Definition read_ParsAndIterations (st : pdb) (f : str) : res (pdb * D * Z * str) :=
  do o <- fgotonext f (S_ "$BEGIN_checkpoint_header:");
  match o with
  | None => Err
  | Some f1 =>
      do q2 <- fgetparameter_keep SIZE f1 (S_ "$bmin");
      do q3 <- fgetparameter_keep SIZE (snd q2) (S_ "$bmax");
      do q4 <- fgetparameter_keep SIZE (snd q3) (S_ "$time");
      do q5 <- fgetparameter_keep SIZE (snd q4) (S_ "$iteration");
      do o6 <- fgotonext (snd q5) (S_ "$BEGIN_parameter_database:");
      match o6 with
      | None => Err
      | Some f6 =>
          do q7 <- fgetparameter_keep SIZE f6 (S_ "$number_of_parameters");
          do q8 <- read_pars (S (List.length (snd q7))) st (snd q7);
          Ok (fst q8, atof (fst q4), atoi (fst q5), snd q8)
      end
  end.
(** IndLax: position of the variable with this name (Vars_model has the search itself and C06 its meaning) *)
Fixpoint ind_lax (names : list str) (n : str) : option nat :=
  match names with [] => None | m :: r => if str_eqb m n then Some 0 else option_map S (ind_lax r n) end.
(** checkpoint_read_Vars_local, checkpoint_read.c:184-232: the loop over the saved variables.  grid->box[l] with l out of
    range is UB.  [buf] is the array the data are read into; the loop over fgetc skips as many bytes as there are. *)
Fixpoint read_vars (fuel : nat) (h : bool) (c0 : list byte) (names : list str) (xs : list cbox) (f : str) : res (list cbox) :=
  match fuel with
  | O => Err
  | S k =>
      do o <- fgetparameter SIZE f (S_ "$variable");
      match o with
      | None => Ok xs
      | Some (varname, f1) =>
          do q2 <- fgetparameter_keep SIZE f1 (S_ "box");
          let l := atoi (fst q2) in
          if (l <? 0)%Z then UB else
          match nth_error xs (Z.to_nat l) with
          | None => UB
          | Some x =>
              do q3 <- fgetparameter_keep SIZE (snd q2) (S_ "box->nnodes");
              if negb (atoi (fst q3) =? Z.of_nat (c_nnodes x))%Z then Err else
              let f4 := match fscanline (snd q3) with None => [] | Some (_, r) => r end in
              let skip := skipn (8 * c_nnodes x) f4 in
              match ind_lax names varname with
              | None => read_vars k h c0 names xs skip
              | Some i =>
                  match nth_error (c_v x) i with
                  | None => UB
                  | Some None => read_vars k h c0 names xs skip
                  | Some (Some buf) =>
                      do r <- fread_double_little h c0 buf (c_nnodes x) (map zof f4);
                      let x' := {| c_nnodes := c_nnodes x; c_v := upd (c_v x) i (Some (snd (fst r))) |} in
                      read_vars k h c0 names (upd xs (Z.to_nat l) x') skip
                  end
              end
          end
      end
  end.
Definition read_Vars (h : bool) (c0 : list byte) (names : list str) (xs : list cbox) (f : str) : res (list cbox) :=
  do o <- fgotonext f (S_ "$BEGIN_variables:");
  match o with None => Err | Some f1 => read_vars (S (List.length f1)) h c0 names xs f1 end.
(** checkpoint_read, checkpoint_read.c:15-71 for one process.  The rebuilding of the box structure from the parameters
    (lines 36-45) is left out: the boxes [xs] of the reader are given. *)
Definition checkpoint_read (h : bool) (c0 : list byte) (st : pdb) (names : list str) (xs : list cbox) (f : str) : res (pdb * D * Z * list cbox) :=
  do q <- read_ParsAndIterations st f;
  let '(st', time, iteration, f1) := q in
  do xs' <- read_Vars h c0 names xs f1;
  Ok (st', time, iteration, xs').
End CK.

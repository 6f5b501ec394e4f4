(** Model of src/main/main/endianIO.c. Bytes are integers 0..255. *)
From Verif Require Import Base Loops.

Definition byte := Z.
(** the rest of a file that is being read; what has been written to a file *)
Definition file := list byte.
(** fwrite(ptr, size, nmemb, fp) on a stream that accepts everything: the elements are appended and their number returned (C standard) *)
Definition fwrite (ptr : list byte) (size nmemb : nat) (f : file) : res (nat * file) :=
  if size * nmemb <=? List.length ptr then Ok (nmemb, f ++ firstn (size * nmemb) ptr) else UB.
(** fread(ptr, size, nmemb, fp): reads as many bytes as there are, up to size*nmemb, into the buffer and
    returns the number of complete elements (C standard) *)
Definition fread (ptr : list byte) (size nmemb : nat) (f : file) : res (nat * list byte * file) :=
  if size * nmemb <=? List.length ptr
  then let got := firstn (size * nmemb) f in
       Ok (if size =? 0 then 0 else List.length got / size, got ++ skipn (List.length got) ptr, skipn (size * nmemb) f)
  else UB.
Definition getb (l : list byte) (i : nat) : res byte := match nth_error l i with Some b => Ok b | None => UB end.
Definition setb (l : list byte) (i : nat) (b : byte) : res (list byte) := if i <? List.length l then Ok (upd l i b) else UB.
(** SGRID_fwrite_swapbytes, endianIO.c:58-72; [c0] is the indeterminate initial content of the local array c *)
Definition SGRID_fwrite_swapbytes (c0 : list byte) (ptr : list byte) (size nmemb : nat) (f : file) : res (nat * file) :=
  do s <- for_nat 0 nmemb (fun i s => let '(c, count, f) := s in
      do c1 <- for_nat 0 size (fun b c => do x <- getb ptr (i * size + (size - 1 - b)); setb c b x) c;
      do r <- fwrite c1 1 size f; Ok (c1, count + fst r, snd r)) (c0, 0, f);
  let '(_, count, f') := s in Ok (count / size, f').
(** SGRID_fread_swapbytes, endianIO.c:75-89 *)
Definition SGRID_fread_swapbytes (c0 : list byte) (ptr : list byte) (size nmemb : nat) (f : file) : res (nat * list byte * file) :=
  do s <- for_nat 0 nmemb (fun i s => let '(c, count, buf, f) := s in
      do r <- fread c 1 size f; let '(k, c1, f1) := r in
      do buf1 <- for_nat 0 size (fun b buf => do x <- getb c1 (size - 1 - b); setb buf (i * size + b) x) buf;
      Ok (c1, count + k, buf1, f1)) (c0, 0, ptr, f);
  let '(_, count, buf, f') := s in Ok (count / size, buf, f').
(** SGRID_fwrite_little, SGRID_fread_little, SGRID_fwrite_big, SGRID_fread_big, endianIO.c:92-138;
    [little] is the value of SGRID_byte_order_is_little() on the host *)
Definition SGRID_fwrite_little (little : bool) c0 ptr size nmemb f :=
  if little then fwrite ptr size nmemb f else SGRID_fwrite_swapbytes c0 ptr size nmemb f.
Definition SGRID_fread_little (little : bool) c0 ptr size nmemb f :=
  if little then fread ptr size nmemb f else SGRID_fread_swapbytes c0 ptr size nmemb f.
Definition SGRID_fwrite_big (little : bool) c0 ptr size nmemb f :=
  if negb little then fwrite ptr size nmemb f else SGRID_fwrite_swapbytes c0 ptr size nmemb f.
Definition SGRID_fread_big (little : bool) c0 ptr size nmemb f :=
  if negb little then fread ptr size nmemb f else SGRID_fread_swapbytes c0 ptr size nmemb f.
(** fwrite_double_little, fread_double_little, endianIO.c:160-184; sizeof(double) is 8 *)
Definition fwrite_double_little (little : bool) c0 ptr nmemb f := SGRID_fwrite_little little c0 ptr 8 nmemb f.
Definition fread_double_little (little : bool) c0 ptr nmemb f := SGRID_fread_little little c0 ptr 8 nmemb f.

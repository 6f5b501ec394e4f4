(** Model of src/main/main/tensors.c: tensorindexlist. *)
From Verif Require Import Base.

(** tolower of ctype.h (C locale), used in tensors.c:28-30. *)
Definition tolower (c : ascii) : ascii :=
  let n := nat_of_ascii c in
  if (65 <=? n) && (n <=? 90) then ascii_of_nat (n + 32) else c.
Definition lower (s : str) : str := map tolower s.

(** coordinate names, tensors.c:21-23 *)
Definition coord3 : list str := [S_ "x"; S_ "y"; S_ "z"].
Definition coord4 : list str := [S_ "t"; S_ "x"; S_ "y"; S_ "z"].
Definition coord2 : list str := [S_ "1"; S_ "2"].
Definition cn (tab : list str) (i : nat) : str := nth i tab [].

(** NINDEXLIST, src/main/main/sgrid_main.h:169 *)
Definition NINDEXLIST : nat := 100.

(** State of the loops: n together with ilist[0..n-1], and the flat array sym[]. *)
Record tstate := { t_list : list str; t_sym : list Z }.
Definition t_n (s : tstate) : nat := List.length (t_list s).

(** sym[k] *= -1;  tensors.c:49 and similar.  Out of range is UB. *)
Definition flip (sym : list Z) (k : nat) : res (list Z) :=
  match nth_error sym k with
  | Some x => Ok (upd sym k (x * -1)%Z)
  | None => UB
  end.
(** Body of an innermost loop, e.g. tensors.c:58-61: flip the signs at offsets
    [fl] from 3*n, then ilist[n++]=name.  ilist has NINDEXLIST entries. *)
Fixpoint flips (sym : list Z) (n : nat) (fl : list nat) : res (list Z) :=
  match fl with
  | [] => Ok sym
  | f :: r => do sym' <- flip sym (3 * n + f); flips sym' n r
  end.
Definition emit (fl : list nat) (name : str) (s : tstate) : res tstate :=
  do sym' <- flips (t_sym s) (t_n s) fl;
  if t_n s <? NINDEXLIST then Ok {| t_list := t_list s ++ [name]; t_sym := sym' |} else UB.

(** for(i = lo; i < hi; i++) body(i) *)
Fixpoint for_k (k lo : nat) (body : nat -> tstate -> res tstate) (s : tstate) : res tstate :=
  match k with
  | O => Ok s
  | S k' => do s' <- body lo s; for_k k' (S lo) body s'
  end.
Definition for_ (lo hi : nat) (body : nat -> tstate -> res tstate) (s : tstate) : res tstate :=
  for_k (hi - lo) lo body s.

(** if (i > 0) sym[3*n+i-1] *= -1;  for 4d indices, tensors.c:172 *)
Definition f4 (i : nat) : list nat := if 0 <? i then [i - 1] else [].
(** if (i > 0) sym[3*n+i] *= -1;  tensors.c:268-269 (sic) *)
Definition f4_bug (i : nat) : list nat := if 0 <? i then [i] else [].

(** The cases in source order: strings compared with, loops executed. *)
Definition cases : list (list str * (tstate -> res tstate)) := [
  (* tensors.c:41-44 *)
  ([S_ ""], emit [] []);
  (* tensors.c:47-53 *)
  ([S_ "i"], for_ 0 3 (fun i => emit [i] (cn coord3 i)));
  (* tensors.c:55-63 *)
  ([S_ "ij"], for_ 0 3 (fun i => for_ 0 3 (fun j =>
      emit [i; j] (cn coord3 i ++ cn coord3 j))));
  (* tensors.c:65-74 *)
  ([S_ "ij+ji"; S_ "(ij)"], for_ 0 3 (fun i => for_ i 3 (fun j =>
      emit [i; j] (cn coord3 i ++ cn coord3 j))));
  (* tensors.c:76-85 *)
  ([S_ "ij-ji"; S_ "[ij]"], for_ 0 3 (fun i => for_ (i + 1) 3 (fun j =>
      emit [i; j] (cn coord3 i ++ cn coord3 j))));
  (* tensors.c:87-97 *)
  ([S_ "ijk"], for_ 0 3 (fun i => for_ 0 3 (fun j => for_ 0 3 (fun k =>
      emit [i; j; k] (cn coord3 i ++ cn coord3 j ++ cn coord3 k)))));
  (* tensors.c:99-110 *)
  ([S_ "ijk+ikj"; S_ "i(jk)"], for_ 0 3 (fun i => for_ 0 3 (fun j => for_ j 3 (fun k =>
      emit [i; j; k] (cn coord3 i ++ cn coord3 j ++ cn coord3 k)))));
  (* tensors.c:112-123 *)
  ([S_ "(ij)k"; S_ "ijk+jik"], for_ 0 3 (fun i => for_ i 3 (fun j => for_ 0 3 (fun k =>
      emit [i; j; k] (cn coord3 i ++ cn coord3 j ++ cn coord3 k)))));
  (* tensors.c:125-136 *)
  ([S_ "ijk-jik"; S_ "[ij]k"], for_ 0 3 (fun i => for_ (i + 1) 3 (fun j => for_ 0 3 (fun k =>
      emit [i; j; k] (cn coord3 i ++ cn coord3 j ++ cn coord3 k)))));
  (* tensors.c:138-151 *)
  ([S_ "ijkl"], for_ 0 3 (fun i => for_ 0 3 (fun j => for_ 0 3 (fun k => for_ 0 3 (fun l =>
      emit [i; j; k; l] (cn coord3 i ++ cn coord3 j ++ cn coord3 k ++ cn coord3 l))))));
  (* tensors.c:153-167 *)
  ([S_ "ijkl+ijlk+jikl+jilk)"; S_ "(ij)(kl)"],
    for_ 0 3 (fun i => for_ i 3 (fun j => for_ 0 3 (fun k => for_ k 3 (fun l =>
      emit [i; j; k; l] (cn coord3 i ++ cn coord3 j ++ cn coord3 k ++ cn coord3 l))))));
  (* tensors.c:170-176 *)
  ([S_ "a"], for_ 0 4 (fun i => emit (f4 i) (cn coord4 i)));
  (* tensors.c:178-186 *)
  ([S_ "ab"], for_ 0 4 (fun i => for_ 0 4 (fun j =>
      emit (f4 i ++ f4 j) (cn coord4 i ++ cn coord4 j))));
  (* tensors.c:188-196 *)
  ([S_ "ai"], for_ 0 4 (fun i => for_ 0 3 (fun j =>
      emit (f4 i ++ [j]) (cn coord4 i ++ cn coord3 j))));
  (* tensors.c:198-207 *)
  ([S_ "ab+ba"; S_ "(ab)"], for_ 0 4 (fun i => for_ i 4 (fun j =>
      emit (f4 i ++ f4 j) (cn coord4 i ++ cn coord4 j))));
  (* tensors.c:209-220 *)
  ([S_ "abc+acb"; S_ "a(bc)"], for_ 0 4 (fun i => for_ 0 4 (fun j => for_ j 4 (fun k =>
      emit (f4 i ++ f4 j ++ f4 k) (cn coord4 i ++ cn coord4 j ++ cn coord4 k)))));
  (* tensors.c:222-233 *)
  ([S_ "aij+aji"; S_ "a(ij)"], for_ 0 4 (fun i => for_ 0 3 (fun j => for_ j 3 (fun k =>
      emit (f4 i ++ [j; k]) (cn coord4 i ++ cn coord3 j ++ cn coord3 k)))));
  (* tensors.c:235-246 *)
  ([S_ "abc+bac"; S_ "(ab)c"], for_ 0 4 (fun i => for_ i 4 (fun j => for_ 0 4 (fun k =>
      emit (f4 i ++ f4 j ++ f4 k) (cn coord4 i ++ cn coord4 j ++ cn coord4 k)))));
  (* tensors.c:248-259 *)
  ([S_ "abi+bai"; S_ "(ab)i"], for_ 0 4 (fun i => for_ i 4 (fun j => for_ 0 3 (fun k =>
      emit (f4 i ++ f4 j ++ [k]) (cn coord4 i ++ cn coord4 j ++ cn coord3 k)))));
  (* tensors.c:261-275 *)
  ([S_ "abij+abji+baij+baji)"; S_ "(ab)(ij)"],
    for_ 0 4 (fun i => for_ i 4 (fun j => for_ 0 3 (fun k => for_ k 3 (fun l =>
      emit (f4_bug i ++ f4_bug j ++ [k; l])
           (cn coord4 i ++ cn coord4 j ++ cn coord3 k ++ cn coord3 l))))));
  (* tensors.c:278-284 *)
  ([S_ "q"], for_ 0 2 (fun i => emit [i] (cn coord2 i)));
  (* tensors.c:286-294 *)
  ([S_ "qr"], for_ 0 2 (fun i => for_ 0 2 (fun j =>
      emit [i; j] (cn coord2 i ++ cn coord2 j))));
  (* tensors.c:296-305 *)
  ([S_ "qr+rq"; S_ "(qr)"], for_ 0 2 (fun i => for_ i 2 (fun j =>
      emit [i; j] (cn coord2 i ++ cn coord2 j))));
  (* tensors.c:307-318 *)
  ([S_ "qrs+rqs"; S_ "(qr)s"], for_ 0 2 (fun i => for_ i 2 (fun j => for_ 0 2 (fun k =>
      emit [i; j; k] (cn coord2 i ++ cn coord2 j ++ cn coord2 k)))));
  (* tensors.c:320-335 *)
  ([S_ "qrst+qrts+rqst+rqts)"; S_ "(qr)(st)"],
    for_ 0 2 (fun i => for_ i 2 (fun j => for_ 0 2 (fun k => for_ k 2 (fun l =>
      emit [i; j; k; l] (cn coord2 i ++ cn coord2 j ++ cn coord2 k ++ cn coord2 l))))));
  (* tensors.c:337-345 *)
  ([S_ "iq"], for_ 0 3 (fun i => for_ 0 2 (fun j =>
      emit [i; j] (cn coord3 i ++ cn coord2 j))));
  (* tensors.c:347-357 *)
  ([S_ "iqr"], for_ 0 3 (fun i => for_ 0 2 (fun j => for_ 0 2 (fun k =>
      emit [i; j; k] (cn coord3 i ++ cn coord2 j ++ cn coord2 k)))));
  (* tensors.c:359-370 *)
  ([S_ "iqr+irq"; S_ "i(qr)"], for_ 0 3 (fun i => for_ 0 2 (fun j => for_ j 2 (fun k =>
      emit [i; j; k] (cn coord3 i ++ cn coord2 j ++ cn coord2 k)))))
].

(** if(strcmp(...)==0 || ...) { loops } for all cases, one after the other. *)
Fixpoint run_cases (t : str) (cs : list (list str * (tstate -> res tstate))) (s : tstate) : res tstate :=
  match cs with
  | [] => Ok s
  | (names, body) :: r =>
      do s' <- (if existsb (str_eqb t) names then body s else Ok s);
      run_cases t r s'
  end.

(** tensorindexlist, tensors.c:18-389.  Result: the names ilist[0..n-1] and the first 3*n
    entries of sym[].  The length 8 of the name buffers is not modelled (names have at most
    4 characters). *)
Definition tensorindexlist (t : str) : res (list str * list Z) :=
  do s <- run_cases (lower t) cases {| t_list := []; t_sym := repeat 1%Z (3 * NINDEXLIST) |};
  if t_n s =? 0 then Err else Ok (t_list s, firstn (3 * t_n s) (t_sym s)).

(** Sign of component j under reflection of direction d: sym[3*j+d] *)
Definition sym_of (sym : list Z) (j d : nat) : Z := nth (3 * j + d) sym 0%Z.

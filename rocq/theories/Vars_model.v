(** Model of the variable data base and of variable lists, src/main/main/variables.c. *)
From Verif Require Import Base Tensors_model.

Section VDB.
(** Type of the boundary information (doubles farlimit, falloff, propspeed). *)
Variable D : Type.
Variable d0 : D.      (* three zeros *)

(** struct tVAR, variables.c:18-31 (without the io pointer, which is always NULL). *)
Record var := {
  v_name : str; v_tens : str; v_desc : str;
  v_index : Z; v_ncomp : Z; v_comp : Z;
  v_bound : D; v_sym : list Z; v_const : Z }.

(** Globals vdb[0..nvdb-1], vdb_iStart (variables.c:33-34) and sgrid_restarts. *)
Record vstate := { vdb : list var; vStart : Z; restarts : nat }.
Definition vinit : vstate := {| vdb := []; vStart := 0; restarts := 0 |}.
Definition nvdb (s : vstate) : Z := Z.of_nat (List.length (vdb s)).

(** vdb[i] *)
Definition getvar (s : vstate) (i : Z) : res var :=
  if (i <? 0)%Z then UB else
  match nth_error (vdb s) (Z.to_nat i) with Some v => Ok v | None => UB end.
Definition setvar (s : vstate) (i : Z) (v : var) : res vstate :=
  if (i <? 0)%Z then UB else
  if (i <? nvdb s)%Z then
    Ok {| vdb := upd (vdb s) (Z.to_nat i) v; vStart := vStart s; restarts := restarts s |}
  else UB.

(** snprintf(fullname, 100, "%s%s", name, ilist[j]); variables.c:60 *)
Definition cut99 (s : str) : str := firstn 99 s.
Definition fullname (name suffix : str) : str := cut99 (name ++ suffix).

(** One pass of the loop of AddVar, variables.c:57-98. *)
Definition addvar1 (name t d : str) (nil_ : nat) (sym : list Z) (j : nat) (suffix : str)
    (s : vstate) : res vstate :=
  let full := fullname name suffix in
  if existsb (fun v => str_eqb (v_name v) full) (vdb s) then
    (if restarts s =? 0 then Err else Ok s)
  else
    Ok {| vdb := vdb s ++
            [ {| v_name := full; v_tens := t; v_desc := d;
                 v_index := nvdb s; v_ncomp := Z.of_nat nil_; v_comp := Z.of_nat j;
                 v_bound := d0; v_sym := [nth (3 * j) sym 0; nth (3 * j + 1) sym 0; nth (3 * j + 2) sym 0]%Z;
                 v_const := 0 |} ];
          vStart := vStart s; restarts := restarts s |}.
Fixpoint addvar_loop (name t d : str) (nil_ : nat) (sym : list Z) (j : nat) (ilist : list str)
    (s : vstate) : res vstate :=
  match ilist with
  | [] => Ok s
  | suffix :: r =>
      do s' <- addvar1 name t d nil_ sym j suffix s;
      addvar_loop name t d nil_ sym (S j) r s'
  end.
(** AddVar, variables.c:41-100 *)
Definition AddVar (name t d : str) (s : vstate) : res vstate :=
  do p <- tensorindexlist t;
  let (ilist, sym) := p in
  addvar_loop name t d (List.length ilist) sym 0 ilist s.

(** IndLax, variables.c:142-164 *)
Definition find_from (l : list var) (name : str) : option Z :=
  match find (fun v => str_eqb (v_name v) name) l with
  | Some v => Some (v_index v)
  | None => None
  end.
Definition IndLax (s : vstate) (name : str) : Z :=
  let iS := if (vStart s <? 0)%Z || (vStart s >=? nvdb s)%Z then 0%Z else vStart s in
  match find_from (skipn (Z.to_nat iS) (vdb s)) name with
  | Some i => i
  | None =>
      match find_from (firstn (Z.to_nat iS) (vdb s)) name with
      | Some i => i
      | None => (-1)%Z
      end
  end.
(** Ind, variables.c:166-171 *)
Definition Ind (s : vstate) (name : str) : res Z :=
  let i := IndLax s name in if (i <? 0)%Z then Err else Ok i.
(** Set_vdb_iStart_AtPar, variables.c:185-191 *)
Definition SetStart (name : str) (s : vstate) : res vstate :=
  let i := IndLax s name in
  if (i <? 0)%Z then Err else Ok {| vdb := vdb s; vStart := i; restarts := restarts s |}.
(** VarName, variables.c:195-201 *)
Definition VarName (s : vstate) (i : Z) : res str :=
  if (i <? 0)%Z || (i >=? nvdb s)%Z then Err else do v <- getvar s i; Ok (v_name v).
(** IndComponent0, variables.c:223-226 *)
Definition IndComponent0 (s : vstate) (i : Z) : res Z :=
  do v <- getvar s i; Ok (i - v_comp v)%Z.
(** VarNComponents, variables.c:204-215 *)
Definition VarNComponents (s : vstate) (i : Z) : res Z :=
  if (i <? 0)%Z || (i >=? nvdb s)%Z then Err else
  do v <- getvar s i;
  do i' <- (if (v_comp v =? 0)%Z then Ok i else IndComponent0 s i);
  do v' <- getvar s i'; Ok (v_ncomp v').
(** VarNameComponent0, variables.c:229-232 *)
Definition VarNameComponent0 (s : vstate) (name : str) : res str :=
  do i <- Ind s name; do i0 <- IndComponent0 s i; VarName s i0.

(** VarNameSetBoundaryInfo, variables.c:241-249 *)
Definition SetBoundaryInfo (name : str) (b : D) (s : vstate) : res vstate :=
  do i <- Ind s name; do v <- getvar s i;
  setvar s i {| v_name := v_name v; v_tens := v_tens v; v_desc := v_desc v; v_index := v_index v;
     v_ncomp := v_ncomp v; v_comp := v_comp v; v_bound := b; v_sym := v_sym v; v_const := v_const v |}.

(** VarNameSetConstantFlag, variables.c:252-261: loop i=0..n-1 over vdb[i+i0].constant = 1 *)
Definition with_const (v : var) : var :=
  {| v_name := v_name v; v_tens := v_tens v; v_desc := v_desc v; v_index := v_index v;
     v_ncomp := v_ncomp v; v_comp := v_comp v; v_bound := v_bound v; v_sym := v_sym v; v_const := 1 |}.
Fixpoint const_loop (k : nat) (i : Z) (s : vstate) : res vstate :=
  match k with
  | O => Ok s
  | S k' => do v <- getvar s i; do s' <- setvar s i (with_const v); const_loop k' (i + 1)%Z s'
  end.
Definition SetConstantFlag (name : str) (s : vstate) : res vstate :=
  do i <- Ind s name; do i0 <- IndComponent0 s i; do n <- VarNComponents s i0;
  const_loop (Z.to_nat n) i0 s.
(** VarConstantFlag, variables.c:268 *)
Definition VarConstantFlag (s : vstate) (i : Z) : res Z := do v <- getvar s i; Ok (v_const v).

(** AddConstantVar, variables.c:105-109: uses the name of the last variable in vdb. *)
Definition AddConstantVar (name t d : str) (s : vstate) : res vstate :=
  do s' <- AddVar name t d s;
  do v <- getvar s' (nvdb s' - 1)%Z;
  SetConstantFlag (v_name v) s'.

(** free_global_vdb, variables.c:122-138 *)
Definition free_global_vdb (s : vstate) : vstate := {| vdb := []; vStart := 0; restarts := restarts s |}.
(** sgrid_restarts++, src/main/main/main.c:99 *)
Definition restart (s : vstate) : vstate := {| vdb := vdb s; vStart := vStart s; restarts := S (restarts s) |}.

(** Calls that change the data base. *)
Inductive vop :=
| VAdd (name t d : str)
| VAddConst (name t d : str)
| VStart (name : str)
| VBound (name : str) (b : D)
| VConst (name : str)
| VRestart.
Definition vstep (s : vstate) (o : vop) : res vstate :=
  match o with
  | VAdd n t d => AddVar n t d s
  | VAddConst n t d => AddConstantVar n t d s
  | VStart n => SetStart n s
  | VBound n b => SetBoundaryInfo n b s
  | VConst n => SetConstantFlag n s
  | VRestart => Ok (restart s)
  end.
Fixpoint vrun (s : vstate) (os : list vop) : res vstate :=
  match os with [] => Ok s | o :: r => do s' <- vstep s o; vrun s' r end.

(** * Variable lists *)
(** index[] as the allocated buffer, n the number of entries in use; entries not yet written
    are None. variables.c:308-329 (vlalloc, vlfree); grid pointer and time are in Vlalg_model. *)
Record vlist := { vl_buf : list (option Z); vl_n : nat }.
Definition vlalloc : vlist := {| vl_buf := []; vl_n := 0 |}.
Definition realloc_buf (b : list (option Z)) (n : nat) : list (option Z) :=
  firstn n b ++ repeat None (n - List.length b).
Definition vl_get (v : vlist) (i : nat) : res (option Z) :=
  match nth_error (vl_buf v) i with Some x => Ok x | None => UB end.
Definition vl_set (v : vlist) (i : nat) (x : option Z) : res vlist :=
  if i <? List.length (vl_buf v) then Ok {| vl_buf := upd (vl_buf v) i x; vl_n := vl_n v |} else UB.

(** vlpushone, variables.c:335-340 *)
Definition vlpushone (v : vlist) (vi : Z) : res vlist :=
  let n := vl_n v + 1 in
  vl_set {| vl_buf := realloc_buf (vl_buf v) n; vl_n := n |} (n - 1) (Some vi).
(** vlpush, variables.c:346-357 *)
Fixpoint push_loop (k i : nat) (base : nat) (vi : Z) (v : vlist) : res vlist :=
  match k with
  | O => Ok v
  | S k' => do v' <- vl_set v (base + i) (Some (vi + Z.of_nat i)%Z); push_loop k' (S i) base vi v'
  end.
Definition vlpush (s : vstate) (v : vlist) (vi : Z) : res vlist :=
  do n <- VarNComponents s vi;
  do i0 <- IndComponent0 s vi;
  if negb (i0 =? vi)%Z then Err else
  let n := Z.to_nat n in
  let m := vl_n v + n in
  push_loop n 0 (m - n) vi {| vl_buf := realloc_buf (vl_buf v) m; vl_n := m |}.
(** vlpushvl with two different lists, variables.c:363-372 *)
Fixpoint pushvl_loop (k i base : nat) (u v : vlist) : res vlist :=
  match k with
  | O => Ok v
  | S k' => do x <- vl_get u i; do v' <- vl_set v (base + i) x; pushvl_loop k' (S i) base u v'
  end.
Definition vlpushvl (v u : vlist) : res vlist :=
  let n := vl_n v + vl_n u in
  pushvl_loop (vl_n u) 0 (n - vl_n u) u {| vl_buf := realloc_buf (vl_buf v) n; vl_n := n |}.
(** vlpushvl(v,v): u->n has already been doubled when the loop starts and the copy reads from
    the list it writes to (same lines). *)
Fixpoint pushvl_self_loop (k i base : nat) (v : vlist) : res vlist :=
  match k with
  | O => Ok v
  | S k' => do x <- vl_get v i; do v' <- vl_set v (base + i) x; pushvl_self_loop k' (S i) base v'
  end.
Definition vlpushvl_self (v : vlist) : res vlist :=
  let n := vl_n v + vl_n v in
  let v' := {| vl_buf := realloc_buf (vl_buf v) n; vl_n := n |} in
  pushvl_self_loop (vl_n v') 0 (vl_n v' - vl_n v') v'.

(** vldropone, variables.c:378-389: search, then shift *)
Fixpoint shift_loop (k i : nat) (v : vlist) : res vlist :=
  match k with
  | O => Ok v
  | S k' => do x <- vl_get v (i + 1); do v' <- vl_set v i x; shift_loop k' (S i) v'
  end.
Fixpoint drop_loop (k i : nat) (vi : Z) (v : vlist) : res vlist :=
  match k with
  | O => Ok v
  | S k' =>
      do x <- vl_get v i;
      match x with
      | None => UB
      | Some y =>
          if (y =? vi)%Z then
            let v' := {| vl_buf := vl_buf v; vl_n := vl_n v - 1 |} in
            shift_loop (vl_n v' - i) i v'
          else drop_loop k' (S i) vi v
      end
  end.
Definition vldropone (v : vlist) (vi : Z) : res vlist := drop_loop (vl_n v) 0 vi v.
(** vldrop, variables.c:392-398 *)
Fixpoint vldrop_loop (k : nat) (vi : Z) (v : vlist) : res vlist :=
  match k with
  | O => Ok v
  | S k' => do v' <- vldropone v vi; vldrop_loop k' (vi + 1)%Z v'
  end.
Definition vldrop (s : vstate) (v : vlist) (vi : Z) : res vlist :=
  do n <- VarNComponents s vi; vldrop_loop (Z.to_nat n) vi v.
(** vldropn, variables.c:401-409 *)
Definition vldropn (v : vlist) (n : Z) : vlist :=
  if (n <=? 0)%Z then v else
  if (n >=? Z.of_nat (vl_n v))%Z then {| vl_buf := vl_buf v; vl_n := 0 |}
  else {| vl_buf := vl_buf v; vl_n := vl_n v - Z.to_nat n |}.
(** vlduplicate, variables.c:415-426 *)
Fixpoint dup_loop (k i : nat) (v u : vlist) : res vlist :=
  match k with
  | O => Ok u
  | S k' =>
      do x <- vl_get v i;
      match x with
      | None => UB
      | Some y => do u' <- vlpushone u y; dup_loop k' (S i) v u'
      end
  end.
Definition vlduplicate (v : vlist) : res vlist := dup_loop (vl_n v) 0 v vlalloc.

(** AddDuplicate, variables.c:483-543.  The storage allocated at its end is not modelled.
    snprintf(name,1000,...) truncates at 999 characters. *)
Definition copy_info (old new_ : var) : var :=
  {| v_name := v_name new_; v_tens := v_tens old; v_desc := v_desc new_; v_index := v_index new_;
     v_ncomp := v_ncomp old; v_comp := v_comp old; v_bound := v_bound old; v_sym := v_sym old;
     v_const := v_const old |}.
Fixpoint adddup_loop (k i : nat) (vl newvl : vlist) (postfix : str) (s : vstate) : res (vstate * vlist) :=
  match k with
  | O => Ok (s, newvl)
  | S k' =>
      do x <- vl_get vl i;
      match x with
      | None => UB
      | Some vi =>
          do v <- getvar s vi;
          let name := firstn 999 (v_name v ++ postfix) in
          let j := IndLax s name in
          if (j >=? 0)%Z then
            do newvl' <- vl_set newvl i (Some j); adddup_loop k' (S i) vl newvl' postfix s
          else
            do s1 <- AddVar name [] (v_desc v) s;
            do j1 <- Ind s1 name;
            do newvl' <- vl_set newvl i (Some j1);
            do v1 <- getvar s1 vi;
            do w1 <- getvar s1 j1;
            do s2 <- setvar s1 j1 (copy_info v1 w1);
            adddup_loop k' (S i) vl newvl' postfix s2
      end
  end.
Definition AddDuplicate (vl : vlist) (postfix : str) (s : vstate) : res (vstate * vlist) :=
  do newvl <- vlduplicate vl;
  adddup_loop (vl_n vl) 0 vl newvl postfix s.
End VDB.
Arguments cut99 : simpl never.

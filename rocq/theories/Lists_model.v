(** Model of the list templates, src/main/MemoryMan/list_templates.c (instantiated for int in
    lists.c), and of box lists, boxlists.c. *)
From Verif Require Import Base.

Section L.
Variable T : Type.
Variable eqb : T -> T -> bool.       (* == *)

(** LIST(TYP), list_templates.h: e[] is an allocated buffer (entries never written are None),
    n the number of entries in use. *)
Record tlist := { e : list (option T); n : nat }.

Definition lget (v : tlist) (i : nat) : res T :=
  match nth_error (e v) i with Some (Some x) => Ok x | _ => UB end.
Definition lset (v : tlist) (i : nat) (x : T) : res tlist :=
  if i <? List.length (e v) then Ok {| e := upd (e v) i (Some x); n := n v |} else UB.
Definition lrealloc (b : list (option T)) (k : nat) : list (option T) :=
  firstn k b ++ repeat None (k - List.length b).

(** alloc, list_templates.c:24-30 *)
Definition alloc : tlist := {| e := []; n := 0 |}.
(** clear, list_templates.c:44-52 *)
Definition clear (v : tlist) : tlist := {| e := []; n := 0 |}.
(** push, list_templates.c:65-70 *)
Definition push (v : tlist) (vi : T) : res tlist :=
  let m := n v + 1 in lset {| e := lrealloc (e v) m; n := m |} (m - 1) vi.
(** pushlist with two different lists, list_templates.c:73-82 *)
Fixpoint pushlist_loop (k i base : nat) (u v : tlist) : res tlist :=
  match k with
  | O => Ok v
  | S k' => do x <- lget u i; do v' <- lset v (base + i) x; pushlist_loop k' (S i) base u v'
  end.
Definition pushlist (v u : tlist) : res tlist :=
  let m := n v + n u in
  pushlist_loop (n u) 0 (m - n u) u {| e := lrealloc (e v) m; n := m |}.
(** the search loops of unionpush :90, in :160, index :169: first i with e[i]==vi *)
Fixpoint search (k i : nat) (vi : T) (v : tlist) : res (option nat) :=
  match k with
  | O => Ok None
  | S k' => do x <- lget v i; if eqb x vi then Ok (Some i) else search k' (S i) vi v
  end.
(** unionpush, list_templates.c:85-92 *)
Definition unionpush (v : tlist) (vi : T) : res tlist :=
  do f <- search (n v) 0 vi v;
  match f with Some _ => Ok v | None => push v vi end.
(** unionpushlist, list_templates.c:95-99 *)
Fixpoint unionpushlist_loop (k i : nat) (v u : tlist) : res tlist :=
  match k with
  | O => Ok v
  | S k' => do x <- lget u i; do v' <- unionpush v x; unionpushlist_loop k' (S i) v' u
  end.
Definition unionpushlist (v u : tlist) : res tlist := unionpushlist_loop (n u) 0 v u.
(** the shifting loops of dropindex :106 and drop :119-120 *)
Fixpoint shift (k i : nat) (v : tlist) : res tlist :=
  match k with
  | O => Ok v
  | S k' => do x <- lget v (i + 1); do v' <- lset v i x; shift k' (S i) v'
  end.
(** dropindex, list_templates.c:102-108 *)
Definition dropindex (v : tlist) (ind : Z) : res tlist :=
  if (ind <? 0)%Z || (ind >=? Z.of_nat (n v))%Z then Ok v else
  do v' <- shift (n v - 1 - Z.to_nat ind) (Z.to_nat ind) v;
  Ok {| e := e v'; n := n v' - 1 |}.
(** drop, list_templates.c:111-123 *)
Definition drop (v : tlist) (vi : T) : res tlist :=
  do f <- search (n v) 0 vi v;
  match f with
  | None => Ok v
  | Some i => shift (n v - 1 - i) i {| e := e v; n := n v - 1 |}
  end.
(** droplastn, list_templates.c:126-134 *)
Definition droplastn (v : tlist) (k : Z) : tlist :=
  if (k <=? 0)%Z then v else
  if (k >=? Z.of_nat (n v))%Z then {| e := e v; n := 0 |}
  else {| e := e v; n := n v - Z.to_nat k |}.
(** droplist with two different lists, list_templates.c:137-141 *)
Fixpoint droplist_loop (k i : nat) (v u : tlist) : res tlist :=
  match k with
  | O => Ok v
  | S k' => do x <- lget u i; do v' <- drop v x; droplist_loop k' (S i) v' u
  end.
Definition droplist (v u : tlist) : res tlist := droplist_loop (n u) 0 v u.
(** droplist(v,v), same lines: i<u->n is tested with the shrinking n.  [k] bounds the loop. *)
Fixpoint droplist_self_loop (k i : nat) (v : tlist) : res tlist :=
  match k with
  | O => Ok v
  | S k' => if i <? n v then do x <- lget v i; do v' <- drop v x; droplist_self_loop k' (S i) v' else Ok v
  end.
Definition droplist_self (v : tlist) : res tlist := droplist_self_loop (n v) 0 v.
(** duplicate, list_templates.c:144-153 *)
Fixpoint dup_loop (k i : nat) (v u : tlist) : res tlist :=
  match k with
  | O => Ok u
  | S k' => do x <- lget v i; do u' <- push u x; dup_loop k' (S i) v u'
  end.
Definition duplicate (v : tlist) : res tlist := dup_loop (n v) 0 v alloc.
(** in, list_templates.c:156-162 *)
Definition lin (v : tlist) (vi : T) : res bool :=
  do f <- search (n v) 0 vi v; Ok (match f with Some _ => true | None => false end).
(** index, list_templates.c:165-171 *)
Definition lindex (v : tlist) (vi : T) : res Z :=
  do f <- search (n v) 0 vi v; Ok (match f with Some i => Z.of_nat i | None => (-1)%Z end).
(** index_prop, list_templates.c:182-190 *)
Fixpoint search_prop (k i : nat) (p : T -> bool) (v : tlist) : res Z :=
  match k with
  | O => Ok (-1)%Z
  | S k' => do x <- lget v i; if p x then Ok (Z.of_nat i) else search_prop k' (S i) p v
  end.
Definition index_prop (v : tlist) (i0 : Z) (p : T -> bool) : res Z :=
  let i0 := if (i0 <? 0)%Z then 0 else Z.to_nat i0 in
  search_prop (n v - i0) i0 p v.
End L.
Arguments e {T}. Arguments n {T}.

(** * Histories: a program holding any number of lists, addressed by handles.
    When two arguments are the same list the C function works on one object; pushlist and
    droplist then read the list they change. *)
Section Hist.
Variable T : Type.
Variable eqb : T -> T -> bool.
Inductive lop :=
| New | Clear (v : nat) | Push (v : nat) (x : T) | PushList (v u : nat)
| UnionPush (v : nat) (x : T) | UnionPushList (v u : nat)
| DropIndex (v : nat) (i : Z) | Drop (v : nat) (x : T) | DropLastN (v : nat) (k : Z)
| DropList (v u : nat) | Dup (v : nat).
Inductive lq := QIn (v : nat) (x : T) | QIndex (v : nat) (x : T) | QLen (v : nat)
| QEntry (v i : nat) | QProp (v : nat) (i0 : Z) (p : T -> bool).
Inductive lans := AZ (z : Z) | AB (b : bool) | AT (x : T).

(** list_templates.c:73-82 with u==v: v->n (= u->n) is doubled first, then n entries e[i] are
    copied to e[v->n-u->n+i] = e[i]. *)
Fixpoint pushlist_self_loop (k i : nat) (v : tlist T) : res (tlist T) :=
  match k with
  | O => Ok v
  | S k' =>
      match nth_error (e v) i with
      | None => UB
      | Some x => pushlist_self_loop k' (S i) {| e := upd (e v) i x; n := n v |}
      end
  end.
Definition pushlist_self (v : tlist T) : res (tlist T) :=
  let m := n v + n v in pushlist_self_loop m 0 {| e := lrealloc T (e v) m; n := m |}.
(** list_templates.c:95-99 with u==v. *)
Fixpoint unionpushlist_self_loop (fuel i : nat) (v : tlist T) : res (tlist T) :=
  match fuel with
  | O => Ok v
  | S k' => if i <? n v then do x <- lget T v i; do v' <- unionpush T eqb v x; unionpushlist_self_loop k' (S i) v'
            else Ok v
  end.

Definition heap := list (tlist T).
Definition hget (h : heap) (v : nat) : res (tlist T) :=
  match nth_error h v with Some x => Ok x | None => UB end.
Definition hput (h : heap) (v : nat) (r : res (tlist T)) : res heap :=
  do x <- r; Ok (upd h v x).
Definition lstep (h : heap) (o : lop) : res heap :=
  match o with
  | New => Ok (h ++ [alloc T])
  | Clear v => do a <- hget h v; hput h v (Ok (clear T a))
  | Push v x => do a <- hget h v; hput h v (push T a x)
  | PushList v u => do a <- hget h v; do b <- hget h u;
      hput h v (if v =? u then pushlist_self a else pushlist T a b)
  | UnionPush v x => do a <- hget h v; hput h v (unionpush T eqb a x)
  | UnionPushList v u => do a <- hget h v; do b <- hget h u;
      hput h v (if v =? u then unionpushlist_self_loop (n a) 0 a else unionpushlist T eqb a b)
  | DropIndex v i => do a <- hget h v; hput h v (dropindex T a i)
  | Drop v x => do a <- hget h v; hput h v (drop T eqb a x)
  | DropLastN v k => do a <- hget h v; hput h v (Ok (droplastn T a k))
  | DropList v u => do a <- hget h v; do b <- hget h u;
      hput h v (if v =? u then droplist_self T eqb a else droplist T eqb a b)
  | Dup v => do a <- hget h v; do b <- duplicate T a; Ok (h ++ [b])
  end.
Fixpoint lrun (h : heap) (os : list lop) : res heap :=
  match os with [] => Ok h | o :: r => do h' <- lstep h o; lrun h' r end.
Definition lquery (h : heap) (q : lq) : res lans :=
  match q with
  | QIn v x => do a <- hget h v; do b <- lin T eqb a x; Ok (AB b)
  | QIndex v x => do a <- hget h v; do z <- lindex T eqb a x; Ok (AZ z)
  | QLen v => do a <- hget h v; Ok (AZ (Z.of_nat (n a)))
  | QEntry v i => do a <- hget h v; if i <? n a then do x <- lget T a i; Ok (AT x) else Err
  | QProp v i0 p => do a <- hget h v; do z <- index_prop T a i0 p; Ok (AZ z)
  end.
End Hist.

(** * Box lists, src/main/MemoryMan/boxlists.c *)
(** What the functions read of a box: inactive flag, attributes, and for every bface the
    neighbour ob (-1 if there is none). *)
Record bbox := { b_inactive : bool; b_attrib : list Z; b_nb : list Z }.

(** bladd_ifAttrib / bladd_ifnotAttrib, boxlists.c:23-45; [want] tells which of the two. *)
Fixpoint bladd_attr (want : bool) (bs : list bbox) (b : nat) (iAttr : nat) (val : Z) (bl : tlist Z) : res (tlist Z) :=
  match bs with
  | [] => Ok bl
  | x :: r =>
      if b_inactive x then bladd_attr want r (S b) iAttr val bl else
      match nth_error (b_attrib x) iAttr with
      | None => UB
      | Some a =>
          do bl' <- (if Bool.eqb (a =? val)%Z want then push Z bl (Z.of_nat b) else Ok bl);
          bladd_attr want r (S b) iAttr val bl'
      end
  end.
(** bladd_neighbors, boxlists.c:76-92 *)
Fixpoint bladd_neighbors (nbs : list Z) (bl : tlist Z) : res (tlist Z) :=
  match nbs with
  | [] => Ok bl
  | nb :: r =>
      if (nb <? 0)%Z then bladd_neighbors r bl
      else do bl' <- unionpush Z Z.eqb bl nb; bladd_neighbors r bl'
  end.
(** bladd_neighbors_of_neighbors, boxlists.c:95-133 *)
Fixpoint nn_loop (k i : nat) (boxes : list bbox) (bln blnn : tlist Z) : res (tlist Z) :=
  match k with
  | O => Ok blnn
  | S k' =>
      do nb <- lget Z bln i;
      if (nb <? 0)%Z then UB else
      match nth_error boxes (Z.to_nat nb) with
      | None => UB
      | Some box2 =>
          do bln2 <- bladd_neighbors (b_nb box2) (alloc Z);
          do blnn' <- unionpushlist Z Z.eqb blnn bln2;
          nn_loop k' (S i) boxes bln blnn'
      end
  end.
(** bl2_ifAttrib / bl2_ifnotAttrib, boxlists.c:49-73 *)
Fixpoint bl2_attr (k i : nat) (want : bool) (bs : list bbox) (bl1 : tlist Z) (iAttr : nat) (val : Z) (bl2 : tlist Z) : res (tlist Z) :=
  match k with
  | O => Ok bl2
  | S k' =>
      do b <- lget Z bl1 i;
      if (b <? 0)%Z then UB else
      match nth_error bs (Z.to_nat b) with
      | None => UB
      | Some x =>
          match nth_error (b_attrib x) iAttr with
          | None => UB
          | Some a =>
              do bl2' <- (if Bool.eqb (a =? val)%Z want then push Z bl2 b else Ok bl2);
              bl2_attr k' (S i) want bs bl1 iAttr val bl2'
          end
      end
  end.
Definition bladd_neighbors_of_neighbors (boxes : list bbox) (b : nat) (bl : tlist Z) : res (tlist Z) :=
  match nth_error boxes b with
  | None => UB
  | Some box =>
      do bln <- bladd_neighbors (b_nb box) (alloc Z);
      do blnn <- nn_loop (n bln) 0 boxes bln (alloc Z);
      do blnn <- droplist Z Z.eqb blnn bln;
      do blnn <- drop Z Z.eqb blnn (Z.of_nat b);
      pushlist Z bl blnn
  end.

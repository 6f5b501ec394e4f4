(** What histories of calls declare, and what a variable list contains (C05-C07). *)
From Verif Require Import Base Tensors_model Vars_model Vars_spec.

Section Spec.
Variable D : Type.
(** The declarations made by a history. *)
Definition comps_of (t : str) : list str := match tensorindexlist t with Ok (il, _) => il | _ => [] end.
Definition decl_of (o : vop D) : list decl :=
  match o with
  | VAdd _ n t _ => [(n, comps_of t)]
  | VAddConst _ n t _ => [(n, comps_of t)]
  | _ => []
  end.
Definition decls (os : list (vop D)) : list decl := flat_map decl_of os.
Definition no_restart (os : list (vop D)) : Prop := Forall (fun o => o <> VRestart D) os.
End Spec.

(** The list holds exactly the variables l, in this order. *)
Definition vl_is (v : vlist) (l : list Z) : Prop :=
  exists rest, vl_buf v = map Some l ++ rest /\ vl_n v = List.length l.


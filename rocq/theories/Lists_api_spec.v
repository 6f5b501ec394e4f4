(** What the list functions are documented to do, on sequences (C13). *)
From Verif Require Import Base Lists_model Lists_spec.
Section S.
Variable T : Type.
Variable dec : forall a b : T, {a = b} + {a <> b}.
Notation upd := Base.upd.
Definition lists := list (list T).
(** effect of one call on the lists a program holds; None: not a valid handle *)
Definition sstep (h : lists) (o : lop T) : option lists :=
  let on v f := match nth_error h v with Some l => Some (upd h v (f l)) | None => None end in
  let on2 v u f := match nth_error h u with Some m => on v (fun l => f l m) | None => None end in
  match o with
  | New _ => Some (h ++ [[]])
  | Clear _ v => on v (fun _ => [])
  | Push _ v x => on v (fun l => l ++ [x])
  | PushList _ v u => on2 v u (fun l m => l ++ m)
  | UnionPush _ v x => on v (fun l => add_new T dec l x)
  | UnionPushList _ v u => on2 v u (fun l m => fold_left (add_new T dec) m l)
  | DropIndex _ v i => on v (fun l => if (i <? 0)%Z then l else firstn (Z.to_nat i) l ++ skipn (S (Z.to_nat i)) l)
  | Drop _ v x => on v (rem1 T dec x)
  | DropLastN _ v k => on v (fun l => firstn (List.length l - Z.to_nat k) l)
  | DropList _ v u => on2 v u (fun l m => fold_left (fun l x => rem1 T dec x l) m l)
  | Dup _ v => match nth_error h v with Some l => Some (h ++ [l]) | None => None end
  end.
Fixpoint srun (h : lists) (os : list (lop T)) : option lists :=
  match os with [] => Some h | o :: r => match sstep h o with Some h' => srun h' r | None => None end end.
(** pushlist and droplist are not called with the same list twice *)
Definition no_self (o : lop T) : Prop :=
  match o with PushList _ v u => v <> u | DropList _ v u => v <> u | _ => True end.
(** correct answers *)
Definition good_answer (h : lists) (q : lq T) (a : res (lans T)) : Prop :=
  match q with
  | QIn _ v x => forall l, nth_error h v = Some l -> exists b, a = Ok (AB T b) /\ (b = true <-> In x l)
  | QIndex _ v x => forall l, nth_error h v = Some l -> exists z, a = Ok (AZ T z) /\ first_at T (eq x) 0 l z
  | QLen _ v => forall l, nth_error h v = Some l -> a = Ok (AZ T (Z.of_nat (List.length l)))
  | QEntry _ v i => forall l x, nth_error h v = Some l -> nth_error l i = Some x -> a = Ok (AT T x)
  | QProp _ v i0 p => forall l, nth_error h v = Some l ->
      exists z, a = Ok (AZ T z) /\ first_at T (fun x => p x = true) (Z.to_nat i0) l z
  end.
End S.

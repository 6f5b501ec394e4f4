(** Specification of numerical dissipation: the Laplacian of a variable, and when the variables of a box are set up for it. *)
From Verif Require Import Rutil Base Coord_model Coord_spec Cart_model Cart_spec Diss_model.
Local Open Scope R_scope.
Definition works (t : work) : list nat := [wx t; wy t; wz t; wxx t; wxy t; wxz t; wyy t; wyz t; wzz t].
(** the sum of the second Cartesian derivatives, each as the derivative of a first derivative *)
Definition laplacian (b : tbox) (g : gvars) (v : vars) (D : d3 -> list R -> list R) (u : list R) (ijk : nat) : R :=
  S3 (fun m => nth ijk (cart_grad b g v D (cart_grad b g v D u m) m) 0).
(** work variables with storage, different from each other, from the coordinates and from the variables ucs and uns; ucs and uns have storage; no two targets coincide, none is a source *)
Record set_up (b : tbox) (g : gvars) (D : d3 -> list R -> list R) (t : work) (ucs uns : list nat) (v : vars) : Prop := {
  su_len : List.length uns = List.length ucs;
  su_c : forall i, In i ucs -> len v i (nnodes b);
  su_n : forall i, In i uns -> len v i (nnodes b);
  su_nd : NoDup uns;
  su_cn : forall i, In i ucs -> ~ In i uns;
  su_t : forall i, In i (works t) -> v i <> None;
  su_tnd : NoDup (works t);
  su_free : forall i, In i (works t) -> ~ In i ucs /\ ~ In i uns /\ ~ In i (gvar_list g);
  su_ng : forall i, In i uns -> ~ In i (gvar_list g);
  su_D : forall j a, List.length a = nnodes b -> List.length (D j a) = nnodes b;
  su_ready : ready (nnodes b) g v;
  su_tab : forall C, coord b = Some C -> tables_hold (nnodes b) g C v }.
(** the factor in front of the Laplacian *)
Definition strength (dt DissFac dtO : R) : R := if Req_EM_T dt 0 then DissFac * dtO else dt * DissFac * dtO.

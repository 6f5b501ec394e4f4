(** What a checkpoint has to keep (C20). *)
From Verif Require Import Base Params_model Endian_model Endian_spec Ckpt_model.
(** The data of a box at the level of numbers: number of points and the 64-bit words of every stored variable. *)
Record wbox := { w_nnodes : nat; w_v : list (option (list Z)) }.
(** the same box in the memory of a host with this byte order *)
Definition mem (h : bool) (x : wbox) : cbox := {| c_nnodes := w_nnodes x; c_v := map (option_map (array_image h 8)) (w_v x) |}.
Definition int_ok (z : Z) : Prop := (-2147483648 <= z < 2147483648)%Z.
Definition wbox_ok (names : list str) (x : wbox) : Prop :=
  List.length (w_v x) = List.length names /\ int_ok (Z.of_nat (w_nnodes x)) /\
  forall i ws, nth_error (w_v x) i = Some (Some ws) -> List.length ws = w_nnodes x.
(** [ws] are the values of the variable called [n] in box [b], and the variable is among those to be saved *)
Definition saved (names : list str) (xs : list wbox) (vl : list nat) (b : nat) (n : str) (ws : list Z) : Prop :=
  exists x j, nth_error xs b = Some x /\ In j vl /\ nth_error names j = Some n /\ nth_error (w_v x) j = Some (Some ws).
(** a name without white space, '=' and NUL; a value that fits on one line *)
Definition name_ok (n : str) : Prop := n <> [] /\ Forall (fun c => isspace c = false /\ c <> NUL) n /\ (Z.of_nat (List.length n) < 10000)%Z.
Definition line_ok (n v : str) : Prop := name_ok n /\ ~ In cEQ n /\ ~ In cNL v /\ (Z.of_nat (List.length n + 3 + List.length v) < 10000)%Z.
(** arrays of a grid: one for every variable, NULL or with 8 bytes for every point *)
Definition box_ok (names : list str) (x : cbox) : Prop :=
  List.length (c_v x) = List.length names /\ Forall (fun o => match o with None => True | Some buf => List.length buf = 8 * c_nnodes x end) (c_v x).
(** content of the array of variable number [i] in box [b] *)
Definition bytes_at (xs : list cbox) (b i : nat) : option (list byte) :=
  match nth_error xs b with Some x => match nth_error (c_v x) i with Some o => o | None => None end | None => None end.

(** Numbers in memory and in files (C19). *)
From Verif Require Import Base Endian_model.
(** the bytes of a [size]-byte word, least significant first *)
Fixpoint le_bytes (size : nat) (w : Z) : list byte :=
  match size with O => [] | S k => (w mod 256)%Z :: le_bytes k (w / 256)%Z end.
(** its image in the memory of a host *)
Definition image (little : bool) (size : nat) (w : Z) : list byte := if little then le_bytes size w else rev (le_bytes size w).
Definition array_image (little : bool) (size : nat) (ws : list Z) : list byte := flat_map (image little size) ws.
Definition word (size : nat) (w : Z) : Prop := (0 <= w < 256 ^ Z.of_nat size)%Z.

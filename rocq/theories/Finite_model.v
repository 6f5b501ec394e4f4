(** Model of finit, src/main/main/utilities.c:186-203. *)
From Verif Require Import Base.
Local Open Scope Z_scope.
(** [bits] is the content of the union, an unsigned 64-bit integer; lines 199-202 *)
Definition finit (bits : Z) : Z :=
  if Z.lor bits 0x800FFFFFFFFFFFFF =? 0xFFFFFFFFFFFFFFFF then 0 else 1.

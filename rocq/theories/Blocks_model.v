(** Model of the block decomposition macros, src/utility/GridIterators/sgrid_GridIterators.h:6-28. *)
From Verif Require Import Base Index_model.
Local Open Scope Z_scope.

(** activeboxes, src/main/MemoryMan/sgrid_MemoryMan_loops.h:18 *)
Definition activeboxes (g : agrid) : Z := Z.of_nat (List.length (inactive g)) - ninactive g.
(** the indices vi, bi, sbi, sbj, sbk defined in iteration blocki, sgrid_GridIterators.h:8-17 *)
Definition block_indices (g : agrid) (nsb1 nsb2 nsb3 blocki : Z) : Z * Z * Z * Z * Z :=
  let vi := Z.quot blocki (nsb1 * nsb2 * nsb3 * activeboxes g) in
  let acu := blocki - nsb1 * nsb2 * nsb3 * activeboxes g * vi in
  let abi := Z.quot acu (nsb1 * nsb2 * nsb3) in
  let bi := IndexOf_ith_ActiveBox g abi in
  let acu := acu - nsb1 * nsb2 * nsb3 * abi in
  let sbk := Z.quot acu (nsb1 * nsb2) in
  let acu := acu - nsb1 * nsb2 * sbk in
  let sbj := Z.quot acu nsb1 in
  let sbi := acu - nsb1 * sbj in
  (vi, bi, sbi, sbj, sbk).
(** forallVarsBoxesAndSubboxes_defIndices, sgrid_GridIterators.h:6-19; n is vlv->n *)
Definition forallVarsBoxesAndSubboxes (g : agrid) (n nsb1 nsb2 nsb3 : Z) (t : list (Z * Z * Z * Z * Z)) : Prop :=
  cloop (fun blocki => blocki <? nsb1 * nsb2 * nsb3 * activeboxes g * n) Z.succ
        (fun blocki => visit (block_indices g nsb1 nsb2 nsb3 blocki)) 0 t.
(** one direction of IndexRangesInSubbox, sgrid_GridIterators.h:22-28: the range is lo <= i < hi *)
Definition sb_lo (n nsb sb : Z) : Z := Z.quot (sb * n) nsb.
Definition sb_hi (n nsb sb : Z) : Z := Z.quot ((sb + 1) * n) nsb.
(** points of a subbox *)
Definition in_subbox (n1 n2 n3 nsb1 nsb2 nsb3 sbi sbj sbk i j k : Z) : Prop :=
  sb_lo n1 nsb1 sbi <= i < sb_hi n1 nsb1 sbi /\ sb_lo n2 nsb2 sbj <= j < sb_hi n2 nsb2 sbj /\
  sb_lo n3 nsb3 sbk <= k < sb_hi n3 nsb3 sbk.

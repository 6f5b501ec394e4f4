(** Conversions between doubles (modelled by real numbers) and ints. *)
From Coq Require Export Reals Lra Psatz.
From Verif Require Export Base.
Local Open Scope R_scope.
(** (int) x: truncation towards zero *)
Definition Rtrunc (x : R) : Z := if Rle_dec 0 x then Int_part x else (- Int_part (- x))%Z.
Lemma Int_part_spec x k : Int_part x = k <-> IZR k <= x < IZR k + 1.
Proof.
  split.
  - intros <-. destruct (base_Int_part x). lra.
  - intros [H1 H2]. destruct (base_Int_part x) as [A B].
    assert (IZR (Int_part x) < IZR (k + 1)) by (rewrite plus_IZR; lra). assert (IZR k < IZR (Int_part x + 1)) by (rewrite plus_IZR; lra).
    apply lt_IZR in H, H0. lia.
Qed.
Lemma Rtrunc_nonneg x k : 0 <= x -> Rtrunc x = k <-> IZR k <= x < IZR k + 1.
Proof. intros H. unfold Rtrunc. destruct (Rle_dec 0 x); [|contradiction]. apply Int_part_spec. Qed.
Lemma Rtrunc_IZR k : Rtrunc (IZR k) = k.
Proof.
  unfold Rtrunc. destruct (Rle_dec 0 (IZR k)).
  - apply Int_part_spec. lra.
  - rewrite <- opp_IZR. replace (Int_part (IZR (- k))) with (- k)%Z; [lia|]. symmetry. apply Int_part_spec. lra.
Qed.

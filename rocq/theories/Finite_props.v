(** C47: finit tells finite numbers from infinities and NaNs.  The meaning of bit patterns is taken from
    Flocq's formalisation of IEEE 754 binary64. *)
From Flocq Require Import Core.Zaux IEEE754.Binary IEEE754.Bits.
From Verif Require Import Base Finite_model.
Local Open Scope Z_scope.

Lemma expo_bits w : 0 <= w < 2 ^ 64 -> Z.lor w 0x800FFFFFFFFFFFFF = 0xFFFFFFFFFFFFFFFF <-> (w / 2 ^ 52) mod 2 ^ 11 = 2047.
Proof.
  intros H. split.
  - intros E. change 2047 with (Z.ones 11). rewrite <- Z.land_ones by lia. apply Z.bits_inj'. intros n Hn. rewrite Z.land_spec.
    destruct (Z.ltb_spec n 11).
    + rewrite Z.ones_spec_low by lia. rewrite andb_true_r. rewrite <- Z.shiftr_div_pow2, Z.shiftr_spec by lia.
      assert (T : Z.testbit (Z.lor w 0x800FFFFFFFFFFFFF) (n + 52) = Z.testbit 0xFFFFFFFFFFFFFFFF (n + 52)) by now rewrite E.
      rewrite Z.lor_spec in T. assert (C : n = 0 \/ n = 1 \/ n = 2 \/ n = 3 \/ n = 4 \/ n = 5 \/ n = 6 \/ n = 7 \/ n = 8 \/ n = 9 \/ n = 10) by lia.
      destruct C as [-> |[-> |[-> |[-> |[-> |[-> |[-> |[-> |[-> |[-> | ->]]]]]]]]]]; cbn [Z.add Pos.add Pos.succ Pos.add_carry] in *;
        match type of T with (Z.testbit w ?k || Z.testbit ?a ?k)%bool = Z.testbit ?b ?k =>
          change (Z.testbit a k) with false in T; change (Z.testbit b k) with true in T; rewrite orb_false_r in T; exact T end.
    + rewrite Z.ones_spec_high by lia. now rewrite andb_false_r.
  - intros E. apply Z.bits_inj'. intros n Hn. rewrite Z.lor_spec.
    change 0xFFFFFFFFFFFFFFFF with (Z.ones 64). change 0x800FFFFFFFFFFFFF with (Z.lor (Z.ones 52) (Z.shiftl 1 63)). rewrite Z.lor_spec.
    destruct (Z.ltb_spec n 64) as [L|L].
    + rewrite (Z.ones_spec_low 64) by lia. destruct (Z.ltb_spec n 52).
      * rewrite Z.ones_spec_low by lia. now rewrite !orb_true_l, orb_true_r.
      * destruct (Z.eq_dec n 63) as [->|NE]; [reflexivity || (change (Z.testbit (Z.shiftl 1 63) 63) with true; now rewrite !orb_true_r)|].
        assert (T : Z.testbit ((w / 2 ^ 52) mod 2 ^ 11) (n - 52) = true). { rewrite E. change 2047 with (Z.ones 11). apply Z.ones_spec_low. lia. }
        rewrite Z.mod_pow2_bits_low in T by lia. rewrite <- Z.shiftr_div_pow2, Z.shiftr_spec in T by lia.
        replace (n - 52 + 52) with n in T by lia. now rewrite T.
    + rewrite (Z.ones_spec_high 64) by lia. rewrite (Z.ones_spec_high 52) by lia. rewrite Z.shiftl_spec by lia.
      replace (Z.testbit 1 (n - 63)) with false by (symmetry; apply Z.bits_above_log2; simpl; lia).
      rewrite !orb_false_r. destruct (Z.eq_dec w 0) as [->|NZ]; [apply Z.testbit_0_l|]. apply Z.bits_above_log2; [lia|].
      apply Z.log2_lt_pow2; [lia|]. apply Z.lt_le_trans with (2 ^ 64); [lia|]. apply Z.pow_le_mono_r; lia.
Qed.
(** finit(x) is 0 exactly if the double with these bits is an infinity or a NaN, for all 2^64 bit patterns. *)
Theorem C47_finit w : 0 <= w < 2 ^ 64 -> finit w = (if is_finite 53 1024 (b64_of_bits w) then 1 else 0).
Proof.
  intros H. unfold finit. destruct (Z.eqb_spec (Z.lor w 0x800FFFFFFFFFFFFF) 0xFFFFFFFFFFFFFFFF) as [E|E]; rewrite (expo_bits w H) in E.
  - unfold b64_of_bits, binary_float_of_bits. rewrite is_finite_FF2B. unfold binary_float_of_bits_aux, split_bits. cbv zeta.
    change (Z.pow_pos 2) with (Z.pow_pos 2). change (2 ^ 52) with (Zpower 2 52) in E. change (2 ^ 11) with (Zpower 2 11) in E. rewrite E.
    cbn [Zeq_bool Z.compare]. replace (Zeq_bool 2047 (2 ^ 11 - 1)) with true by reflexivity. now destruct (w mod 2 ^ 52).
  - unfold b64_of_bits, binary_float_of_bits. rewrite is_finite_FF2B. unfold binary_float_of_bits_aux, split_bits. cbv zeta.
    destruct (Zeq_bool_spec ((w / 2 ^ 52) mod 2 ^ 11) 0).
    + pose proof (Z.mod_pos_bound w (2 ^ 52) ltac:(lia)). destruct (w mod 2 ^ 52); try reflexivity. lia.
    + destruct (Zeq_bool_spec ((w / 2 ^ 52) mod 2 ^ 11) (2 ^ 11 - 1)) as [Q|Q]; [exfalso; apply E; rewrite Q; reflexivity|].
      pose proof (Z.mod_pos_bound w (2 ^ 52) ltac:(lia)). assert (0 < w mod 2 ^ 52 + 2 ^ 52) by lia.
      destruct (w mod 2 ^ 52 + 2 ^ 52); try lia. reflexivity.
Qed.
Print Assumptions C47_finit.
(** every double has a bit pattern in this range *)
Theorem C47_finit_double (x : binary64) : finit (bits_of_b64 x) = (if is_finite 53 1024 x then 1 else 0).
Proof.
  rewrite C47_finit. { unfold b64_of_bits, bits_of_b64. now rewrite binary_float_of_bits_of_binary_float. }
  apply (bits_of_binary_float_range 52 11); reflexivity.
Qed.
Print Assumptions C47_finit_double.
Example C47_example : finit 0x7FF0000000000000 = 0 /\ finit 0x7FF8000000000001 = 0 /\ finit 0xFFF0000000000000 = 0 /\ finit 0x7FEFFFFFFFFFFFFF = 1 /\ finit 1 = 1.
Proof. repeat split. Qed.

(** Property C08: tensor index strings. *)
From Verif Require Import Base Tensors_model Tensors_spec Tensors_proofs.

(** All documented index strings but one are understood (in any mixture of upper and lower
    case), their component lists are exactly the independent components, and except for
    "(ab)(ij)" the reflection signs count the indices. *)
Theorem C08_tensors_partial : forall t T,
  In (lower t, T) documented -> lower t <> S_ "qrst+qrts+rqst+rqts" ->
  exists comps sym,
    tensorindexlist t = Ok (comps, sym) /\ components_ok T comps /\
    List.length sym = 3 * List.length comps /\
    (lower t <> S_ "(ab)(ij)" ->
     forall j d, j < List.length comps -> d < 3 ->
       sym_of sym j d = parity (count_dir d (nth j comps []))).
Proof. exact til_documented. Qed.
Print Assumptions C08_tensors_partial.

(** Any other string, apart from three with a stray ')', is a fatal error. *)
Theorem C08_unknown_string : forall t,
  ~ In (lower t) (map fst documented) -> ~ In (lower t) (map fst stray) ->
  tensorindexlist t = Err.
Proof.
  intros t H1 H2. apply til_unknown. intros H. apply recognised_documented in H. tauto.
Qed.
Print Assumptions C08_unknown_string.

(** The signs of "(ab)(ij)" are wrong: a component without any x index changes sign in x. *)
Theorem C08_sign_refuted : exists comps sym j,
  tensorindexlist (S_ "(ab)(ij)") = Ok (comps, sym) /\
  nth j comps [] = S_ "txyy" /\ count_dir 0 (S_ "txyy") = 1 /\ sym_of sym j 0 = 1%Z.
Proof. eexists _, _, 9. split; [vm_compute; reflexivity|]. vm_compute. auto. Qed.
Print Assumptions C08_sign_refuted.

(** A spelling listed in the program's own help text is rejected. *)
Theorem C08_documented_spelling_refuted : exists T,
  In (S_ "qrst+qrts+rqst+rqts", T) documented /\ tensorindexlist (S_ "qrst+qrts+rqst+rqts") = Err.
Proof. eexists. split; [|vm_compute; reflexivity]. unfold documented. do 37 right. left. reflexivity. Qed.
Print Assumptions C08_documented_spelling_refuted.

Example C08_example : exists sym, tensorindexlist (S_ "I(jk)") = Ok
  (map S_ ["xxx";"xxy";"xxz";"xyy";"xyz";"xzz";"yxx";"yxy";"yxz";"yyy";"yyz";"yzz";
           "zxx";"zxy";"zxz";"zyy";"zyz";"zzz"]%string, sym) /\ In (lower (S_ "I(jk)"), T1 "ijk" 1) documented
  /\ sym_of sym 4 1 = (-1)%Z.
Proof. eexists. split; [vm_compute; reflexivity|]. split; [|reflexivity]. unfold documented. do 8 right. left. reflexivity. Qed.

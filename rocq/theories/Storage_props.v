(** C11: storage of grid variables. *)
From Verif Require Import Base Storage_model Storage_spec Storage_proofs.

(** After any history of grid creation, enabling, disabling, writing and freeing: the program never
    does an invalid access or double free, the data of every variable in every box is the
    abstract map's data (so enabling is idempotent, keeps data, zeroes new data, and no two
    variables share memory), the number of live blocks equals the number of variables with storage
    (no leak), and the library's counter is that number. *)
Theorem C11_storage : forall V (zero : V) os s',
  hist V zero (s0 V) os s' ->
  exists w, srun V zero os (w0 V) = Ok w
    /\ (forall g b i, here V s' g b i -> look V g b i w = Ok (val V s' g b i))
    /\ (forall g b i, ~ here V s' g b i -> val V s' g b i = None)
    /\ (forall L, NoDup L -> (forall g b i, In (g, b, i) L <-> exists d, val V s' g b i = Some d) ->
          live V w = List.length L /\ nen V w = Z.of_nat (List.length L)).
Proof.
  intros V zero os s' H. destruct (run_ok V zero os _ _ _ (Inv0 V) H) as (w & E & I). exists w. split; auto. repeat split.
  - intros g b i Hh. apply (here_get V w s' g b i (I_sh _ _ _ I)) in Hh. destruct Hh as (p & Ep).
    pose proof (I_val _ _ _ I g b i) as Q. unfold look. rewrite Ep in *. cbn [rbind]. destruct p as [p|].
    + destruct Q as (d & -> & -> & _). reflexivity.
    + now rewrite Q.
  - apply (I_none _ _ _ I).
  - pose proof (count_ok V w s' L I H0 H1) as C. rewrite (I_cnt _ _ _ I) in C. lia.
  - now apply (count_ok V w s').
Qed.
Print Assumptions C11_storage.

(** Freeing every grid gives back all memory. *)
Theorem C11_no_leak : forall V (zero : V) os s',
  hist V zero (s0 V) os s' -> (forall g, nth_error (shape V s') g <> None -> nth_error (shape V s') g = Some None) ->
  exists w, srun V zero os (w0 V) = Ok w /\ live V w = 0 /\ nen V w = 0%Z.
Proof.
  intros V zero os s' H F. destruct (C11_storage V zero os s' H) as (w & E & _ & N & C). exists w. split; auto.
  destruct (C [] (NoDup_nil _)); auto. intros g b i. split; [intros []|]. intros (d & D).
  rewrite N in D; [discriminate|]. intros (nv & sz & S & _). specialize (F g). rewrite S in F. specialize (F ltac:(discriminate)). discriminate.
Qed.
Print Assumptions C11_no_leak.

(** Grids with different numbers of variables or boxes are refused, before any change. *)
Theorem C11_samevars_mismatch : forall V (zero : V) os s' g g2 nv sz nv2 sz2,
  hist V zero (s0 V) os s' ->
  nth_error (shape V s') g = Some (Some (nv, sz)) -> nth_error (shape V s') g2 = Some (Some (nv2, sz2)) ->
  nv <> nv2 \/ List.length sz <> List.length sz2 ->
  srun V zero (os ++ [EnSame V g g2]) (w0 V) = Err.
Proof.
  intros V zero os s' g g2 nv sz nv2 sz2 H E1 E2 NE. destruct (run_ok V zero os _ _ _ (Inv0 V) H) as (w & E & I).
  assert (R : forall l1 l2 x y, srun V zero l1 x = Ok y -> srun V zero (l1 ++ l2) x = srun V zero l2 y).
  { induction l1 as [|o l1 IH]; intros l2 x y; cbn [srun app]. { intros Q. injection Q as ->. reflexivity. }
    destruct (sstep V zero o x); cbn [rbind]; try discriminate. apply IH. }
  rewrite (R _ _ _ _ E). cbn [srun sstep]. unfold enablesamevars, get_grid.
  pose proof (I_sh _ _ _ I g) as A1. pose proof (I_sh _ _ _ I g2) as A2. rewrite E1 in A1. rewrite E2 in A2. unfold sh_ok in *.
  destruct (nth_error (grids V w) g) as [[gr|]|]; try contradiction.
  destruct (nth_error (grids V w) g2) as [[gr2|]|]; try contradiction. cbn [rbind].
  destruct A1 as (<- & <- & _), A2 as (<- & <- & _). rewrite !map_length in NE.
  destruct (Nat.eqb_spec (nvars gr) (nvars gr2)); cbn [negb]; auto.
  destruct (Nat.eqb_spec (List.length (boxes gr)) (List.length (boxes gr2))); cbn [negb]; auto. destruct NE; contradiction.
Qed.
Print Assumptions C11_samevars_mismatch.

(** a history with two grids, a write, a copy of the layout, a repeated enable and a free *)
Definition hist_ex : list (sop nat) :=
  [NewGrid _ 3 [2; 1]; EnVar _ 0 0 2; Write _ 0 0 1 1 7; EnComp _ 0 1; NewGrid _ 3 [1; 2]; EnSame _ 0 1;
   DisBoxComp _ 0 1 1; ReallocVars _ 1 5; EnList _ 1 [4; 0]; FreeGrid _ 0].
Example C11_example : exists s', hist nat 0 (s0 nat) hist_ex s' /\
  val _ s' 1 1 4 = Some [0; 0] /\ val _ s' 0 0 1 = None /\ here _ s' 1 1 4.
Proof.
  eexists. split.
  - unfold hist_ex. eapply h_cons. { exact I. } eapply h_cons. { exists 3, [2; 1]. split; [reflexivity|lia]. }
    eapply h_cons. { exists [0; 0]. split; [reflexivity|simpl; lia]. }
    eapply h_cons. { exists 3, [2; 1]. split; [reflexivity|lia]. } eapply h_cons. { exact I. }
    eapply h_cons. { exists 3, [2; 1], [1; 2]. repeat split; reflexivity. }
    eapply h_cons. { exists 3, [2; 1]. repeat split; simpl; lia. }
    eapply h_cons. { exists 3, [1; 2]. split; [reflexivity|lia]. }
    eapply h_cons. { exists 5, [1; 2]. split; [reflexivity|]. intros i [<- | [<- | []]]; lia. }
    eapply h_cons. { exists (3, [2; 1]). reflexivity. } apply h_nil.
  - unfold here. simpl. split; auto. split; auto. exists 5, [1; 2]. simpl. repeat split; auto; lia.
Qed.

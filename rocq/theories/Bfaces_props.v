(** C12: box-face lists. *)
From Verif Require Import Base Bfaces_model Bfaces_spec Bfaces_proofs.

(** After any history of calls on any number of boxes: no invalid access happens, every call returns
    what the abstract sequence says, box b has exactly as many faces as its abstract sequence, the
    i-th face stores its box b, its own position i, and the abstract contents; every face record in
    memory belongs to exactly one position of one box (nothing leaks and nothing is shared). *)
Theorem C12_bfaces : forall nboxes os s' xs,
  bhist (repeat [] nboxes) os s' xs ->
  exists w, brun os (bw0 nboxes) = Ok (w, xs)
  /\ (forall b l, nth_error s' b = Some l ->
        (exists a, arr w b = Ok a /\ List.length a = List.length l) /\
        forall i x, nth_error l i = Some x -> exists f, bface b i w = Ok f /\ fb f = b /\ ffi f = i /\
          ff f = a_f x /\ fob f = a_ob x /\ fofi f = a_ofi x /\ fpts f = a_pts x)
  /\ (forall p f, nth_error (fheap w) p = Some (Some f) ->
        exists b a i, arr w b = Ok a /\ nth_error a i = Some p /\
          forall b' a' i', arr w b' = Ok a' -> nth_error a' i' = Some p -> b' = b /\ i' = i).
Proof.
  intros nboxes os s' xs H. destruct (brun_ok os _ _ _ _ (Binv0 nboxes) H) as (w & R & I). exists w. split; auto. split.
  - intros b l E. destruct (arr_box _ _ _ _ I E) as (a & Ea & La). unfold bface, arr. rewrite Ea. split; [eauto|]. intros i x Ex.
    cbn [rbind]. unfold at_. destruct (nth_error a i) as [p|] eqn:Ep. 2:{ apply nth_error_None in Ep. apply nth_lt in Ex. lia. }
    cbn [rbind]. destruct (B_ok _ _ I _ _ _ _ _ _ Ea E Ep Ex) as (f & Ef & Hf). unfold fget. rewrite Ef. exists f. split; auto.
  - intros p f Ep. destruct (B_own _ _ I p f Ep) as (b & a & Ea & Hin). apply In_nth_error in Hin. destruct Hin as (i & Ei).
    exists b, a, i. unfold arr. rewrite Ea. split; auto. split; auto. intros b' a' i' E' Ei'.
    destruct (nth_error (arrs w) b') as [a''|] eqn:Eb; [|discriminate]. injection E' as ->.
    destruct (B_inj _ _ I _ _ _ _ _ _ _ Eb Ea Ei' Ei). auto.
Qed.
Print Assumptions C12_bfaces.

(** Removing keeps the others in their order: the sequence afterwards is the old one with the face
    (or all faces without points) left out. *)
Theorem C12_remove_order : forall (l : list aface) i, i < List.length l ->
  (forall j, nth_error (without i l) j = nth_error l (if j <? i then j else S j)) /\ S (List.length (without i l)) = List.length l.
Proof.
  intros l i H. destruct (split_at l i H) as (pre & x & post & -> & <-). rewrite without_mid. split.
  - intros j. destruct (Nat.ltb_spec j (List.length pre)).
    + now rewrite !nth_error_app1 by lia.
    + rewrite nth_error_app2, (nth_error_app2 pre (x :: post)) by lia. replace (S j - List.length pre) with (S (j - List.length pre)) by lia. reflexivity.
  - rewrite !app_length. simpl. lia.
Qed.
Print Assumptions C12_remove_order.

(** The index a face of another box stores (ofi) is not adjusted when a face is removed: box 0's
    face 0 refers to face 1 of box 1 (the one with point 7); after removing face 0 of box 1 there is
    no face 1. *)
Theorem C12_other_index_stale_refuted : exists os w xs f,
  brun os (bw0 2) = Ok (w, xs) /\ bface 0 0 w = Ok f /\ fob f = 1%Z /\ fofi f = 1%Z /\ bface 1 1 w = UB /\
  exists g, bface 1 0 w = Ok g /\ fpts g = Some [7].
Proof.
  exists [AddPoint 0 (-1) 3 0; AddFace 1 2; AddPoint 1 (-1) 7 5; SetOther 0 0 1 1; RmEmpty 1]. do 3 eexists. repeat split; try reflexivity. eexists. split; reflexivity.
Qed.
Print Assumptions C12_other_index_stale_refuted.

Example C12_example : exists s' xs, bhist (repeat [] 2)
  [AddFace 1 4; AddPoint 1 (-1) 3 0; AddPoint 1 1 4 2; RmFace 1 7; AddPoint 0 5 9 1; RmEmpty 1; SetOther 1 0 0 0; RmFace 0 0] s' xs
  /\ s' = [[]; [{| a_f := -1; a_ob := 0; a_ofi := 0; a_pts := Some [3; 4] |}]] /\ xs = [0; 1; 1; 0; 0; 1; 0; 1].
Proof.
  do 2 eexists. split; [|split; [reflexivity|reflexivity]].
  repeat (eapply bh_cons; [reflexivity|simpl; auto; lia|reflexivity|]). apply bh_nil.
Qed.

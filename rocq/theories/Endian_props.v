(** C19: binary files do not depend on the byte order of the host. *)
From Verif Require Import Base Loops Endian_model Endian_spec Flatten_props.

Lemma le_len size w : List.length (le_bytes size w) = size.
Proof. revert w. induction size; intros; cbn; auto. Qed.
Lemma image_len h size w : List.length (image h size w) = size.
Proof. unfold image. destruct h; rewrite ?rev_length; apply le_len. Qed.
Lemma array_len h size ws : List.length (array_image h size ws) = size * List.length ws.
Proof. apply flat_uniform_len. intros. apply image_len. Qed.
Lemma le_inj size : forall w w', word size w -> word size w' -> le_bytes size w = le_bytes size w' -> w = w'.
Proof.
  induction size as [|k IH]; intros w w' H H' E; unfold word in *; cbn [le_bytes] in E.
  - change (Z.of_nat 0) with 0%Z in *. lia.
  - injection E as E1 E2. apply IH in E2.
    + rewrite (Z.div_mod w 256), (Z.div_mod w' 256) by lia. congruence.
    + rewrite Nat2Z.inj_succ, Z.pow_succ_r in H by lia. split; [apply Z.div_pos; lia|apply Z.div_lt_upper_bound; lia].
    + rewrite Nat2Z.inj_succ, Z.pow_succ_r in H' by lia. split; [apply Z.div_pos; lia|apply Z.div_lt_upper_bound; lia].
Qed.
(** An image determines the word: nothing is lost. *)
Theorem C19_image_injective h size w w' : word size w -> word size w' -> image h size w = image h size w' -> w = w'.
Proof.
  intros H H' E. apply (le_inj size); auto. unfold image in E. destruct h; auto. rewrite <- (rev_involutive (le_bytes size w)), E. apply rev_involutive.
Qed.
Lemma image_rev h size w : image (negb h) size w = rev (image h size w).
Proof. unfold image. destruct h; cbn; auto. now rewrite rev_involutive. Qed.
Lemma array_cons h size w ws : array_image h size (w :: ws) = image h size w ++ array_image h size ws.
Proof. reflexivity. Qed.

(** filling an array from 0 to n-1 *)
Lemma fill (g : nat -> option byte) n c : List.length c = n -> (forall b, b < n -> g b <> None) ->
  forall l, List.length l = n -> (forall b, b < n -> nth_error l b = g b) ->
  for_nat 0 n (fun b c => do x <- (match g b with Some x => Ok x | None => UB end); setb c b x) c = Ok l.
Proof.
  intros Lc G l Ll Hl.
  destruct (for_nat_inv (fun i c => List.length c = n /\ forall b, b < i -> nth_error c b = nth_error l b)
    (fun b c => do x <- (match g b with Some x => Ok x | None => UB end); setb c b x) 0 n c) as (c' & E & L' & H'); [lia|split; auto; intros; lia| |].
  - intros i s Hi (Ls & Hs). specialize (G i ltac:(lia)). destruct (g i) as [x|] eqn:Q; [|contradiction]. cbn [rbind]. unfold setb.
    replace (i <? List.length s) with true by (symmetry; apply Nat.ltb_lt; lia). eexists. split; [reflexivity|]. rewrite upd_length. split; auto.
    intros b Hb. destruct (Nat.eq_dec b i) as [->|NE].
    + rewrite nth_error_upd_eq by lia. rewrite Hl by lia. auto.
    + rewrite nth_error_upd_ne by lia. apply Hs. lia.
  - rewrite E. f_equal. apply Flatten_proofs.list_ext; [lia|]. intros k Hk. apply H'. lia.
Qed.
Lemma nth_rev (l : list byte) b : b < List.length l -> nth_error (rev l) b = nth_error l (List.length l - 1 - b).
Proof.
  intros H. rewrite (nth_error_nth' (rev l) 0%Z) by (now rewrite rev_length). rewrite (nth_error_nth' l 0%Z) by lia.
  rewrite rev_nth by auto. do 2 f_equal. lia.
Qed.
Lemma split_word size (ptr : list byte) i n : size * n <= List.length ptr -> i < n ->
  exists w, List.length w = size /\ firstn (size * (i + 1)) ptr = firstn (size * i) ptr ++ w /\ forall b, b < size -> nth_error ptr (i * size + b) = nth_error w b.
Proof.
  intros L Hi. exists (firstn size (skipn (size * i) ptr)).
  assert (L2 : List.length (firstn size (skipn (size * i) ptr)) = size) by (rewrite firstn_length, skipn_length; nia).
  split; auto. split.
  - rewrite <- (firstn_skipn (size * i) ptr) at 1. rewrite firstn_app, firstn_length.
    replace (Nat.min (size * i) (List.length ptr)) with (size * i) by nia. rewrite firstn_all2 by (rewrite firstn_length; nia). do 2 f_equal. nia.
  - intros b Hb. rewrite <- (firstn_skipn (size * i) ptr) at 1. rewrite nth_error_app2; rewrite firstn_length; replace (Nat.min (size * i) (List.length ptr)) with (size * i) by nia; [|nia].
    replace (i * size + b - size * i) with b by nia. rewrite <- (firstn_skipn size (skipn (size * i) ptr)) at 1. apply nth_error_app1. lia.
Qed.
Lemma swap_write size c0 ws h f : 0 < size -> List.length c0 = size ->
  SGRID_fwrite_swapbytes c0 (array_image h size ws) size (List.length ws) f = Ok (List.length ws, f ++ array_image (negb h) size ws).
Proof.
  intros P L. unfold SGRID_fwrite_swapbytes.
  set (body := fun i s => _). 
  assert (LA := array_len h size ws). assert (LA' := array_len (negb h) size ws).
  destruct (for_nat_inv (fun i s => let '(c, count, f') := s in List.length c = size /\ count = size * i /\ f' = f ++ firstn (size * i) (array_image (negb h) size ws))
    body 0 (List.length ws) (c0, 0, f)) as ([[c count] f'] & E & Lc & Hc & Hf); [lia| | |].
  - rewrite Nat.mul_0_r. cbn [firstn]. rewrite app_nil_r. auto.
  - intros i [[c count] f'] Hi (Lc & Hc & Hf). unfold body.
    destruct (nth_error ws i) as [w|] eqn:Ew; [|apply nth_error_None in Ew; lia].
    assert (W : forall hh b, b < size -> nth_error (array_image hh size ws) (i * size + b) = nth_error (image hh size w) b).
    { intros hh b Hb. rewrite (Nat.mul_comm i size). apply flat_uniform; auto. intros. apply image_len. }
    assert (FI : for_nat 0 size (fun b c => do x <- getb (array_image h size ws) (i * size + (size - 1 - b)); setb c b x) c = Ok (image (negb h) size w)).
    { etransitivity; [|apply (fill (fun b => nth_error (image (negb h) size w) b) size c Lc)]; auto.
      - apply forl_ext. intros b s Hb. apply in_seq in Hb. unfold getb. rewrite W by lia. rewrite image_rev, nth_rev; rewrite image_len; [reflexivity|lia].
      - intros b Hb. rewrite nth_error_Some. rewrite image_len. lia.
      - apply image_len. }
    rewrite FI.
    cbn [rbind]. unfold fwrite. rewrite image_len, Nat.mul_1_l, Nat.leb_refl. cbn [rbind fst snd].
    eexists. split; [reflexivity|]. split; [apply image_len|]. split; [nia|]. rewrite firstn_all2 by (rewrite image_len; lia). rewrite Hf, <- app_assoc. f_equal.
    destruct (split_word size (array_image (negb h) size ws) i (List.length ws)) as (w' & Lw & Sp & N); [lia|lia|]. rewrite Sp. f_equal.
    apply Flatten_proofs.list_ext; [rewrite image_len; lia|]. intros b Hb. rewrite image_len in Hb. rewrite <- N by lia. now rewrite W.
  - etransitivity; [exact (f_equal (fun r => do s <- r; let '(_, count, f') := s in Ok (count / size, f')) E)|]. cbn [rbind]. f_equal. f_equal; [subst count; rewrite Nat.mul_comm; apply Nat.div_mul; lia|]. rewrite Hf. f_equal. apply firstn_all2. lia.
Qed.
Lemma plain_write size ws h f : fwrite (array_image h size ws) size (List.length ws) f = Ok (List.length ws, f ++ array_image h size ws).
Proof. unfold fwrite. rewrite array_len, Nat.leb_refl. rewrite firstn_all2 by (rewrite array_len; lia). reflexivity. Qed.
(** The bytes appended to the file are the same on every host; all elements are counted. *)
Theorem C19_write_portable little c0 size ws f : 0 < size -> List.length c0 = size ->
  SGRID_fwrite_little little c0 (array_image little size ws) size (List.length ws) f = Ok (List.length ws, f ++ array_image true size ws) /\
  SGRID_fwrite_big little c0 (array_image little size ws) size (List.length ws) f = Ok (List.length ws, f ++ array_image false size ws).
Proof.
  intros P L. unfold SGRID_fwrite_little, SGRID_fwrite_big. destruct little; cbn [negb]; split; try apply plain_write; [now apply (swap_write size c0 ws true f)|now apply (swap_write size c0 ws false f)].
Qed.
Print Assumptions C19_write_portable.

(** reading: the file contains k complete elements and possibly a piece of another one *)
Lemma plain_read size ws h buf n rest : 0 < size -> List.length buf = size * n ->
  (List.length ws = n \/ List.length ws < n /\ List.length rest < size) ->
  exists buf' f', fread buf size n (array_image h size ws ++ rest) = Ok (List.length ws, buf', f') /\ List.length buf' = size * n /\
    firstn (size * List.length ws) buf' = array_image h size ws /\ (List.length ws = n -> f' = rest).
Proof.
  intros P L C. unfold fread. rewrite (proj2 (Nat.leb_le _ _)) by lia. replace (size =? 0) with false by (symmetry; apply Nat.eqb_neq; lia).
  assert (LA := array_len h size ws). destruct C as [E|(Lt & Lr)].
  - rewrite firstn_app. replace (size * n - List.length (array_image h size ws)) with 0 by nia. cbn [firstn]. rewrite app_nil_r.
    rewrite firstn_all2 by nia. rewrite LA. do 2 eexists. split; [rewrite Nat.mul_comm, Nat.div_mul by lia; reflexivity|]. split; [|split].
    + rewrite app_length, skipn_length. nia.
    + rewrite firstn_app, <- LA, firstn_all, Nat.sub_diag. cbn [firstn]. apply app_nil_r.
    + intros _. rewrite skipn_app. rewrite skipn_all2 by nia. replace (size * n - List.length (array_image h size ws)) with 0 by nia. reflexivity.
  - rewrite (firstn_all2 (array_image h size ws ++ rest)) by (rewrite app_length; nia). do 2 eexists. split; [|split; [|split]].
    + rewrite app_length, LA. replace ((size * List.length ws + List.length rest) / size) with (List.length ws); [reflexivity|].
      rewrite (Nat.mul_comm size), Nat.div_add_l by lia. rewrite Nat.div_small by lia. lia.
    + rewrite app_length, skipn_length, app_length. nia.
    + rewrite <- app_assoc, firstn_app, <- LA, firstn_all, Nat.sub_diag. cbn [firstn]. apply app_nil_r.
    + lia.
Qed.
Lemma skipn_skipn_ {A} (l : list A) a b : skipn a (skipn b l) = skipn (b + a) l.
Proof. revert l. induction b as [|b IH]; intros [|x l]; cbn; auto. now rewrite skipn_nil. Qed.
Lemma firstn_cat {A} (a b : list A) n : List.length a = n -> firstn n (a ++ b) = a.
Proof. intros <-. rewrite firstn_app, Nat.sub_diag, firstn_all. apply app_nil_r. Qed.
(** writing one element into the buffer *)
Lemma fill_at (g : nat -> res byte) size off buf w : off + size <= List.length buf -> List.length w = size -> (forall b, b < size -> exists x, g b = Ok x /\ nth_error w b = Some x) ->
  for_nat 0 size (fun b buf => do x <- g b; setb buf (off + b) x) buf = Ok (firstn off buf ++ w ++ skipn (off + size) buf).
Proof.
  intros L Lw G.
  destruct (for_nat_inv (fun i s => List.length s = List.length buf /\ forall k, nth_error s k = if (off <=? k) && (k <? off + i) then nth_error w (k - off) else nth_error buf k)
    (fun b buf => do x <- g b; setb buf (off + b) x) 0 size buf) as (c' & E & L' & H'); [lia| | |].
  - split; auto. intros k. destruct (Nat.leb_spec off k), (Nat.ltb_spec k (off + 0)); cbn [andb]; auto; lia.
  - intros i s Hi (Ls & Hs). destruct (G i) as (x & Gx & Wx); [lia|]. rewrite Gx. cbn [rbind]. unfold setb. rewrite (proj2 (Nat.ltb_lt _ _)) by lia.
    eexists. split; [reflexivity|]. rewrite upd_length. split; auto. intros k. destruct (Nat.eq_dec k (off + i)) as [->|NE].
    + rewrite nth_error_upd_eq by lia. replace (off + i - off) with i by lia. rewrite (proj2 (Nat.leb_le _ _)), (proj2 (Nat.ltb_lt _ _)) by lia. auto.
    + rewrite nth_error_upd_ne by lia. rewrite Hs. destruct (Nat.leb_spec off k), (Nat.ltb_spec k (off + i)), (Nat.ltb_spec k (off + (i + 1))); cbn [andb]; auto; lia.
  - rewrite E. f_equal. apply Flatten_proofs.list_ext.
    + rewrite !app_length, firstn_length, skipn_length. lia.
    + intros k Hk. rewrite H'. destruct (Nat.leb_spec off k); cbn [andb].
      * rewrite nth_error_app2 by (rewrite firstn_length; lia). rewrite firstn_length. replace (Nat.min off (List.length buf)) with off by lia.
        destruct (Nat.ltb_spec k (off + size)).
        -- rewrite nth_error_app1 by lia. reflexivity.
        -- rewrite nth_error_app2 by lia. rewrite <- (firstn_skipn (off + size) buf) at 1. rewrite nth_error_app2 by (rewrite firstn_length; lia).
           rewrite firstn_length. f_equal. lia.
      * rewrite nth_error_app1 by (rewrite firstn_length; lia). rewrite <- (firstn_skipn off buf) at 1. apply nth_error_app1. rewrite firstn_length. lia.
Qed.
Lemma swap_read size c0 ws h buf n rest : 0 < size -> List.length c0 = size -> List.length buf = size * n ->
  (List.length ws = n \/ List.length ws < n /\ List.length rest < size) ->
  exists buf' f', SGRID_fread_swapbytes c0 buf size n (array_image h size ws ++ rest) = Ok (List.length ws, buf', f') /\ List.length buf' = size * n /\
    firstn (size * List.length ws) buf' = array_image (negb h) size ws /\ (List.length ws = n -> f' = rest).
Proof.
  intros P L LB C. unfold SGRID_fread_swapbytes. set (body := fun i s => _). assert (LA := array_len h size ws). assert (LA' := array_len (negb h) size ws).
  set (k := List.length ws) in *.
  assert (HF : forall i, i <= k -> skipn (size * i) (array_image h size ws ++ rest) = skipn (size * i) (array_image h size ws) ++ rest).
  { intros i Hi. rewrite skipn_app. replace (size * i - List.length (array_image h size ws)) with 0 by nia. reflexivity. }
  destruct (for_nat_inv (fun i s => let '(c, count, buf', f') := s in List.length c = size /\ List.length buf' = size * n /\
      count = (if i <=? k then size * i else size * k + List.length rest) /\
      firstn (size * Nat.min i k) buf' = firstn (size * Nat.min i k) (array_image (negb h) size ws) /\
      f' = (if i <=? k then skipn (size * i) (array_image h size ws ++ rest) else [])) body 0 n (c0, 0, buf, array_image h size ws ++ rest))
    as ([[[c count] buf'] f'] & E & Lc & Lb & Hc & Hb & Hf); [lia| | |].
  - cbn. rewrite ?Nat.mul_0_r. cbn. auto 6.
  - intros i [[[c count] buf'] f'] Hi (Lc & Lb & Hc & Hb & Hf). unfold body.
    unfold fread. rewrite Nat.mul_1_l, Lc, Nat.leb_refl. cbn [Nat.eqb rbind]. rewrite Nat.div_1_r.
    set (got := firstn size f'). set (c1 := got ++ skipn (List.length got) c).
    assert (Lg : List.length got <= size) by (unfold got; rewrite firstn_length; lia).
    assert (Lc1 : List.length c1 = size) by (unfold c1; rewrite app_length, skipn_length; lia).
    rewrite (fill_at _ size (i * size) buf' (rev c1)); [|nia|now rewrite rev_length|].
    2:{ intros b Hb'. rewrite nth_rev by lia. rewrite Lc1. unfold getb. destruct (nth_error c1 (size - 1 - b)) eqn:Q; eauto. apply nth_error_None in Q. lia. }
    cbn [rbind]. eexists. split; [reflexivity|]. split; auto. split; [rewrite !app_length, rev_length, firstn_length, skipn_length; nia|].
    destruct (Nat.leb_spec i k) as [Hik|Hik].
    + rewrite HF in Hf by auto. destruct (Nat.leb_spec (i + 1) k) as [Hik1|Hik1].
      * (* a complete element *)
        destruct (nth_error ws i) as [w|] eqn:Ew; [|apply nth_error_None in Ew; unfold k in *; lia].
        assert (W : forall hh b, b < size -> nth_error (array_image hh size ws) (i * size + b) = nth_error (image hh size w) b).
        { intros hh b Hb'. rewrite (Nat.mul_comm i size). apply flat_uniform; auto. intros. apply image_len. }
        assert (SP : forall hh, firstn (size * (i + 1)) (array_image hh size ws) = firstn (size * i) (array_image hh size ws) ++ image hh size w).
        { intros hh. destruct (split_word size (array_image hh size ws) i k) as (w' & Lw & Sp & N); [rewrite array_len; fold k; lia|lia|]. rewrite Sp. f_equal.
          apply Flatten_proofs.list_ext; [rewrite image_len; lia|]. intros b Hb'. rewrite <- N by lia. now rewrite W by lia. }
        assert (G : got = image h size w).
        { unfold got. rewrite Hf. rewrite firstn_app. rewrite skipn_length. replace (size - (List.length (array_image h size ws) - size * i)) with 0 by nia.
          cbn [firstn]. rewrite app_nil_r. pose proof (SP h) as S1.
          rewrite <- (firstn_skipn (size * i) (array_image h size ws)) in S1 at 1. rewrite firstn_app in S1. rewrite firstn_length in S1.
          replace (Nat.min (size * i) (List.length (array_image h size ws))) with (size * i) in S1 by nia.
          rewrite firstn_all2 in S1 by (rewrite firstn_length; nia). apply app_inv_head in S1. rewrite <- S1. f_equal. nia. }
        assert (G1 : c1 = image h size w). { unfold c1. rewrite G, image_len. rewrite skipn_all2 by lia. apply app_nil_r. }
        split; [rewrite Hc, G, image_len; nia|]. split.
        -- replace (Nat.min (i + 1) k) with (i + 1) by lia. replace (Nat.min i k) with i in Hb by lia. rewrite SP, <- Hb, G1, <- image_rev.
           rewrite app_assoc. rewrite (Nat.mul_comm i size). apply firstn_cat. rewrite app_length, firstn_length, image_len. nia.
        -- rewrite Hf, HF by lia. rewrite skipn_app, skipn_length. replace (size - (List.length (array_image h size ws) - size * i)) with 0 by nia.
           cbn [skipn]. f_equal. rewrite skipn_skipn_. f_equal. lia.
      * (* the piece at the end *)
        assert (i = k) by lia. subst i. assert (Lr : List.length rest < size) by (destruct C; lia).
        rewrite skipn_all2 in Hf by nia. cbn [app] in Hf. split; [|split].
        -- unfold got. rewrite Hf, firstn_all2 by lia. lia.
        -- replace (Nat.min (k + 1) k) with k by lia. replace (Nat.min k k) with k in Hb by lia. rewrite firstn_app.
           rewrite firstn_length. replace (size * k - Nat.min (k * size) (List.length buf')) with 0 by nia. cbn [firstn]. rewrite app_nil_r, firstn_firstn.
           replace (Nat.min (size * k) (k * size)) with (size * k) by nia. auto.
        -- rewrite Hf. apply skipn_all2. lia.
    + destruct (Nat.leb_spec (i + 1) k); [lia|]. split; [|split].
      * unfold got. rewrite Hf. rewrite firstn_nil. cbn. lia.
      * replace (Nat.min (i + 1) k) with k by lia. replace (Nat.min i k) with k in Hb by lia. rewrite firstn_app.
        rewrite firstn_length. replace (size * k - Nat.min (i * size) (List.length buf')) with 0 by nia. cbn [firstn]. rewrite app_nil_r, firstn_firstn.
        replace (Nat.min (size * k) (i * size)) with (size * k) by nia. auto.
      * rewrite Hf. apply skipn_nil.
  - replace (Nat.min n k) with k in Hb by lia. rewrite (firstn_all2 (array_image _ _ _)) in Hb by lia.
    do 2 eexists. split; [|split; [exact Lb|split; [exact Hb|]]].
    + etransitivity; [exact (f_equal (fun r => do s <- r; let '(_, count, buf, f') := s in Ok (count / size, buf, f')) E)|]. cbn [rbind].
      replace (count / size) with k; [reflexivity|]. subst count. destruct (Nat.leb_spec n k).
      * replace n with k by lia. rewrite Nat.mul_comm, Nat.div_mul; lia.
      * rewrite (Nat.mul_comm size), Nat.div_add_l by lia. rewrite Nat.div_small by lia. lia.
    + intros Q. rewrite Hf. destruct (Nat.leb_spec n k); [|lia]. rewrite HF by lia. rewrite skipn_all2 by nia. reflexivity.
Qed.
(** Whatever the byte orders of the writing and the reading host: reading n elements from a file that holds the
    elements ws gives back exactly ws in the memory of the reading host; if the file ends early the number
    of complete elements is returned and these are correct. *)
Theorem C19_read_portable little c0 size ws buf n rest : 0 < size -> List.length c0 = size -> List.length buf = size * n ->
  (List.length ws = n \/ List.length ws < n /\ List.length rest < size) ->
  (exists buf' f', SGRID_fread_little little c0 buf size n (array_image true size ws ++ rest) = Ok (List.length ws, buf', f') /\ List.length buf' = size * n /\
    firstn (size * List.length ws) buf' = array_image little size ws /\ (List.length ws = n -> f' = rest)) /\
  (exists buf' f', SGRID_fread_big little c0 buf size n (array_image false size ws ++ rest) = Ok (List.length ws, buf', f') /\ List.length buf' = size * n /\
    firstn (size * List.length ws) buf' = array_image little size ws /\ (List.length ws = n -> f' = rest)).
Proof.
  intros P L LB C. unfold SGRID_fread_little, SGRID_fread_big. destruct little; cbn [negb]; split; try (now apply plain_read); [now apply (swap_read size c0 ws false buf n rest)|now apply (swap_read size c0 ws true buf n rest)].
Qed.
Print Assumptions C19_read_portable.
(** Doubles written on one host and read on another. *)
Theorem C19_doubles_round_trip h h' c0 c0' ws buf : List.length c0 = 8 -> List.length c0' = 8 -> List.length buf = 8 * List.length ws ->
  exists f, fwrite_double_little h c0 (array_image h 8 ws) (List.length ws) [] = Ok (List.length ws, f) /\
            fread_double_little h' c0' buf (List.length ws) f = Ok (List.length ws, array_image h' 8 ws, []).
Proof.
  intros L L' LB. exists (array_image true 8 ws). split; [now apply C19_write_portable; auto; lia|].
  destruct (C19_read_portable h' c0' 8 ws buf (List.length ws) []) as [(buf' & f' & E & Lb & H & R) _]; auto; [lia|].
  rewrite app_nil_r in E. unfold fread_double_little. rewrite E, R by auto. rewrite firstn_all2 in H by lia. now rewrite H.
Qed.
Print Assumptions C19_doubles_round_trip.
Example C19_example : fwrite_double_little false (repeat 0%Z 8) (array_image false 8 [4607182418800017409; 5]%Z) 2 [] =
  Ok (2, [1; 0; 0; 0; 0; 0; 240; 63; 5; 0; 0; 0; 0; 0; 0; 0]%Z) /\ word 8 4607182418800017409.
Proof. split; [reflexivity|]. unfold word. simpl. lia. Qed.

(** Proofs about [BufWriteMut] over an arbitrary implementor. *)
From Verif Require Import Base Ints Reader Writer ReadMut WriteMut Spec SpecOps WriteMutSpec.
From Verif Require Import BaseLemmas WriterLemmas.

Section Lawful.
  Context {S : Type}.
  Variables (W : wimpl S) (contents : S -> bytes) (position : S -> N) (limit : N).
  Hypothesis L : writer W contents position limit.

  Lemma mw_image o s : match image o with
    | Some l => run_mwop W o s = mw_push W l s
    | None => run_mwop W o s = Err (mkerr (position s) InvalidByteLength) s
    end.
  Proof.
    destruct o; cbn [image run_mwop].
    - reflexivity.
    - destruct bo; reflexivity.
    - reflexivity.
    - destruct b; reflexivity.
    - rewrite digits_to_bytes, unsigned_raw.
      destruct t; cbn [mw_push_int]; try reflexivity; destruct (named_order k); reflexivity.
    - rewrite digits_to_bytes. unfold mw_push_u24. change (named_order k) with (order_of k). destruct (order_of k).
      + cbn [to_bytes]. rewrite <- (skipn_to_be 3 4) by lia. reflexivity.
      + cbn [to_bytes]. rewrite <- (firstn_to_le 3 4) by lia. reflexivity.
    - rewrite digits_to_bytes. unfold mw_push_uint. change (named_order k) with (order_of k).
      destruct (N.leb_spec n 8); destruct (order_of k); cbn [to_bytes];
        unfold mw_push_be_uint, mw_push_le_uint, mw_fail.
      + destruct (N.ltb_spec 8 n); [lia|].
        replace (N.to_nat (8 - n)) with (8 - N.to_nat n)%nat by lia. rewrite skipn_to_be by lia. reflexivity.
      + rewrite slice_get_to_ok by (unfold lenN; rewrite to_le_length; lia). rewrite firstn_to_le by lia. reflexivity.
      + destruct (N.ltb_spec 8 n); [|lia]. rewrite (tells_position _ _ _ _ L). reflexivity.
      + rewrite slice_get_to_none by (unfold lenN; rewrite to_le_length; lia). rewrite (tells_position _ _ _ _ L). reflexivity.
    - rewrite digits_to_bytes, unsigned_raw. unfold mw_push_sint, mw_push_uint. change (named_order k) with (order_of k).
      destruct (N.leb_spec n 8); destruct (order_of k); cbn [to_bytes];
        unfold mw_push_be_uint, mw_push_le_uint, mw_fail.
      + destruct (N.ltb_spec 8 n); [lia|].
        replace (N.to_nat (8 - n)) with (8 - N.to_nat n)%nat by lia. rewrite skipn_to_be by lia. reflexivity.
      + rewrite slice_get_to_ok by (unfold lenN; rewrite to_le_length; lia). rewrite firstn_to_le by lia. reflexivity.
      + destruct (N.ltb_spec 8 n); [|lia]. rewrite (tells_position _ _ _ _ L). reflexivity.
      + rewrite slice_get_to_none by (unfold lenN; rewrite to_le_length; lia). rewrite (tells_position _ _ _ _ L). reflexivity.
    - rewrite digits_to_bytes. reflexivity.
    - rewrite digits_to_bytes. reflexivity.
  Qed.

  Lemma len_skipn (l : bytes) p : p <= lenN l -> lenN (skipn (N.to_nat p) l) = lenN l - p.
  Proof. intros H. unfold lenN in *. rewrite skipn_length. lia. Qed.
  Lemma skipn_twice {A} (l : list A) a b : skipn (a + b) l = skipn b (skipn a l).
  Proof. revert l. induction a as [|a IH]; intros l; [reflexivity|]. destruct l; [|apply IH]. rewrite !skipn_nil. reflexivity. Qed.
  Lemma overwrite_within (c : bytes) p (v : bytes) : p + lenN v <= lenN c ->
    overwrite c p v = firstn (N.to_nat p) c ++ v ++ skipn (length v) (skipn (N.to_nat p) c).
  Proof.
    intros H. unfold overwrite. replace (p - size c) with 0 by (change size with (@lenN byte); lia).
    cbn [N.to_nat repeat]. rewrite app_nil_r. rewrite skipn_twice. reflexivity.
  Qed.
  Lemma mw_finish_ok v s : position s + lenN v <= lenN (contents s) -> position s + lenN v < limit ->
    exists s', mw_finish W v s = Ok (lenN v) s' /\ position s' = position s + lenN v
      /\ contents s' = overwrite (contents s) (position s) v.
  Proof.
    intros H M. unfold mw_finish. rewrite (rest_to_write _ _ _ _ L) by (change size with (@lenN byte); lia).
    set (r := skipn (N.to_nat (position s)) (contents s)).
    assert (R : lenN r = lenN (contents s) - position s) by (apply len_skipn; lia).
    rewrite slice_get_to_ok by lia.
    destruct (stores _ _ _ _ L s (v ++ skipn (length v) r)) as [P C].
    { change size with (@lenN byte). unfold lenN in *. rewrite app_length, skipn_length. lia. }
    destruct (moves _ _ _ _ L (wi_store W s (v ++ skipn (length v) r)) (lenN v)) as (s' & -> & P' & C').
    { rewrite P, C. change size with (@lenN byte). unfold lenN in *. rewrite !app_length, firstn_length, skipn_length. lia. }
    { rewrite P. lia. }
    exists s'. split; [reflexivity|]. split; [rewrite P', P; reflexivity|]. rewrite C', C. symmetry. apply overwrite_within. lia.
  Qed.

  Lemma mw_push_outcome v s : position s <= size (contents s) -> position s + size v < limit ->
    (exists s' added, mw_push W v s = Ok (size v) s' /\ position s' = position s + size v
       /\ contents s' = overwrite (contents s ++ added) (position s) v
       /\ position s + size v <= size (contents s ++ added)
       /\ (position s + size v <= size (contents s) -> added = []))
    \/ (exists s', mw_push W v s = Err (mkerr (position s) PushFail) s' /\ position s' = position s /\ contents s' = contents s
       /\ size (contents s) < position s + size v).
  Proof.
    change size with (@lenN byte). intros I M. unfold mw_push. rewrite (rest_to_read _ _ _ _ L), len_skipn by exact I.
    destruct (N.ltb_spec (lenN (contents s) - position s) (lenN v)) as [B|B].
    - destruct (grows _ _ _ _ L s (lenN v)) as (k & s' & added & -> & P & C & Z & N0);
        [exact I|exact M|change size with (@lenN byte); lia|].
      destruct (N.eqb_spec k 0) as [->|K].
      + right. exists s'. rewrite (tells_position _ _ _ _ L), P. repeat split; [|lia]. rewrite C, Z by reflexivity. apply app_nil_r.
      + left. specialize (N0 K). destruct (mw_finish_ok v s') as (s'' & E & P' & C').
        { rewrite P. exact N0. } { rewrite P. exact M. }
        exists s'', added. rewrite E, P', C', P, C. rewrite C in N0.
        repeat split; [exact N0|]. intros H. lia.
    - left. destruct (mw_finish_ok v s) as (s' & E & P & C); [lia|exact M|]. exists s', []. rewrite app_nil_r.
      repeat split; try assumption. lia.
  Qed.

  (** Histories. *)
  Lemma overwrite_grown (c v a : bytes) p : p + lenN v <= lenN c -> overwrite c p v ++ a = overwrite (c ++ a) p v.
  Proof.
    intros H. rewrite !overwrite_within by (unfold lenN in *; rewrite ?app_length; lia).
    assert (P : (N.to_nat p <= length c)%nat) by (unfold lenN in *; lia).
    rewrite <- !app_assoc. rewrite firstn_app. replace (N.to_nat p - length c)%nat with 0%nat by lia. cbn [firstn]. rewrite app_nil_r.
    f_equal. f_equal. rewrite !(skipn_app (N.to_nat p)). replace (N.to_nat p - length c)%nat with 0%nat by lia. cbn [skipn].
    rewrite skipn_app. replace (length v - length (skipn (N.to_nat p) c))%nat with 0%nat; [reflexivity|].
    rewrite skipn_length. unfold lenN in *. lia.
  Qed.
  Lemma overwrite_twice (c v w : bytes) p : p + lenN (v ++ w) <= lenN c ->
    overwrite (overwrite c p v) (p + lenN v) w = overwrite c p (v ++ w).
  Proof.
    intros H. rewrite lenN_app in H.
    assert (E : exists x y z r, c = x ++ y ++ z ++ r /\ lenN x = p /\ lenN y = lenN v /\ lenN z = lenN w).
    { exists (firstn (N.to_nat p) c), (firstn (length v) (skipn (N.to_nat p) c)),
        (firstn (length w) (skipn (length v) (skipn (N.to_nat p) c))), (skipn (length w) (skipn (length v) (skipn (N.to_nat p) c))).
      rewrite !firstn_skipn. split; [reflexivity|]. unfold lenN in *. rewrite !firstn_length, !skipn_length. repeat split; lia. }
    destruct E as (x & y & z & r & -> & <- & Y & Z).
    rewrite overwrite_inside by exact Y. rewrite (app_assoc y z r), overwrite_inside by (rewrite !lenN_app; lia).
    replace (lenN x + lenN v) with (lenN (x ++ v)) by apply lenN_app. rewrite (app_assoc x v).
    rewrite overwrite_inside by exact Z. rewrite <- !app_assoc. reflexivity.
  Qed.

  Lemma mw_history ops : forall s, position s <= size (contents s) ->
    position s + size (concat (map image_or_nothing ops)) < limit ->
    exists outs s' added, run_mwops W ops s = Some (outs, s') /\ Forall2 answer ops outs
      /\ position s' = position s + size (taken ops outs)
      /\ contents s' = overwrite (contents s ++ added) (position s) (taken ops outs)
      /\ position s' <= size (contents s ++ added) /\ size (contents s') = size (contents s ++ added).
  Proof.
    change size with (@lenN byte).
    induction ops as [|o ops IH]; intros s I M.
    - exists [], s, []. cbn [run_mwops taken combine map concat]. change (lenN (@nil byte)) with 0. rewrite N.add_0_r, app_nil_r.
      repeat split; try constructor; try assumption. rewrite overwrite_within by (change (lenN (@nil byte)) with 0; lia).
      cbn [length app skipn]. symmetry. apply firstn_skipn.
    - cbn [map concat] in M. rewrite lenN_app in M. cbn [run_mwops].
      pose proof (mw_image o s) as E. destruct (image o) as [l|] eqn:Im; rewrite E.
      + assert (Il : image_or_nothing o = l) by (unfold image_or_nothing; rewrite Im; reflexivity). rewrite Il in M.
        destruct (mw_push_outcome l s I) as [(s1 & a1 & -> & P & C & R & _)|(s1 & -> & P & C & R)];
          [change size with (@lenN byte); lia| |].
        * change size with (@lenN byte) in *.
          assert (I1 : lenN (contents s1) = lenN (contents s ++ a1)) by (rewrite C, overwrite_size; lia).
          destruct (IH s1) as (outs & s' & a2 & -> & F & P' & C' & I' & Z); [rewrite P, I1; exact R|rewrite P; lia|].
          exists (inl (lenN l) :: outs), s', (a1 ++ a2). split; [reflexivity|].
          assert (T : taken (o :: ops) (inl (lenN l) :: outs) = l ++ taken ops outs)
            by (unfold taken at 1; cbn [combine map concat fst snd accepted]; rewrite Il; reflexivity).
          rewrite T. split; [constructor; [exists l; split; [exact Im|reflexivity]|exact F]|].
          rewrite lenN_app in I', Z. rewrite I1, <- lenN_app, <- app_assoc in I', Z.
          split; [rewrite P', P, lenN_app; lia|]. split; [|split; [exact I'|exact Z]].
          rewrite C', C. rewrite overwrite_grown, <- app_assoc by exact R. rewrite P. apply overwrite_twice.
          rewrite lenN_app. rewrite P', P in I'. lia.
        * change size with (@lenN byte) in *.
          destruct (IH s1) as (outs & s' & a2 & -> & F & P' & C' & I' & Z); [rewrite P, C; exact I|rewrite P; lia|].
          exists (inr (mkerr (position s) PushFail) :: outs), s', a2.
          split; [reflexivity|]. change (taken (o :: ops) (inr (mkerr (position s) PushFail) :: outs)) with (taken ops outs).
          rewrite <- P, <- C. repeat split; try assumption. constructor; [|exact F]. cbn [answer]. rewrite Im. reflexivity.
      + destruct (IH s) as (outs & s' & a2 & -> & F & P' & C' & I' & Z); [exact I|lia|].
        exists (inr (mkerr (position s) InvalidByteLength) :: outs), s', a2.
        split; [reflexivity|]. change (taken (o :: ops) (inr (mkerr (position s) InvalidByteLength) :: outs)) with (taken ops outs).
        repeat split; try assumption. constructor; [|exact F]. cbn [answer]. rewrite Im. reflexivity.
  Qed.
End Lawful.

(** [Buffer] keeps the promises, and the generic code on it is Writer.v. *)
Lemma rest_of {S} (pos : S -> N) (data : S -> bytes) s : default_remaining pos data s = skipn (N.to_nat (pos s)) (data s).
Proof.
  unfold default_remaining, slice_get_from. destruct (N.leb_spec (pos s) (lenN (data s))); [reflexivity|].
  symmetry. apply skipn_all2. unfold lenN in *. lia.
Qed.
Lemma buffer_promises : writer buffer_writer b_data b_pos W63.
Proof.
  split; intros [d p]; cbn [buffer_writer wi_reader wi_resize wi_remaining_mut wi_store im_remaining im_advance im_position b_data b_pos].
  - reflexivity.
  - apply (rest_of b_pos b_data (mkbuf d p)).
  - change size with (@lenN byte). intros H. unfold slice_get_from. destruct (N.leb_spec p (lenN d)); [reflexivity|lia].
  - intros l _. split; reflexivity.
  - intros n _ H. exists (mkbuf d (p + n)). unfold bf_advance. cbn [b_data b_pos].
    rewrite wadd_small by lia. repeat split.
  - change size with (@lenN byte). intros n I M G. rewrite wadd_small by lia. unfold vec_resize.
    destruct (N.ltb_spec (p + n) W63); [|lia]. destruct (N.leb_spec (p + n) (lenN d)); [lia|].
    exists (p + n), (mkbuf (d ++ zeros (p + n - lenN d)) p), (zeros (p + n - lenN d)). repeat split; [lia|].
    intros _. cbn [b_data]. rewrite lenN_app, zeros_repeat. unfold lenN. rewrite repeat_length. lia.
Qed.
Lemma buffer_push v b : mw_push buffer_writer v b = push v b.
Proof.
  unfold mw_push, push, mw_finish, write_at. cbn [buffer_writer wi_reader wi_resize wi_remaining_mut wi_store im_remaining im_advance im_position].
  change (lenN (bf_remaining b)) with (remaining_len (b_data b) (b_pos b)).
  destruct (remaining_len (b_data b) (b_pos b) <? lenN v).
  - destruct (vec_resize (b_data b) (wadd (b_pos b) (lenN v))) as [d|]; [|reflexivity].
    destruct (wadd (b_pos b) (lenN v) =? 0); [reflexivity|]. cbn [b_data b_pos].
    destruct (slice_get_from d (b_pos b)) as [r|]; [|reflexivity]. destruct (slice_get_to r (lenN v)); reflexivity.
  - destruct (slice_get_from (b_data b) (b_pos b)) as [r|]; [|reflexivity]. destruct (slice_get_to r (lenN v)); reflexivity.
Qed.
Lemma buffer_wop o b : run_mwop buffer_writer o b = run_wop o b.
Proof.
  destruct o; cbn [run_mwop run_wop];
    unfold mw_push_byteorder_array, push_byteorder_array, mw_push_char, push_char, mw_push_bool, push_bool, mw_push_int, push_int, push_u8,
      mw_push_u24, push_u24, mw_push_sint, push_sint, mw_push_uint, push_uint, mw_push_be_uint, push_be_uint, mw_push_le_uint, push_le_uint,
      mw_push_f32, mw_push_f64, push_f32, push_f64.
  - apply buffer_push.
  - destruct bo; apply buffer_push.
  - apply buffer_push.
  - apply buffer_push.
  - destruct t; apply buffer_push.
  - destruct (order_of k); apply buffer_push.
  - destruct (order_of k); [destruct (8 <? n)|destruct (slice_get_to (to_le 8 v) n)]; try apply buffer_push; reflexivity.
  - destruct (order_of k); [destruct (8 <? n)|destruct (slice_get_to (to_le 8 (raw_of_int I64 z)) n)]; try apply buffer_push; reflexivity.
  - apply buffer_push.
  - apply buffer_push.
Qed.

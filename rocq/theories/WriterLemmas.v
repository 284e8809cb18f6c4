(** Facts about pushes. *)
From Verif Require Export ReaderHist Writer BufIo.

Lemma zeros_repeat n : zeros n = repeat x00 (N.to_nat n).
Proof. reflexivity. Qed.

Lemma firstn_pad (d : bytes) (p k : nat) : (p <= length d + k)%nat ->
  firstn p (d ++ repeat x00 k) = firstn p (d ++ repeat x00 (p - length d)).
Proof.
  intros H. rewrite !firstn_app. f_equal.
  destruct (Nat.le_gt_cases p (length d)) as [Hle|Hgt].
  - replace (p - length d)%nat with O by lia. reflexivity.
  - replace k with ((p - length d) + (k - (p - length d)))%nat by lia.
    rewrite repeat_app, firstn_app, repeat_length, Nat.sub_diag. cbn [firstn]. apply app_nil_r.
Qed.

Lemma overwrite_len d p v : lenN (overwrite d p v) = N.max (lenN d) (p + lenN v) \/ lenN d < p.
Proof.
  destruct (N.lt_ge_cases (lenN d) p); [right; assumption|left].
  unfold overwrite, size. rewrite !lenN_app. unfold lenN in *.
  rewrite firstn_length, app_length, repeat_length, skipn_length. lia.
Qed.
Lemma overwrite_size d p v : lenN (overwrite d p v) = N.max (lenN d) (p + lenN v).
Proof.
  unfold overwrite, size. rewrite !lenN_app. unfold lenN in *.
  rewrite firstn_length, app_length, repeat_length, skipn_length. lia.
Qed.

Lemma overwrite_end d v : overwrite d (lenN d) v = d ++ v.
Proof.
  unfold overwrite. change size with (@lenN byte). rewrite N.sub_diag. cbn [N.to_nat repeat].
  rewrite app_nil_r, to_nat_lenN, firstn_all. rewrite skipn_all2 by lia. rewrite app_nil_r. reflexivity.
Qed.

Lemma overwrite_inside pre old v rest : lenN old = lenN v ->
  overwrite (pre ++ old ++ rest) (lenN pre) v = pre ++ v ++ rest.
Proof.
  intros H. unfold overwrite. rewrite to_nat_lenN, <- app_assoc, firstn_app, firstn_all, Nat.sub_diag.
  cbn [firstn]. rewrite app_nil_r. f_equal. f_equal.
  replace (length pre + length v)%nat with (length (pre ++ old)) by (unfold lenN in H; rewrite app_length; lia).
  rewrite app_assoc, skipn_app, skipn_all, Nat.sub_diag. reflexivity.
Qed.

Lemma sub_overwrite d p v : sub (overwrite d p v) p (lenN v) = v.
Proof.
  unfold sub, overwrite, size. set (f := firstn _ (_ ++ repeat _ _)).
  assert (Hf : length f = N.to_nat p).
  { unfold f. rewrite firstn_length, app_length, repeat_length. lia. }
  rewrite <- Hf, skipn_app, skipn_all, Nat.sub_diag. cbn [skipn app].
  rewrite to_nat_lenN, firstn_app, firstn_all, Nat.sub_diag. cbn [firstn]. apply app_nil_r.
Qed.
Lemma firstn_overwrite d p v : p <= lenN d -> firstn (N.to_nat p) (overwrite d p v) = firstn (N.to_nat p) d.
Proof.
  intros H. unfold overwrite, size. unfold lenN in H. set (f := firstn _ (_ ++ repeat _ _)).
  assert (Hf : length f = N.to_nat p).
  { unfold f. rewrite firstn_length, app_length, repeat_length. lia. }
  rewrite <- Hf at 1. rewrite firstn_app, firstn_all, Nat.sub_diag. cbn [firstn]. rewrite app_nil_r.
  unfold f. rewrite firstn_app. replace (N.to_nat p - length d)%nat with O by lia. apply app_nil_r.
Qed.
Lemma skipn_overwrite d p v :
  skipn (N.to_nat (p + lenN v)) (overwrite d p v) = skipn (N.to_nat (p + lenN v)) d.
Proof.
  unfold overwrite, size. set (f := firstn _ (_ ++ repeat _ _)).
  assert (Hf : length f = N.to_nat p).
  { unfold f. rewrite firstn_length, app_length, repeat_length. lia. }
  replace (N.to_nat (p + lenN v)) with (length (f ++ v)) at 1 by (rewrite app_length, Hf; unfold lenN; lia).
  rewrite app_assoc, skipn_app, skipn_all, Nat.sub_diag. cbn [skipn app]. f_equal. unfold lenN; lia.
Qed.

Lemma nth_firstn_lt {A} (l : list A) n i : (i < n)%nat -> nth_error (firstn n l) i = nth_error l i.
Proof.
  revert n i; induction l as [|x l IH]; intros [|n] [|i] H; cbn; try reflexivity; try lia.
  apply IH; lia.
Qed.
Lemma nth_repeat_lt {A} (x : A) n i : (i < n)%nat -> nth_error (repeat x n) i = Some x.
Proof. revert i; induction n as [|n IH]; intros [|i] H; cbn; try lia; [reflexivity|apply IH; lia]. Qed.

Lemma nth_error_overwrite d p v i : nth_error (overwrite d p v) i =
  if (i <? N.to_nat p)%nat then
    if (i <? length d)%nat then nth_error d i else Some x00
  else if (i <? N.to_nat p + length v)%nat then nth_error v (i - N.to_nat p)
  else nth_error d i.
Proof.
  unfold overwrite, size. set (f := firstn _ (_ ++ repeat _ _)).
  assert (Hf : length f = N.to_nat p).
  { unfold f. rewrite firstn_length, app_length, repeat_length. lia. }
  destruct (Nat.ltb_spec i (N.to_nat p)).
  - rewrite nth_error_app1 by lia. unfold f. rewrite nth_firstn_lt by assumption.
    destruct (Nat.ltb_spec i (length d)).
    + rewrite nth_error_app1 by assumption. reflexivity.
    + rewrite nth_error_app2 by assumption. apply nth_repeat_lt. lia.
  - rewrite nth_error_app2 by lia. rewrite Hf.
    destruct (Nat.ltb_spec i (N.to_nat p + length v)).
    + rewrite nth_error_app1 by lia. reflexivity.
    + rewrite nth_error_app2 by lia.
      rewrite <- (firstn_skipn (N.to_nat p + length v) d) at 2.
      destruct (Nat.le_gt_cases (N.to_nat p + length v) (length d)).
      * rewrite nth_error_app2 by (rewrite firstn_length; lia).
        rewrite firstn_length. f_equal. lia.
      * rewrite skipn_all2 by lia. rewrite app_nil_r, firstn_all2 by lia.
        transitivity (@None byte); [|symmetry; apply nth_error_None; lia].
        apply nth_error_None. cbn; lia.
Qed.

(** ** push *)
Lemma write_at_ok d p v : p + lenN v <= lenN d ->
  write_at d p v = Some (firstn (N.to_nat p) d ++ v ++ skipn (N.to_nat p + length v) d).
Proof.
  intros H. unfold write_at. rewrite slice_get_from_ok by lia.
  rewrite slice_get_to_ok by (rewrite lenN_skipn; lia). rewrite skipn_add. reflexivity.
Qed.

Lemma push_ok v d p : small d -> p + lenN v < W63 -> p <= lenN d \/ v <> [] ->
  push v (mkbuf d p) = Ok (lenN v) (mkbuf (overwrite d p v) (p + lenN v)).
Proof.
  unfold small; intros Hs Hp Hv. unfold push. cbn [b_data b_pos]. rewrite remaining_len_eq.
  rewrite wadd_small by lia.
  destruct (N.ltb_spec (lenN d - p) (lenN v)) as [Hlt|Hge].
  - unfold vec_resize. destruct (N.ltb_spec (p + lenN v) W63); [|lia].
    destruct (N.leb_spec (p + lenN v) (lenN d)); [lia|].
    destruct (N.eqb_spec (p + lenN v) 0); [lia|].
    rewrite write_at_ok by (rewrite lenN_app, lenN_zeros; lia).
    f_equal. f_equal. unfold overwrite, size. rewrite zeros_repeat. rewrite firstn_pad.
    + f_equal; [f_equal; f_equal; f_equal; lia|]. f_equal.
      rewrite !skipn_all2; [reflexivity| |].
      * unfold lenN in *; lia.
      * rewrite app_length, repeat_length. unfold lenN in *; lia.
    + unfold lenN in *; lia.
  - assert (Hin : p + lenN v <= lenN d).
    { destruct Hv as [Hv|Hv]; [lia|]. destruct v as [|x v]; [congruence|]. rewrite lenN_cons in *. lia. }
    rewrite write_at_ok by exact Hin. f_equal. f_equal. unfold overwrite, size.
    replace (p - N.of_nat (length d)) with 0 by (unfold lenN in *; lia).
    cbn [N.to_nat repeat]. rewrite app_nil_r. reflexivity.
Qed.

Lemma push_end v d : lenN (d ++ v) < W63 -> push v (mkbuf d (lenN d)) = Ok (lenN v) (mkbuf (d ++ v) (lenN (d ++ v))).
Proof.
  rewrite lenN_app. intros H. rewrite push_ok by (unfold small; lia). rewrite overwrite_end. reflexivity.
Qed.

(** ** images *)
Lemma byte_of_n2b v : byte_of v = n2b v.
Proof. reflexivity. Qed.

Lemma digits_le n v : digits Le n v = to_le n v.
Proof.
  unfold digits. revert v; induction n as [|n IH]; intros v; [reflexivity|].
  cbn [seq map to_le]. f_equal.
  - cbn. rewrite N.div_1_r. reflexivity.
  - rewrite <- seq_shift, map_map, <- IH. apply map_ext. intros i.
    rewrite pow256_S, N.div_div by (pose proof (pow256_pos (N.of_nat i)); lia). reflexivity.
Qed.
Lemma digits_be n v : digits Be n v = to_be n v.
Proof.
  unfold to_be. rewrite <- digits_le. unfold digits. rewrite <- map_rev.
  assert (H : forall n, rev (seq 0 n) = map (fun i => (n - 1 - i)%nat) (seq 0 n)).
  { clear. intros n. apply nth_ext with (d := O) (d' := O).
    - rewrite rev_length, map_length. reflexivity.
    - intros i Hi. rewrite rev_length, seq_length in Hi. rewrite rev_nth by (rewrite seq_length; exact Hi).
      rewrite seq_length, seq_nth by lia.
      rewrite (nth_indep _ O ((fun i => (n - 1 - i)%nat) O)) by (rewrite map_length, seq_length; exact Hi).
      rewrite map_nth, seq_nth by exact Hi. lia. }
  rewrite H, map_map. reflexivity.
Qed.
Lemma digits_to_bytes bo n v : digits bo n v = to_bytes bo n v.
Proof. destruct bo; [apply digits_be|apply digits_le]. Qed.

Lemma unsigned_raw t z : unsigned t z = raw_of_int t z.
Proof. unfold unsigned, raw_of_int, imod. f_equal. f_equal. destruct t; reflexivity. Qed.

Lemma image_push o b : match image o with
  | Some l => run_wop o b = push l b
  | None => run_wop o b = Err (mkerr (b_pos b) InvalidByteLength) b
  end.
Proof.
  destruct o; cbn [image run_wop].
  - reflexivity.
  - destruct bo; reflexivity.
  - reflexivity.
  - destruct b0; reflexivity.
  - rewrite digits_to_bytes, unsigned_raw.
    destruct t; cbn [push_int]; try reflexivity; unfold push_u8; destruct (named_order k); reflexivity.
  - rewrite digits_to_bytes. unfold push_u24. change (named_order k) with (order_of k). destruct (order_of k).
    + cbn [to_bytes]. rewrite <- (skipn_to_be 3 4) by lia. reflexivity.
    + cbn [to_bytes]. rewrite <- (firstn_to_le 3 4) by lia. reflexivity.
  - rewrite digits_to_bytes. unfold push_uint. change (named_order k) with (order_of k).
    destruct (N.leb_spec n 8); destruct (order_of k); cbn [to_bytes];
      unfold push_be_uint, push_le_uint, wfail.
    + destruct (N.ltb_spec 8 n); [lia|].
      replace (N.to_nat (8 - n)) with (8 - N.to_nat n)%nat by lia. rewrite skipn_to_be by lia. reflexivity.
    + rewrite slice_get_to_ok by (unfold lenN; rewrite to_le_length; lia). rewrite firstn_to_le by lia. reflexivity.
    + destruct (N.ltb_spec 8 n); [reflexivity|lia].
    + rewrite slice_get_to_none by (unfold lenN; rewrite to_le_length; lia). reflexivity.
  - rewrite digits_to_bytes, unsigned_raw. unfold push_sint, push_uint. change (named_order k) with (order_of k).
    destruct (N.leb_spec n 8); destruct (order_of k); cbn [to_bytes];
      unfold push_be_uint, push_le_uint, wfail.
    + destruct (N.ltb_spec 8 n); [lia|].
      replace (N.to_nat (8 - n)) with (8 - N.to_nat n)%nat by lia. rewrite skipn_to_be by lia. reflexivity.
    + rewrite slice_get_to_ok by (unfold lenN; rewrite to_le_length; lia). rewrite firstn_to_le by lia. reflexivity.
    + destruct (N.ltb_spec 8 n); [reflexivity|lia].
    + rewrite slice_get_to_none by (unfold lenN; rewrite to_le_length; lia). reflexivity.
  - rewrite digits_to_bytes. reflexivity.
  - rewrite digits_to_bytes. reflexivity.
Qed.

Lemma digits_length bo n v : length (digits bo n v) = n.
Proof. unfold digits. rewrite map_length, seq_length. reflexivity. Qed.

(** The writing properties, Buffer's io traits, and BufReadMut. *)
From Verif Require Export WriterLemmas ReadMut.

(** ** Round trips through a buffer *)
Lemma take_int_written k t z d p : in_range t z -> small (overwrite d p (to_bytes (order_of k) (isize_of t) (raw_of_int t z))) ->
  take_int k t (overwrite d p (to_bytes (order_of k) (isize_of t) (raw_of_int t z))) p = Ok z (p + sizeN t).
Proof.
  intros Hz Hs. set (v := to_bytes _ _ _) in *.
  assert (HL : lenN v = sizeN t) by (unfold v; rewrite to_bytes_lenN; reflexivity).
  rewrite take_int_in; [|exact Hs|rewrite overwrite_size; lia].
  rewrite <- HL, sub_overwrite. unfold v. rewrite from_to_bytes.
  change (N.of_nat (isize_of t)) with (sizeN t).
  rewrite N.mod_small by apply raw_lt. rewrite int_of_raw_of_int by exact Hz. reflexivity.
Qed.

Lemma push_take_int k t z b : value_in t z -> allocatable (b_data b) -> b_pos b + width_bytes t < W63 ->
  exists b', push_int k t z b = Ok (width_bytes t) b' /\ b_pos b' = b_pos b + width_bytes t /\
    take_int k t (b_data b') (b_pos b) = Ok z (b_pos b').
Proof.
  intros Hz Hs Hp. apply value_in_range in Hz. rewrite width_sizeN in *.
  destruct b as [d p]; cbn [b_data b_pos] in *.
  pose proof (image_push (WPushInt k t z) (mkbuf d p)) as HI. cbn [image run_wop] in HI.
  rewrite digits_to_bytes, unsigned_raw, width_sizeN in HI.
  change (named_order k) with (order_of k) in HI.
  replace (N.to_nat (sizeN t)) with (isize_of t) in HI by (destruct t; reflexivity).
  set (v := to_bytes (order_of k) (isize_of t) (raw_of_int t z)) in *.
  assert (HL : lenN v = sizeN t) by (unfold v; rewrite to_bytes_lenN; reflexivity).
  rewrite HI, push_ok.
  - rewrite HL. eexists; split; [reflexivity|]. split; [reflexivity|]. cbn [b_data b_pos].
    apply take_int_written; [exact Hz|]. fold v. unfold small. rewrite overwrite_size, HL.
    unfold allocatable in Hs. change size with (@lenN byte) in Hs. lia.
  - exact Hs.
  - rewrite HL. exact Hp.
  - right. intros E. rewrite E in HL. pose proof (sizeN_pos t). rewrite lenN_nil in HL. lia.
Qed.

Lemma uint_written k v n d p : n <= 8 -> p <= lenN d \/ 0 < n -> 
  let l := to_bytes (order_of k) (N.to_nat n) v in
  small (overwrite d p l) -> take_uint k n (overwrite d p l) p = Ok (v mod 256 ^ n) (p + n).
Proof.
  intros Hn Hp l Hs.
  assert (HL : lenN l = n) by (unfold l; rewrite to_bytes_lenN; lia).
  unfold take_uint. rewrite take_n_in; [|exact Hs|exact Hn|rewrite overwrite_size; lia].
  rewrite <- HL at 1. rewrite sub_overwrite. unfold l. rewrite from_to_bytes, N2Nat.id. reflexivity.
Qed.

Lemma push_take_uint k v n b : n <= 8 -> v < W64 -> allocatable (b_data b) -> b_pos b + n < W63 ->
  b_pos b <= size (b_data b) \/ 0 < n ->
  exists b', push_uint k v n b = Ok n b' /\ b_pos b' = b_pos b + n /\
    b_data b' = overwrite (b_data b) (b_pos b) (digits (named_order k) (N.to_nat n) v) /\
    take_uint k n (b_data b') (b_pos b) = Ok (v mod 256 ^ n) (b_pos b').
Proof.
  intros Hn Hv Hs Hp Hin. destruct b as [d p]; cbn [b_data b_pos] in *.
  pose proof (image_push (WPushUint k v n) (mkbuf d p)) as HI. cbn [image run_wop] in HI.
  destruct (N.leb_spec n 8); [|lia].
  rewrite digits_to_bytes in *. change (named_order k) with (order_of k) in *.
  set (l := to_bytes (order_of k) (N.to_nat n) v) in *.
  assert (HL : lenN l = n) by (unfold l; rewrite to_bytes_lenN; lia).
  unfold allocatable in Hs. change size with (@lenN byte) in *.
  rewrite HI, push_ok.
  - rewrite HL. eexists; split; [reflexivity|]. cbn [b_data b_pos]. split; [reflexivity|]. split; [reflexivity|].
    apply uint_written; [exact Hn|exact Hin|]. fold l. unfold small. rewrite overwrite_size, HL. lia.
  - exact Hs.
  - rewrite HL; exact Hp.
  - destruct Hin as [Hin|Hin]; [left; exact Hin|right]. intros E; rewrite E, lenN_nil in HL; lia.
Qed.

Lemma push_uint_wide k v n b : 8 < n -> push_uint k v n b = Err (mkerr (b_pos b) InvalidByteLength) b.
Proof.
  intros Hn. pose proof (image_push (WPushUint k v n) b) as HI. cbn [image run_wop] in HI.
  destruct (N.leb_spec n 8); [lia|]. exact HI.
Qed.
Lemma take_be_uint_wide n d p k : named_order k = Be -> 8 < n ->
  take_uint k n d p = Err (mkerr p InvalidByteLength) p.
Proof. intros Hk Hn. unfold take_uint. change (order_of k) with (named_order k). rewrite Hk. apply take_n_be_big; exact Hn. Qed.

Lemma take_uint_spec k n d p : allocatable d -> n <= 8 -> p <= size d \/ 0 < n ->
  take_uint k n d p =
    if p + n <=? size d then Ok (number (named_order k) (window d p n)) (p + n)
    else Err (mkerr p InvalidByteLength) p.
Proof.
  intros Hs Hn Hp. rewrite number_from_bytes. change (named_order k) with (order_of k).
  change size with (@lenN byte) in *. unfold take_uint.
  destruct (N.leb_spec (p + n) (lenN d)).
  - rewrite take_n_in by (assumption || lia). reflexivity.
  - apply take_n_out; lia.
Qed.

(** ** push frame *)
Lemma push_frame v d p : allocatable d -> p + size v < W63 -> p <= size d \/ v <> [] ->
  exists d', push v (mkbuf d p) = Ok (size v) (mkbuf d' (p + size v)) /\
    size d' = N.max (size d) (p + size v) /\
    (forall i, N.of_nat i < p -> N.of_nat i < size d -> nth_error d' i = nth_error d i) /\
    (forall i, N.of_nat i < p -> size d <= N.of_nat i -> nth_error d' i = Some x00) /\
    (forall i, N.of_nat i < size v -> nth_error d' (N.to_nat p + i) = nth_error v i) /\
    (forall i, p + size v <= N.of_nat i -> nth_error d' i = nth_error d i).
Proof.
  intros Hs Hp Hv. exists (overwrite d p v). unfold size in *. fold (lenN v) (lenN d) in *.
  split; [apply push_ok; assumption|]. split; [apply overwrite_size|].
  assert (HN := nth_error_overwrite d p v). unfold lenN in *.
  repeat split; intros i; rewrite HN; clear HN; intros.
  - destruct (Nat.ltb_spec i (N.to_nat p)); [|lia]. destruct (Nat.ltb_spec i (length d)); [reflexivity|lia].
  - destruct (Nat.ltb_spec i (N.to_nat p)); [|lia]. destruct (Nat.ltb_spec i (length d)); [lia|reflexivity].
  - destruct (Nat.ltb_spec (N.to_nat p + i) (N.to_nat p)); [lia|].
    destruct (Nat.ltb_spec (N.to_nat p + i) (N.to_nat p + length v)); [|lia]. f_equal; lia.
  - destruct (Nat.ltb_spec i (N.to_nat p)); [lia|].
    destruct (Nat.ltb_spec i (N.to_nat p + length v)); [lia|reflexivity].
Qed.

(** ** histories of pushes *)
Lemma run_wops_end ops : forall d, lenN d + lenN (concat (map image_or_nothing ops)) < W63 ->
  exists outs, run_wops ops (mkbuf d (lenN d)) =
      Some (outs, mkbuf (d ++ concat (map image_or_nothing ops)) (lenN (d ++ concat (map image_or_nothing ops))))
    /\ Forall2 (fun o r => match image o with
                           | Some l => r = inl (size l)
                           | None => exists e, r = inr e end) ops outs.
Proof.
  induction ops as [|o ops IH]; intros d Hd; cbn [map concat run_wops].
  - rewrite app_nil_r. exists []; split; [reflexivity|constructor].
  - cbn [map concat] in Hd. rewrite lenN_app in Hd.
    pose proof (image_push o (mkbuf d (lenN d))) as HI. 
    assert (HE : image_or_nothing o = match image o with Some l => l | None => [] end) by reflexivity.
    rewrite HE in *. clear HE.
    destruct (image o) as [l|] eqn:El.
    + rewrite HI, push_end by (rewrite lenN_app; lia).
      destruct (IH (d ++ l)) as (outs & -> & HF); [rewrite lenN_app; lia|].
      exists (inl (lenN l) :: outs). rewrite <- app_assoc. split; [reflexivity|].
      constructor; [rewrite El; reflexivity|exact HF].
    + rewrite HI. cbn [app] in *. destruct (IH d) as (outs & -> & HF); [lia|].
      eexists; split; [reflexivity|]. constructor; [rewrite El; eexists; reflexivity|exact HF].
Qed.
Lemma run_wops_new ops : size (concat (map image_or_nothing ops)) < W63 ->
  exists outs, run_wops ops buf_new =
      Some (outs, mkbuf (concat (map image_or_nothing ops)) (size (concat (map image_or_nothing ops))))
    /\ Forall2 (fun o r => match image o with
                           | Some l => r = inl (size l)
                           | None => exists e, r = inr e end) ops outs.
Proof. intros H. apply (run_wops_end ops []). exact H. Qed.

Lemma push_outcome o b : allocatable (b_data b) ->
  match image o with
  | Some l => b_pos b + size l < W63 -> b_pos b <= size (b_data b) \/ l <> [] ->
      run_wop o b = Ok (size l) (mkbuf (overwrite (b_data b) (b_pos b) l) (b_pos b + size l))
  | None => run_wop o b = Err (mkerr (b_pos b) InvalidByteLength) b
  end.
Proof.
  intros Hs. pose proof (image_push o b) as HI. destruct (image o) as [l|]; [|exact HI].
  intros Hp Hl. rewrite HI. destruct b as [d p]. apply push_ok; assumption.
Qed.
Lemma image_refused o : image o = None <->
  (exists k v n, 8 < n /\ (o = WPushUint k v n)) \/ (exists k z n, 8 < n /\ o = WPushSint k z n).
Proof.
  destruct o; cbn [image]; split; intros H;
    try discriminate;
    try (destruct H as [(?&?&?&?&HH)|(?&?&?&?&HH)]; discriminate).
  - destruct bo; discriminate.
  - destruct (N.leb_spec n 8); [discriminate|]. left; do 3 eexists; split; [eassumption|reflexivity].
  - destruct H as [(?&?&?&?&HH)|(?&?&?&?&HH)]; [|discriminate]. injection HH as -> -> ->.
    destruct (N.leb_spec x1 8); [lia|reflexivity].
  - destruct (N.leb_spec n 8); [discriminate|]. right; do 3 eexists; split; [eassumption|reflexivity].
  - destruct H as [(?&?&?&?&HH)|(?&?&?&?&HH)]; [discriminate|]. injection HH as -> -> ->.
    destruct (N.leb_spec x1 8); [lia|reflexivity].
Qed.

(** ** Buffer as a file *)
Definition as_file (b : buf) : file := mkfile (b_data b) (b_pos b).
Definition io_sane (b : buf) : Prop := small (b_data b) /\ b_pos b < W63.

Lemma cast_isize z : (- 9223372036854775808 <= z < 9223372036854775808)%Z -> cast Isize z = z.
Proof. intros H. apply cast_id. unfold in_range, imin, imax, imod. cbn [signed isize_of].
  change (2 ^ (8 * Z.of_nat 8))%Z with 18446744073709551616%Z.
  change (18446744073709551616 / 2)%Z with 9223372036854775808%Z. lia. Qed.
Lemma cast_isize_big z : (9223372036854775808 <= z < 18446744073709551616)%Z -> cast Isize z = (z - 18446744073709551616)%Z.
Proof.
  intros H. unfold cast, raw_of_int, int_of_raw, imod. cbn [signed isize_of].
  change (2 ^ (8 * Z.of_nat 8))%Z with 18446744073709551616%Z.
  rewrite Z.mod_small by lia. rewrite Z2N.id by lia.
  change (18446744073709551616 / 2)%Z with 9223372036854775808%Z. cbn [andb].
  destruct (Z.leb_spec 9223372036854775808 z); lia.
Qed.

Lemma io_step_file o b r f' : io_sane b ->
  (match o with OpSeek w => seek_arg_ok w | _ => True end) ->
  file_step o (as_file b) = Some (r, f') ->
  exists out b', run_io o b = Some (out, b') /\ seen out = Some r /\ as_file b' = f' /\ io_sane b'.
Proof.
  destruct b as [d p]. unfold io_sane, as_file, small; cbn [b_data b_pos]. intros [Hs Hp] Ha.
  destruct o as [n|v| |w]; cbn [file_step run_io].
  - unfold file_read. cbn [f_contents f_offset]. intros H; injection H as <- <-.
    unfold io_read; cbn [b_data b_pos].
    destruct (N.leb_spec (lenN d) p).
    + exists (IoRead 0 []), (mkbuf d p). split; [reflexivity|]. unfold window. cbn [b_data b_pos].
      rewrite skipn_all2 by (unfold lenN in *; lia). rewrite firstn_nil. cbn [seen].
      split; [reflexivity|]. split; [f_equal; unfold size; cbn; lia|]. lia.
    + rewrite wadd_small by lia. rewrite slice_get_ok by lia.
      replace (p + N.min n (lenN d - p) - p) with (N.min n (lenN d - p)) by lia.
      do 2 eexists; split; [reflexivity|]. cbn [seen b_data b_pos].
      assert (HW : sub d p (N.min n (lenN d - p)) = window d p n).
      { unfold sub, window. destruct (N.le_gt_cases n (lenN d - p)).
        - rewrite N.min_l by assumption. reflexivity.
        - rewrite N.min_r by lia. rewrite !firstn_all2; try reflexivity;
          rewrite skipn_length; unfold lenN in *; lia. }
      assert (HL : size (sub d p (N.min n (lenN d - p))) = N.min n (lenN d - p)) by (apply lenN_sub; lia).
      rewrite HL, N.eqb_refl. split; [rewrite HW; reflexivity|]. split; [rewrite <- HW, HL; reflexivity|lia].
  - cbn [f_contents f_offset]. destruct (N.ltb_spec (p + size v) 9223372036854775808) as [Hv|]; [|discriminate].
    intros H; injection H as <- <-. unfold io_write; cbn [b_data b_pos]. change size with (@lenN byte) in *.
    rewrite wadd_small by lia.
    assert (HC : forall d', lenN d <= lenN d' -> p + lenN v <= lenN d' ->
        copy_into d' p (p + lenN v) v = Some (firstn (N.to_nat p) d' ++ v ++ skipn (N.to_nat p + length v) d')).
    { intros d' _ Hd'. unfold copy_into. rewrite slice_get_ok by lia.
      rewrite lenN_sub by lia. destruct (N.eqb_spec (p + lenN v - p) (lenN v)); [|lia].
      do 4 f_equal. unfold lenN; lia. }
    destruct (N.ltb_spec (lenN d) (p + lenN v)).
    + unfold vec_resize. destruct (N.ltb_spec (p + lenN v) W63); [|lia].
      destruct (N.leb_spec (p + lenN v) (lenN d)); [lia|].
      rewrite HC by (rewrite lenN_app, lenN_zeros; lia).
      do 2 eexists; split; [reflexivity|]. split; [reflexivity|]. unfold file_write; cbn [b_data b_pos f_contents f_offset].
      assert (HO : firstn (N.to_nat p) (d ++ zeros (p + lenN v - lenN d)) ++ v ++
              skipn (N.to_nat p + length v) (d ++ zeros (p + lenN v - lenN d)) = overwrite d p v).
      { unfold overwrite, size. rewrite zeros_repeat. rewrite firstn_pad.
        + f_equal; [f_equal; f_equal; f_equal; lia|]. f_equal.
          rewrite !skipn_all2; [reflexivity| |].
          * unfold lenN in *; lia.
          * rewrite app_length, repeat_length. unfold lenN in *; lia.
        + unfold lenN in *; lia. }
      rewrite HO, overwrite_size. split; [reflexivity|lia].
    + rewrite HC by lia. do 2 eexists; split; [reflexivity|]. split; [reflexivity|].
      unfold file_write; cbn [b_data b_pos f_contents f_offset].
      assert (HO : firstn (N.to_nat p) d ++ v ++ skipn (N.to_nat p + length v) d = overwrite d p v).
      { unfold overwrite, size. replace (p - N.of_nat (length d)) with 0 by (unfold lenN in *; lia).
        cbn [N.to_nat repeat]. rewrite app_nil_r. reflexivity. }
      rewrite HO, overwrite_size. split; [reflexivity|lia].
  - intros H; injection H as <- <-. do 2 eexists; split; [reflexivity|]. split; [reflexivity|]. split; [reflexivity|].
    cbn; lia.
  - destruct (Z.ltb_spec (seek_target w (mkfile d p)) 9223372036854775808) as [Ht|]; [|discriminate].
    unfold file_seek, io_seek; cbn [b_data b_pos f_contents f_offset].
    set (np := match w with SStart off => _ | _ => _ end).
    assert (Hnp : np = seek_target w (mkfile d p)).
    { unfold np, seek_target in *. cbn [f_contents f_offset seek_arg_ok] in *. unfold size in *. fold (lenN d) in *.
      destruct w as [off|off|off]; cbn [seek_arg_ok] in Ha.
      - apply cast_isize. lia.
      - rewrite (cast_isize (Z.of_N _)) by lia. rewrite (cast_isize off) by lia. apply cast_isize. lia.
      - rewrite (cast_isize (Z.of_N _)) by lia. rewrite (cast_isize off) by lia. apply cast_isize. lia. }
    rewrite Hnp. destruct (Z.ltb_spec (seek_target w (mkfile d p)) 0) as [Hneg|Hpos].
    + intros H; injection H as <- <-. do 2 eexists; split; [reflexivity|]. split; [reflexivity|].
      split; [reflexivity|cbn; lia].
    + intros H; injection H as <- <-. do 2 eexists; split; [reflexivity|]. split; [reflexivity|].
      assert (HR : raw_of_int Usize (seek_target w (mkfile d p)) = Z.to_N (seek_target w (mkfile d p))).
      { unfold raw_of_int, imod. cbn [isize_of]. change (2 ^ (8 * Z.of_nat 8))%Z with 18446744073709551616%Z.
        rewrite Z.mod_small by lia. reflexivity. }
      cbn [b_data b_pos]. rewrite HR. split; [reflexivity|lia].
Qed.

Lemma io_history_file ops : forall b rs f',
  io_sane b -> (forall w, In (OpSeek w) ops -> seek_arg_ok w) ->
  file_steps ops (as_file b) = Some (rs, f') ->
  exists outs b', run_ios ops b = Some (outs, b') /\ map seen outs = map Some rs /\ as_file b' = f'.
Proof.
  induction ops as [|o ops IH]; intros b rs f' Hb Ha; cbn [file_steps run_ios].
  - intros H; injection H as <- <-. do 2 eexists; split; [reflexivity|]. split; reflexivity.
  - destruct (file_step o (as_file b)) as [[r f1]|] eqn:Es; [|discriminate].
    destruct (io_step_file o b r f1 Hb) as (out & b1 & -> & Hseen & Hf & Hb1); [|exact Es|].
    { destruct o; try exact I. apply Ha. left; reflexivity. }
    destruct (file_steps ops f1) as [[rs1 f2]|] eqn:Ess; [|discriminate].
    intros H; injection H as <- <-. subst f1.
    destruct (IH b1 rs1 f2 Hb1) as (outs & b2 & -> & Hm & Hf2); [|exact Ess|].
    { intros w Hw. apply Ha. right; exact Hw. }
    do 2 eexists; split; [reflexivity|]. cbn [map]. rewrite Hseen, Hm. split; [reflexivity|exact Hf2].
Qed.

Lemma seek_moves w b : allocatable (b_data b) -> b_pos b < W63 -> seek_arg_ok w ->
  (seek_target w (mkfile (b_data b) (b_pos b)) < 9223372036854775808)%Z ->
  let target := seek_target w (mkfile (b_data b) (b_pos b)) in
  if (target <? 0)%Z then io_seek w b = Some (IoInvalidInput, b)
  else exists n, io_seek w b = Some (IoSought n, mkbuf (b_data b) (Z.to_N target)).
Proof.
  intros Hs Hp Ha Ht target. destruct b as [d p]; cbn [b_data b_pos] in *.
  destruct (file_step (OpSeek w) (mkfile d p)) as [[r f']|] eqn:E.
  - destruct (io_step_file (OpSeek w) (mkbuf d p) r f') as (out & b' & Hr & Hseen & Hf & _);
      [split; assumption|exact Ha|exact E|].
    cbn [run_io] in Hr. cbn [file_step] in E. destruct (Z.ltb_spec (seek_target w (mkfile d p)) 9223372036854775808); [|lia].
    unfold file_seek in E. fold target in E. destruct (Z.ltb_spec target 0).
    + injection E as <- <-. unfold io_seek in *.
      destruct (_ <? 0)%Z in Hr |- *; injection Hr as <- <-; [reflexivity|discriminate].
    + injection E as <- <-. destruct out; try discriminate.
      * cbn in Hseen. destruct (_ =? _); discriminate.
      * exists n. rewrite Hr. f_equal. f_equal. destruct b' as [d' p']. unfold as_file in Hf; cbn in Hf.
        injection Hf as -> ->. reflexivity.
  - exfalso. cbn [file_step] in E. destruct (Z.ltb_spec (seek_target w (mkfile d p)) 9223372036854775808); [|lia].
    destruct (file_seek _ _); discriminate.
Qed.
Lemma seek_returns_old w b n b' : io_seek w b = Some (IoSought n, b') -> n = b_pos b.
Proof. unfold io_seek. destruct (_ <? 0)%Z; [discriminate|]. intros H; injection H as <- _. reflexivity. Qed.
Lemma io_history ops d p rs f :
  allocatable d -> p < W63 -> (forall w, In (OpSeek w) ops -> seek_arg_ok w) ->
  file_steps ops (mkfile d p) = Some (rs, f) ->
  exists outs b', run_ios ops (mkbuf d p) = Some (outs, b') /\
    map seen outs = map Some rs /\ b_data b' = f_contents f /\ b_pos b' = f_offset f.
Proof.
  intros Hs Hp Ha H. destruct (io_history_file ops (mkbuf d p) rs f) as (outs & b' & H1 & H2 & <-).
  - split; assumption.
  - exact Ha.
  - exact H.
  - do 2 eexists; split; [exact H1|]. split; [exact H2|]. split; reflexivity.
Qed.

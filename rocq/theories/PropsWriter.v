(** Properties C02, C03 and C12-C14: writing to a [Buffer] and reading back. *)
From Verif Require Import Base Ints Reader Writer Spec SpecOps WriterHist.

(** C02. The value is pushed at any position of any buffer and read back from
    where it was written. *)
Theorem C02_push_take_round_trip : forall k t z b,
  value_in t z -> allocatable (b_data b) -> b_pos b + width_bytes t < W63 ->
  exists b', push_int k t z b = Ok (width_bytes t) b' /\
    b_pos b' = b_pos b + width_bytes t /\
    take_int k t (b_data b') (b_pos b) = Ok z (b_pos b').
Proof. exact push_take_int. Qed.

Example C02_case : value_in I32 (-123456) /\
  exists b', push_int KLe I32 (-123456) (mkbuf [x01; x02; x03] 1) = Ok 4 b' /\
             take_int KLe I32 (b_data b') 1 = Ok (-123456)%Z 5.
Proof. split; [split; [discriminate|reflexivity]|eexists; split; reflexivity]. Qed.

Print Assumptions C02_push_take_round_trip.

(** C03. Variable width. *)
Theorem C03_push_take_uint : forall k v n b,
  n <= 8 -> v < W64 -> allocatable (b_data b) -> b_pos b + n < W63 ->
  b_pos b <= size (b_data b) \/ 0 < n ->
  exists b', push_uint k v n b = Ok n b' /\ b_pos b' = b_pos b + n /\
    b_data b' = overwrite (b_data b) (b_pos b) (digits (named_order k) (N.to_nat n) v) /\
    take_uint k n (b_data b') (b_pos b) = Ok (v mod 256 ^ n) (b_pos b').
Proof. exact push_take_uint. Qed.

Theorem C03_take_uint : forall k n d p, allocatable d -> n <= 8 -> p <= size d \/ 0 < n ->
  take_uint k n d p =
    if p + n <=? size d then Ok (number (named_order k) (window d p n)) (p + n)
    else Err (mkerr p InvalidByteLength) p.
Proof. exact take_uint_spec. Qed.

Theorem C03_wide_push_refused : forall k v n b, 8 < n ->
  push_uint k v n b = Err (mkerr (b_pos b) InvalidByteLength) b.
Proof. exact push_uint_wide. Qed.

Theorem C03_wide_be_take_refused : forall n d p k, named_order k = Be -> 8 < n ->
  take_uint k n d p = Err (mkerr p InvalidByteLength) p.
Proof. exact take_be_uint_wide. Qed.

(** The signed variants do not round trip: a negative number narrower than 8
    bytes comes back positive. *)
Theorem C03_signed_refuted : exists z n b b',
  push_sint KDefault z n buf_new = Ok n b /\ take_sint KDefault n (b_data b) 0 = Ok b' n /\ b' <> z.
Proof. exists (-1)%Z, 2, (mkbuf [xff; xff] 2), 65535%Z. repeat split. discriminate. Qed.

Example C03_case : exists b', push_uint KDefault 66051 2 (mkbuf [x09; x09] 1) = Ok 2 b' /\
  b_data b' = [x09; x02; x03] /\ take_uint KDefault 2 (b_data b') 1 = Ok 515 3.
Proof. eexists; repeat split. Qed.

Print Assumptions C03_push_take_uint.
Print Assumptions C03_take_uint.
Print Assumptions C03_wide_push_refused.
Print Assumptions C03_wide_be_take_refused.
Print Assumptions C03_signed_refuted.

(** C12. *)
Theorem C12_push_frame : forall v d p,
  allocatable d -> p + size v < W63 -> p <= size d \/ v <> [] ->
  exists d', push v (mkbuf d p) = Ok (size v) (mkbuf d' (p + size v)) /\
    size d' = N.max (size d) (p + size v) /\
    (forall i, N.of_nat i < p -> N.of_nat i < size d -> nth_error d' i = nth_error d i) /\
    (forall i, N.of_nat i < p -> size d <= N.of_nat i -> nth_error d' i = Some x00) /\
    (forall i, N.of_nat i < size v -> nth_error d' (N.to_nat p + i) = nth_error v i) /\
    (forall i, p + size v <= N.of_nat i -> nth_error d' i = nth_error d i).
Proof. exact push_frame. Qed.

(** Pushing nothing at a position past the end panics. *)
Theorem C12_empty_push_past_end_refuted : exists d p, allocatable d /\ p < W63 /\ push [] (mkbuf d p) = Panic.
Proof. exists [x01], 5. repeat split. Qed.

Example C12_case :
  push [xaa; xbb] (mkbuf [x01; x02; x03; x04] 1) = Ok 2 (mkbuf [x01; xaa; xbb; x04] 3) /\
  push [xaa] (mkbuf [x01] 3) = Ok 1 (mkbuf [x01; x00; x00; xaa] 4).
Proof. split; reflexivity. Qed.

Print Assumptions C12_push_frame.
Print Assumptions C12_empty_push_past_end_refuted.

(** C13. The history may contain refused pushes; they contribute nothing. *)
Theorem C13_pushes_concatenate : forall ops,
  size (concat (map image_or_nothing ops)) < W63 ->
  exists outs,
    run_wops ops buf_new =
      Some (outs, mkbuf (concat (map image_or_nothing ops)) (size (concat (map image_or_nothing ops)))) /\
    Forall2 (fun o r => match image o with
                        | Some l => r = inl (size l)
                        | None => exists e, r = inr e
                        end) ops outs.
Proof. exact run_wops_new. Qed.

Example C13_case :
  run_wops [WPushInt KDefault U16 258; WPushUint KDefault 5 9; WPush [x41; x42]; WPushInt KLe I32 (-2)] buf_new =
  Some ([inl 2; inr (mkerr 2 InvalidByteLength); inl 2; inl 4],
        mkbuf [x01; x02; x41; x42; xfe; xff; xff; xff] 8).
Proof. reflexivity. Qed.

Print Assumptions C13_pushes_concatenate.

(** C14. Below the address-space limit a push either does exactly its job or is
    refused with no effect; refused are exactly the widths above 8. *)
Theorem C14_push_outcome : forall o b, allocatable (b_data b) ->
  match image o with
  | Some l => b_pos b + size l < W63 -> b_pos b <= size (b_data b) \/ l <> [] ->
      run_wop o b = Ok (size l) (mkbuf (overwrite (b_data b) (b_pos b) l) (b_pos b + size l))
  | None => run_wop o b = Err (mkerr (b_pos b) InvalidByteLength) b
  end.
Proof. exact push_outcome. Qed.

Theorem C14_refused_iff : forall o, image o = None <->
  (exists k v n, 8 < n /\ o = WPushUint k v n) \/ (exists k z n, 8 < n /\ o = WPushSint k z n).
Proof. exact image_refused. Qed.

(** Outside the limit a failed push can destroy the buffer: with the position at
    2^64-1, pushing one byte resizes to length 0 and then reports failure. *)
Theorem C14_wraparound_refuted : exists b e b',
  allocatable (b_data b) /\ b_data b <> [] /\
  run_wop (WPush [x01]) b = Err e b' /\ b_data b' = [].
Proof.
  exists (mkbuf [x07; x08] 18446744073709551615), (mkerr 18446744073709551615 PushFail),
    (mkbuf [] 18446744073709551615).
  repeat split. discriminate.
Qed.

Example C14_case : image (WPushUint KLe 1 9) = None /\ image (WPushU24 KLe 197121) = Some [x01; x02; x03].
Proof. split; reflexivity. Qed.

Print Assumptions C14_push_outcome.
Print Assumptions C14_refused_iff.
Print Assumptions C14_wraparound_refuted.

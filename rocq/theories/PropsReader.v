(** Properties C01, C04-C11 and C52: reading from [Bytes] (and [Buffer]). *)
From Verif Require Import Base Ints Reader Spec SpecOps ReaderLemmas ReaderHist.

(** C01. Whole integers: either the next [width_bytes t] bytes as a number, or
    an error and no move; from every position. *)
Theorem C01_take_int : forall k t d p, allocatable d ->
  take_int k t d p =
    if p + width_bytes t <=? size d
    then Ok (int_number (named_order k) t (window d p (width_bytes t))) (p + width_bytes t)
    else Err (mkerr p InvalidByteLength) p.
Proof. exact take_int_spec. Qed.

Theorem C01_take_u24 : forall k d p, allocatable d ->
  take_u24 k d p =
    if p + 3 <=? size d
    then Ok (number (named_order k) (window d p 3)) (p + 3)
    else Err (mkerr p InvalidByteLength) p.
Proof. exact take_u24_spec. Qed.

(** Floats are given by their bit patterns. *)
Theorem C01_take_f32 : forall k d p, allocatable d ->
  take_f32 k d p =
    if p + 4 <=? size d
    then Ok (number (named_order k) (window d p 4)) (p + 4)
    else Err (mkerr p InvalidByteLength) p.
Proof. exact take_f32_spec. Qed.

Theorem C01_take_f64 : forall k d p, allocatable d ->
  take_f64 k d p =
    if p + 8 <=? size d
    then Ok (number (named_order k) (window d p 8)) (p + 8)
    else Err (mkerr p InvalidByteLength) p.
Proof. exact take_f64_spec. Qed.

(** The number read is a value of the type. *)
Theorem C01_in_range : forall k t d p z q,
  take_int k t d p = Ok z q -> allocatable d -> value_in t z.
Proof. exact take_int_value_in. Qed.

Example C01_case : allocatable [x01; xff; xfe; x03] /\
  take_int KDefault I16 [x01; xff; xfe; x03] 1 = Ok (-2)%Z 3 /\
  take_int KLe U16 [x01; xff; xfe; x03] 1 = Ok 65279%Z 3 /\
  take_int KBe U32 [x01; xff; xfe; x03] 1 = Err (mkerr 1 InvalidByteLength) 1.
Proof. repeat split. Qed.

Print Assumptions C01_take_int.
Print Assumptions C01_take_u24.
Print Assumptions C01_take_f32.
Print Assumptions C01_take_f64.
Print Assumptions C01_in_range.

(** C04. The [untake_] call that corresponds to a [take_] call. *)
Theorem C04_untake_agrees_with_take : forall o u d p, untake_of o = Some u ->
  allocatable d -> p < W64 ->
  run_rop u d p =
    match run_rop o d p with
    | Ok v _ => Ok v p
    | Err e _ => Err e p
    | Panic => Panic
    | Hang => Hang
    end.
Proof. exact (fun o u d p H Hs Hp => untake_mirrors o u H d p Hs Hp). Qed.

Example C04_case : untake_of (RTakeInt KLe U16) = Some (RUntakeInt KLe U16) /\
  run_rop (RTakeInt KLe U16) [x01; x02; x03] 1 = Ok (RvZ 770) 3 /\
  run_rop (RUntakeInt KLe U16) [x01; x02; x03] 1 = Ok (RvZ 770) 1.
Proof. repeat split. Qed.

Print Assumptions C04_untake_agrees_with_take.

(** C05. Any history of reading calls. The data cannot change (it is not part of
    the state); the position moves forward and stays inside. *)
Theorem C05_reading_stays_in_bounds : forall ops d p,
  (forall o, In o ops -> wide_le o = false) ->
  allocatable d -> p <= size d ->
  exists outs q, run_rops ops d p = Some (outs, q) /\ p <= q /\ q <= size d /\ length outs = length ops.
Proof. exact history_in_bounds. Qed.

(** What [wide_le] excludes does panic. *)
Theorem C05_wide_le_panics_refuted : exists o d p,
  wide_le o = true /\ allocatable d /\ p <= size d /\ run_rop o d p = Panic.
Proof. exists (RTakeUint KLe 9), (repeat x00 20), 3. repeat split; discriminate. Qed.

(** With the position past the end (reachable by [set_position], [advance] or
    the [offset] modifier), reading zero bytes panics. *)
Theorem C05_position_past_end_refuted : forall d p, allocatable d -> size d < p -> p < W64 ->
  run_rop (RTakeBytes 0) d p = Panic.
Proof. exact take_zero_past_end. Qed.

Example C05_case :
  run_rops [RTakeInt KBe U16; RTakeInt KBe U64; RFind [x0a]; RTakeBytes 9; RTakeBool]
           [x01; x02; x41; x42; x0a; x01] 0 =
  Some ([inl (RvZ 258); inr (mkerr 2 InvalidByteLength); inl (RvBytes [x41; x42]);
         inr (mkerr 5 InvalidByteLength); inl (RvBool true)], 6).
Proof. reflexivity. Qed.

Print Assumptions C05_reading_stays_in_bounds.
Print Assumptions C05_wide_le_panics_refuted.
Print Assumptions C05_position_past_end_refuted.

(** C06. *)
Theorem C06_failed_reads_do_not_consume : forall o d p e p',
  allocatable d -> p <= size d ->
  run_rop o d p = Err e p' -> p' = p /\ e_pos e = p.
Proof. exact run_rop_err. Qed.

Example C06_case : exists e p', run_rop (RFinds [[x0d; x0a]; [x00]]) [x41; x0d; x0d] 1 = Err e p'.
Proof. do 2 eexists; reflexivity. Qed.

Print Assumptions C06_failed_reads_do_not_consume.

(** C07. *)
Theorem C07_takes_partition : forall ns d p vs q,
  allocatable d -> p <= size d ->
  run_rops (map RTakeBytes ns) d p = Some (map (fun v => inl (RvBytes v)) vs, q) ->
  p <= q /\ q <= size d /\ concat vs = window d p (q - p) /\ map size vs = ns.
Proof. exact takes_window. Qed.

Example C07_case :
  run_rops (map RTakeBytes [2; 0; 1]) [x01; x02; x03; x04; x05] 1 =
  Some (map (fun v => inl (RvBytes v)) [[x02; x03]; []; [x04]], 4).
Proof. reflexivity. Qed.

Print Assumptions C07_takes_partition.

(** C08. *)
Theorem C08_find_subsequence : forall needle d p, allocatable d -> p <= size d ->
  let rest := skipn (N.to_nat p) d in
  (exists i, occurs_at needle rest i /\ (forall j, (j < i)%nat -> ~ occurs_at needle rest j) /\
     find_subsequence needle d p = Ok (firstn i rest) (p + N.of_nat i + size needle))
  \/ ((forall i, ~ occurs_at needle rest i) /\ find_subsequence needle d p = Err (mkerr p Fail) p).
Proof. exact find_subsequence_spec. Qed.

Example C08_case :
  find_subsequence [x61; x61; x62] [x00; x61; x61; x61; x62; x61; x61; x62] 1 = Ok [x61] 5 /\
  find_subsequence [x63] [x61; x62] 0 = Err (mkerr 0 Fail) 0.
Proof. split; reflexivity. Qed.

Print Assumptions C08_find_subsequence.

(** C09. *)
Theorem C09_find_subsequence_needle : forall needle incl d p, allocatable d -> p <= size d ->
  let rest := skipn (N.to_nat p) d in
  (exists i, occurs_at needle rest i /\ (forall j, (j < i)%nat -> ~ occurs_at needle rest j) /\
     find_subsequence_needle needle incl d p =
       if incl : bool
       then Ok (firstn i rest ++ needle) (p + N.of_nat i + size needle)
       else Ok (firstn i rest) (p + N.of_nat i))
  \/ ((forall i, ~ occurs_at needle rest i) /\
      find_subsequence_needle needle incl d p = Err (mkerr p Fail) p).
Proof. exact find_subsequence_needle_spec. Qed.

Example C09_case :
  find_subsequence_needle [x3a] true [x61; x3a; x62] 0 = Ok [x61; x3a] 2 /\
  find_subsequence_needle [x3a] false [x61; x3a; x62] 0 = Ok [x61] 1.
Proof. split; reflexivity. Qed.

Print Assumptions C09_find_subsequence_needle.

(** C10. *)
Theorem C10_find_subsequences : forall needles d p, allocatable d -> p <= size d ->
  let rest := skipn (N.to_nat p) d in
  (exists needle i, In needle needles /\ occurs_at needle rest i /\
     (forall other j, In other needles -> occurs_at other rest j ->
        (i + length needle < j + length other)%nat \/
        (i + length needle = j + length other)%nat /\ (length other <= length needle)%nat) /\
     find_subsequences needles d p = Ok (firstn i rest) (p + N.of_nat i + size needle) /\
     find_subsequences_needle needles false d p = Ok (firstn i rest) (p + N.of_nat i) /\
     find_subsequences_needle needles true d p =
       Ok (firstn i rest ++ needle) (p + N.of_nat i + size needle))
  \/ ((forall needle i, In needle needles -> ~ occurs_at needle rest i) /\
      find_subsequences needles d p = Err (mkerr p Fail) p /\
      (forall incl, find_subsequences_needle needles incl d p = Err (mkerr p Fail) p)).
Proof. exact find_subsequences_spec. Qed.

Example C10_case :
  find_subsequences [[x0d; x0a]; [x0a]; [x00]] [x61; x0d; x0a; x62; x0a] 0 = Ok [x61] 3.
Proof. reflexivity. Qed.

Print Assumptions C10_find_subsequences.

(** C11. *)
Theorem C11_take_bytes_starts : forall m d p, allocatable d -> p <= size d ->
  let rest := skipn (N.to_nat p) d in
  ((exists after, rest = m ++ after) /\ take_bytes_starts m d p = Ok tt (p + size m))
  \/ (size rest < size m /\ take_bytes_starts m d p = Err (mkerr p InvalidByteLength) p)
  \/ (size m <= size rest /\ firstn (length m) rest <> m /\
      take_bytes_starts m d p = Err (mkerr p Fail) p).
Proof. exact take_bytes_starts_spec. Qed.

Example C11_case :
  take_bytes_starts [x01; x02] [x00; x01; x02] 1 = Ok tt 3 /\
  take_bytes_starts [x01; x02] [x00; x01] 1 = Err (mkerr 1 InvalidByteLength) 1 /\
  take_bytes_starts [x01; x02] [x00; x01; x03] 1 = Err (mkerr 1 Fail) 1.
Proof. repeat split. Qed.

Print Assumptions C11_take_bytes_starts.

(** C52. Every call that reads a given number of bytes. *)
Theorem C52_every_read : forall o n f d p, reading o = Some (n, f) -> allocatable d -> p <= size d ->
  run_rop o d p =
    if p + n <=? size d then Ok (f (window d p n)) (if peeks o then p else p + n)
    else Err (mkerr p InvalidByteLength) p.
Proof. intros o n f d p H. exact (reading_answers o n f H d p). Qed.

Example C52_case : let d := [x00; x02; x00; xff] in
  run_rop RTakeBool d 1 = Ok (RvBool true) 2 /\ run_rop RUntakeBool d 2 = Ok (RvBool false) 2
  /\ run_rop (RTakeOrderArray 3 Le) d 0 = Ok (RvBytes [x00; x02; x00]) 3
  /\ run_rop (RTakeOrderArray 2 Le) d 2 = Ok (RvBytes [xff; x00]) 4
  /\ run_rop (RTakeSint KLe 2) d 2 = Ok (RvZ 65280) 4
  /\ run_rop RTakeChar d 4 = Err (mkerr 4 InvalidByteLength) 4.
Proof. repeat split. Qed.

Print Assumptions C52_every_read.

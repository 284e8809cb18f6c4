(** C62: builds with overflow checks (a debug build of a program that uses the crate)
    and builds without them. *)
From Verif Require Import Base Ints Spec SpecOps Reader Writer BaseLemmas ReaderLemmas WriterLemmas WriterHist BufIo.
From Verif Require Import Schema Decode Encode WireSpec SafetySpec Bounds Sugar Examples PropsContainers CheckedSpec CheckedLemmas CheckedEnc.
From Verif Require CheckedReader CheckedDecode CheckedWriter CheckedEncode CheckedIo.

(** *** Reading *)
(** Any history of reading calls has the same outcome, wherever the position is. *)
Theorem C62_read : forall ops d p, allocatable d -> p < 18446744073709551616 ->
  CheckedReader.run_rops ops d p = run_rops ops d p.
Proof. intros ops d p Hd Hp. apply checked_rops; assumption. Qed.
(** [advance] is the exception: with the checks it panics where it would go past 2^64. *)
Theorem C62_advance : forall n d p,
  (p + n < 18446744073709551616 -> CheckedReader.advance n d p = advance n d p) /\
  (18446744073709551616 <= p + n -> CheckedReader.advance n d p = Panic).
Proof.
  intros n d p. unfold CheckedReader.advance, advance, CheckedReader.adding. split; intros H; destruct (N.ltb_spec (p + n) W64); try lia; [|reflexivity].
  rewrite wadd_small by lia. reflexivity.
Qed.
(** *** Decoding *)
(** Any schema: the same outcome, or a panic where the other build goes on. *)
Theorem C62_decode : forall t ca fa d p, allocatable d -> p < 18446744073709551616 -> each_decoder stays_usize t ->
  CheckedDecode.dec t ca fa d p = dec t ca fa d p \/ CheckedDecode.dec t ca fa d p = Panic.
Proof.
  intros t ca fa d p Hd Hp HU. assert (A : ag false (CheckedDecode.dec t ca fa) (dec t ca fa)) by (apply ag_dec; [discriminate|exact HU]).
  destruct (A d p Hd Hp) as [[E|[_ E]] _]; [left|right]; exact E.
Qed.
(** Without [offset] attributes: the same outcome. *)
Theorem C62_decode_same : forall t ca fa d p, offset_free t = true -> allocatable d -> p < 18446744073709551616 ->
  each_decoder stays_usize t -> CheckedDecode.dec t ca fa d p = dec t ca fa d p.
Proof.
  intros t ca fa d p Ho Hd Hp HU. assert (A : ag true (CheckedDecode.dec t ca fa) (dec t ca fa)) by (apply ag_dec; [intros _; exact Ho|exact HU]).
  destruct (A d p Hd Hp) as [[E|[? _]] _]; [exact E|discriminate].
Qed.
(** An [offset] that takes the position past 2^64: one build goes back to the first
    byte, the other panics. *)
Definition Back : ty := struct [(plain, u8); (at_offset (const 18446744073709551615) plain, u8)].
Theorem C62_offset_refuted : each_decoder stays_usize Back /\
  decode Back (hex [7; 8]) 0 = Ok (VList [vi 7; vi 7]) 1 /\ CheckedDecode.decode Back (hex [7; 8]) 0 = Panic.
Proof. split; [apply no_code_decoders; reflexivity|]. split; vm_compute; reflexivity. Qed.
Example C62_decode_case : offset_free Packet = true /\ each_decoder stays_usize Packet /\ allocatable packet_bytes /\
  CheckedDecode.decode Packet packet_bytes 0 = Ok packet (size packet_bytes).
Proof. split; [reflexivity|]. split; [apply no_code_decoders; reflexivity|]. split; vm_compute; reflexivity. Qed.

(** *** Writing *)
(** One push, anywhere. *)
Theorem C62_push : forall v b,
  (b_pos b + size v < 18446744073709551616 -> CheckedWriter.push v b = push v b) /\
  (18446744073709551616 <= b_pos b + size v -> CheckedWriter.push v b = Panic).
Proof.
  intros v b. split; [apply push_same|]. intros H. unfold CheckedWriter.push, CheckedReader.adding.
  destruct (N.ltb_spec (b_pos b + lenN v) W64) as [L|L]; [unfold size, lenN in *; lia|].
  destruct (_ <? _); [reflexivity|]. destruct (write_at _ _ _); reflexivity.
Qed.
(** What is pushed can exist. *)
Definition pushable (o : wop) : Prop :=
  match o with WPush v | WPushOrderArray v _ => allocatable v | _ => True end.
Lemma wop_push o : (exists v, (pushable o -> allocatable v) /\ (forall b, CheckedWriter.run_wop o b = CheckedWriter.push v b) /\ forall b, run_wop o b = push v b) \/
  (forall b, CheckedWriter.run_wop o b = wfail InvalidByteLength b) /\ (forall b, run_wop o b = wfail InvalidByteLength b).
Proof.
  assert (S : forall v, (length v <= 16)%nat -> allocatable v) by (intros v H; unfold allocatable, size; lia).
  assert (U : forall k v n, (exists w, allocatable w /\ (forall b, CheckedWriter.push_uint k v n b = CheckedWriter.push w b) /\ forall b, push_uint k v n b = push w b) \/
    (forall b, CheckedWriter.push_uint k v n b = wfail InvalidByteLength b) /\ (forall b, push_uint k v n b = wfail InvalidByteLength b)).
  { intros k v n. unfold CheckedWriter.push_uint, push_uint, CheckedWriter.push_be_uint, push_be_uint, CheckedWriter.push_le_uint, push_le_uint.
    destruct (order_of k); [destruct (_ <? _)|destruct (slice_get_to _ _) as [w|] eqn:E]; try (right; split; reflexivity); left; eexists;
      (split; [|split; reflexivity]); apply S.
    - rewrite skipn_length, to_be_length. lia.
    - unfold slice_get_to in E. destruct (n <=? _); [|discriminate]. assert (E' : firstn (N.to_nat n) (to_le 8 v) = w) by congruence.
      rewrite <- E', firstn_length, to_le_length. lia. }
  destruct o; cbn [CheckedWriter.run_wop run_wop pushable];
    try (left; eexists; split; [|split; reflexivity]; first [(intros H; exact H) | (intros _; apply S; rewrite to_bytes_length; lia) | (intros _; apply S; cbn; lia)]).
  - left. destruct bo; eexists; (split; [|split; reflexivity]); [auto|]. unfold allocatable, size. rewrite rev_length. auto.
  - left. destruct (push_int_word k t z) as (w & L & -> & ->). exists w. split; [|split; reflexivity]. intros _. apply S.
    assert (sizeN t <= 16) by (destruct t; discriminate). unfold lenN in *. lia.
  - left. unfold CheckedWriter.push_u24, push_u24. destruct (order_of k); eexists; (split; [|split; reflexivity]); intros _; apply S;
      rewrite ?skipn_length, ?firstn_length, ?to_be_length, ?to_le_length; lia.
  - destruct (U k v n) as [(w & A & B)|B]; [left; exists w; auto|right; exact B].
  - destruct (U k (raw_of_int I64 z) n) as [(w & A & B)|B]; [left; exists w; auto|right; exact B].
Qed.
(** Any history of pushes that starts with the position in the data. *)
Theorem C62_write : forall ops d p, allocatable d -> p <= size d -> Forall pushable ops ->
  CheckedWriter.run_wops ops (mkbuf d p) = run_wops ops (mkbuf d p).
Proof.
  assert (P : forall v d p, allocatable d -> p <= size d -> allocatable v ->
    CheckedWriter.push v (mkbuf d p) = push v (mkbuf d p) /\
    match push v (mkbuf d p) with Ok _ b => allocatable (b_data b) /\ b_pos b <= size (b_data b) | Err _ _ => False | _ => True end).
  { intros v d p Hd Hp Hv. unfold allocatable in *. change size with (@lenN byte) in *. split; [apply push_same; cbn; lia|].
    destruct (N.ltb_spec (p + lenN v) W63) as [L|L].
    - rewrite push_ok by auto. cbn [b_data b_pos]. rewrite overwrite_size. lia.
    - unfold push. cbn [b_data b_pos]. rewrite remaining_len_eq, wadd_small by lia.
      destruct (N.ltb_spec (lenN d - p) (lenN v)); [|lia]. unfold vec_resize. destruct (N.ltb_spec (p + lenN v) W63); [lia|]. exact I. }
  induction ops as [|o ops IH]; intros d p Hd Hp HF; [reflexivity|]. inversion_clear HF as [|? ? Ho HF'].
  cbn [CheckedWriter.run_wops run_wops]. destruct (wop_push o) as [(v & Hv & -> & ->)|[-> ->]].
  - destruct (P v d p Hd Hp (Hv Ho)) as [-> Q]. destruct (push v (mkbuf d p)) as [n [d' p']|e b| |]; try reflexivity; [|contradiction].
    cbn [b_data b_pos] in Q. rewrite IH by intuition. reflexivity.
  - cbn. rewrite IH by auto. reflexivity.
Qed.
Example C62_write_case : Forall pushable [WPush (hex [1; 2]); WPushUint KLe 5 9; WPushInt KBe U16 300] /\
  CheckedWriter.run_wops [WPush (hex [1; 2]); WPushUint KLe 5 9; WPushInt KBe U16 300] (mkbuf (hex [9; 9; 9]) 1) =
  Some ([inl 2; inr (mkerr 3 InvalidByteLength); inl 2], mkbuf (hex [9; 1; 2; 1; 44]) 5).
Proof. split; [repeat constructor|reflexivity]. Qed.
(** *** Encoding *)
(** Any schema and value, any buffer: the same outcome, or a panic where the other
    build goes on. *)
Theorem C62_encode : forall t ca fa v b, possible b -> each_encoder (fun _ _ => True) stays_possible t ->
  CheckedEncode.enc t ca fa v b = enc t ca fa v b \/ CheckedEncode.enc t ca fa v b = Panic.
Proof.
  intros t ca fa v b Hb HU. assert (HU' : each_encoder (fun _ _ => True) (ownly false) t).
  { revert HU. apply each_encoder_impl. intros m Hm b' Hb'. left. split; [reflexivity|apply (Hm b' Hb')]. }
  assert (A : G false 0 0 (CheckedEncode.enc t ca fa v) (enc t ca fa v)) by (apply g_enc; [discriminate|exact HU'|discriminate]).
  destruct (A b Hb) as [[E _]|E]; [left|right]; exact E.
Qed.
(** So for [jbytes::encode], which makes the buffer itself. *)
Theorem C62_encode_new : forall t v, each_encoder (fun _ _ => True) stays_possible t ->
  CheckedEncode.encode t v = encode t v \/ CheckedEncode.encode t v = Panic.
Proof.
  intros t v HU. unfold CheckedEncode.encode, encode, CheckedEncode.encode_into, encode_into.
  destruct (C62_encode t no_cattr no_fattr v buf_new) as [-> | ->]; [split; vm_compute; reflexivity|exact HU|left; reflexivity|right; reflexivity].
Qed.
(** Where each bit field follows the word it belongs to: the same outcome whenever
    there is room. *)
Theorem C62_encode_same : forall t ca fa v, grouped t = true -> counts_all fa = true ->
  each_encoder (fun _ _ => True) stays_inside t ->
  exists room, forall d p, p <= size d -> allocatable d -> p + room < 9223372036854775808 ->
  CheckedEncode.enc t ca fa v (mkbuf d p) = enc t ca fa v (mkbuf d p).
Proof.
  intros t ca fa v Hg Hf HU. assert (HU' : each_encoder (fun _ _ => True) (ownly true) t).
  { revert HU. apply each_encoder_impl. intros m [K Hm]. exists K. intros d p _ P2 P3 P4. split; [reflexivity|].
    specialize (Hm d p P2 P3 P4). destruct (m (mkbuf d p)); auto. intuition lia. }
  assert (A : G true 0 0 (CheckedEncode.enc t ca fa v) (enc t ca fa v)) by (apply g_enc; auto).
  destruct A as [K H]. exists K. intros d p P1 P2 P3.
  exact (proj1 (H d p ltac:(lia) P1 P2 P3)).
Qed.
(** A bit field without a word before it: one build moves to a position near 2^64 and
    returns an error, the other panics. *)
Definition Lone : ty := struct [(at_bits (const 0x0f) plain, u16)].
Theorem C62_word_refuted : each_encoder (fun _ _ => True) stays_inside Lone /\
  encode_into Lone (VList [vi 3]) (buf_from (hex [5])) =
    Err (mkerr 18446744073709551614 InvalidByteLength) (mkbuf (hex [5]) 18446744073709551614) /\
  CheckedEncode.encode_into Lone (VList [vi 3]) (buf_from (hex [5])) = Panic /\
  CheckedEncode.encode Lone (VList [vi 3]) = Panic.
Proof. split; [apply no_code_encoders; reflexivity|]. repeat split; vm_compute; reflexivity. Qed.
Example C62_encode_case : grouped Packet = true /\ grouped Lone = false /\ each_encoder (fun _ _ => True) stays_inside Packet /\
  CheckedEncode.encode Packet packet = Ok packet_bytes tt.
Proof. split; [reflexivity|]. split; [reflexivity|]. split; [apply no_code_encoders; reflexivity|]. vm_compute. reflexivity. Qed.

(** *** [std::io] *)
Lemma io_sum a b {A} (k : N -> option A) : CheckedIo.summing a b k = k (wadd a b) \/ CheckedIo.summing a b k = None.
Proof. unfold CheckedIo.summing. destruct (N.ltb_spec (a + b) W64); [left|right; reflexivity]. rewrite wadd_small by lia. reflexivity. Qed.
(** Any history: the same outcome, or a panic where the other build goes on. *)
Theorem C62_io : forall ops b, CheckedIo.run_ios ops b = run_ios ops b \/ CheckedIo.run_ios ops b = None.
Proof.
  assert (O : forall o b, CheckedIo.run_io o b = run_io o b \/ CheckedIo.run_io o b = None).
  { intros o b. destruct o as [n|v| |w]; cbn [CheckedIo.run_io run_io]; [| |left; reflexivity|].
    - unfold CheckedIo.io_read, io_read. destruct (_ <=? _); [left; reflexivity|]. apply io_sum.
    - unfold CheckedIo.io_write, io_write. apply (io_sum _ _ (fun e => _)).
    - unfold CheckedIo.io_seek, io_seek. destruct w; [left; reflexivity|..]; unfold CheckedIo.summing_signed;
        (match goal with |- context [Z.eqb ?x ?y] => destruct (Z.eqb_spec x y) as [E|]; [left; rewrite E; reflexivity|right; reflexivity] end). }
  induction ops as [|o ops IH]; intros b; [left; reflexivity|]. cbn [CheckedIo.run_ios run_ios].
  destruct (O o b) as [-> | ->]; [|right; reflexivity]. destruct (run_io o b) as [[r b']|]; [|left; reflexivity].
  destruct (IH b') as [-> | ->]; [left; reflexivity|right; reflexivity].
Qed.
(** Reads, writes and flushes always have the same outcome, *)
Theorem C62_io_same : forall o b, possible b -> (forall w, o <> OpSeek w) -> (forall v, o = OpWrite v -> allocatable v) ->
  CheckedIo.run_io o b = run_io o b.
Proof.
  intros o b [Hd Hp] NS HV. unfold allocatable in *. destruct o as [n|v| |w]; cbn [CheckedIo.run_io run_io].
  - unfold CheckedIo.io_read, io_read. destruct (N.leb_spec (lenN (b_data b)) (b_pos b)); [reflexivity|].
    unfold CheckedIo.summing. change size with (@lenN byte) in *. rewrite wadd_small by lia.
    destruct (N.ltb_spec (b_pos b + N.min n (lenN (b_data b) - b_pos b)) W64); [reflexivity|lia].
  - specialize (HV v eq_refl). change size with (@lenN byte) in *. unfold CheckedIo.io_write, io_write, CheckedIo.summing.
    destruct (N.ltb_spec (b_pos b + lenN v) W64) as [L|L]; [rewrite wadd_small by lia; reflexivity|].
    assert (E : wadd (b_pos b) (lenN v) = b_pos b + lenN v - W64).
    { unfold wadd. symmetry. apply (N.mod_unique _ _ 1); lia. }
    rewrite E. match goal with |- context [if ?c then ?x else ?y] => destruct (if c then x else y) as [d|]; [|reflexivity] end. unfold copy_into, slice_get.
    destruct (N.leb_spec (b_pos b) (b_pos b + lenN v - W64)); [lia|reflexivity].
  - reflexivity.
  - destruct (NS w eq_refl).
Qed.
(** and seeks unless the new position exceeds [isize::MAX]: then one build returns an
    error, the other panics. *)
Theorem C62_seek : forall b, allocatable (b_data b) -> b_pos b < 9223372036854775808 ->
  (forall n, CheckedIo.run_io (OpSeek (SStart n)) b = run_io (OpSeek (SStart n)) b) /\
  forall off, (- 9223372036854775808 <= off < 9223372036854775808)%Z ->
  let from base w := ((Z.of_N base + off < 9223372036854775808)%Z -> CheckedIo.run_io (OpSeek w) b = run_io (OpSeek w) b) /\
    ((9223372036854775808 <= Z.of_N base + off)%Z ->
       run_io (OpSeek w) b = Some (IoInvalidInput, b) /\ CheckedIo.run_io (OpSeek w) b = None) in
  from (size (b_data b)) (SEnd off) /\ from (b_pos b) (SCurrent off).
Proof.
  intros b Hd Hp. split; [reflexivity|]. intros off Ho. unfold allocatable in Hd. change size with (@lenN byte) in *.
  assert (I : forall z, (- 9223372036854775808 <= z < 9223372036854775808)%Z -> cast Isize z = z).
  { exact cast_isize. }
  assert (J : forall z, (9223372036854775808 <= z < 18446744073709551616)%Z -> cast Isize z = (z - 18446744073709551616)%Z).
  { exact cast_isize_big. }
  cbv zeta. cbn [CheckedIo.run_io run_io]. unfold CheckedIo.io_seek, io_seek, CheckedIo.summing_signed.
  rewrite (I off Ho), (I (Z.of_N (lenN (b_data b)))), (I (Z.of_N (b_pos b))) by lia.
  split; (split; [intros H|intros H]).
  - rewrite I by lia. rewrite Z.eqb_refl. reflexivity.
  - rewrite J by lia. destruct (Z.eqb_spec (Z.of_N (lenN (b_data b)) + off - 18446744073709551616) (Z.of_N (lenN (b_data b)) + off)); [lia|].
    destruct (Z.ltb_spec (Z.of_N (lenN (b_data b)) + off - 18446744073709551616) 0); [auto|lia].
  - rewrite I by lia. rewrite Z.eqb_refl. reflexivity.
  - rewrite J by lia. destruct (Z.eqb_spec (Z.of_N (b_pos b) + off - 18446744073709551616) (Z.of_N (b_pos b) + off)); [lia|].
    destruct (Z.ltb_spec (Z.of_N (b_pos b) + off - 18446744073709551616) 0); [auto|lia].
Qed.
Example C62_io_case : CheckedIo.run_ios [OpWrite (hex [1; 2; 3]); OpSeek (SEnd (-2)); OpRead 5; OpSeek (SCurrent 4); OpWrite (hex [9])] buf_new =
    Some ([IoWritten 3; IoSought 3; IoRead 2 (hex [2; 3]); IoSought 3; IoWritten 1], mkbuf (hex [1; 2; 3; 0; 0; 0; 0; 9]) 8) /\
  CheckedIo.run_io (OpSeek (SCurrent 9223372036854775807)) (mkbuf [x01] 1) = None.
Proof. split; vm_compute; reflexivity. Qed.

Print Assumptions C62_read.
Print Assumptions C62_advance.
Print Assumptions C62_decode.
Print Assumptions C62_decode_same.
Print Assumptions C62_offset_refuted.
Print Assumptions C62_push.
Print Assumptions C62_write.
Print Assumptions C62_encode.
Print Assumptions C62_encode_new.
Print Assumptions C62_encode_same.
Print Assumptions C62_word_refuted.
Print Assumptions C62_io.
Print Assumptions C62_io_same.
Print Assumptions C62_seek.

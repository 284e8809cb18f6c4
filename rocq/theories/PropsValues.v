(** Properties C21, C32, C44 and C45: strings, the number of bytes written, the
    types of decoded values, and encoders that do not panic. *)
From Coq Require Import String.
From Verif Require Import Base Ints Reader Writer Spec SpecOps Utf8Spec.
From Verif Require Import Schema Utf8 Sugar Decode Encode WireSpec SafetySpec TypeSpec RunSpec CodecSpec.
From Verif Require Import Utf8Lemmas Bounds Counting Typing EncSafe EncBits StringLemmas Examples PropsContainers PropsRobust.

(** ** C21. Strings are UTF-8

    [text] (Utf8Spec.v): a sequence of encodings of Unicode scalar values. *)
Theorem C21_string : forall ca fa d p v q,
  dec TString ca fa d p = Ok v q <->
  exists l, dec TBytes ca fa d p = Ok (VBytes l) q /\ text l /\ v = VBytes l.
Proof. exact string_text. Qed.
Theorem C21_ill_formed : forall ca fa d p l q, dec TBytes ca fa d p = Ok (VBytes l) q -> ~ text l ->
  dec TString ca fa d p = Err (mkerr q Fail) q.
Proof. exact string_ill_formed. Qed.
Theorem C21_framing : forall ca fa d p e q, dec TBytes ca fa d p = Err e q -> dec TString ca fa d p = Err e q.
Proof. exact string_framing. Qed.
(** A byte string is the encoding of at most one text. *)
Theorem C21_unique : forall cs cs' l, encodes_text cs l -> encodes_text cs' l -> cs = cs'.
Proof. exact text_unique. Qed.

(** One, two, three and four bytes; an overlong form, a surrogate, a value that is
    too large, a cut character. *)
Example C21_case : encodes_text [0x24; 0xA3; 0x20AC; 0x10348] (hex [0x24; 0xC2; 0xA3; 0xE2; 0x82; 0xAC; 0xF0; 0x90; 0x8D; 0x88])
  /\ decode TString (hex [10; 0x24; 0xC2; 0xA3; 0xE2; 0x82; 0xAC; 0xF0; 0x90; 0x8D; 0x88]) 0
     = Ok (VBytes (hex [0x24; 0xC2; 0xA3; 0xE2; 0x82; 0xAC; 0xF0; 0x90; 0x8D; 0x88])) 11
  /\ decode TString (hex [2; 0xC0; 0x80]) 0 = Err (mkerr 3 Fail) 3
  /\ decode TString (hex [3; 0xED; 0xA0; 0x80]) 0 = Err (mkerr 4 Fail) 4
  /\ decode TString (hex [4; 0xF4; 0x90; 0x80; 0x80]) 0 = Err (mkerr 5 Fail) 5
  /\ decode TString (hex [2; 0xE2; 0x82; 0xAC]) 0 = Err (mkerr 3 Fail) 3.
Proof.
  split; [|repeat split]. split; [|reflexivity].
  repeat apply Forall_cons; [..|apply Forall_nil]; unfold scalar; lia.
Qed.
Example C21_not_text : ~ text (hex [0xC0; 0x80]).
Proof. intros H. apply utf8_ok_text in H. discriminate. Qed.

Print Assumptions C21_string.
Print Assumptions C21_ill_formed.
Print Assumptions C21_framing.
Print Assumptions C21_unique.

(** ** C32. The number of bytes written

    [n]: the number returned, below [isize::MAX] like every sum of lengths of things
    in memory. *)
Theorem C32_counts : forall t ca fa v d p n d' p', counted t = true -> each_encoder (fun _ _ => True) counts_bytes t -> counts_all fa = true ->
  p <= size d -> allocatable d -> n < 9223372036854775808 ->
  enc t ca fa v (mkbuf d p) = Ok n (mkbuf d' p') ->
  exists w, size w = n /\ p' = p + n /\ d' = overwrite d p w /\ allocatable d'.
Proof. exact encoder_counts. Qed.

Example C32_case : counted Message = true /\ each_encoder (fun _ _ => True) counts_bytes Message
  /\ encode_into Message (VVariant 1 [vs "hi"; vi 7]) (mkbuf (hex [1; 2; 3]) 1)
     = Ok 8 (mkbuf (hex [1; 2; 2] ++ str "hi" ++ hex [7; 0; 0; 0]) 9).
Proof. split; [reflexivity|]. split; [apply no_code_encoders; reflexivity|reflexivity]. Qed.

(** Padding is not counted; a word shared by bit fields is counted again for each
    field. *)
Theorem C32_offset_refuted : exists t v n w, t = struct [(at_offset (const 2) plain, u8)]
  /\ encode_into t v buf_new = Ok n (mkbuf w (size w)) /\ n <> size w.
Proof.
  exists (struct [(at_offset (const 2) plain, u8)]), (VList [vi 7]), 1, (hex [0; 0; 7]). repeat split. discriminate.
Qed.
Theorem C32_bits_refuted : exists t v n w, t = struct (bit_group U8 0xf0 [0x0f])
  /\ encode_into t v buf_new = Ok n (mkbuf w (size w)) /\ n <> size w.
Proof. exists (struct (bit_group U8 0xf0 [0x0f])), (VList [vi 4; vi 5]), 2, (hex [0x45]). repeat split. discriminate. Qed.

Print Assumptions C32_counts.
Print Assumptions C32_offset_refuted.
Print Assumptions C32_bits_refuted.

(** ** C44. Decoded values have their type

    [value_of] (TypeSpec.v): integers in range, well-formed strings, addresses of
    their size, arrays of their length, sets and maps without duplicates, and so on.
    [typed]: what the compiler checks of the functions in attributes. *)
Theorem C44_decode : forall t ca fa d p v q, typed t -> allocatable d -> dec t ca fa d p = Ok v q -> value_of t v.
Proof. exact decoder_typed. Qed.

Ltac typed_by := repeat first [exact I | discriminate | match goal with |- _ /\ _ => split end
  | match goal with |- typed_field _ _ => unfold typed_field; cbn; repeat split; solve [intros; discriminate | intros; exact I | intros; congruence] end
  | progress cbn [typed all_of_them]].
Example packet_typed : typed Packet.
Proof. unfold Packet, Message. typed_by. Qed.
Example frame_typed : typed Frame.
Proof. unfold Frame, Message, Verb. typed_by. Qed.
Example packet_decoded : dec Packet no_cattr no_fattr packet_bytes 0 = Ok packet (size packet_bytes).
Proof. vm_compute. reflexivity. Qed.
Example packet_value : value_of Packet packet.
Proof.
  assert (H : allocatable packet_bytes) by (vm_compute; reflexivity).
  exact (C44_decode Packet no_cattr no_fattr packet_bytes 0 packet (size packet_bytes) packet_typed H packet_decoded).
Qed.

Print Assumptions C44_decode.

(** ** C45. Encoders do not panic

    For every value of the type there is an amount of room that is enough: then the
    encoder succeeds or returns an error, and in both cases all it has done to the
    buffer is to write some bytes at the position. *)
Theorem C45_encode : forall t ca fa v, typed t -> encodable t ->
  each_encoder value_of writes_at_position t -> counts_all fa = true -> value_of t v ->
  exists room, forall d p, p <= size d -> allocatable d -> p + room < 9223372036854775808 ->
  exists w, size w <= room /\
    ((exists n, enc t ca fa v (mkbuf d p) = Ok n (mkbuf (overwrite d p w) (p + size w))) \/
     (exists e, enc t ca fa v (mkbuf d p) = Err e (mkbuf (overwrite d p w) (p + size w)))).
Proof. exact encoder_safe. Qed.

Ltac encodable_by := repeat first [exact I | reflexivity | match goal with |- _ /\ _ => split end
  | progress cbn [encodable every map] | (intros; cbn; discriminate)].
Example C45_case : typed Message /\ encodable Message /\ each_encoder value_of writes_at_position Message /\ value_of Message (VVariant 1 [vs "hi"; vi 7])
  /\ encodable (struct [(at_length (const 2) plain, u32)]) /\ typed (struct [(at_length (const 9) plain, u32)])
  /\ encode_into (struct [(plain, u8); (at_length (const 9) plain, u32)]) (VList [vi 1; vi 2]) (buf_from (hex [5; 6]))
     = Err (mkerr 1 InvalidByteLength) (mkbuf (hex [1; 6]) 1).
Proof.
  split; [unfold Message; typed_by|]. split; [unfold Message; encodable_by|].
  split; [apply no_code_encoders; reflexivity|]. split.
  { split; [apply utf8_ok_text; reflexivity|]. split; [split; [discriminate|reflexivity]|exact I]. }
  split; [unfold struct; encodable_by|]. split; [unfold struct; typed_by|reflexivity].
Qed.

(** A byte order that does not evaluate, and the second of two 128-bit fields. *)
Theorem C45_byteorder_refuted : exists t v, t = struct [(plain, u8); (at_order (OVar (field_ref 0)) plain, u16)]
  /\ typed t /\ value_of t v /\ encode_into t v buf_new = Panic.
Proof.
  exists (struct [(plain, u8); (at_order (OVar (field_ref 0)) plain, u16)]), (VList [vi 2; vi 3]).
  split; [reflexivity|]. split; [unfold struct, bit_group; cbn [more_bits]; typed_by|]. split; [|reflexivity]. repeat split; discriminate.
Qed.
Theorem C45_wide_bits_refuted : exists t v, t = TStruct true (mkcspec (Some Le) None) (bit_group U128 0xf0 [0x0f])
  /\ typed t /\ value_of t v /\ encode_into t v buf_new = Panic.
Proof.
  exists (TStruct true (mkcspec (Some Le) None) (bit_group U128 0xf0 [0x0f])), (VList [vi 2; vi 3]).
  split; [reflexivity|]. split; [unfold struct, bit_group; cbn [more_bits]; typed_by|]. split; [|vm_compute; reflexivity]. repeat split; discriminate.
Qed.

(** With bit fields that read back the word before them, in containers without
    128-bit integers: success or an error. What is before the position can change,
    because such a field rewrites the word before it. *)
Theorem C45_bits : forall t ca fa v, typed t -> encodable_bits t ->
  each_encoder value_of answers_writing t -> counts_all fa = true \/ wide_ints t = false -> value_of t v ->
  answers_writing (enc t ca fa v).
Proof. exact encoder_answers. Qed.
(** A packet with a group of two bit fields; and a second bit field without a first. *)
Ltac encodable_bits_by := repeat first [exact I | reflexivity | match goal with |- _ /\ _ => split end
  | (right; reflexivity) | progress cbn [encodable_bits every map] | (intros; cbn; discriminate)].
Example C45_bits_case : typed Packet /\ encodable_bits Packet /\ ~ encodable Packet
  /\ each_encoder value_of answers_writing Packet /\ value_of Packet packet
  /\ encode_into Packet packet buf_new = Ok (size packet_bytes + 1) (mkbuf packet_bytes (size packet_bytes))
  /\ encode_into (struct [(at_bits (const 0x0f) plain, u16)]) (VList [vi 3]) (buf_from (hex [5]))
     = Err (mkerr 18446744073709551614 InvalidByteLength) (mkbuf (hex [5]) 18446744073709551614).
Proof.
  split; [exact packet_typed|]. split; [unfold Packet, Message; encodable_bits_by|].
  split; [intros (_ & (_ & H & _) & _); discriminate H|]. split; [apply no_code_encoders; reflexivity|].
  split; [exact packet_value|]. split; vm_compute; reflexivity.
Qed.

Print Assumptions C45_bits.
Print Assumptions C45_encode.
Print Assumptions C45_byteorder_refuted.
Print Assumptions C45_wide_bits_refuted.

(** What was decoded can be encoded again without a panic. *)
Theorem C45_reencode : forall t ca fa d p v q, typed t -> encodable t ->
  each_encoder value_of writes_at_position t -> counts_all fa = true -> allocatable d ->
  dec t ca fa d p = Ok v q ->
  exists room, forall d' p', p' <= size d' -> allocatable d' -> p' + room < 9223372036854775808 ->
  enc t ca fa v (mkbuf d' p') <> Panic /\ enc t ca fa v (mkbuf d' p') <> Hang.
Proof. exact reencoder_safe. Qed.
Print Assumptions C45_reencode.
Theorem C45_reencode_bits : forall t ca fa d p v q, typed t -> encodable_bits t ->
  each_encoder value_of answers_writing t -> counts_all fa = true \/ wide_ints t = false -> allocatable d ->
  dec t ca fa d p = Ok v q -> answers_writing (enc t ca fa v).
Proof. intros t ca fa d p v q HT HC HU Hf Hs E. exact (encoder_answers t ca fa v HT HC HU Hf (C44_decode t ca fa d p v q HT Hs E)). Qed.
Print Assumptions C45_reencode_bits.

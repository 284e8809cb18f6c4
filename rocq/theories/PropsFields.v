(** Properties C17-C20 and C27: byte orders, integers with a length, bit fields,
    byte strings and addresses. *)
From Coq Require Import String.
From Verif Require Import Base Ints Reader Writer Spec SpecOps.
From Verif Require Import BaseLemmas ReaderLemmas WriterLemmas CodecBase BitsLemmas EncLemmas DecLemmas DecWire.
From Verif Require Import Schema Utf8 Sugar Decode Encode WireSpec RunSpec CodecSpec RoundTrip Collections Containers OrderLemmas FieldLemmas Examples.

(** ** C17. Byte order resolution

    [order_for ca fa]: the order written on the field, else the one of the
    container, else big-endian. *)
Theorem C17_field_order : forall named c o it ca fa d p, allocatable d ->
  let order := match o, c_order c with Some bo, _ => bo | None, Some bo => bo | None, None => Be end in
  let f := match o with Some bo => at_order (OConst bo) plain | None => plain end in
  dec (TStruct named c [(f, TInt it)]) ca fa d p =
    if p + width_bytes it <=? size d
    then Ok (VList [VInt (int_number order it (window d p (width_bytes it)))]) (p + width_bytes it)
    else Err (mkerr p InvalidByteLength) p.
Proof. exact field_order. Qed.

Theorem C17_decode_int : forall it ca fa d p, a_length fa = None -> a_bits fa = None -> allocatable d ->
  dec (TInt it) ca fa d p =
    if p + width_bytes it <=? size d
    then Ok (VInt (int_number (order_for ca fa) it (window d p (width_bytes it)))) (p + width_bytes it)
    else Err (mkerr p InvalidByteLength) p.
Proof. exact int_order. Qed.

Theorem C17_encode_int : forall it ca fa z, a_length fa = None -> a_bits fa = None -> value_in it z ->
  writes_as (enc (TInt it) ca fa (VInt z)) (digits (order_for ca fa) (N.to_nat (width_bytes it)) (unsigned it z)).
Proof. exact int_order_enc. Qed.

(** Every type, in both directions: the orders of field and container matter only
    through the one in force. *)
Theorem C17_only_the_order_in_force_partial : forall t, only_order_in_force t -> forall ca fa o1 o2 k1 k2,
  order_for (in_order k1 ca) (set_order o1 fa) = order_for (in_order k2 ca) (set_order o2 fa) ->
  no_map t = true \/ no_terminators fa = true ->
  (forall d p, dec t (in_order k1 ca) (set_order o1 fa) d p = dec t (in_order k2 ca) (set_order o2 fa) d p)
  /\ (forall v b, enc t (in_order k1 ca) (set_order o1 fa) v b = enc t (in_order k2 ca) (set_order o2 fa) v b).
Proof. exact all_Ord. Qed.

(** Only the directly enclosing container counts: a struct takes no order from
    outside. *)
Theorem C17_not_inherited : forall named c fs ca fa ca' fa', k_vars ca = k_vars ca' ->
  (forall d p, dec (TStruct named c fs) ca fa d p = dec (TStruct named c fs) ca' fa' d p)
  /\ (forall v b, enc (TStruct named c fs) ca fa v b = enc (TStruct named c fs) ca' fa' v b).
Proof. exact struct_own_order. Qed.

Example C17_case : let t := TStruct true (mkcspec (Some Le) None) [(plain, u16); (at_order (OConst Be) plain, u16); (plain, struct [(plain, u16)])] in
  decode t (hex [1; 2; 1; 2; 1; 2]) 0 = Ok (VList [vi 513; vi 258; VList [vi 258]]) 6
  /\ encode t (VList [vi 513; vi 258; VList [vi 258]]) = Ok (hex [1; 2; 1; 2; 1; 2]) tt
  /\ order_for (in_order None no_cattr) (set_order (Some Le) no_fattr) = order_for (in_order (Some Le) no_cattr) (set_order None no_fattr).
Proof. repeat split. Qed.

(** With [split] or [linend], a byte order written on a map does not reach its
    integers: the key 00 01 of a little-endian map is read as 1. *)
Theorem C17_map_refuted : exists fa d, a_order fa = Some Le /\ order_for no_cattr fa = Le
  /\ d = hex [1; 0; 1; 0x61; 0x0a]
  /\ dec (TMap (TInt U16) TBytes) no_cattr fa d 0 = Ok (VMap [(vi 1, vs "a")]) 5
  /\ number Le (hex [0; 1]) = 256.
Proof.
  exists (mkfattr None (Some Le) false (Some (hex [0x0a])) None false None false None None None None (Some (hex [0x3a])) None None).
  eexists. repeat split.
Qed.

Print Assumptions C17_field_order.
Print Assumptions C17_decode_int.
Print Assumptions C17_encode_int.
Print Assumptions C17_only_the_order_in_force_partial.
Print Assumptions C17_not_inherited.
Print Assumptions C17_map_refuted.

(** ** C18. Integers with a length *)
Theorem C18_decode : forall it ca fa l d p, a_length fa = Some l -> a_bits fa = None ->
  l <= width_bytes it -> l <= 8 -> allocatable d -> p + l <= size d ->
  dec (TInt it) ca fa d p = Ok (VInt (int_number (order_for ca fa) it (window d p l))) (p + l).
Proof. exact length_decode. Qed.

Theorem C18_decode_short : forall it ca fa l d p, a_length fa = Some l -> l <= width_bytes it -> l <= 8 ->
  size d < p + l -> 0 < l \/ p <= size d -> refuses (dec (TInt it) ca fa) d p.
Proof. exact length_decode_short. Qed.

Theorem C18_encode : forall it ca fa l z, a_length fa = Some l -> a_bits fa = None ->
  l <= width_bytes it -> l <= 8 ->
  writes_as (enc (TInt it) ca fa (VInt z)) (digits (order_for ca fa) (N.to_nat l) (Z.to_N (z mod Z.of_N (256 ^ l)))).
Proof. exact length_encode. Qed.

(** What is read back is the value iff it is below 256^l, or nothing is cut off. *)
Theorem C18_round_trip : forall it ca fa l z, a_length fa = Some l -> a_bits fa = None ->
  0 < l -> l <= width_bytes it -> l <= 8 -> value_in it z ->
  exists w, size w = l /\ writes_as (enc (TInt it) ca fa (VInt z)) w
    /\ forall pre rest, allocatable (pre ++ w ++ rest) ->
       (dec (TInt it) ca fa (pre ++ w ++ rest) (size pre) = Ok (VInt z) (size pre + l)
        <-> (0 <= z < Z.of_N (256 ^ l))%Z \/ l = width_bytes it).
Proof. exact length_both_ways. Qed.

Theorem C18_too_long_decode : forall it ca fa l d p, a_length fa = Some l -> width_bytes it < l ->
  refuses (dec (TInt it) ca fa) d p.
Proof. exact length_too_big_decode. Qed.

Theorem C18_too_long_encode : forall it ca fa l z b, a_length fa = Some l -> a_bits fa = None -> width_bytes it < l ->
  exists e, enc (TInt it) ca fa (VInt z) b = Err e b.
Proof. exact length_too_big_encode. Qed.

Example C18_case : let t l it := struct [(at_length (const l) plain, TInt it)] in
  decode (t 3%Z U32) (hex [1; 2; 3; 4]) 0 = Ok (VList [vi 0x010203]) 3
  /\ encode (t 3%Z U32) (VList [vi 0x010203]) = Ok (hex [1; 2; 3]) tt
  /\ encode (t 3%Z I32) (VList [vi (-2)]) = Ok (hex [0xff; 0xff; 0xfe]) tt
  /\ decode (t 3%Z I32) (hex [0xff; 0xff; 0xfe]) 0 = Ok (VList [vi 0xfffffe]) 3
  /\ (exists e, decode (t 3%Z U16) (hex [1; 2; 3; 4]) 0 = Err e 0)
  /\ (exists e, encode (t 3%Z U16) (VList [vi 1]) = Err e tt).
Proof. repeat split; eexists; reflexivity. Qed.

Print Assumptions C18_decode.
Print Assumptions C18_decode_short.
Print Assumptions C18_encode.
Print Assumptions C18_round_trip.
Print Assumptions C18_too_long_decode.
Print Assumptions C18_too_long_encode.

(** ** C19. Bit fields *)

(** Encoding a group whose masks do not overlap, with values that fit: one word,
    with each value under its mask and nothing elsewhere. *)
Theorem C19_encode : forall it m ms vs c, is_signed it = false -> width_bytes it <= 8 ->
  Forall (fun m => m < 256 ^ width_bytes it) (m :: ms) -> pairwise_disjoint (m :: ms) -> Forall2 fits_mask (m :: ms) vs ->
  exists word, word < 256 ^ width_bytes it
    /\ Forall2 (fun m v => under m word = v) (m :: ms) vs
    /\ (forall i, bit word i = true -> exists m', In m' (m :: ms) /\ bit m' i = true)
    /\ forall ca fa, writes_as (enc (TStruct true c (bit_group it m ms)) ca fa (VList (numbers vs)))
                               (digits (order_in c) (N.to_nat (width_bytes it)) word).
Proof. exact bits_group_encode. Qed.

(** Decoding any word gives each field the bits under its mask; the masks may
    overlap and need not be contiguous. *)
Theorem C19_decode : forall it m ms c d p ca fa, is_signed it = false ->
  Forall (fun m => 0 < m /\ m < 256 ^ width_bytes it /\ m < 256 ^ 8) (m :: ms) ->
  allocatable d -> p + width_bytes it <= size d ->
  dec (TStruct true c (bit_group it m ms)) ca fa d p
  = Ok (VList (numbers (map (fun m => under m (number (order_in c) (window d p (width_bytes it)))) (m :: ms))))
       (p + width_bytes it).
Proof. exact bits_group_decode. Qed.

Theorem C19_round_trip : forall it m ms vs c ca fa rest, is_signed it = false -> width_bytes it <= 8 ->
  Forall (fun m => m < 256 ^ width_bytes it) (m :: ms) -> pairwise_disjoint (m :: ms) -> Forall2 fits_mask (m :: ms) vs ->
  exists w, size w = width_bytes it
    /\ writes_as (enc (TStruct true c (bit_group it m ms)) ca fa (VList (numbers vs))) w
    /\ reads_as (dec (TStruct true c (bit_group it m ms)) ca fa) w rest (VList (numbers vs)).
Proof. exact bits_group_round_trip. Qed.

Example C19_case : let g := struct (bit_group U16 0xf000 [0x0f00; 0x00ff]) in
  Forall (fun m => m < 256 ^ width_bytes U16) [0xf000; 0x0f00; 0x00ff]
  /\ pairwise_disjoint [0xf000; 0x0f00; 0x00ff]
  /\ Forall2 fits_mask [0xf000; 0x0f00; 0x00ff] [1; 2; 0x34]
  /\ encode g (VList (numbers [1; 2; 0x34])) = Ok (hex [0x12; 0x34]) tt
  /\ decode g (hex [0x12; 0x34]) 0 = Ok (VList (numbers [1; 2; 0x34])) 2.
Proof.
  split; [repeat constructor|]. split.
  - repeat split; repeat constructor; intros i; unfold bit; rewrite <- N.land_spec; apply N.bits_0.
  - split; [|split; reflexivity]. repeat constructor; [exists 12, 4|exists 8, 4|exists 0, 8]; repeat split; reflexivity.
Qed.

(** The encoder does not check that a value fits its mask: 0x1f under the mask
    0x0f spoils the field above it. *)
Theorem C19_value_too_big_refuted : exists vs vs', vs <> vs' /\ pairwise_disjoint [0xf0; 0x0f]
  /\ encode (struct (bit_group U8 0xf0 [0x0f])) (VList (numbers vs)) = Ok (hex [0x3f]) tt
  /\ encode (struct (bit_group U8 0xf0 [0x0f])) (VList (numbers vs')) = Ok (hex [0x3f]) tt
  /\ vs = [2; 0x1f] /\ vs' = [3; 0x0f].
Proof.
  exists [2; 0x1f], [3; 0x0f]. split; [discriminate|]. split; [|repeat split].
  repeat split; repeat constructor; intros i; unfold bit; rewrite <- N.land_spec; apply N.bits_0.
Qed.

Print Assumptions C19_encode.
Print Assumptions C19_decode.
Print Assumptions C19_round_trip.
Print Assumptions C19_value_too_big_refuted.

(** ** C20. Byte strings: the six framings with optional [key] and [split] *)
Theorem C20_bytes : forall ca fa l w rest, frame ca fa l = Some w -> fits_frame fa l rest = true ->
  writes_as (enc TBytes ca fa (VBytes l)) w /\ reads_as (dec TBytes ca fa) w rest (VBytes l).
Proof. intros. split; [apply encoder_writes; [exact I|assumption]|apply decoder_reads; [exact I|assumption|assumption]]. Qed.

Theorem C20_strings : forall ca fa l w rest, frame ca fa l = Some w -> fits_frame fa l rest = true -> utf8_ok l = true ->
  writes_as (enc TString ca fa (VBytes l)) w /\ reads_as (dec TString ca fa) w rest (VBytes l).
Proof.
  intros ca fa l w rest Hw Hf Hu. split; [apply encoder_writes; [exact I|exact Hw]|].
  apply decoder_reads; [exact I|exact Hw|]. cbn [fits]. rewrite Hu. exact Hf.
Qed.

(** Anything may stand in front of the key. *)
Theorem C20_key : forall ca fa k l w junk rest, a_key fa = Some k -> ends_first k junk = true ->
  frame ca fa l = Some w -> fits_frame fa l rest = true ->
  reads_as (dec TBytes ca fa) (junk ++ w) rest (VBytes l).
Proof. exact key_skips_as. Qed.

Definition framing (fa : fattr) (l rest : bytes) (w : bytes) : Prop :=
  frame no_cattr fa l = Some w /\ fits_frame fa l rest = true.
Definition framed (f : fspec -> fspec) : fattr :=
  match modifiers (f plain) (mkenv [] []) with Some fa => fa | None => no_fattr end.
Example C20_case :
  framing no_fattr (str "abc") (str "xy") (hex [3] ++ str "abc")
  /\ framing (framed (at_length (const 3))) (str "abc") (str "xy") (str "abc")
  /\ framing (framed (at_byte_count (const 2))) (str "abc") (str "xy") (hex [0; 3] ++ str "abc")
  /\ framing only_linend (str "abc") (str "xy") (str "abc" ++ hex [13; 10])
  /\ framing (framed (at_linend (str "::"))) (str "a:bc") (str "xy") (str "a:bc::")
  /\ framing (framed at_remaining) (str "abc") [] (str "abc")
  /\ framing (framed (fun f => at_key (str "k") (at_split (str "=") (at_length (const 3) f)))) (str "abc") (str "xy") (str "k=abc")
  /\ ends_first (str "k") (str "junk") = false /\ ends_first (str "k") (str "jun") = true.
Proof. repeat split. Qed.

(** A string too long for its prefix is accepted and cannot be read back. *)
Theorem C20_long_string_refuted : exists l, size l = 256
  /\ encode TBytes (VBytes l) = Ok (x00 :: l) tt
  /\ decode TBytes (x00 :: l) 0 = Ok (VBytes []) 1.
Proof. exists (repeat x61 256). repeat split; vm_compute; reflexivity. Qed.

Print Assumptions C20_bytes.
Print Assumptions C20_strings.
Print Assumptions C20_key.
Print Assumptions C20_long_string_refuted.

(** ** C27. Addresses *)
Definition addresses : list (ty * N) := [(TMac, 6); (TIpv4, 4); (TIpv6, 16)].

Theorem C27_round_trip : forall t n ca fa l rest, In (t, n) addresses -> size l = n ->
  writes_as (enc t ca fa (VBytes l)) (octets (order_for ca fa) l)
  /\ reads_as (dec t ca fa) (octets (order_for ca fa) l) rest (VBytes l).
Proof. exact address_round_trip. Qed.

(** Any [n] bytes are an address. *)
Theorem C27_decode : forall t n ca fa d p, In (t, n) addresses -> allocatable d -> p + n <= size d ->
  dec t ca fa d p = Ok (VBytes (octets (order_for ca fa) (window d p n))) (p + n).
Proof. exact address_decode. Qed.

Theorem C27_short : forall t n ca fa d p, In (t, n) addresses -> allocatable d -> size d < p + n ->
  refuses (dec t ca fa) d p.
Proof. intros t n ca fa d p. apply address_short. Qed.

(** [IpAddr] and [NetAddress]: the variant (V4, V6, Mac) goes with the length. *)
Theorem C27_by_length : forall t i n ca fa l rest,
  In (t, i, n) [(TIpAddr, 0%nat, 4); (TIpAddr, 1%nat, 16); (TNetAddr, 0%nat, 4); (TNetAddr, 1%nat, 16); (TNetAddr, 2%nat, 6)] ->
  size l = n -> a_length fa = Some n ->
  writes_as (enc t ca fa (VVariant i [VBytes l])) (octets (order_for ca fa) l)
  /\ reads_as (dec t ca fa) (octets (order_for ca fa) l) rest (VVariant i [VBytes l]).
Proof. exact address_by_length. Qed.

Theorem C27_net_number : forall ca fa n z rest, a_length fa = Some n -> a_bits fa = None ->
  In n [1; 2; 3; 5; 7; 8] -> (0 <= z < 256 ^ Z.of_N n)%Z ->
  writes_as (enc TNetAddr ca fa (VVariant 3 [VInt z])) (digits (order_for ca fa) (N.to_nat n) (Z.to_N z))
  /\ reads_as (dec TNetAddr ca fa) (digits (order_for ca fa) (N.to_nat n) (Z.to_N z)) rest (VVariant 3 [VInt z]).
Proof. exact net_number. Qed.

Theorem C27_no_length : forall t ca fa d p, t = TIpAddr \/ t = TNetAddr ->
  a_length fa = None \/ a_length fa = Some 0 -> refuses (dec t ca fa) d p.
Proof. exact address_no_length. Qed.

Example C27_case : let net n := struct [(at_length (const n) plain, TNetAddr)] in
  decode TMac (hex [1; 2; 3; 4; 5; 6; 7]) 0 = Ok (VBytes (hex [1; 2; 3; 4; 5; 6])) 6
  /\ encode (TStruct true (mkcspec (Some Le) None) [(plain, TIpv4)]) (VList [VBytes (hex [192; 168; 0; 1])]) = Ok (hex [1; 0; 168; 192]) tt
  /\ decode (net 4%Z) (hex [192; 168; 0; 1]) 0 = Ok (VList [VVariant 0 [VBytes (hex [192; 168; 0; 1])]]) 4
  /\ decode (net 2%Z) (hex [1; 2]) 0 = Ok (VList [VVariant 3 [vi 258]]) 2
  /\ exists e, decode TIpAddr (hex [192; 168; 0; 1]) 0 = Err e 0.
Proof. repeat split; eexists; reflexivity. Qed.

Print Assumptions C27_round_trip.
Print Assumptions C27_decode.
Print Assumptions C27_short.
Print Assumptions C27_by_length.
Print Assumptions C27_net_number.
Print Assumptions C27_no_length.

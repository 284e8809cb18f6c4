(** Properties C22-C26, C30, C31, C36 and C37: collections, options, whole values,
    enums, the scope of modifiers and variables. *)
From Coq Require Import String Permutation.
From Verif Require Import Base Ints Reader Writer Spec SpecOps.
From Verif Require Import BaseLemmas ReaderLemmas WriterLemmas CodecBase BitsLemmas EncLemmas DecLemmas DecWire.
From Verif Require Import Schema Utf8 Sugar Decode Encode WireSpec RunSpec CodecSpec RoundTrip Collections Containers OrderLemmas FieldLemmas Examples.

Definition framed (f : fspec -> fspec) : fattr :=
  match modifiers (f plain) (mkenv [] []) with Some fa => fa | None => no_fattr end.

(** ** C22. Vectors with a count

    [announced ca fa d p c q]: a count [c] is announced at [p] and the elements
    begin at [q]. [runs m d p l q]: [m], run once for each element of [l], goes
    from [p] to [q]. *)
Theorem C22_decode : forall t ca fa d p v q, a_loop fa = None -> a_try_count fa = None ->
  a_count fa <> None \/ p <= size d -> allocatable d -> (forall k, a_byte_count_outside fa = Some k -> k <= 8) ->
  (dec (TVec t) ca fa d p = Ok v q <->
   exists c p0 l, announced ca fa d p c p0 /\ v = VList l /\ N.of_nat (length l) = c /\ runs (dec t ca fa) d p0 l q).
Proof. exact vec_ok. Qed.

Theorem C22_decode_error : forall t ca fa d p c p0 l p' e q, a_loop fa = None -> a_try_count fa = None ->
  a_count fa <> None \/ p <= size d -> allocatable d -> (forall k, a_byte_count_outside fa = Some k -> k <= 8) ->
  announced ca fa d p c p0 -> N.of_nat (length l) < c -> runs (dec t ca fa) d p0 l p' -> dec t ca fa d p' = Err e q ->
  dec (TVec t) ca fa d p = Err e q.
Proof. exact vec_err. Qed.

Theorem C22_encode : forall t ca fa l ws pfx, a_loop fa = None -> count_prefix ca fa (N.of_nat (length l)) = Some pfx ->
  Forall2 (fun x w => writes_as (enc t ca fa x) w) l ws ->
  writes_as (enc (TVec t) ca fa (VList l)) (pfx ++ concat ws).
Proof. exact vec_writes. Qed.

Theorem C22_read_back : forall t ca fa l ws pfx rest, a_loop fa = None ->
  count_prefix ca fa (N.of_nat (length l)) = Some pfx -> fits_count fa (N.of_nat (length l)) false = true ->
  Forall2 (fun x w => forall rest, reads_as (dec t ca fa) w rest x) l ws ->
  reads_as (dec (TVec t) ca fa) (pfx ++ concat ws) rest (VList l).
Proof. exact vec_reads. Qed.

Example C22_case : announced no_cattr no_fattr (hex [2; 7; 8]) 0 2 1
  /\ runs (dec u8 no_cattr no_fattr) (hex [2; 7; 8]) 1 [vi 7; vi 8] 3
  /\ count_prefix no_cattr (framed (at_byte_count_outside (const 2))) 3 = Some (hex [0; 3])
  /\ fits_count (framed (at_byte_count_outside (const 2))) 3 false = true
  /\ both (TVec u8) (hex [2; 7; 8]) (VList [vi 7; vi 8])
  /\ (exists e, decode (TVec u8) (hex [3; 7; 8]) 0 = Err e 3)
  /\ both (struct [(plain, u8); (at_count (field_ref 0) plain, TVec u16)]) (hex [2; 0; 7; 0; 8]) (VList [vi 2; VList [vi 7; vi 8]]).
Proof.
  split; [exists x02; repeat split|]. split; [exists 2; split; [reflexivity|]; exists 3; repeat split|].
  repeat split. eexists; reflexivity.
Qed.

(** The encoder does not check that the count fits: 256 elements look like none. *)
Theorem C22_many_elements_refuted : exists l, length l = 256%nat
  /\ encode (TVec u8) (VList l) = Ok (repeat x00 257) tt
  /\ decode (TVec u8) (repeat x00 257) 0 = Ok (VList []) 1.
Proof. exists (repeat (vi 0) 256). repeat split; vm_compute; reflexivity. Qed.

(** With both [count] and [byte_count_outside] the encoder writes a prefix that
    the decoder does not expect. *)
Theorem C22_count_and_prefix_refuted : exists fa v w, a_loop fa = None /\ a_count fa = Some 2 /\ a_byte_count_outside fa = Some 1
  /\ enc (TVec u8) no_cattr fa v (mkbuf [] 0) = Ok 3 (mkbuf w 3)
  /\ dec (TVec u8) no_cattr fa w 0 <> Ok v 3 /\ v = VList [vi 7; vi 8].
Proof.
  exists (framed (fun f => at_count (const 2) (at_byte_count_outside (const 1) f))), (VList [vi 7; vi 8]), (hex [2; 7; 8]).
  repeat split. discriminate.
Qed.

Print Assumptions C22_decode.
Print Assumptions C22_decode_error.
Print Assumptions C22_encode.
Print Assumptions C22_read_back.
Print Assumptions C22_many_elements_refuted.
Print Assumptions C22_count_and_prefix_refuted.

(** ** C23. try_count *)
Theorem C23_longest_prefix : forall t ca fa n d p, a_loop fa = None -> a_count fa = None -> a_try_count fa = Some n ->
  (forall e q, dec (TVec t) ca fa d p <> Err e q) /\
  (forall v q, dec (TVec t) ca fa d p = Ok v q <->
     exists l p', v = VList l /\ runs (dec t ca fa) d p l p' /\
       ((N.of_nat (length l) = n /\ q = p') \/ (N.of_nat (length l) < n /\ exists e, dec t ca fa d p' = Err e q))).
Proof. exact try_vec. Qed.

Example C23_case : let fa := framed (at_try_count (const 3)) in a_loop fa = None /\ a_count fa = None /\ a_try_count fa = Some 3
  /\ dec (TVec u16) no_cattr fa (hex [0; 1; 0; 2; 9]) 0 = Ok (VList [vi 1; vi 2]) 4
  /\ dec (TVec u16) no_cattr fa (hex [0; 1; 0; 2; 0; 3; 0; 4]) 0 = Ok (VList [vi 1; vi 2; vi 3]) 6.
Proof. repeat split. Qed.

(** When an element fails half way, the bytes it had consumed are not given back. *)
Theorem C23_position_refuted : exists t fa d v q, a_try_count fa = Some 3 /\ a_loop fa = None /\ a_count fa = None
  /\ dec (TVec t) no_cattr fa d 0 = Ok v q /\ v = VList [VList [vi 1; vi 2]] /\ q = 4 /\ size d = 4
  /\ dec t no_cattr fa d 0 = Ok (VList [vi 1; vi 2]) 3.
Proof. exists (TTuple [u8; u16]), (framed (at_try_count (const 3))), (hex [1; 0; 2; 3]). do 2 eexists. repeat split. Qed.

Print Assumptions C23_longest_prefix.
Print Assumptions C23_position_refuted.

(** ** C24. Option *)
Theorem C24_decode : forall t ca fa d p, a_length fa <> Some 0 ->
  (forall e q, dec (TOption t) ca fa d p <> Err e q) /\
  (forall v q, dec (TOption t) ca fa d p = Ok v q <->
     (exists x, v = VOpt (Some x) /\ dec t ca fa d p = Ok x q) \/ (v = VOpt None /\ exists e, dec t ca fa d p = Err e q)).
Proof. exact option_dec. Qed.

Theorem C24_length_zero : forall t ca fa d p, a_length fa = Some 0 -> dec (TOption t) ca fa d p = Ok (VOpt None) p.
Proof. exact option_dec_zero. Qed.

Theorem C24_encode : forall t ca fa b,
  enc (TOption t) ca fa (VOpt None) b = Ok 0 b
  /\ forall x, enc (TOption t) ca fa (VOpt (Some x)) b = enc t ca fa x b.
Proof. split; [reflexivity|]. intros x. reflexivity. Qed.

Example C24_case : decode (TOption u16) (hex [1; 2]) 0 = Ok (VOpt (Some (vi 258))) 2
  /\ decode (TOption u16) (hex [1]) 0 = Ok (VOpt None) 0
  /\ decode (struct [(at_length (const 0) plain, TOption TBytes)]) (hex [1; 2]) 0 = Ok (VList [VOpt None]) 0.
Proof. repeat split. Qed.

(** None is written as nothing and may be read back as Some of what follows; the
    bytes of a half decoded value are not given back. *)
Theorem C24_none_refuted : exists t v w, encode t v = Ok w tt /\ v = VList [VOpt None; vi 7]
  /\ decode t w 0 <> Ok v (size w) /\ t = struct [(plain, TOption u8); (plain, u8)].
Proof. exists (struct [(plain, TOption u8); (plain, u8)]), (VList [VOpt None; vi 7]), (hex [7]). repeat split. discriminate. Qed.
Theorem C24_position_refuted : exists t d, decode (TOption t) d 0 = Ok (VOpt None) 1 /\ t = TTuple [u8; u16] /\ d = hex [1; 2].
Proof. exists (TTuple [u8; u16]), (hex [1; 2]). repeat split. Qed.

Print Assumptions C24_decode.
Print Assumptions C24_length_zero.
Print Assumptions C24_encode.
Print Assumptions C24_none_refuted.
Print Assumptions C24_position_refuted.

(** ** C25. Maps: [l'] is the map [l] in the order in which it is enumerated *)
Theorem C25_any_order : forall tk tv ca fa l l' ws pfx, Permutation l l' ->
  count_prefix ca fa (N.of_nat (length l)) = Some pfx -> fits_count fa (N.of_nat (length l)) false = true ->
  distinct (map fst l) = true ->
  Forall2 (fun kv w => (writes_as (enc tk ca (for_key fa) (fst kv)) (fst w) /\ writes_as (enc tv ca (for_value fa) (snd kv)) (snd w))
                       /\ (forall rest, reads_as (dec tk ca (for_key fa)) (fst w) rest (fst kv))
                       /\ (forall rest, reads_as (dec tv ca (for_value fa)) (snd w) rest (snd kv))) l ws ->
  exists ws', Permutation ws ws' /\
    let w := pfx ++ concat (map (fun w => fst w ++ snd w) ws') in
    writes_as (enc (TMap tk tv) ca fa (VMap l')) w
    /\ (forall rest, reads_as (dec (TMap tk tv) ca fa) w rest (VMap l'))
    /\ same_map l l'.
Proof. exact map_any_order. Qed.

Theorem C25_last_wins : forall tk tv ca fa d p v q, a_try_count fa = None -> a_count fa <> None \/ p <= size d -> allocatable d ->
  (forall k, a_byte_count_outside fa = Some k -> k <= 8) ->
  dec (TMap tk tv) ca fa d p = Ok v q ->
  exists c p0 l m, announced ca fa d p c p0 /\ N.of_nat (length l) = c
    /\ runs (k <- dec tk ca (for_key fa) ;; x <- dec tv ca (for_value fa) ;; ret (k, x)) d p0 l q
    /\ v = VMap m /\ distinct (map fst m) = true /\ forall k, lookup k m = lookup k (rev l).
Proof. exact map_last_wins. Qed.

Lemma u8_wire ca fa n : a_length fa = None -> a_bits fa = None -> n < 256 ->
  wire (TInt U8) ca fa (VInt (Z.of_N n)) = Some (hex [n]).
Proof.
  intros Hl Hb H. cbn [wire]. unfold wire_int. rewrite Hl, Hb.
  replace (value_inb U8 (Z.of_N n)) with true; [|symmetry; unfold value_inb; cbn [is_signed width_bytes]; apply andb_true_iff; rewrite Z.leb_le, Z.ltb_lt; change (2 ^ (8 * Z.of_N 1))%Z with 256%Z; lia].
  cbn [negb]. f_equal. change (N.to_nat (width_bytes U8)) with 1%nat.
  rewrite digits_to_bytes. unfold unsigned. change (2 ^ (8 * Z.of_N (width_bytes U8)))%Z with 256%Z. rewrite Z.mod_small by lia. rewrite N2Z.id.
  destruct (order_for ca fa); reflexivity.
Qed.
Lemma u8_as ca n : n < 256 -> writes_as (enc u8 ca no_fattr (VInt (Z.of_N n))) (hex [n])
  /\ forall rest, reads_as (dec u8 ca no_fattr) (hex [n]) rest (VInt (Z.of_N n)).
Proof.
  intros H.
  split; [apply encoder_writes; [exact I|apply u8_wire; auto]|]. intros rest. apply decoder_reads; [exact I|apply u8_wire; auto|reflexivity].
Qed.
Example C25_case :
  let l := [(vi 1, vi 10); (vi 2, vi 20)] in let l' := [(vi 2, vi 20); (vi 1, vi 10)] in
  Permutation l l' /\ count_prefix no_cattr no_fattr (N.of_nat (length l)) = Some (hex [2])
  /\ fits_count no_fattr (N.of_nat (length l)) false = true /\ distinct (map fst l) = true
  /\ Forall2 (fun kv w => (writes_as (enc u8 no_cattr (for_key no_fattr) (fst kv)) (fst w) /\ writes_as (enc u8 no_cattr (for_value no_fattr) (snd kv)) (snd w))
                       /\ (forall rest, reads_as (dec u8 no_cattr (for_key no_fattr)) (fst w) rest (fst kv))
                       /\ (forall rest, reads_as (dec u8 no_cattr (for_value no_fattr)) (snd w) rest (snd kv)))
       l [(hex [1], hex [10]); (hex [2], hex [20])]
  /\ both (TMap u8 u8) (hex [2; 2; 20; 1; 10]) (VMap l')
  /\ decode (TMap u8 u8) (hex [3; 1; 5; 2; 6; 1; 7]) 0 = Ok (VMap [(vi 1, vi 7); (vi 2, vi 6)]) 7.
Proof.
  split; [apply perm_swap|]. repeat (split; [reflexivity|]). split; [|repeat split].
  constructor; [|constructor; [|constructor]]; cbn [fst snd]; (split; [split|split]).
  all: match goal with |- writes_as (enc _ _ _ (vi ?z)) _ => apply (u8_as no_cattr (Z.to_N z)) | |- forall rest, reads_as _ _ _ (vi ?z) => apply (u8_as no_cattr (Z.to_N z)) end; lia.
Qed.

Print Assumptions C25_any_order.
Print Assumptions C25_last_wins.

(** ** C26. Arrays and tuples *)
Theorem C26_array_decode : forall n t ca fa d p v q, dec (TArray n t) ca fa d p = Ok v q <->
  exists l, v = VList l /\ length l = n /\ runs (dec t ca fa) d p l q.
Proof. exact array_ok. Qed.
Theorem C26_array_error : forall n t ca fa d p e q, dec (TArray n t) ca fa d p = Err e q <->
  exists l p', (length l < n)%nat /\ runs (dec t ca fa) d p l p' /\ dec t ca fa d p' = Err e q.
Proof. exact array_err. Qed.
Theorem C26_array_encode : forall t ca fa l ws, Forall2 (fun x w => writes_as (enc t ca fa x) w) l ws ->
  writes_as (enc (TArray (length l) t) ca fa (VList l)) (concat ws).
Proof. exact array_writes. Qed.
Theorem C26_tuple_decode : forall ts ca fa d p v q, dec (TTuple ts) ca fa d p = Ok v q <->
  exists l, v = VList l /\ runs_each (map (fun t => dec t ca fa) ts) d p l q.
Proof. exact tuple_ok. Qed.
Theorem C26_tuple_encode : forall ca fa ts l ws,
  Forall2 (fun tx w => writes_as (enc (fst tx) ca fa (snd tx)) w) (combine ts l) ws -> length l = length ts ->
  writes_as (enc (TTuple ts) ca fa (VList l)) (concat ws).
Proof. exact tuple_writes. Qed.

Example C26_case : both (TArray 2 u16) (hex [0; 1; 0; 2]) (VList [vi 1; vi 2])
  /\ both (TTuple [u8; u16]) (hex [9; 0; 2]) (VList [vi 9; vi 2])
  /\ (exists e, decode (TArray 2 u16) (hex [0; 1; 0]) 0 = Err e 2)
  /\ Forall2 (fun tx w => writes_as (enc (fst tx) no_cattr no_fattr (snd tx)) w)
       (combine [u8; u8] [vi 9; vi 2]) [hex [9]; hex [2]].
Proof.
  repeat split; [eexists; reflexivity|]. constructor; [|constructor; [|constructor]]; cbn [fst snd].
  - apply (u8_as no_cattr 9). lia.
  - apply (u8_as no_cattr 2). lia.
Qed.

Print Assumptions C26_array_decode.
Print Assumptions C26_array_error.
Print Assumptions C26_array_encode.
Print Assumptions C26_tuple_decode.
Print Assumptions C26_tuple_encode.

(** ** C30. Whole values

    [wire] and [fits] (WireSpec.v) say, type by type and without readers or
    buffers, how a value is written and under which conditions its bytes can be
    told apart; [well_formed] is a condition on the schema alone. *)
Theorem C30_round_trip : forall t v w rest, well_formed t ->
  wire t no_cattr no_fattr v = Some w -> fits t no_cattr no_fattr v rest = true -> allocatable (w ++ rest) ->
  encode t v = Ok w tt /\ decode t (w ++ rest) 0 = Ok v (size w).
Proof. exact round_trip. Qed.

(** Inside other data: behind anything already written or read. *)
Theorem C30_encode_anywhere : forall t ca fa v w, well_formed t -> wire t ca fa v = Some w -> writes_as (enc t ca fa v) w.
Proof. exact encoder_writes. Qed.
Theorem C30_decode_anywhere : forall t ca fa v w rest, well_formed t -> wire t ca fa v = Some w ->
  fits t ca fa v rest = true -> reads_as (dec t ca fa) w rest v.
Proof. exact decoder_reads. Qed.

(** A packet: version and flags in one byte, a length that frames a nested
    message, an optional part that depends on a flag, a tagged enum, a counted
    list and the rest. *)
Definition Message : ty := TEnum tagged
  [(variant_value true 1, [(plain, u16)]);
   (variant false, [(plain, TString); (at_order (OConst Le) plain, u32)]);
   (variant_range true 5 9 true, [(plain, TTuple [TMac; u8])])].
Definition Packet : ty := TStruct true (mkcspec (Some Le) None)
  [(at_untake (at_bits_start (const 0xf0) plain), u8);
   (at_bits (const 0x0f) plain, u8);
   (plain, u16);
   (at_length (field_ref 2) plain, TBytes);
   (at_if (fun en => Z.eqb (field_ref 1 en) 1) plain, TOption TIpv4);
   (plain, Message);
   (at_byte_count_outside (const 2) plain, TVec (TStruct true no_cspec [(at_length (const 3) plain, u32)]));
   (at_remaining plain, TBytes)].
Definition packet : val := VList
  [vi 4; vi 1; vi 3; vs "abc"; VOpt (Some (VBytes (hex [192; 168; 0; 1])));
   VVariant 1 [vs "hi"; vi 7]; VList [VList [vi 258]; VList [vi 3]]; vs "tail"].
Definition packet_bytes : bytes :=
  hex [0x41; 3; 0] ++ str "abc" ++ hex [1; 0; 168; 192] ++ hex [2; 2] ++ str "hi" ++ hex [7; 0; 0; 0]
  ++ hex [2; 0; 0; 1; 2; 0; 0; 3] ++ str "tail".

Ltac well := repeat first [exact I | reflexivity | discriminate | match goal with |- _ /\ _ => split | |- _ \/ _ => left end | progress (cbn [Packet Message well_formed fields_ok every map fst snd negb]) | progress (unfold fields_ok, encodes_without_variables, from_str_ok; intros)].
Example C30_well_formed : well_formed Packet.
Proof. unfold Packet, Message. well. Qed.
Example C30_case : well_formed Packet /\ wire Packet no_cattr no_fattr packet = Some packet_bytes
  /\ fits Packet no_cattr no_fattr packet [] = true /\ both Packet packet_bytes packet.
Proof. split; [exact C30_well_formed|]. repeat split; vm_compute; reflexivity. Qed.

Print Assumptions C30_round_trip.
Print Assumptions C30_encode_anywhere.
Print Assumptions C30_decode_anywhere.

(** ** C31. Enum tags *)
Theorem C31_round_trip : forall e vs ca fa i xs v fs n tag w rest, e_branching e = ByTag ->
  well_formed (TEnum e vs) -> nth_error vs i = Some (v, fs) -> nth_error (numbering 0 (map fst vs)) i = Some n ->
  wire (TEnum e vs) ca fa (VVariant i xs) = Some w ->
  fields_fit wire fits (k_vars ca) None fs (inner (e_c e)) [] xs rest = true ->
  arms_disjoint vs -> tag_read e fa n = Some tag -> arm_accepts vs i tag ->
  writes_as (enc (TEnum e vs) ca fa (VVariant i xs)) w /\ reads_as (dec (TEnum e vs) ca fa) w rest (VVariant i xs).
Proof. exact enum_round_trip. Qed.

(** Whatever is decoded, it is the first variant that accepts the tag. *)
Theorem C31_first_arm : forall e vs ca fa d p tag q i v q', e_branching e = ByTag -> allocatable d ->
  (forall k, a_byte_count fa = Some k \/ c_byte_count (e_c e) = Some k -> k <= 8) ->
  tag_at e ca fa d p tag q -> arm_accepts vs i tag -> (forall j, (j < i)%nat -> ~ arm_accepts vs j tag) ->
  dec (TEnum e vs) ca fa d p = Ok v q' -> exists xs, v = VVariant i xs.
Proof. exact enum_variant. Qed.

Theorem C31_no_arm : forall e vs ca fa d p tag q, e_branching e = ByTag -> vs <> [] -> allocatable d ->
  (forall k, a_byte_count fa = Some k \/ c_byte_count (e_c e) = Some k -> k <= 8) ->
  tag_at e ca fa d p tag q -> (forall i, ~ arm_accepts vs i tag) ->
  dec (TEnum e vs) ca fa d p = Err (mkerr q InvalidByteLength) q.
Proof. exact enum_no_arm. Qed.

(** Byte string tags (branch_starts_with). *)
Theorem C31_literals : forall e vs ca fa i xs v fs n w rest, e_branching e = ByPrefix ->
  well_formed (TEnum e vs) -> nth_error vs i = Some (v, fs) -> nth_error (numbering 0 (map fst vs)) i = Some n ->
  wire (TEnum e vs) ca fa (VVariant i xs) = Some w ->
  fields_fit wire fits (k_vars ca) None fs (inner (e_c e)) [] xs rest = true ->
  prefix_free vs -> (forall u, In u (map fst vs) -> v_default u = false) ->
  writes_as (enc (TEnum e vs) ca fa (VVariant i xs)) w
  /\ reads_as (dec (TEnum e vs) ca fa) w rest (VVariant i xs).
Proof. exact enum_literals. Qed.

Definition message_arms : list (vspec * list (fspec * ty)) :=
  match Message with TEnum _ vs => vs | _ => [] end.
Lemma message_accepts i tag : arm_accepts message_arms i tag ->
  (i = 0%nat /\ tag = 1) \/ (i = 1%nat /\ tag = 2) \/ (i = 2%nat /\ 5 <= tag <= 9).
Proof.
  intros (v & n & Hv & Hn & Ha). destruct i as [|[|[|i]]]; cbn in Hv, Hn; try (injection Hv as <-; injection Hn as <-; cbn in Ha).
  - left. split; [reflexivity|]. apply N.eqb_eq, Ha.
  - right; left. split; [reflexivity|]. apply N.eqb_eq, Ha.
  - right; right. split; [reflexivity|]. apply andb_true_iff in Ha as [H1 H2]. rewrite N.leb_le in H1, H2. auto.
  - destruct i; discriminate.
Qed.
Example C31_case : arms_disjoint message_arms /\ arm_accepts message_arms 1 2 /\ tag_read tagged no_fattr 2 = Some 2
  /\ wire Message no_cattr no_fattr (VVariant 1 [vs "hi"; vi 7]) = Some (hex [2; 2] ++ str "hi" ++ hex [7; 0; 0; 0])
  /\ tag_at tagged no_cattr no_fattr (hex [4]) 0 4 1 /\ (forall i, ~ arm_accepts message_arms i 4)
  /\ prefix_free [(variant_lit true (str "GET"), []); (variant_lit true (str "PUT"), [])].
Proof.
  split; [|split; [|split; [|split; [|split; [|split]]]]]; try reflexivity.
  - intros tag i j Hi Hj. apply message_accepts in Hi, Hj. lia.
  - exists (variant false), 2. repeat split.
  - exists x04. repeat split.
  - intros i Hi. apply message_accepts in Hi. lia.
  - intros [|[|i]] [|[|j]] v w Hv Hw; try reflexivity; cbn in Hv, Hw;
      try (injection Hv as <-); try (injection Hw as <-); try discriminate; try (destruct i; discriminate); try (destruct j; discriminate).
Qed.

(** Without disjoint arms or with a tag the arm does not accept: an exclusive
    range is written with its excluded end. *)
Theorem C31_exclusive_range_refuted : exists t w, t = TEnum tagged [(variant_range true 1 3 false, []); (variant true, [])]
  /\ encode t (VVariant 0 []) = Ok w tt /\ exists e q, decode t w 0 = Err e q.
Proof.
  exists (TEnum tagged [(variant_range true 1 3 false, []); (variant true, [])]), (hex [3]).
  repeat split. exists (mkerr 1 InvalidByteLength), 1. reflexivity.
Qed.
(** A [branch_bits] variant is written with its number, not with its bits. *)
Theorem C31_bits_refuted : exists t w v, t = TEnum tagged [(variant_bits true 0x80 0x80, []); (variant_default true, [])]
  /\ encode t (VVariant 0 []) = Ok w tt /\ decode t w 0 = Ok v 1 /\ v = VVariant 1 [].
Proof. exists (TEnum tagged [(variant_bits true 0x80 0x80, []); (variant_default true, [])]), (hex [0]), (VVariant 1 []). repeat split. Qed.
(** The tag that led to the default variant is lost. *)
Theorem C31_default_refuted : exists t d w, decode t d 0 = Ok (VVariant 1 []) 1 /\ encode t (VVariant 1 []) = Ok w tt
  /\ d <> w /\ t = TEnum tagged [(variant_value true 1, []); (variant_default true, [])].
Proof. exists (TEnum tagged [(variant_value true 1, []); (variant_default true, [])]), (hex [9]), (hex [2]). repeat split. discriminate. Qed.
(** Where both field and enum say [byte_count], the decoder follows the field and
    the encoder the enum. *)
Theorem C31_byte_count_refuted : exists t v w, encode t v = Ok w tt /\ decode t w 0 <> Ok v (size w)
  /\ t = struct [(at_byte_count (const 1) plain, TEnum (mkespec (mkcspec None (Some 2)) ByTag false) [(variant_value true 1, []); (variant true, [])])].
Proof.
  exists (struct [(at_byte_count (const 1) plain, TEnum (mkespec (mkcspec None (Some 2)) ByTag false) [(variant_value true 1, []); (variant true, [])])]), (VList [VVariant 0 []]), (hex [0; 1]).
  repeat split. discriminate.
Qed.
(** [byte_count_disable] writes no tag but one is still read. *)
Theorem C31_disabled_refuted : exists t v w, encode t v = Ok w tt /\ (exists e q, decode t w 0 = Err e q)
  /\ t = TEnum (mkespec no_cspec ByTag true) [(variant_value true 1, []); (variant true, [])] /\ v = VVariant 0 [].
Proof. exists (TEnum (mkespec no_cspec ByTag true) [(variant_value true 1, []); (variant true, [])]), (VVariant 0 []), []. repeat split. exists (mkerr 0 InvalidByteLength), 0. reflexivity. Qed.

Print Assumptions C31_round_trip.
Print Assumptions C31_first_arm.
Print Assumptions C31_no_arm.
Print Assumptions C31_literals.
Print Assumptions C31_exclusive_range_refuted.
Print Assumptions C31_bits_refuted.
Print Assumptions C31_default_refuted.
Print Assumptions C31_byte_count_refuted.
Print Assumptions C31_disabled_refuted.

(** ** C36. Modifiers stay on their field

    Two structs that differ only in the modifiers of their first fields, and whose
    first fields have been decoded (encoded) with the same outcome, go on alike. *)
Theorem C36_decode_partial : forall c fs1 fs1' fs2 ca fa d p v q,
  map (fun ft : fspec * ty => f_vars (fst ft)) fs1 = map (fun ft => f_vars (fst ft)) fs1' ->
  dec (TStruct true c fs1) ca fa d p = Ok v q -> dec (TStruct true c fs1') ca fa d p = Ok v q ->
  dec (TStruct true c (fs1 ++ fs2)) ca fa d p = dec (TStruct true c (fs1' ++ fs2)) ca fa d p.
Proof. exact decode_fields_independent. Qed.

Theorem C36_encode_partial : forall named c fs1 fs1' fs2 vs1 vs2 ca fa b n b1,
  enc (TStruct named c fs1) ca fa (VList vs1) b = Ok n b1 -> enc (TStruct named c fs1') ca fa (VList vs1) b = Ok n b1 ->
  enc (TStruct named c (fs1 ++ fs2)) ca fa (VList (vs1 ++ vs2)) b = enc (TStruct named c (fs1' ++ fs2)) ca fa (VList (vs1 ++ vs2)) b.
Proof. exact encode_fields_independent. Qed.

(** Tuple structs decode like structs with named fields when every field without
    attributes comes after fields whose attributes are not modifiers. *)
Theorem C36_tuple_struct_partial : forall c fs ca fa d p, nothing_left_over true (map fst fs) = true ->
  dec (TStruct false c fs) ca fa d p = dec (TStruct true c fs) ca fa d p.
Proof. exact tuple_struct_plain. Qed.

Example C36_case : let fs1 := [(at_length (const 2) plain, u32)] in let fs1' := [(plain, u16)] in let d := hex [0; 1; 3; 0x61; 0x62; 0x63] in
  map (fun ft : fspec * ty => f_vars (fst ft)) fs1 = map (fun ft => f_vars (fst ft)) fs1'
  /\ dec (struct fs1) no_cattr no_fattr d 0 = Ok (VList [vi 1]) 2 /\ dec (struct fs1') no_cattr no_fattr d 0 = Ok (VList [vi 1]) 2
  /\ dec (struct (fs1 ++ [(plain, TBytes)])) no_cattr no_fattr d 0 = Ok (VList [vi 1; vs "abc"]) 6
  /\ nothing_left_over true (map fst [(plain, u8); (at_length (const 2) plain, u32); (at_order (OConst Be) plain, u16)]) = true.
Proof. repeat split. Qed.

(** What is missing: in tuple structs (decoding) and in enum variants (encoding, and
    decoding when they are tuple variants) a field without attributes gets those
    of the field before it. *)
Theorem C36_tuple_struct_decode_refuted : exists fs d v v' q q', fs = [(at_length (const 2) plain, u32); (plain, u32)]
  /\ decode (TStruct false no_cspec fs) d 0 = Ok v q /\ decode (TStruct true no_cspec fs) d 0 = Ok v' q'
  /\ v = VList [vi 1; vi 2] /\ v' = VList [vi 1; vi 0x20003] /\ d = hex [0; 1; 0; 2; 0; 3].
Proof. exists [(at_length (const 2) plain, u32); (plain, u32)], (hex [0; 1; 0; 2; 0; 3]), (VList [vi 1; vi 2]), (VList [vi 1; vi 0x20003]), 4, 6. repeat split. Qed.
Theorem C36_tuple_struct_round_trip_refuted : exists fs v w, fs = [(at_length (const 2) plain, u32); (plain, u32)]
  /\ encode (TStruct false no_cspec fs) v = Ok w tt /\ decode (TStruct false no_cspec fs) w 0 <> Ok v (size w)
  /\ v = VList [vi 1; vi 2].
Proof. exists [(at_length (const 2) plain, u32); (plain, u32)], (VList [vi 1; vi 2]), (hex [0; 1; 0; 0; 0; 2]). repeat split. discriminate. Qed.
Theorem C36_variant_encode_refuted : exists vs w, vs = [(variant_value true 1, [(at_length (const 2) plain, u32); (plain, u32)])]
  /\ encode (TEnum tagged vs) (VVariant 0 [vi 1; vi 2]) = Ok w tt /\ w = hex [1; 0; 1; 0; 2]
  /\ decode (TEnum tagged vs) (hex [1; 0; 1; 0; 0; 0; 2]) 0 = Ok (VVariant 0 [vi 1; vi 2]) 7.
Proof. exists [(variant_value true 1, [(at_length (const 2) plain, u32); (plain, u32)])], (hex [1; 0; 1; 0; 2]). repeat split. Qed.

Print Assumptions C36_decode_partial.
Print Assumptions C36_encode_partial.
Print Assumptions C36_tuple_struct_partial.
Print Assumptions C36_tuple_struct_decode_refuted.
Print Assumptions C36_tuple_struct_round_trip_refuted.
Print Assumptions C36_variant_encode_refuted.

(** ** C37. Variables

    Decoding: every container after the field [f] that publishes [x] sees the
    value of [e], the expression given with the name. *)
Theorem C37_decode_partial : forall c fs1 f t fs2 g child fs3 x l e vs1 v vs2 u vs3 ca fa d p q,
  dec (TStruct true c (fs1 ++ (f, t) :: fs2 ++ (g, child) :: fs3)) ca fa d p = Ok (VList (vs1 ++ v :: vs2 ++ u :: vs3)) q ->
  length vs1 = length fs1 -> length vs2 = length fs2 ->
  f_vars f = l ++ [(x, e)] -> Forall (fun ft => ~ publishes x ft) fs2 ->
  exists ca' fa' p1 p2, dec_field (dec child) g ca' fa' (mkenv (vs1 ++ v :: vs2) (k_vars ca)) d p1 = Ok u p2
    /\ k_order ca' = c_order c
    /\ forall en, ev_vars en = k_vars ca' -> var_ref x en = Z.of_N (as_usize (e (mkenv (vs1 ++ [v]) (k_vars ca)))).
Proof. exact variable_reaches. Qed.

(** A byte string whose length is a variable round trips: the encoder does not
    need the length. *)
Definition Child : ty := struct [(at_length (var_ref 0) plain, TBytes)].
Definition Parent : ty := struct [(at_variable 0 (field_ref 0) plain, u8); (plain, u8); (plain, Child)].
Lemma C37_well_formed : well_formed Parent.
Proof. unfold Parent, Child, struct. well. Qed.
Theorem C37_round_trip_partial : forall l n rest, size l < 256 -> n < 256 -> allocatable (hex [size l; n] ++ l ++ rest) ->
  encode Parent (VList [VInt (Z.of_N (size l)); VInt (Z.of_N n); VList [VBytes l]]) = Ok (hex [size l; n] ++ l) tt
  /\ decode Parent ((hex [size l; n] ++ l) ++ rest) 0 = Ok (VList [VInt (Z.of_N (size l)); VInt (Z.of_N n); VList [VBytes l]]) (2 + size l).
Proof.
  intros l n rest Hl Hn Ha.
  assert (HW : wire Parent no_cattr no_fattr (VList [VInt (Z.of_N (size l)); VInt (Z.of_N n); VList [VBytes l]]) = Some (hex [size l; n] ++ l)).
  { cbn [wire Parent struct fields_wire]. cbn [modifiers f_use plain at_variable at_length f_order f_bits].
    unfold field_wire. cbn [f_format f_skip_encode f_from_str f_untake plain at_variable padding f_offset stored f_value_encode and_then all_of app].
    unfold u8. rewrite !u8_wire by (reflexivity || assumption).
    assert (HC : forall ca, wire Child ca no_fattr (VList [VBytes l]) = Some l) by (intros ca; cbn; rewrite !app_nil_r; reflexivity).
    rewrite HC. cbn [hex List.map app]. rewrite !app_nil_r. reflexivity. }
  rewrite <- !app_assoc in *.
  assert (HF : fits Parent no_cattr no_fattr (VList [VInt (Z.of_N (size l)); VInt (Z.of_N n); VList [VBytes l]]) rest = true).
  { cbn. rewrite !as_usize_small, !Z.eqb_refl, N.eqb_refl by (try rewrite as_usize_small; lia).
    rewrite (proj2 (bytes_eqb_eq l l) eq_refl). reflexivity. }
  destruct (round_trip Parent _ _ rest C37_well_formed HW HF) as [HE HD]; [rewrite <- app_assoc; exact Ha|].
  split; [exact HE|]. rewrite <- app_assoc in HD. rewrite HD. f_equal. unfold size. rewrite app_length. cbn [length hex List.map]. lia.
Qed.

Example C37_case : both Parent (hex [3; 9; 0x61; 0x62; 0x63]) (VList [vi 3; vi 9; VList [vs "abc"]])
  /\ f_vars (at_variable 0 (field_ref 0) plain) = [] ++ [(0%nat, field_ref 0)] /\ Forall (fun ft => ~ publishes 0 ft) [(plain, u8)].
Proof. repeat split. constructor; [|constructor]. intros []. Qed.

(** Variables are not passed on when encoding: an integer with such a length
    cannot be written. *)
Theorem C37_encode_refuted : exists t v d, t = struct [(at_variable 0 (field_ref 0) plain, u8); (plain, struct [(at_length (var_ref 0) plain, u32)])]
  /\ d = hex [2; 1; 2] /\ decode t d 0 = Ok v 3 /\ v = VList [vi 2; VList [vi 258]] /\ encode t v = Ok (hex [2]) tt.
Proof.
  exists (struct [(at_variable 0 (field_ref 0) plain, u8); (plain, struct [(at_length (var_ref 0) plain, u32)])]), (VList [vi 2; VList [vi 258]]), (hex [2; 1; 2]).
  repeat split.
Qed.

Print Assumptions C37_decode_partial.
Print Assumptions C37_round_trip_partial.
Print Assumptions C37_encode_refuted.

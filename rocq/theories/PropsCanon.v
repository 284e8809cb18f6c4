(** Property C40: canonical schemas. *)
From Coq Require Import String.
From Verif Require Import Base Ints Reader Writer Spec SpecOps.
From Verif Require Import BaseLemmas.
From Verif Require Import Schema Utf8 Sugar Decode Encode WireSpec RunSpec CodecSpec CanonSpec CodecBase RoundTrip Canonical Examples PropsContainers.

Lemma reencode t ca fa d p v q : well_formed t -> canonical t fa -> allocatable d -> p <= size d ->
  dec t ca fa d p = Ok v q ->
  p <= q /\ q <= size d /\ writes_as (enc t ca fa v) (window d p (q - p)).
Proof.
  intros Hwf Hc Hd Hp E. destruct (dec_canonical t ca fa Hc Hwf d p v q Hd Hp E) as (H1 & H2 & H3).
  split; [exact H1|]. split; [exact H2|]. apply encoder_writes; assumption.
Qed.
Lemma reencode_whole t d v q : well_formed t -> canonical t no_fattr -> allocatable d ->
  decode t d 0 = Ok v q -> q <= size d /\ encode t v = Ok (firstn (N.to_nat q) d) tt.
Proof.
  intros Hwf Hc Hd E. destruct (dec_canonical t no_cattr no_fattr Hc Hwf d 0 v q Hd ltac:(apply N.le_0_l) E) as (_ & H2 & H3).
  split; [exact H2|]. rewrite N.sub_0_r in H3. unfold as_wire, sub in H3. cbn [skipn N.to_nat] in H3.
  apply encode_is_wire; [exact Hwf|exact H3|]. unfold allocatable, size, lenN in *. rewrite firstn_length. lia.
Qed.

(** Whatever is decoded, at whatever position and in whatever context, is encoded
    to exactly the bytes that were consumed. *)
Theorem C40_canonical : forall t ca fa d p v q, well_formed t -> canonical t fa -> allocatable d -> p <= size d ->
  dec t ca fa d p = Ok v q ->
  p <= q /\ q <= size d /\ writes_as (enc t ca fa v) (window d p (q - p)).
Proof. exact reencode. Qed.

Theorem C40_canonical_whole : forall t d v q, well_formed t -> canonical t no_fattr -> allocatable d ->
  decode t d 0 = Ok v q -> q <= size d /\ encode t v = Ok (firstn (N.to_nat q) d) tt.
Proof. exact reencode_whole. Qed.

(** So different bytes never decode to the same value. *)
Theorem C40_unique : forall t d d' v q q', well_formed t -> canonical t no_fattr -> allocatable d -> allocatable d' ->
  decode t d 0 = Ok v q -> decode t d' 0 = Ok v q' -> firstn (N.to_nat q) d = firstn (N.to_nat q') d'.
Proof.
  intros t d d' v q q' Hwf Hc Hd Hd' E E'.
  destruct (reencode_whole t d v q Hwf Hc Hd E) as [_ H]. destruct (reencode_whole t d' v q' Hwf Hc Hd' E') as [_ H'].
  congruence.
Qed.

(** A schema with bit fields, a byte order, lengths taken from other fields, a
    counted vector, a looped vector, an enum, a peeked field and the rest. *)
Definition Command : ty := TEnum tagged
  [(variant_value true 1, [(plain, u8)]);
   (variant_value false 2, [(plain, TString); (plain, u32)])].
Definition Frame : ty := TStruct true (mkcspec (Some Le) None)
  [(at_untake plain, u8);
   (at_untake (at_bits_start (const 0xf0) plain), u8);
   (at_bits (const 0x0f) plain, u8);
   (plain, u16);
   (at_length (field_ref 3) plain, TBytes);
   (plain, TIpv4);
   (plain, Command);
   (at_byte_count_outside (const 2) plain, TVec (TStruct true no_cspec [(at_length (const 3) plain, u32)]));
   (at_loop (str "+") plain, TVec u8);
   (at_remaining plain, TBytes)].
Definition frame_bytes : bytes :=
  hex [0x41; 3; 0] ++ str "abc" ++ hex [1; 0; 168; 192] ++ hex [2; 2] ++ str "hi" ++ hex [0; 0; 0; 7]
  ++ hex [2; 0; 0; 1; 2; 0; 0; 3] ++ str "+a+btail".
Definition frame_value : val := VList
  [vi 0x41; vi 4; vi 1; vi 3; vs "abc"; VBytes (hex [192; 168; 0; 1]);
   VVariant 1 [vs "hi"; vi 7]; VList [VList [vi 258]; VList [vi 3]]; VList [vi 97; vi 98]; vs "tail"].
Example C40_well_formed : well_formed Frame.
Proof. unfold Frame, Command; well. Qed.
Lemma value_only b n tag : accepts (variant_value b n) n tag = true -> tag = n.
Proof. intros H. apply N.eqb_eq, H. Qed.
Lemma one_field ok ca f t r : f_bits f = None -> canonical_field (ok t) f -> canonical_fields ok ca None r ->
  canonical_fields ok ca None ((f, t) :: r).
Proof. intros H1 H2 H3. cbn [canonical_fields]. rewrite H1. auto. Qed.
Ltac field := apply one_field; [reflexivity| |];
  [split; [reflexivity|]; split; [reflexivity|]; split; [reflexivity|];
   first [left; reflexivity | right; split; [reflexivity|]; split; [intros; reflexivity|]; let E := fresh in intros ? ? E; injection E as <-]|].
Example C40_class : canonical Frame no_fattr.
Proof.
  assert (Hc : canonical Command no_fattr).
  { split; [discriminate|]. cbn -[variant_value canonical_fields canonical].
    split; [split; [reflexivity|apply value_only]|]. split; [reflexivity|]. split.
    { field; reflexivity. }
    split; [split; [reflexivity|apply value_only]|]. split; [reflexivity|]. split; [|exact I].
    field; [repeat split|]. field; reflexivity. }
  change (canonical_fields canonical (mkcattr (Some Le) None []) None (match Frame with TStruct _ _ fs => fs | _ => [] end)).
  cbv beta iota delta [Frame]. field.
  exists U8, Le, 0xf0. split; [reflexivity|]. split; [reflexivity|]. split; [reflexivity|].
  split; [intros en fa E; injection E as <-; split; reflexivity|]. split; [intros; reflexivity|]. cbv zeta. split; [reflexivity|].
  exists U8, Le, 0x0f. split; [reflexivity|]. split; [reflexivity|]. split; [reflexivity|].
  split; [intros en fa E; injection E as <-; split; reflexivity|]. split; [intros; reflexivity|]. cbv zeta.
  split; [reflexivity|]. split; [reflexivity|]. split; [reflexivity|]. split; [discriminate|]. split; [reflexivity|].
  change (fix go (group : option (ity * byteorder * N)) (fs : list (fspec * ty)) {struct fs} : Prop := _) with (canonical_fields canonical (mkcattr (Some Le) None [])).
  field; [reflexivity|]. field; [repeat split|]. field; [exact I|]. field; [exact Hc|].
  field; [split; [intros _; split; [reflexivity|left; reflexivity]|]; cbn [canonical]; field; reflexivity|].
  field; [split; [discriminate|reflexivity]|]. field; [repeat split|]. reflexivity.
Qed.
Example C40_case : decode Frame frame_bytes 0 = Ok frame_value (size frame_bytes) /\ encode Frame frame_value = Ok frame_bytes tt.
Proof. split; vm_compute; reflexivity. Qed.

(** Outside the class different bytes decode to the same value: booleans, keys,
    options, padding, bits outside the masks, ranges of tags. *)
Definition two_forms (t : ty) (d d' : bytes) : Prop :=
  d <> d' /\ exists v, decode t d 0 = Ok v (size d) /\ decode t d' 0 = Ok v (size d').
Theorem C40_other_schemas_refuted :
  two_forms TBool (hex [1]) (hex [2])
  /\ two_forms (struct [(at_key (str "=") plain, TBytes)]) (str "=" ++ hex [1; 7]) (str "?=" ++ hex [1; 7])
  /\ two_forms (struct [(plain, TOption TString)]) (hex [1; 0xff]) (hex [1; 0xfe])
  /\ two_forms (struct [(at_offset (const 1) plain, u8)]) (hex [0; 7]) (hex [1; 7])
  /\ two_forms (struct [(at_bits_start (const 0x0f) plain, u8)]) (hex [0x17]) (hex [0x27])
  /\ two_forms (TEnum tagged [(variant_range true 5 9 true, [])]) (hex [5]) (hex [6]).
Proof.
  repeat split; try discriminate;
    (match goal with |- exists v, decode ?t ?d 0 = _ /\ _ => 
       let r := eval vm_compute in (decode t d 0) in match r with Ok ?v _ => exists v end end); vm_compute; split; reflexivity.
Qed.

Print Assumptions C40_canonical.
Print Assumptions C40_canonical_whole.
Print Assumptions C40_unique.
Print Assumptions C40_other_schemas_refuted.

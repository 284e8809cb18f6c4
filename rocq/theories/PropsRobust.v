(** Properties C33-C35, C42 and C43: truncated, hostile and extended input;
    check_value and untake. *)
From Coq Require Import String.
From Verif Require Import Base Ints Reader Writer Spec SpecOps.
From Verif Require Import BaseLemmas ReaderLemmas CodecBase DecLemmas.
From Verif Require Import Schema Utf8 Sugar Decode Encode WireSpec SafetySpec RunSpec CodecSpec RoundTrip Collections Containers.
From Verif Require Import Bounds Locality Robust FieldEffects Examples PropsContainers.

(** A message with a group of bit fields, a counted list, a string, a tagged enum
    with nested contents, a literal-tagged enum and a little-endian part. *)
Definition Verb : ty := TEnum (mkespec no_cspec ByPrefix false)
  [(variant_lit true (str "GET "), [(at_linend crlf plain, TString)]);
   (variant_lit true (str "PUT "), [(plain, u16); (at_linend crlf plain, TString)])].
Definition Frame : ty := TStruct true (mkcspec (Some Le) None)
  [(at_untake (at_bits_start (const 0xf0) plain), u8);
   (at_bits (const 0x0f) plain, u8);
   (at_count (field_ref 1) plain, TVec u32);
   (at_byte_count (const 2) plain, TString);
   (plain, Message);
   (plain, Verb)].
Definition frame : val := VList
  [vi 4; vi 2; VList [vi 258; vi 3]; vs "abc"; VVariant 1 [vs "hi"; vi 7]; VVariant 1 [vi 258; vs "/x"]].
Definition frame_bytes : bytes :=
  hex [0x42; 2; 1; 0; 0; 3; 0; 0; 0; 3; 0] ++ str "abc" ++ hex [2; 2] ++ str "hi" ++ hex [7; 0; 0; 0]
  ++ str "PUT " ++ hex [1; 2] ++ str "/x" ++ crlf.

Ltac moderate_by := let g := fresh in let en := fresh in let fa := fresh in let A := fresh in let B := fresh in
  intros g en fa A B;
  repeat match goal with
  | H : _ \/ _ |- _ => destruct H
  | H : _ /\ _ |- _ => destruct H
  | H : In _ _ |- _ => cbn [In] in H
  | H : False |- _ => destruct H
  end; subst; try discriminate; cbn in B; injection B as <-; (split; [discriminate|]);
  first [left; reflexivity|right; repeat split; cbn; intros; try exact I; try discriminate; try lia].
Ltac safe_by := repeat first [exact I | match goal with |- _ /\ _ => split end
  | progress cbn [safe moderate_fields every map at_most_8 c_byte_count e_c tagged no_cspec]
  | (intros; cbn; discriminate) | (cbn; lia) | solve [moderate_by]].
Example frame_safe : safe Frame.
Proof. unfold Frame, Message, Verb. safe_by. Qed.
Example packet_safe : safe Packet.
Proof. unfold Packet, Message. safe_by. Qed.
Example frame_well_formed : well_formed Frame.
Proof. unfold Frame, Message, Verb. well. Qed.

(** ** C34. Untrusted input

    [offset_free], [safe] and [moderate] (SafetySpec.v) are conditions on the
    schema and the modifiers alone; [each_decoder] asks the same of the hand-written
    parts. *)
Theorem C34_total : forall t d p, offset_free t = true -> each_decoder total_inside t -> safe t -> allocatable d -> p <= size d ->
  (exists v q, decode t d p = Ok v q /\ p <= q <= size d) \/
  (exists e q, decode t d p = Err e q /\ p <= q <= size d).
Proof. exact decode_safely. Qed.

Theorem C34_total_in_context : forall t ca fa d p, offset_free t = true -> each_decoder total_inside t -> safe t -> moderate t ca fa ->
  allocatable d -> p <= size d ->
  (exists v q, dec t ca fa d p = Ok v q /\ p <= q <= size d) \/
  (exists e q, dec t ca fa d p = Err e q /\ p <= q <= size d).
Proof. exact decodes_safely. Qed.

Example C34_case : offset_free Frame = true /\ each_decoder total_inside Frame /\ safe Frame /\ offset_free Packet = true /\ safe Packet
  /\ decode Frame frame_bytes 0 = Ok frame (size frame_bytes)
  /\ (exists e q, decode Frame (hex [0x4f; 1; 2; 3]) 0 = Err e q).
Proof.
  split; [reflexivity|]. split; [apply no_code_decoders; reflexivity|].
  split; [exact frame_safe|]. split; [reflexivity|]. split; [exact packet_safe|].
  split; [vm_compute; reflexivity|]. do 2 eexists. vm_compute. reflexivity.
Qed.

(** Each condition is needed. An offset behind the end followed by [remaining] or by
    a string of length zero; a byte order that is neither 0 nor 1; a little-endian
    prefix or number of more than eight bytes. *)
Theorem C34_offset_refuted : exists f g d, allocatable d
  /\ decode (struct [(at_offset (const 9) (at_remaining plain), TBytes)]) d 0 = Panic
  /\ decode (struct [(f, u8); (g, TBytes)]) d 0 = Panic
  /\ f = plain /\ g = at_offset (const 9) (at_length (const 0) plain).
Proof. exists plain, (at_offset (const 9) (at_length (const 0) plain)), (hex [1; 2; 3]). repeat split. Qed.
Theorem C34_byteorder_refuted : exists d, allocatable d
  /\ decode (struct [(plain, u8); (at_order (OVar (field_ref 0)) plain, u16)]) d 0 = Panic.
Proof. exists (hex [2; 0; 0]). repeat split. Qed.
Theorem C34_little_endian_refuted : exists d, allocatable d
  /\ decode (struct [(at_order (OConst Le) (at_byte_count (const 9) plain), TString)]) d 0 = Panic
  /\ decode (struct [(at_order (OConst Le) (at_length (const 9) plain), TInt U128)]) d 0 = Panic.
Proof. exists (repeat x00 16). repeat split. Qed.
(** An empty [loop_skip_starts] marker. *)
Theorem C34_loop_refuted : exists d, allocatable d
  /\ decode (struct [(at_loop [] plain, TVec (TArray 0 u8))]) d 0 = Hang.
Proof. exists (hex [1]). repeat split. Qed.

Print Assumptions C34_total.
Print Assumptions C34_total_in_context.
Print Assumptions C34_offset_refuted.
Print Assumptions C34_byteorder_refuted.
Print Assumptions C34_little_endian_refuted.
Print Assumptions C34_loop_refuted.

(** ** C35. Only the consumed bytes matter *)
Theorem C35_local : forall t ca fa d p v q, delimited t = true -> each_decoder self_delimiting t -> delimits fa = true ->
  allocatable d -> p <= size d ->
  dec t ca fa d p = Ok v q ->
  p <= q <= size d /\
  forall d' p', allocatable d' -> p' + (q - p) <= size d' -> window d' p' (q - p) = window d p (q - p) ->
  dec t ca fa d' p' = Ok v (p' + (q - p)).
Proof. exact decodes_locally. Qed.

Example C35_case : delimited Frame = true /\ each_decoder self_delimiting Frame /\ delimits no_fattr = true
  /\ dec Frame no_cattr no_fattr frame_bytes 0 = Ok frame (size frame_bytes)
  /\ dec Frame no_cattr no_fattr (hex [1; 2; 3] ++ frame_bytes ++ hex [4]) 3 = Ok frame (3 + size frame_bytes).
Proof. split; [reflexivity|]. split; [apply no_code_decoders; reflexivity|]. repeat split; vm_compute; reflexivity. Qed.

(** Outside the class the bytes that follow do matter: an [Option], [remaining],
    [try_count]. *)
Theorem C35_open_ended_refuted : exists t1 t2 t3 v1 v2 v3, t1 = struct [(plain, TOption u8)]
  /\ t2 = struct [(at_remaining plain, TBytes)] /\ t3 = struct [(at_try_count (const 2) plain, TVec u8)]
  /\ decode t1 (hex []) 0 = Ok v1 0 /\ decode t1 (hex [7]) 0 <> Ok v1 0
  /\ decode t2 (hex [7]) 0 = Ok v2 1 /\ decode t2 (hex [7; 8]) 0 <> Ok v2 1
  /\ decode t3 (hex [7]) 0 = Ok v3 1 /\ decode t3 (hex [7; 8]) 0 <> Ok v3 1.
Proof.
  exists (struct [(plain, TOption u8)]), (struct [(at_remaining plain, TBytes)]), (struct [(at_try_count (const 2) plain, TVec u8)]),
    (VList [VOpt None]), (VList [VBytes (hex [7])]), (VList [VList [vi 7]]).
  repeat split; discriminate.
Qed.

Print Assumptions C35_local.
Print Assumptions C35_open_ended_refuted.

(** ** C33. Truncated input *)
Theorem C33_truncated : forall t ca fa d p v q k, delimited t = true ->
  each_decoder self_delimiting t -> each_decoder total_inside t -> safe t -> moderate t ca fa -> delimits fa = true ->
  allocatable d -> p <= size d -> dec t ca fa d p = Ok v q -> p <= k < q ->
  exists e q', dec t ca fa (firstn (N.to_nat k) d) p = Err e q' /\ p <= q' <= k.
Proof. exact truncated. Qed.

Theorem C33_truncated_encoding : forall t v w k, well_formed t -> delimited t = true ->
  each_decoder self_delimiting t -> each_decoder total_inside t -> safe t ->
  wire t no_cattr no_fattr v = Some w -> fits t no_cattr no_fattr v [] = true -> allocatable w -> k < size w ->
  encode t v = Ok w tt /\ exists e q, decode t (firstn (N.to_nat k) w) 0 = Err e q /\ q <= k.
Proof. exact truncated_encoding. Qed.

Example C33_case : well_formed Frame /\ delimited Frame = true
  /\ each_decoder self_delimiting Frame /\ each_decoder total_inside Frame /\ safe Frame
  /\ wire Frame no_cattr no_fattr frame = Some frame_bytes /\ fits Frame no_cattr no_fattr frame [] = true
  /\ allocatable frame_bytes /\ both Frame frame_bytes frame.
Proof.
  split; [exact frame_well_formed|]. split; [reflexivity|]. do 2 (split; [apply no_code_decoders; reflexivity|]).
  split; [exact frame_safe|]. repeat split; vm_compute; reflexivity. Qed.

Print Assumptions C33_truncated.
Print Assumptions C33_truncated_encoding.

(** ** C42. check_value

    The check is a value computed from the earlier fields and the variables. *)
Theorem C42_struct : forall named cs fs1 f t fs2 ca fa d p xs q c,
  f_with_decode f = None -> f_skip_decode f = None -> f_from_str f = None -> f_check f = Some c ->
  dec (TStruct named cs (fs1 ++ (f, t) :: fs2)) ca fa d p = Ok (VList xs) q ->
  exists vs1 v vs2, xs = vs1 ++ v :: vs2 /\ length vs1 = length fs1 /\ v = c (mkenv vs1 (k_vars ca)).
Proof. exact struct_checked. Qed.
Theorem C42_variant : forall e l v fs1 f t fs2 r ca fa d p xs q c,
  f_with_decode f = None -> f_skip_decode f = None -> f_from_str f = None -> f_check f = Some c ->
  dec (TEnum e (l ++ (v, fs1 ++ (f, t) :: fs2) :: r)) ca fa d p = Ok (VVariant (length l) xs) q ->
  exists vs1 x vs2, xs = vs1 ++ x :: vs2 /\ length vs1 = length fs1 /\ x = c (mkenv vs1 (k_vars ca)).
Proof. exact variant_checked. Qed.

(** If without the check the fields up to this one decode to [vs1 ++ [v]], ending
    at [q], and [v] is not the value checked for, the error is [InvalidValue] at
    [q]. *)
Theorem C42_struct_mismatch : forall named cs fs1 f t fs2 ca fa d p vs1 v q c,
  f_with_decode f = None -> f_skip_decode f = None -> f_from_str f = None -> f_check f = Some c ->
  dec (TStruct named cs (fs1 ++ [(unchecked f, t)])) ca fa d p = Ok (VList (vs1 ++ [v])) q ->
  v <> c (mkenv vs1 (k_vars ca)) ->
  dec (TStruct named cs (fs1 ++ (f, t) :: fs2)) ca fa d p = Err (mkerr q InvalidValue) q.
Proof. exact struct_mismatch. Qed.
Theorem C42_variant_mismatch : forall e l v fs1 f t fs2 r ca fa d p vs1 x q c,
  f_with_decode f = None -> f_skip_decode f = None -> f_from_str f = None -> f_check f = Some c ->
  dec (TEnum e (l ++ (v, fs1 ++ [(unchecked f, t)]) :: r)) ca fa d p = Ok (VVariant (length l) (vs1 ++ [x])) q ->
  x <> c (mkenv vs1 (k_vars ca)) ->
  dec (TEnum e (l ++ (v, fs1 ++ (f, t) :: fs2) :: r)) ca fa d p = Err (mkerr q InvalidValue) q.
Proof. exact variant_mismatch. Qed.

(** A second field that must repeat the first. *)
Definition repeated : fspec := at_check (fun en => nth 0 (ev_fields en) (vi 0)) plain.
Definition Twice : list (fspec * ty) := [(plain, u8); (repeated, u8); (plain, u8)].
Example C42_case :
  decode (struct Twice) (hex [7; 7; 9]) 0 = Ok (VList [vi 7; vi 7; vi 9]) 3
  /\ decode (struct [(plain, u8); (unchecked repeated, u8)]) (hex [7; 8; 9]) 0 = Ok (VList ([vi 7] ++ [vi 8])) 2
  /\ decode (struct Twice) (hex [7; 8; 9]) 0 = Err (mkerr 2 InvalidValue) 2
  /\ decode (TEnum tagged [(variant true, []); (variant true, Twice)]) (hex [1; 7; 7; 9]) 0
     = Ok (VVariant 1 [vi 7; vi 7; vi 9]) 4
  /\ decode (TEnum tagged [(variant true, []); (variant true, Twice)]) (hex [1; 7; 8; 9]) 0
     = Err (mkerr 3 InvalidValue) 3.
Proof. repeat split. Qed.

(** A check beside [skip_decode] or [from_str] is not made. *)
Theorem C42_skipped_refuted : exists f g, f_check f = Some (fun _ => vi 1) /\ f_check g = Some (fun _ => vi 1)
  /\ decode (struct [(f, u8)]) (hex [7]) 0 = Ok (VList [vi 2]) 0
  /\ decode (struct [(g, u8)]) (hex [1; 7]) 0 = Ok (VList [vi 2]) 2.
Proof.
  exists (at_skip_decode (vi 2) (at_check (fun _ => vi 1) plain)),
         (at_from_str (fun _ => Some (vi 2)) (fun _ => []) (at_check (fun _ => vi 1) plain)).
  repeat split.
Qed.

Print Assumptions C42_struct.
Print Assumptions C42_variant.
Print Assumptions C42_struct_mismatch.
Print Assumptions C42_variant_mismatch.
Print Assumptions C42_skipped_refuted.

(** ** C43. untake

    With a last field marked [untake], decoding succeeds with the values and at
    the position of the fields before it, together with the value the field would
    have had without the mark. *)
Theorem C43_struct : forall named cs fs1 f t ca fa d p xs q,
  f_with_decode f = None -> f_from_str f = None -> f_offset f = None -> f_untake f = true ->
  dec (TStruct named cs (fs1 ++ [(f, t)])) ca fa d p = Ok (VList xs) q <->
  exists vs1 v q', xs = vs1 ++ [v] /\ dec (TStruct named cs fs1) ca fa d p = Ok (VList vs1) q
    /\ dec (TStruct named cs (fs1 ++ [(taken f, t)])) ca fa d p = Ok (VList (vs1 ++ [v])) q'.
Proof. exact struct_untaken. Qed.
Theorem C43_variant : forall e l v fs1 f t r ca fa d p xs q,
  f_with_decode f = None -> f_from_str f = None -> f_offset f = None -> f_untake f = true ->
  dec (TEnum e (l ++ (v, fs1 ++ [(f, t)]) :: r)) ca fa d p = Ok (VVariant (length l) xs) q <->
  exists vs1 x q', xs = vs1 ++ [x] /\ dec (TEnum e (l ++ (v, fs1) :: r)) ca fa d p = Ok (VVariant (length l) vs1) q
    /\ dec (TEnum e (l ++ (v, fs1 ++ [(taken f, t)]) :: r)) ca fa d p = Ok (VVariant (length l) (vs1 ++ [x])) q'.
Proof. exact variant_untaken. Qed.

Example C43_case :
  decode (struct [(plain, u8); (at_untake plain, u16)]) (hex [7; 1; 2]) 0 = Ok (VList [vi 7; vi 258]) 1
  /\ decode (struct [(plain, u8); (taken (at_untake plain), u16)]) (hex [7; 1; 2]) 0 = Ok (VList [vi 7; vi 258]) 3
  /\ decode (struct [(plain, u8); (at_untake plain, u16); (plain, TArray 2 u8)]) (hex [7; 1; 2]) 0
     = Ok (VList [vi 7; vi 258; VList [vi 1; vi 2]]) 3
  /\ decode (TEnum tagged [(variant true, [(plain, u8); (at_untake plain, u16)])]) (hex [0; 7; 1; 2]) 0
     = Ok (VVariant 0 [vi 7; vi 258]) 2.
Proof. repeat split. Qed.

(** A [from_str] field consumes its text in spite of the mark; so does the jump of
    an [offset]. *)
Theorem C43_from_str_refuted : exists f g, f_untake f = true /\ f_untake g = true
  /\ decode (struct [(f, u8)]) (hex [1; 7]) 0 = Ok (VList [vi 2]) 2
  /\ decode (struct [(g, u8)]) (hex [1; 2; 3]) 0 = Ok (VList [vi 3]) 2.
Proof.
  exists (at_from_str (fun _ => Some (vi 2)) (fun _ => []) (at_untake plain)), (at_offset (const 2) (at_untake plain)).
  repeat split.
Qed.

Print Assumptions C43_struct.
Print Assumptions C43_variant.
Print Assumptions C43_from_str_refuted.

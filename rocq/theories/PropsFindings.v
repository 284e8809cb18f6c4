(** Further cases in which C19, C30 and C31 fail of the code. *)
From Coq Require Import String.
From Verif Require Import Base Ints Spec SpecOps Decode Encode Sugar Examples Schema.

(** Characters above U+00FF lose their high bits. *)
Theorem C30_char_refuted : exists c w c', encode TChar (VChar c) = Ok w tt /\ decode TChar w 0 = Ok (VChar c') 1 /\ c <> c' /\ c < 0xd800.
Proof. exists 0x12c, (hex [0x2c]), 0x2c. repeat split. discriminate. Qed.
(** A field with [from_str] is written twice: its text, then its bytes. *)
Theorem C30_from_str_refuted : exists parse show v w, encode (struct [(at_from_str parse show (at_length (const 1) plain), u8); (plain, u8)]) v = Ok w tt
  /\ parse (show (vi 7)) = Some (vi 7) /\ v = VList [vi 7; vi 9]
  /\ decode (struct [(at_from_str parse show (at_length (const 1) plain), u8); (plain, u8)]) w 0 = Ok (VList [vi 7; vi 7]) 2.
Proof. exists (fun _ => Some (vi 7)), (fun _ => str "7"), (VList [vi 7; vi 9]), (hex [0x37; 7; 9]). repeat split. Qed.
(** The decoder moves by the [offset] of a field with [untake], the encoder does not. *)
Theorem C30_offset_untake_refuted : exists t d v w q, decode t d 0 = Ok v q /\ encode t v = Ok w tt /\ w <> firstn (N.to_nat q) d /\ size w < q
  /\ t = struct [(plain, u8); (at_untake (at_offset (const 2) plain), u8); (plain, u8)].
Proof.
  exists (struct [(plain, u8); (at_untake (at_offset (const 2) plain), u8); (plain, u8)]), (hex [1; 0; 0; 4]), (VList [vi 1; vi 4; vi 4]), (hex [1; 4]), 4.
  repeat split. discriminate.
Qed.
(** A default variant that is not the last one hides those after it. *)
Theorem C31_default_first_refuted : exists t w, encode t (VVariant 1 []) = Ok w tt /\ decode t w 0 = Ok (VVariant 0 []) 1
  /\ t = TEnum tagged [(variant_default true, []); (variant_value true 1, [])].
Proof. exists (TEnum tagged [(variant_default true, []); (variant_value true 1, [])]), (hex [1]). repeat split. Qed.
(** With [branch_starts_with], encoding a default variant adds the name of the variant to the data. *)
Theorem C31_prefix_default_refuted : exists e vs d v, decode (TEnum e vs) d 0 = Ok v 3 /\ encode (TEnum e vs) v = Ok (str "other" ++ d) tt
  /\ e = mkespec no_cspec ByPrefix false /\ d = str "XYZ".
Proof.
  exists (mkespec no_cspec ByPrefix false),
    [(variant_lit true (str "GET"), []); (mkvspec true plain (str "other") None true None None None None, [(at_remaining plain, TBytes)])],
    (str "XYZ"), (VVariant 1 [vs "XYZ"]). repeat split.
Qed.
(** A bit field without [bits_start] before it takes back the byte of another field,
    when decoding and when encoding. *)
Theorem C19_no_start_refuted : exists t v w, encode t v = Ok w tt /\ size w = 1
  /\ (exists e q, decode t w 0 = Err e q)
  /\ t = struct [(plain, u8); (at_bits (const 0xf0) plain, u8); (at_bits (const 0x0f) plain, u8)] /\ v = VList [vi 5; vi 1; vi 2].
Proof.
  exists (struct [(plain, u8); (at_bits (const 0xf0) plain, u8); (at_bits (const 0x0f) plain, u8)]), (VList [vi 5; vi 1; vi 2]), (hex [0x17]).
  repeat split. do 2 eexists. reflexivity.
Qed.

Print Assumptions C30_char_refuted.
Print Assumptions C30_from_str_refuted.
Print Assumptions C30_offset_untake_refuted.
Print Assumptions C31_default_first_refuted.
Print Assumptions C31_prefix_default_refuted.
Print Assumptions C19_no_start_refuted.

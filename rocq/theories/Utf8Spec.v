(** UTF-8 after RFC 3629, section 3. Independent of the validator in Utf8.v. *)
From Verif Require Import Base Ints Spec SpecOps.

(** Unicode scalar values: code points without surrogates. *)
Definition scalar (c : N) : Prop := c < 0xD800 \/ 0xE000 <= c <= 0x10FFFF.
(** The encoding of one scalar value; always the shortest form. *)
Definition utf8 (c : N) : bytes :=
  if c <? 0x80 then [byte_of c]
  else if c <? 0x800 then [byte_of (0xC0 + c / 64); byte_of (0x80 + c mod 64)]
  else if c <? 0x10000 then [byte_of (0xE0 + c / 4096); byte_of (0x80 + c / 64 mod 64); byte_of (0x80 + c mod 64)]
  else [byte_of (0xF0 + c / 262144); byte_of (0x80 + c / 4096 mod 64); byte_of (0x80 + c / 64 mod 64);
        byte_of (0x80 + c mod 64)].
(** Well-formed text. *)
Definition encodes_text (cs : list N) (l : bytes) : Prop := Forall scalar cs /\ l = concat (map utf8 cs).
Definition text (l : bytes) : Prop := exists cs, encodes_text cs l.

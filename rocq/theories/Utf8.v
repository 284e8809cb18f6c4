(** [core::str::from_utf8] (used in src/decode/impls_string.rs:20, 36, 52): the
    validation of the Rust standard library, written after its table-driven
    source ([run_utf8_validation]). *)
From Verif Require Import Base Ints.

Definition in_byte_range (lo hi : N) (b : byte) : bool := (lo <=? b2n b) && (b2n b <=? hi).
Definition is_cont (b : byte) : bool := in_byte_range 128 191 b.

(** Width of the character a first byte starts, 0 if it cannot start one
    ([UTF8_CHAR_WIDTH]). *)
Definition utf8_char_width (b : byte) : nat :=
  let v := b2n b in
  if v <? 128 then 1
  else if (194 <=? v) && (v <=? 223) then 2
  else if (224 <=? v) && (v <=? 239) then 3
  else if (240 <=? v) && (v <=? 244) then 4
  else 0.

(** Allowed second byte of a three-byte character. *)
Definition second3 (b c : byte) : bool :=
  if b2n b =? 224 then in_byte_range 160 191 c
  else if b2n b =? 237 then in_byte_range 128 159 c
  else is_cont c.
(** Allowed second byte of a four-byte character. *)
Definition second4 (b c : byte) : bool :=
  if b2n b =? 240 then in_byte_range 144 191 c
  else if b2n b =? 244 then in_byte_range 128 143 c
  else is_cont c.

Fixpoint utf8_ok (l : bytes) : bool :=
  match l with
  | [] => true
  | b :: r =>
      match utf8_char_width b with
      | 1%nat => utf8_ok r
      | 2%nat => match r with c :: r' => is_cont c && utf8_ok r' | _ => false end
      | 3%nat => match r with c :: d :: r' => second3 b c && is_cont d && utf8_ok r' | _ => false end
      | 4%nat => match r with
                 | c :: d :: e :: r' => second4 b c && is_cont d && is_cont e && utf8_ok r'
                 | _ => false end
      | _ => false
      end
  end.

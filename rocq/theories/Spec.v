(** Independent specifications for the byte-level layer. Nothing here refers to
    the reader or writer model; only lists, numbers and the list of integer types
    are used. *)
From Verif Require Import Base Ints.

(** ** Positional notation *)

Definition byte_at (l : bytes) (i : nat) : N := Byte.to_N (nth i l x00).
Definition sumN (l : list N) : N := fold_right N.add 0 l.

(** [l] read as a number: the [i]-th byte weighs 256^i (little-endian) ... *)
Definition le_number (l : bytes) : N :=
  sumN (map (fun i => byte_at l i * 256 ^ N.of_nat i) (seq 0 (length l))).
(** ... or 256^(length-1-i) (big-endian). *)
Definition be_number (l : bytes) : N :=
  sumN (map (fun i => byte_at l i * 256 ^ N.of_nat (length l - 1 - i)) (seq 0 (length l))).
Definition number (bo : byteorder) (l : bytes) : N :=
  match bo with Be => be_number l | Le => le_number l end.

(** Two's complement reading of an unsigned number of [bits] bits. *)
Definition twos_complement (bits : Z) (u : N) : Z :=
  if (Z.of_N u <? 2 ^ (bits - 1))%Z then Z.of_N u else (Z.of_N u - 2 ^ bits)%Z.

Definition width_bytes (t : ity) : N :=
  match t with
  | U8 | I8 => 1 | U16 | I16 => 2 | U32 | I32 => 4
  | U64 | I64 | Usize | Isize => 8 | U128 | I128 => 16
  end.
Definition is_signed (t : ity) : bool :=
  match t with I8 | I16 | I32 | I64 | Isize | I128 => true | _ => false end.
Definition value_in (t : ity) (z : Z) : Prop :=
  if is_signed t
  then (- 2 ^ (8 * Z.of_N (width_bytes t) - 1) <= z < 2 ^ (8 * Z.of_N (width_bytes t) - 1))%Z
  else (0 <= z < 2 ^ (8 * Z.of_N (width_bytes t)))%Z.

(** The value of type [t] that the bytes [l] denote in order [bo]. *)
Definition int_number (bo : byteorder) (t : ity) (l : bytes) : Z :=
  if is_signed t then twos_complement (8 * Z.of_N (width_bytes t)) (number bo l)
  else Z.of_N (number bo l).

(** ** Windows of a byte string *)

(** The bytes at offsets p, p+1, ..., p+n-1. *)
Definition window (d : bytes) (p n : N) : bytes := firstn (N.to_nat n) (skipn (N.to_nat p) d).
Definition size (d : bytes) : N := N.of_nat (length d).
(** Rust allocations are at most [isize::MAX] bytes. *)
Definition allocatable (d : bytes) : Prop := size d < 9223372036854775808.

(** ** Occurrences *)
Definition occurs_at (needle hay : bytes) (i : nat) : Prop :=
  exists before after, hay = before ++ needle ++ after /\ length before = i.

(** ** In-memory file *)
Record file := mkfile { f_contents : bytes; f_offset : N }.

(** [c] with [v] written over it from offset [o]; a gap between the end of [c]
    and [o] is filled with zero bytes. *)
Definition overwrite (c : bytes) (o : N) (v : bytes) : bytes :=
  firstn (N.to_nat o) (c ++ repeat x00 (N.to_nat (o - size c))) ++ v ++ skipn (N.to_nat o + length v) c.

(** Reading at most [n] bytes. *)
Definition file_read (n : N) (f : file) : bytes * file :=
  let v := window (f_contents f) (f_offset f) n in
  (v, mkfile (f_contents f) (f_offset f + size v)).
Definition file_write (v : bytes) (f : file) : file :=
  mkfile (overwrite (f_contents f) (f_offset f) v) (f_offset f + size v).
(** Seeking to an absolute offset, given as an integer; [None] if negative. *)
Definition file_seek (target : Z) (f : file) : option file :=
  if (target <? 0)%Z then None else Some (mkfile (f_contents f) (Z.to_N target)).

(** ** Byte order named by a method *)

(** [take_u16] is big-endian, [take_be_u16] and [take_le_u16] say so,
    [take_ne_u16] is the target's order (little-endian targets only), and
    [take_byteorder_u16] is told. *)
Definition named_order (k : endian) : byteorder :=
  match k with KDefault | KBe => Be | KLe | KNe => Le | KOrder bo => bo end.

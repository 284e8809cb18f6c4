(** Integers and their byte images ([to_be_bytes], [from_le_bytes], [as]). *)
From Verif Require Import Base.

(** src/byteorder.rs: [ByteOrder]. *)
Inductive byteorder := Be | Le.

(** The integer types for which src/buf_traits.rs, src/decode/impls_int.rs:65-77
    and src/encode/impls_int.rs provide implementations. *)
Inductive ity :=
| U8 | U16 | U32 | U64 | Usize | U128
| I8 | I16 | I32 | I64 | Isize | I128.

(** [core::mem::size_of::<T>()]; [usize]/[isize] are 8 bytes. *)
Definition isize_of (t : ity) : nat :=
  match t with
  | U8 | I8 => 1 | U16 | I16 => 2 | U32 | I32 => 4
  | U64 | I64 | Usize | Isize => 8 | U128 | I128 => 16
  end.

Definition signed (t : ity) : bool :=
  match t with I8 | I16 | I32 | I64 | Isize | I128 => true | _ => false end.

Definition sizeN (t : ity) : N := N.of_nat (isize_of t).

(** number of distinct values, 2^BITS *)
Definition imod (t : ity) : Z := (2 ^ (8 * Z.of_nat (isize_of t)))%Z.

(** The values of the type. *)
Definition imin (t : ity) : Z := if signed t then (- (imod t / 2))%Z else 0%Z.
Definition imax (t : ity) : Z := if signed t then (imod t / 2 - 1)%Z else (imod t - 1)%Z.
Definition in_range (t : ity) (z : Z) : Prop := (imin t <= z <= imax t)%Z.
Definition in_rangeb (t : ity) (z : Z) : bool := ((imin t <=? z) && (z <=? imax t))%Z.

(** Bit pattern of a value ([v as uN] for the unsigned type of the same width). *)
Definition raw_of_int (t : ity) (z : Z) : N := Z.to_N (z mod imod t)%Z.
(** Value of a bit pattern of that width. *)
Definition int_of_raw (t : ity) (u : N) : Z :=
  if signed t && (imod t / 2 <=? Z.of_N u)%Z then (Z.of_N u - imod t)%Z else Z.of_N u.
(** Rust's [v as T] between integer types. *)
Definition cast (t : ity) (z : Z) : Z := int_of_raw t (raw_of_int t z).

Definition b2n (b : byte) : N := Byte.to_N b.
(** [v as u8] *)
Definition n2b (v : N) : byte := match Byte.of_N (v mod 256) with Some b => b | None => x00 end.

(** [uN::from_le_bytes] for an array of any length. *)
Fixpoint le_val (l : bytes) : N :=
  match l with [] => 0 | b :: t => b2n b + 256 * le_val t end.
(** [uN::from_be_bytes] *)
Definition be_val (l : bytes) : N := le_val (rev l).
(** [uN::to_le_bytes] of an [n]-byte integer. *)
Fixpoint to_le (n : nat) (v : N) : bytes :=
  match n with O => [] | S n' => n2b v :: to_le n' (v / 256) end.
(** [uN::to_be_bytes] *)
Definition to_be (n : nat) (v : N) : bytes := rev (to_le n v).

Definition from_bytes (bo : byteorder) (l : bytes) : N :=
  match bo with Be => be_val l | Le => le_val l end.
Definition to_bytes (bo : byteorder) (n : nat) (v : N) : bytes :=
  match bo with Be => to_be n v | Le => to_le n v end.

(** The five spellings every multi-byte operation comes in:
    [take_u16], [take_be_u16], [take_le_u16], [take_ne_u16],
    [take_byteorder_u16]. *)
Inductive endian := KDefault | KBe | KLe | KNe | KOrder (bo : byteorder).

(** Which byte order a spelling uses: the default is big-endian
    (src/buf_traits.rs:186,252,...); [ne] is little-endian on the modelled
    target; [byteorder] dispatches (src/buf_traits.rs:210-215,...). *)
Definition order_of (k : endian) : byteorder :=
  match k with KDefault | KBe => Be | KLe | KNe => Le | KOrder bo => bo end.

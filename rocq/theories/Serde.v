(** The optional serde implementations (feature "serde"):
    src/types/mac_address.rs:151-172, src/types/hex_string.rs:191-212,
    src/types/hex_bytes.rs:123-131, src/types/net_address.rs:125-146. *)
From Verif Require Import Base Utf8 Text.

(** What a serializer is given: all four types call [collect_str], so a string. *)
Definition mac_serialize (m : bytes) : bytes := mac_display m.                           (* mac_address.rs:152-159 *)
Definition hexstring_serialize (inner : bytes) : bytes := to_hex_lowercase inner.        (* hex_string.rs:192-199 *)
Definition hexbytes_serialize (inner : bytes) : bytes := hexbytes_display inner.         (* hex_bytes.rs:124-131 *)
Definition net_serialize (ip : ip_text) (a : net_address) : bytes := net_display ip a.   (* net_address.rs:126-133 *)

(** What a deserializer has found in its input: a string that lives as long as the input,
    bytes that do, a string that it had to build (escapes, a stream, an owned value), or
    anything else. *)
Inductive found :=
| BorrowedStr (s : bytes)
| BorrowedBytes (l : bytes)
| OwnedStr (s : bytes)
| Other.
(** [Deserialize for &str], which [Deserialize::deserialize(deserializer)?] selects because
    the value is passed to [from_str] (mac_address.rs:168, hex_string.rs:208,
    net_address.rs:142): serde's visitor takes borrowed strings and borrowed UTF-8 bytes. *)
Definition de_str (f : found) : option bytes :=
  match f with
  | BorrowedStr s => Some s
  | BorrowedBytes l => if utf8_ok l then Some l else None
  | OwnedStr _ | Other => None
  end.
(** mac_address.rs:163-171, hex_string.rs:203-211, net_address.rs:137-145. *)
Definition mac_deserialize (f : found) : option bytes :=
  match de_str f with Some s => mac_from_str s | None => None end.
Definition hexstring_deserialize (f : found) : parsed :=
  match de_str f with Some s => hex_from_str s | None => Rejected end.
Definition net_deserialize (ip : ip_text) (f : found) : option net_address :=
  match de_str f with Some s => net_from_str ip s | None => None end.

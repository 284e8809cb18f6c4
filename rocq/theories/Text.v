(** Text forms of addresses and hex strings: src/types/hex_string.rs,
    src/types/hex_bytes.rs, src/types/mac_address.rs, src/types/net_address.rs.

    A [&str] or [String] is the list of its UTF-8 bytes. Parse errors carry only a
    message; they are all [None] here. The optional serde implementations (hex_string.rs:191-212,
    hex_bytes.rs:123-131, mac_address.rs:151-172, net_address.rs:125-146), which go
    through these functions, are in Serde.v. *)
From Coq Require Import Ascii String.
From Verif Require Import Base Ints Reader Utf8.
Close Scope string_scope.

(** ** Hex strings *)

(** src/types/hex_string.rs:25-26, src/types/hex_bytes.rs:29-30: HEX_LOWER, HEX_UPPER. *)
Definition HEX_LOWER : bytes := list_byte_of_string "0123456789abcdef".
Definition HEX_UPPER : bytes := list_byte_of_string "0123456789ABCDEF".

(** src/types/hex_string.rs:30-37: is_hex. *)
Definition is_hex (value : byte) : option N :=
  let v := b2n value in
  if (48 <=? v) && (v <=? 57) then Some (v - 0x30)
  else if (97 <=? v) && (v <=? 102) then Some (v - 0x57)
  else if (65 <=? v) && (v <=? 70) then Some (v - 0x37)
  else None.

(** src/types/hex_string.rs:88-97 and 112-121, src/types/hex_bytes.rs:61-70 and 84-93. *)
Fixpoint to_hex (table : bytes) (inner : bytes) : bytes :=
  match inner with
  | [] => []
  | v :: r =>
      nth (N.to_nat (N.shiftr (b2n v) 4)) table x00
        :: nth (N.to_nat (N.land (b2n v) 15)) table x00 :: to_hex table r
  end.
Definition to_hex_lowercase : bytes -> bytes := to_hex HEX_LOWER.
Definition to_hex_uppercase : bytes -> bytes := to_hex HEX_UPPER.

(** A parser's outcome: a value, an [Err], or a panic. *)
Inductive parsed := Parsed (l : bytes) | Rejected | ParsePanic.

(** src/types/hex_string.rs:135-147: the loop over [chunks(2)]; a chunk of one byte
    would make [v[1]] panic. *)
Fixpoint hex_chunks (s : bytes) : parsed :=
  match s with
  | [] => Parsed []
  | [a] => match is_hex a with Some _ => ParsePanic | None => Rejected end
  | a :: b :: r =>
      match is_hex a with
      | Some v0 =>
          match is_hex b with
          | Some v1 =>
              match hex_chunks r with
              | Parsed l => Parsed (n2b (N.lor (N.shiftl v0 4) v1) :: l)
              | x => x
              end
          | None => Rejected
          end
      | None => Rejected
      end
  end.
(** src/types/hex_string.rs:128-150: HexString::from_str. *)
Definition hex_from_str (s : bytes) : parsed :=
  if negb (N.eqb (lenN s mod 2) 0) then Rejected else hex_chunks s.

(** [String::from_utf8_lossy] of the standard library: every ill-formed piece is
    replaced by U+FFFD. *)
Definition REPLACEMENT : bytes := map n2b [0xEF; 0xBF; 0xBD].
Fixpoint from_utf8_lossy (l : bytes) : bytes :=
  match l with
  | [] => []
  | b :: r =>
      match utf8_char_width b with
      | 1%nat => b :: from_utf8_lossy r
      | 2%nat =>
          match r with
          | c :: r' => if is_cont c then b :: c :: from_utf8_lossy r' else REPLACEMENT ++ from_utf8_lossy r
          | [] => REPLACEMENT
          end
      | 3%nat =>
          match r with
          | c :: r' =>
              if second3 b c then
                match r' with
                | d :: r'' => if is_cont d then b :: c :: d :: from_utf8_lossy r'' else REPLACEMENT ++ from_utf8_lossy r'
                | [] => REPLACEMENT
                end
              else REPLACEMENT ++ from_utf8_lossy r
          | [] => REPLACEMENT
          end
      | 4%nat =>
          match r with
          | c :: r' =>
              if second4 b c then
                match r' with
                | d :: r'' =>
                    if is_cont d then
                      match r'' with
                      | e :: r''' =>
                          if is_cont e then b :: c :: d :: e :: from_utf8_lossy r'''
                          else REPLACEMENT ++ from_utf8_lossy r''
                      | [] => REPLACEMENT
                      end
                    else REPLACEMENT ++ from_utf8_lossy r'
                | [] => REPLACEMENT
                end
              else REPLACEMENT ++ from_utf8_lossy r
          | [] => REPLACEMENT
          end
      | _ => REPLACEMENT ++ from_utf8_lossy r
      end
  end.
(** src/types/hex_string.rs:161-165: Display for HexString. *)
Definition hexstring_display (inner : bytes) : bytes := from_utf8_lossy inner.
(** src/types/hex_bytes.rs:97-102: Display for Hex. *)
Definition hexbytes_display (inner : bytes) : bytes := to_hex_lowercase inner.
(** src/types/hex_string.rs:223-225: encode. *)
Definition hex_encode (s : bytes) : bytes := to_hex_lowercase s.
(** src/types/hex_string.rs:237-239: decode. *)
Definition hex_decode (s : bytes) : parsed :=
  match hex_from_str s with
  | Parsed l => Parsed (hexstring_display l)
  | x => x
  end.

(** ** Numbers in text: [from_str_radix] of the standard library *)

(** [char::to_digit]. *)
Definition to_digit (radix : N) (c : byte) : option N :=
  match is_hex c with Some d => if d <? radix then Some d else None | None => None end.
Fixpoint radix_digits (radix limit : N) (acc : N) (s : bytes) : option N :=
  match s with
  | [] => Some acc
  | c :: r =>
      match to_digit radix c with
      | Some d => let n := acc * radix + d in if n <? limit then radix_digits radix limit n r else None
      | None => None
      end
  end.
(** For an unsigned type with [limit] values: a leading "+" is skipped, an empty
    string, a lone sign, a "-" or an overflow is an error. *)
Definition from_str_radix (radix limit : N) (s : bytes) : option N :=
  match s with
  | [] => None
  | c :: r =>
      if b2n c =? 43 then match r with [] => None | _ => radix_digits radix limit 0 r end
      else radix_digits radix limit 0 s
  end.

(** ** MAC addresses *)

(** [str::split] with a one-byte separator. *)
Fixpoint split_on (sep : byte) (s : bytes) : list bytes :=
  match s with
  | [] => [[]]
  | c :: r =>
      if Byte.eqb c sep then [] :: split_on sep r
      else match split_on sep r with
           | g :: gs => (c :: g) :: gs
           | [] => [[c]]
           end
  end.
Definition COLON : byte := ":"%byte.
Definition DOT : byte := "."%byte.

(** [mac.0[i] = v]. *)
Fixpoint set_nth (i : nat) (v : byte) (l : bytes) : bytes :=
  match l, i with
  | [], _ => []
  | _ :: r, O => v :: r
  | x :: r, S j => x :: set_nth j v r
  end.
(** src/types/mac_address.rs:113-126: the loop. *)
Fixpoint mac_groups (i : nat) (gs : list bytes) (mac : bytes) : option bytes :=
  match gs with
  | [] => Some mac
  | v :: r =>
      if (5 <? i)%nat || negb (lenN v =? 2) then None
      else match from_str_radix 16 256 v with
           | Some n => mac_groups (S i) r (set_nth i (n2b n) mac)
           | None => None
           end
  end.
(** src/types/mac_address.rs:110-129: MacAddress::from_str. *)
Definition mac_from_str (s : bytes) : option bytes := mac_groups 0 (split_on COLON s) (repeat x00 6).

(** The format [{:02x}] of a byte. *)
Definition fmt_02x (b : byte) : bytes := to_hex HEX_LOWER [b].
(** src/types/mac_address.rs:133-139 (Display), 142-148 (Debug). *)
Definition mac_display (mac : bytes) : bytes :=
  match mac with
  | [a; b; c; d; e; f] =>
      fmt_02x a ++ [COLON] ++ fmt_02x b ++ [COLON] ++ fmt_02x c ++ [COLON] ++
      fmt_02x d ++ [COLON] ++ fmt_02x e ++ [COLON] ++ fmt_02x f
  | _ => []   (* not a [u8; 6] *)
  end.

(** src/types/mac_address.rs:42-46: to_bits. *)
Definition mac_to_bits (mac : bytes) : N := from_bytes Be ([x00; x00] ++ mac).
(** src/types/mac_address.rs:50-56: from_bits. *)
Definition mac_from_bits (value : N) : bytes := skipn 2 (to_bytes Be 8 value).
(** src/types/mac_address.rs:60-80. *)
Definition mac_is_unicast (mac : bytes) : bool := N.land (mac_to_bits mac) 0x010000000000 =? 0.
Definition mac_is_broadcast (mac : bytes) : bool := mac_to_bits mac =? 0xffffffffffff.
Definition mac_is_multicast (mac : bytes) : bool := N.land (mac_to_bits mac) 0x010000000000 =? 0x010000000000.
Definition mac_is_zero (mac : bytes) : bool := mac_to_bits mac =? 0.

(** ** Network addresses *)

(** src/types/net_address.rs:20-26. Octets of V4 (4), V6 (16) and MAC (6) addresses. *)
Inductive net_address :=
| V4 (addr : bytes)
| V6 (addr : bytes)
| Mac (addr : bytes)
| Number (n : N).

(** The text forms of [core::net::Ipv4Addr] and [Ipv6Addr] belong to the standard
    library and are parameters here. *)
Record ip_text := mkip {
  parse4 : bytes -> option bytes; show4 : bytes -> bytes;
  parse6 : bytes -> option bytes; show6 : bytes -> bytes }.

(** [str::contains] with a character. *)
Definition contains (c : byte) (s : bytes) : bool := existsb (Byte.eqb c) s.

(** src/types/net_address.rs:87-109: NetAddress::from_str. *)
Definition net_from_str (ip : ip_text) (s : bytes) : option net_address :=
  if contains COLON s then
    match parse6 ip s with
    | Some v => Some (V6 v)
    | None => match mac_from_str s with Some v => Some (Mac v) | None => None end
    end
  else if contains DOT s then
    match parse4 ip s with Some v => Some (V4 v) | None => None end
  else match from_str_radix 10 (2 ^ 64) s with Some v => Some (Number v) | None => None end.

(** The decimal form of a [usize] (at most 20 digits). *)
Fixpoint decimal (fuel : nat) (n : N) : bytes :=
  match fuel with
  | O => []
  | S k => (if n <? 10 then [] else decimal k (n / 10)) ++ [n2b (48 + n mod 10)]
  end.
Definition show_usize (n : N) : bytes := decimal 20 n.

(** src/types/net_address.rs:113-122: Display for NetAddress. *)
Definition net_display (ip : ip_text) (a : net_address) : bytes :=
  match a with
  | V4 v => show4 ip v
  | V6 v => show6 ip v
  | Number v => show_usize v
  | Mac v => mac_display v
  end.

(** src/types/net_address.rs:31-52. *)
Definition net_is_ipv4 (a : net_address) : bool := match a with V4 _ => true | _ => false end.
Definition net_is_ipv6 (a : net_address) : bool := match a with V6 _ => true | _ => false end.
Definition net_is_mac (a : net_address) : bool := match a with Mac _ => true | _ => false end.
Definition net_is_usize (a : net_address) : bool := match a with Number _ => true | _ => false end.
(** [Ipv4Addr::is_broadcast], [Ipv4Addr::is_multicast], [Ipv6Addr::is_multicast]. *)
Definition v4_is_broadcast (l : bytes) : bool := from_bytes Be l =? 0xffffffff.
Definition v4_is_multicast (l : bytes) : bool :=
  match l with a :: _ => (224 <=? b2n a) && (b2n a <=? 239) | [] => false end.
Definition v6_is_multicast (l : bytes) : bool := match l with a :: _ => b2n a =? 255 | [] => false end.
(** src/types/net_address.rs:56-62: is_broadcast. *)
Definition net_is_broadcast (a : net_address) : bool :=
  match a with V4 v => v4_is_broadcast v | Mac v => mac_is_broadcast v | _ => false end.
(** src/types/net_address.rs:66-73: is_multicast. *)
Definition net_is_multicast (a : net_address) : bool :=
  match a with V4 v => v4_is_multicast v | V6 v => v6_is_multicast v | Mac v => mac_is_multicast v | _ => false end.

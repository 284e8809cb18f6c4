(** The packets declared in /repo/examples, as schemas. Definitions only. Numbers
    in expressions have the type of the field they are computed from and wrap around. *)
From Verif Require Import Base Ints Reader Writer Schema Sugar.

Definition a_struct (fs : list (fspec * ty)) : ty := TStruct true no_cspec fs.
Definition a_u8 : ty := TInt U8.
Definition a_u16 : ty := TInt U16.
Definition a_u32 : ty := TInt U32.

(** Arithmetic of a Rust type, overflow checks off. *)
Definition wrapped (t : ity) (z : Z) : Z := (z mod 2 ^ Z.of_N (8 * sizeN t))%Z.
Definition on_number (g : Z -> Z) (_ : env) (v : val) : val :=
  match v with VInt z => VInt (g z) | _ => v end.

(** examples/packet_ethernet_example.rs:8-13 *)
Definition Ethernet : ty := a_struct [(plain, TMac); (plain, TMac); (plain, a_u16)].

(** examples/packet_ipv4_example.rs:9-30; the same in packet_parse_example.rs:58-79. *)
Definition Ipv4 : ty := a_struct
  [(at_untake (at_bits_start (const 0xf0) plain), a_u8);
   (at_value_encode (on_number (fun z => Z.shiftr z 2))
      (at_value_decode (on_number (fun z => wrapped U8 (Z.shiftl z 2))) (at_bits (const 0x0f) plain)), a_u8);
   (plain, a_u8);
   (plain, a_u16);
   (plain, a_u16);
   (at_untake (at_bits_start (const 0xe000) plain), a_u16);
   (at_bits (const 0x1fff) plain, a_u16);
   (plain, a_u8);
   (plain, a_u8);
   (plain, a_u16);
   (plain, TIpv4);
   (plain, TIpv4);
   (at_length (fun en => wrapped U8 (field_ref 1 en - 20)) plain, TBytes)].

(** examples/packet_tcp_example.rs:6-21; the same in packet_parse_example.rs:82-97. *)
Definition Tcp : ty := a_struct
  [(plain, a_u16);
   (plain, a_u16);
   (plain, a_u32);
   (plain, a_u32);
   (at_untake (at_value_encode (on_number (fun z => Z.quot z 4))
      (at_value_decode (on_number (fun z => wrapped U16 (z * 4))) (at_bits_start (const 0xf000) plain))), a_u16);
   (at_bits (const 0x0fff) plain, a_u16);
   (plain, a_u16);
   (plain, a_u16);
   (plain, a_u16);
   (at_length (fun en => wrapped U16 (field_ref 4 en - 20)) plain, TBytes)].

(** examples/packet_parse_example.rs:49-55, 100-107. [PhantomData] is [TUnit]. *)
Definition EthernetHeader : ty := a_struct [(plain, TMac); (plain, TMac); (plain, a_u16); (plain, TUnit)].
Definition Udp : ty := a_struct [(plain, a_u16); (plain, a_u16); (plain, a_u16); (plain, a_u16); (plain, TUnit)].

(** examples/packet_parse_example.rs:18-34: [layer12.r#type] and
    [layer3.get_protocol().unwrap_or_default()] *)
Definition ethernet_type (en : env) : Z :=
  match nth_error (ev_fields en) 0 with
  | Some (VList [_; _; VInt z; _]) => z
  | _ => 0%Z
  end.
Definition protocol_above (en : env) : Z :=
  match nth_error (ev_fields en) 1 with
  | Some (VVariant 0 [VList h]) => match nth_error h 8 with Some (VInt z) => z | _ => 0%Z end
  | _ => 0%Z
  end.
(** examples/packet_parse_example.rs:18-24, 38-46 *)
Definition Layer3 : ty := TEnum tagged
  [(variant_value false 0x0800, [(plain, Ipv4)]); (variant_default true, [])].
Definition Layer4 : ty := TEnum tagged
  [(variant_value false 6, [(plain, Tcp)]); (variant_value false 17, [(plain, Udp)]); (variant_default true, [])].
(** examples/packet_parse_example.rs:7-15 *)
Definition Layer : ty := a_struct
  [(plain, EthernetHeader);
   (at_branch ethernet_type plain, Layer3);
   (at_branch protocol_above plain, Layer4);
   (at_remaining plain, TBytes)].

(** examples/packet_http_example_2.rs:6-25 *)
Definition SP : bytes := [x20].
Definition CRLF : bytes := [x0d; x0a].
Definition COLON_SP : bytes := [x3a; x20].
Definition Header : ty := a_struct [(at_linend COLON_SP plain, TString); (at_linend CRLF plain, TString)].
Definition Request : ty := a_struct
  [(at_linend SP plain, TString); (at_linend SP plain, TString); (at_linend CRLF plain, TString);
   (at_try_count (const 20) plain, TVec Header)].
(** examples/packet_http_example_3.rs:9-45. [JkcEnum] (another crate) reads a variant from
    its name and writes its name. *)
Definition METHODS : list bytes :=
  [[x47; x45; x54]; [x50; x4f; x53; x54]; [x48; x45; x41; x44]; [x50; x55; x54]; [x44; x45; x4c; x45; x54; x45];
   [x43; x4f; x4e; x4e; x45; x43; x54]; [x4f; x50; x54; x49; x4f; x4e; x53]; [x54; x52; x41; x43; x45]; [x50; x41; x54; x43; x48]].
Fixpoint place_of (i : nat) (s : bytes) (l : list bytes) : option val :=
  match l with [] => None | x :: r => if bytes_eqb x s then Some (VVariant i []) else place_of (S i) s r end.
Definition method_from_str (s : bytes) : option val := place_of 0 s METHODS.
Definition method_to_string (v : val) : bytes :=
  match v with VVariant i _ => nth i METHODS [] | _ => [] end.
Definition HttpMethod : ty := TEnum (mkespec no_cspec ByTag true) (map (fun _ => (variant true, [])) METHODS).
Definition RequestMethod : ty := a_struct
  [(at_linend SP (at_from_str method_from_str method_to_string plain), HttpMethod);
   (at_linend SP plain, TString); (at_linend CRLF plain, TString);
   (at_try_count (const 20) plain, TVec Header)].
(** examples/packet_http_example.rs:12-23 *)
Definition RequestMap : ty := a_struct
  [(at_linend SP plain, TString); (at_linend SP plain, TString); (at_linend CRLF plain, TString);
   (at_split COLON_SP (at_linend CRLF (at_try_count (const 10) plain)), TMap TString TString)].

(** examples/socket_example.rs:8-39: [#[repr(u8)]], discriminants from 1. *)
Definition with_discriminant (n : N) (v : vspec) : vspec :=
  mkvspec (v_named v) (v_attr v) (v_name v) (Some n) (v_default v) (v_bits v) (v_value v) (v_bytes v) (v_range v).
Definition MessageBody : ty := TEnum (mkespec (mkcspec None (Some 1)) ByTag false)
  [(with_discriminant 1 (variant true), [(plain, a_u8); (plain, a_u8)]);
   (variant true, [(plain, a_u8); (plain, a_u8); (at_length (field_ref 1) plain, TBytes)]);
   (variant true, [(plain, a_u8); (plain, a_u8); (at_length (field_ref 1) plain, TBytes)]);
   (variant true, [(plain, a_u8); (plain, a_u8)]);
   (variant true, [])].
Definition SocketMessage : ty := a_struct [(plain, a_u8); (plain, MessageBody)].

(** examples/enum_example.rs:6-34 *)
Definition CommandBody : ty := TEnum tagged
  [(variant_value true 1, []);
   (variant true, []);
   (variant_range true 4 7 true, [(plain, a_u16); (plain, a_u16)]);
   (variant true, [(plain, a_u16); (plain, a_u16); (at_count (field_ref 1) plain, TVec a_u8)]);
   (variant_default true, [(plain, a_u16)])].
Definition Command : ty := a_struct [(plain, a_u8); (plain, a_u8); (at_branch (field_ref 1) plain, CommandBody)].

(** The codec model run on the repository's own test vectors (/repo/tests). These
    are tests of the model, not properties: they check that the model says what
    the Rust code is known to do. The type definitions come from the test files
    named beside them. *)
From Coq Require Import String.
From Verif Require Import Base Ints Reader Writer Schema Decode Encode Sugar.

Definition str (s : string) : bytes := list_byte_of_string s.
Definition hex (l : list N) : bytes := List.map n2b l.
Definition crlf : bytes := hex [13; 10].
Definition vi (n : Z) : val := VInt n.
Definition vs (s : string) : val := VBytes (str s).
(** the whole input is decoded *)
Definition decodes (t : ty) (data : bytes) (v : val) : Prop := decode t data 0 = Ok v (lenN data).
Definition encodes (t : ty) (v : val) (data : bytes) : Prop := encode t v = Ok data tt.
Definition both (t : ty) (data : bytes) (v : val) : Prop := decodes t data v /\ encodes t v data.
Definition at_linend' (s : string) := at_linend (str s).
Definition with_branch_value (v : vspec) (n : N) : vspec :=
  mkvspec (v_named v) (v_attr v) (v_name v) (v_disc v) (v_default v) (v_bits v) (Some n) (v_bytes v) (v_range v).
Definition struct := TStruct true no_cspec.
Definition u8 := TInt U8.
Definition u16 := TInt U16.
Definition u32 := TInt U32.

(** test_modifier_bits.rs *)
Definition BitsExample : ty := struct
  [(at_untake (at_bits_start (const 0xf0) plain), u8); (at_bits (const 0x0f) plain, u8)].
Example bits_1 : both BitsExample (hex [0x12]) (VList [vi 1; vi 2]).
Proof. split; vm_compute; reflexivity. Qed.
Definition BitsExample2 : ty := struct
  [(at_untake (at_bits_start (const 0xf000) plain), u16);
   (at_untake (at_bits (const 0x0f00) plain), u16);
   (at_bits (const 0x00ff) plain, u16)].
Example bits_2 : both BitsExample2 (hex [0x12; 0x34]) (VList [vi 1; vi 2; vi 0x34]).
Proof. split; vm_compute; reflexivity. Qed.
Definition BitsEnumExample : ty := TEnum tagged
  [(variant_value true 1,
     [(at_untake (at_bits_start (const 0xf0) plain), u8); (at_bits (const 0x0f) plain, u8)]);
   (variant_default true, [])].
Example bits_enum : both BitsEnumExample (hex [1; 0x12]) (VVariant 0 [vi 1; vi 2]).
Proof. split; vm_compute; reflexivity. Qed.

(** test_modifier_branch.rs, test_modifier_branch_value.rs *)
Definition BranchBody (second : N) : ty := TEnum tagged
  [(variant_value true 1, []);
   (variant false, [(plain, u8)]);
   ((if second =? 0 then variant false else variant_value false second), [(plain, u8); (plain, u16)]);
   (variant false, [(plain, TTuple [u8; u16])]);
   (variant true, [(plain, u8); (plain, u16)]);
   (variant_default true, [])].
Definition BranchExample (body : ty) : ty := struct [(plain, u16); (at_branch (field_ref 0) plain, body)].
Example branch_1 : both (BranchExample (BranchBody 0)) (hex [0; 1]) (VList [vi 1; VVariant 0 []]).
Proof. split; vm_compute; reflexivity. Qed.
Example branch_2 : both (BranchExample (BranchBody 0)) (hex [0; 2; 1]) (VList [vi 2; VVariant 1 [vi 1]]).
Proof. split; vm_compute; reflexivity. Qed.
Example branch_3 : both (BranchExample (BranchBody 0)) (hex [0; 3; 1; 0; 2]) (VList [vi 3; VVariant 2 [vi 1; vi 2]]).
Proof. split; vm_compute; reflexivity. Qed.
Example branch_4 : both (BranchExample (BranchBody 0)) (hex [0; 4; 1; 0; 2]) (VList [vi 4; VVariant 3 [VList [vi 1; vi 2]]]).
Proof. split; vm_compute; reflexivity. Qed.
Example branch_5 : both (BranchExample (BranchBody 0)) (hex [0; 5; 1; 0; 2]) (VList [vi 5; VVariant 4 [vi 1; vi 2]]).
Proof. split; vm_compute; reflexivity. Qed.
Example branch_6 : both (BranchExample (BranchBody 0)) (hex [0; 6]) (VList [vi 6; VVariant 5 []]).
Proof. split; vm_compute; reflexivity. Qed.
Example branch_7 : both (BranchExample (BranchBody 0)) (hex [0; 0x1f]) (VList [vi 0x1f; VVariant 5 []]).
Proof. split; vm_compute; reflexivity. Qed.
Example branch_value_3 : both (BranchExample (BranchBody 5)) (hex [0; 5; 1; 0; 2]) (VList [vi 5; VVariant 2 [vi 1; vi 2]]).
Proof. split; vm_compute; reflexivity. Qed.
Example branch_value_4 : both (BranchExample (BranchBody 5)) (hex [0; 6; 1; 0; 2]) (VList [vi 6; VVariant 3 [VList [vi 1; vi 2]]]).
Proof. split; vm_compute; reflexivity. Qed.
Example branch_value_5 : both (BranchExample (BranchBody 5)) (hex [0; 7; 1; 0; 2]) (VList [vi 7; VVariant 4 [vi 1; vi 2]]).
Proof. split; vm_compute; reflexivity. Qed.
Example branch_value_6 : both (BranchExample (BranchBody 5)) (hex [0; 8]) (VList [vi 8; VVariant 5 []]).
Proof. split; vm_compute; reflexivity. Qed.

(** test_modifier_branch_bits.rs; without branch_bits_value all bits of the mask
    are wanted (derive_enum.rs:309-315) *)
Definition BranchBits : ty := TEnum tagged
  [(variant_bits true 1 1, []); (variant_bits true 2 2, [(plain, u8); (plain, u16)]); (variant_default true, [])].
Example branch_bits_1 : both (BranchExample BranchBits) (hex [0; 1]) (VList [vi 1; VVariant 0 []]).
Proof. split; vm_compute; reflexivity. Qed.
Example branch_bits_2 : both (BranchExample BranchBits) (hex [0; 2; 1; 0; 2]) (VList [vi 2; VVariant 1 [vi 1; vi 2]]).
Proof. split; vm_compute; reflexivity. Qed.
Example branch_bits_3 : both (BranchExample BranchBits) (hex [0; 3]) (VList [vi 3; VVariant 0 []]).
Proof. split; vm_compute; reflexivity. Qed.
Example branch_bits_a : both (BranchExample BranchBits) (hex [0; 10; 1; 0; 2]) (VList [vi 10; VVariant 1 [vi 1; vi 2]]).
Proof. split; vm_compute; reflexivity. Qed.
Example branch_bits_50 : both (BranchExample BranchBits) (hex [0; 0x50]) (VList [vi 0x50; VVariant 2 []]).
Proof. split; vm_compute; reflexivity. Qed.

(** test_modifier_branch_default.rs *)
Definition BranchNoDefault : ty := TEnum tagged [(variant_value true 1, []); (variant true, [])].
Example branch_default_2 : both (BranchExample BranchNoDefault) (hex [0; 2]) (VList [vi 2; VVariant 1 []]).
Proof. split; vm_compute; reflexivity. Qed.
Example branch_default_3 : exists e, decode (BranchExample BranchNoDefault) (hex [0; 3]) 0 = Err e 2.
Proof. eexists; vm_compute; reflexivity. Qed.

(** test_modifier_branch_range.rs *)
Definition BranchRange : ty := TEnum tagged
  [(variant_range true 1 3 true, []); (variant true, [(plain, u8); (plain, u16)]); (variant_default true, [])].
Example branch_range_1 : both (BranchExample BranchRange) (hex [0; 1]) (VList [vi 1; VVariant 0 []]).
Proof. split; vm_compute; reflexivity. Qed.
Example branch_range_3 : both (BranchExample BranchRange) (hex [0; 3]) (VList [vi 3; VVariant 0 []]).
Proof. split; vm_compute; reflexivity. Qed.
Example branch_range_4 : both (BranchExample BranchRange) (hex [0; 4; 1; 0; 2]) (VList [vi 4; VVariant 1 [vi 1; vi 2]]).
Proof. split; vm_compute; reflexivity. Qed.
Example branch_range_5 : both (BranchExample BranchRange) (hex [0; 5]) (VList [vi 5; VVariant 2 []]).
Proof. split; vm_compute; reflexivity. Qed.

(** test_modifier_bytecount.rs *)
Definition ByteCountExample : ty := struct [(at_byte_count (const 2) plain, TString)].
Example byte_count_1 : both ByteCountExample (hex [0; 3; 0x31; 0x32; 0x33]) (VList [vs "123"]).
Proof. split; vm_compute; reflexivity. Qed.
(** test_modifier_bytecount_disable.rs *)
Example byte_count_disable :
  encodes (TEnum (mkespec no_cspec ByTag true) [(variant true, [(plain, u8)]); (variant true, [(plain, u8); (plain, u16)])])
          (VVariant 0 [vi 1]) (hex [1]).
Proof. vm_compute; reflexivity. Qed.
(** test_modifier_bytecount_outside.rs *)
Definition strings := VList [vs "12"; vs "345"; vs "6789"].
Definition strings_wire := hex [0; 2; 0x31; 0x32; 0; 3; 0x33; 0x34; 0x35; 0; 4; 0x36; 0x37; 0x38; 0x39].
Example byte_count_outside :
  both (struct [(at_byte_count_outside (const 2) (at_byte_count (const 2) plain), TVec TString)])
       (hex [0; 3] ++ strings_wire) (VList [strings]).
Proof. split; vm_compute; reflexivity. Qed.
(** test_modifier_count.rs *)
Example count_1 :
  both (struct [(at_count (const 3) (at_byte_count (const 2) plain), TVec TString)]) strings_wire (VList [strings]).
Proof. split; vm_compute; reflexivity. Qed.
(** test_modifier_try_count.rs *)
Example try_count_1 :
  both (struct [(at_try_count (const 10) (at_byte_count (const 2) plain), TVec TString)]) strings_wire (VList [strings]).
Proof. split; vm_compute; reflexivity. Qed.

(** test_modifier_byteorder.rs *)
Example byteorder_1 :
  both (struct [(plain, u16); (at_order (OConst Le) plain, u16)]) (hex [0; 1; 0; 2]) (VList [vi 1; vi 0x200]).
Proof. split; vm_compute; reflexivity. Qed.
Example byteorder_2 :
  both (TStruct true (mkcspec (Some Le) None) [(plain, u16); (plain, u16)]) (hex [0; 1; 0; 2]) (VList [vi 0x100; vi 0x200]).
Proof. split; vm_compute; reflexivity. Qed.
Example byteorder_3 :
  both (struct [(plain, u8); (at_order (OVar (field_ref 0)) plain, u16)]) (hex [1; 0; 2]) (VList [vi 1; vi 0x200]).
Proof. split; vm_compute; reflexivity. Qed.
Example byteorder_enum :
  both (TEnum tagged [(variant_value true 1, [(plain, u16); (at_order (OConst Le) plain, u16)]); (variant_default true, [])])
       (hex [1; 0; 1; 0; 2]) (VVariant 0 [vi 1; vi 0x200]).
Proof. split; vm_compute; reflexivity. Qed.

(** test_modifier_check_value.rs: the error is at position 2 and 2 bytes remain *)
Example check_value :
  decode (struct [(at_check (fun _ => vi 2) plain, u16); (at_order (OConst Le) plain, u16)]) (hex [0; 1; 0; 2]) 0
  = Err (mkerr 2 InvalidValue) 2.
Proof. vm_compute; reflexivity. Qed.

(** test_modifier_default.rs *)
Example default_1 :
  both (struct [(at_byte_count (const 1) plain, TString);
                (at_byte_count (const 1) plain,
                 TEnum tagged [(variant_value true 1, [(plain, u8)]);
                               (variant true, [(plain, u8); (plain, TArray 3 u8)]);
                               (variant_default true, [(at_check (fun _ => vi 10) plain, u8)])])])
       (hex [3; 0x31; 0x32; 0x33; 3; 10]) (VList [vs "123"; VVariant 2 [vi 10]]).
Proof. split; vm_compute; reflexivity. Qed.

(** test_modifier_from_str.rs: [JkcEnum] gives the variants' names *)
Definition methods : list string :=
  ["GET"; "POST"; "HEAD"; "PUT"; "DELETE"; "CONNECT"; "OPTIONS"; "TRACE"; "PATCH"]%string.
Fixpoint method_index (l : list string) (s : bytes) (i : nat) : option val :=
  match l with
  | [] => None
  | m :: r => if bytes_eqb (str m) s then Some (VVariant i []) else method_index r s (S i)
  end.
Definition parse_method (s : bytes) : option val := method_index methods s 0.
Definition show_method (v : val) : bytes :=
  match v with VVariant i _ => str (nth i methods EmptyString) | _ => [] end.
Definition HttpMethod : ty := TEnum (mkespec no_cspec ByTag true) (List.map (fun _ => (variant true, [])) methods).
Definition HttpHeader : ty := struct [(at_linend (str ": ") plain, TString); (at_linend crlf plain, TString)].
Definition Http : ty := struct
  [(at_linend (str " ") (at_from_str parse_method show_method plain), HttpMethod);
   (at_linend (str " ") plain, TString);
   (at_linend crlf plain, TString);
   (at_try_count (const 20) plain, TVec HttpHeader)].
Definition http_rest : bytes :=
  str " http://www.jankincai.com/ HTTP/1.1" ++ crlf ++ str "Host: www.jankincai.com" ++ crlf
  ++ str "Accept-Encoding: gzip, deflate" ++ crlf.
Example from_str_1 :
  both Http (str "GET" ++ http_rest)
       (VList [VVariant 0 []; vs "http://www.jankincai.com/"; vs "HTTP/1.1";
               VList [VList [vs "Host"; vs "www.jankincai.com"];
                      VList [vs "Accept-Encoding"; vs "gzip, deflate"]]]).
Proof. split; vm_compute; reflexivity. Qed.
Example from_str_2 : exists e p, decode Http (str "SET" ++ http_rest) 0 = Err e p.
Proof. do 2 eexists; vm_compute; reflexivity. Qed.

(** test_modifier_offset.rs, test_modifier_full.rs *)
Definition minus_one (i : nat) : expr := fun en => (field_ref i en - 1)%Z.
Example offset_1 : both (struct [(at_offset (const 2) plain, u8); (plain, u16)]) (hex [0; 0; 1; 0; 2]) (VList [vi 1; vi 2]).
Proof. split; vm_compute; reflexivity. Qed.
Example offset_2 : both (struct [(plain, u8); (at_offset (field_ref 0) plain, u16)]) (hex [2; 0; 0; 0; 1]) (VList [vi 2; vi 1]).
Proof. split; vm_compute; reflexivity. Qed.
Example offset_3 : both (struct [(plain, u8); (at_offset (minus_one 0) plain, u16)]) (hex [2; 0; 0; 1]) (VList [vi 2; vi 1]).
Proof. split; vm_compute; reflexivity. Qed.
Definition FullEnum : ty := TEnum tagged
  [(variant_value true 1, [(plain, u8); (at_full 0xff (at_offset (field_ref 0) plain), u16)]); (variant_default true, [])].
Example full_5_decode : decodes FullEnum (hex [1; 2; 0; 0; 0; 1]) (VVariant 0 [vi 2; vi 1]).
Proof. vm_compute; reflexivity. Qed.
Example full_5_encode : encodes FullEnum (VVariant 0 [vi 2; vi 1]) (hex [1; 2; 0xff; 0xff; 0; 1]).
Proof. vm_compute; reflexivity. Qed.

(** test_modifier_if_expr.rs *)
Definition flag (i : nat) (en : env) : bool :=
  match nth_error (ev_fields en) i with Some (VBool b) => b | _ => false end.
Definition OptionExample : ty := struct [(plain, TBool); (at_if (flag 0) plain, TOption u16)].
Example if_expr_0 : both OptionExample (hex [0]) (VList [VBool false; VOpt None]).
Proof. split; vm_compute; reflexivity. Qed.
Example if_expr_1 : both OptionExample (hex [1; 0; 0x31]) (VList [VBool true; VOpt (Some (vi 0x31))]).
Proof. split; vm_compute; reflexivity. Qed.

(** test_modifier_key.rs *)
Definition KeyExample : ty := struct
  [(at_key (str "Version: ") (at_linend crlf plain), TString); (at_key (str "Host: ") (at_linend crlf plain), TString)].
Definition key_value := VList [vs "1.0.0"; vs "192.168.1.1"].
Example key_decode :
  decode KeyExample (str "Cookie: sssss" ++ crlf ++ str "Version: 1.0.0" ++ crlf ++ str "Header: jkc" ++ crlf
                     ++ str "Host: 192.168.1.1" ++ crlf ++ str "Other: jkc" ++ crlf) 0
  = Ok key_value 63.
Proof. vm_compute; reflexivity. Qed.
Example key_encode : encodes KeyExample key_value (str "Version: 1.0.0" ++ crlf ++ str "Host: 192.168.1.1" ++ crlf).
Proof. vm_compute; reflexivity. Qed.

(** test_modifier_length.rs *)
Definition LengthExample1 : ty := struct
  [(at_length (const 3) plain, u32); (at_length (const 1) plain, TBytes);
   (at_count (const 1) (at_length (const 3) plain), TVec u32);
   (at_length (const 3) plain, TString); (at_length (const 4) plain, TString)].
Example length_1 :
  both LengthExample1 (hex [0; 0; 1; 0xff; 0; 0; 2; 0x61; 0x62; 0x63; 0x61; 0x62; 0x63; 0x64])
       (VList [vi 1; VBytes (hex [0xff]); VList [vi 2]; vs "abc"; vs "abcd"]).
Proof. split; vm_compute; reflexivity. Qed.
Example length_2 :
  both (struct [(plain, u8); (at_length (field_ref 0) plain, TString); (at_length (minus_one 0) plain, TString)])
       (hex [3; 0x61; 0x62; 0x63; 0x61; 0x62]) (VList [vi 3; vs "abc"; vs "ab"]).
Proof. split; vm_compute; reflexivity. Qed.

(** test_modifier_loop_skip_starts.rs *)
Definition SkipStarts : ty := struct [(plain, u8); (at_loop (hex [0xff]) plain, TVec u8); (plain, u8)].
Example loop_1 : both SkipStarts (hex [1; 0xff; 0; 0xff; 1; 0xff; 2; 5]) (VList [vi 1; VList [vi 0; vi 1; vi 2]; vi 5]).
Proof. split; vm_compute; reflexivity. Qed.

(** test_modifier_remaining.rs *)
Example remaining_1 :
  both (struct [(plain, u16); (at_remaining plain, TBytes)]) (hex [0; 1; 0x31; 0x32; 0x33; 0x34; 0x35])
       (VList [vi 1; vs "12345"]).
Proof. split; vm_compute; reflexivity. Qed.

(** test_modifier_skip.rs *)
Example skip_1 : both (struct [(at_skip (vi 0) plain, u16); (plain, u16)]) (hex [0; 1]) (VList [vi 0; vi 1]).
Proof. split; vm_compute; reflexivity. Qed.

(** test_modifier_untake.rs *)
Definition UntakeExample : ty := struct
  [(at_untake plain, u8); (plain, u16);
   (at_branch (field_ref 0) plain,
    TEnum tagged [(variant_value true 0, [(at_untake plain, u8); (plain, u16)]); (variant_default true, [])])].
Example untake_1 : both UntakeExample (hex [0; 1; 0; 1]) (VList [vi 0; vi 1; VVariant 0 [vi 0; vi 1]]).
Proof. split; vm_compute; reflexivity. Qed.

(** test_modifier_value.rs *)
Definition times_two (_ : env) (v : val) : val := match v with VInt z => VInt (z * 2) | _ => v end.
Definition halve (_ : env) (v : val) : val := match v with VInt z => VInt (Z.quot z 2) | _ => v end.
Example value_1 : both (struct [(at_value_decode times_two (at_value_encode halve plain), u8)]) (hex [1]) (VList [vi 2]).
Proof. split; vm_compute; reflexivity. Qed.

(** test_modifier_variable_name.rs *)
Definition VariableExample : ty := struct
  [(plain, u8); (at_variable 0 (field_ref 1) plain, u8);
   (plain, struct [(at_length (var_ref 0) plain, TString)]);
   (at_branch (field_ref 0) plain,
    TEnum tagged [(variant_value true 1, [(at_length (var_ref 0) plain, TString)]);
                  (variant true, [(at_length (var_ref 0) plain, TString)]);
                  (variant_default true, [])])].
Example variable_1 :
  both VariableExample (hex [1; 2; 0x61; 0x62; 0x63; 0x64])
       (VList [vi 1; vi 2; VList [vs "ab"]; VVariant 0 [vs "cd"]]).
Proof. split; vm_compute; reflexivity. Qed.

(** test_type_enum.rs: #[repr(u16)] is byte_count = 2; "= 1" is a discriminant *)
Definition with_disc (n : N) (v : vspec) : vspec :=
  mkvspec (v_named v) (v_attr v) (v_name v) (Some n) (v_default v) (v_bits v) (v_value v) (v_bytes v) (v_range v).
Definition ReadWrite (repr : N) (disc : option N) : ty :=
  TEnum (mkespec (mkcspec None (Some repr)) ByTag false)
    [((match disc with Some n => with_disc n (variant true) | None => variant true end), [(plain, u8)]);
     (variant true, [(plain, u8); (plain, u16)])].
Example enum_repr_1 : both (ReadWrite 2 None) (hex [0; 0; 1]) (VVariant 0 [vi 1]).
Proof. split; vm_compute; reflexivity. Qed.
Example enum_repr_2 : both (ReadWrite 1 (Some 1)) (hex [1; 1]) (VVariant 0 [vi 1]).
Proof. split; vm_compute; reflexivity. Qed.
Example enum_repr_3 :
  decodes (TEnum (mkespec (mkcspec None (Some 1)) ByTag false)
             [(with_disc 1 (variant true), [(plain, u8)]); (variant true, [(plain, u8); (plain, u16)]);
              (variant_default true, [])]) (hex [5]) (VVariant 2 []).
Proof. vm_compute; reflexivity. Qed.

(** test_type_enum_match_bytes.rs *)
Definition named_default (s : string) : vspec := mkvspec true plain (str s) None true None None None None.
Definition EnumExample : ty := TEnum (mkespec no_cspec (ByBytes 3) false)
  [(variant_lit true (str "get"), [(plain, u8)]); (variant_lit true (str "set"), [(plain, u8); (plain, u16)]);
   (named_default "unknown", [])].
Example match_bytes_1 : both EnumExample (str "get" ++ hex [1]) (VVariant 0 [vi 1]).
Proof. split; vm_compute; reflexivity. Qed.
Example match_bytes_2 : both EnumExample (str "set" ++ hex [1; 0; 2]) (VVariant 1 [vi 1; vi 2]).
Proof. split; vm_compute; reflexivity. Qed.
Example match_bytes_3 : decodes EnumExample (str "put") (VVariant 2 []) /\ encodes EnumExample (VVariant 2 []) (str "unknown").
Proof. split; vm_compute; reflexivity. Qed.
Definition EnumExample2 : ty := TEnum (mkespec no_cspec ByPrefix false)
  [(variant_lit true (str "read"), [(plain, u8)]);
   (mkvspec true plain (str "write") None false None None None None, [(plain, u8); (plain, u16)]);
   (named_default "unknown", [])].
Example match_prefix_1 : both EnumExample2 (str "read" ++ hex [1]) (VVariant 0 [vi 1]).
Proof. split; vm_compute; reflexivity. Qed.
Example match_prefix_2 : both EnumExample2 (str "write" ++ hex [1; 0; 2]) (VVariant 1 [vi 1; vi 2]).
Proof. split; vm_compute; reflexivity. Qed.
Example match_prefix_3 : decode EnumExample2 (str "put") 0 = Ok (VVariant 2 []) 0 /\ encodes EnumExample2 (VVariant 2 []) (str "unknown").
Proof. split; vm_compute; reflexivity. Qed.
Example match_prefix_4 :
  both (struct [(plain, u8); (plain, EnumExample2)]) (hex [1] ++ str "read" ++ hex [1]) (VList [vi 1; VVariant 0 [vi 1]]).
Proof. split; vm_compute; reflexivity. Qed.

(** test_type_hashmap.rs, test_type_hashset.rs *)
Example hashmap :
  both (struct [(at_split (str ":") (at_linend crlf (at_count (const 3) plain)), TMap TString TString)])
       (str "A1:jkc1" ++ crlf ++ str "A2:jkc2" ++ crlf ++ str "A3:" ++ crlf)
       (VList [VMap [(vs "A1", vs "jkc1"); (vs "A2", vs "jkc2"); (vs "A3", vs "")]]).
Proof. split; vm_compute; reflexivity. Qed.
Example hashset :
  decodes (struct [(plain, u8); (at_count (field_ref 0) plain, TSet u16)]) (hex [3; 0; 1; 0; 2; 0; 2])
          (VList [vi 3; VSet [vi 1; vi 2]]).
Proof. vm_compute; reflexivity. Qed.

(** test_type_int_struct.rs, test_type_int_enum.rs *)
Definition IntExample (o o' : option byteorder) : ty := TStruct true (mkcspec o None)
  [(plain, u8); (plain, u16); (plain, u32); (plain, TInt U64); (plain, TInt U128);
   (at_length (const 3) plain, u32); (at_length (field_ref 1) plain, TInt Usize);
   (match o' with Some b => at_order (OConst b) plain | None => plain end, u16)].
Definition int_value := VList [vi 1; vi 2; vi 3; vi 4; vi 5; vi 6; vi 7; vi 8].
Example int_struct_be :
  both (IntExample None (Some Le))
       (hex [1; 0; 2; 0; 0; 0; 3; 0; 0; 0; 0; 0; 0; 0; 4; 0; 0; 0; 0; 0; 0; 0; 0; 0; 0; 0; 0; 0; 0; 0; 5;
             0; 0; 6; 0; 7; 8; 0]) int_value.
Proof. split; vm_compute; reflexivity. Qed.
Example int_struct_le :
  both (IntExample (Some Le) (Some Be))
       (hex [1; 2; 0; 3; 0; 0; 0; 4; 0; 0; 0; 0; 0; 0; 0; 5; 0; 0; 0; 0; 0; 0; 0; 0; 0; 0; 0; 0; 0; 0; 0;
             6; 0; 0; 7; 0; 0; 8]) int_value.
Proof. split; vm_compute; reflexivity. Qed.

(** The wire format specification on the repository's test vectors: wherever the
    repository's tests both decode and encode (Examples.v), the specification
    gives the same bytes and says that they can be decoded back. Tests of the
    specification, not properties. *)
From Coq Require Import String.
From Verif Require Import Base Ints Reader Writer Schema Decode Encode Sugar Examples WireSpec.

Definition specified (t : ty) (data : bytes) (v : val) : Prop :=
  wire t no_cattr no_fattr v = Some data /\ fits t no_cattr no_fattr v [] = true.

Example spec_bits_1 : specified BitsExample (hex [0x12]) (VList [vi 1; vi 2]).
Proof. split; vm_compute; reflexivity. Qed.
Example spec_bits_2 : specified BitsExample2 (hex [0x12; 0x34]) (VList [vi 1; vi 2; vi 0x34]).
Proof. split; vm_compute; reflexivity. Qed.
Example spec_bits_enum : specified BitsEnumExample (hex [1; 0x12]) (VVariant 0 [vi 1; vi 2]).
Proof. split; vm_compute; reflexivity. Qed.
Example spec_branch_1 : specified (BranchExample (BranchBody 0)) (hex [0; 1]) (VList [vi 1; VVariant 0 []]).
Proof. split; vm_compute; reflexivity. Qed.
Example spec_branch_2 : specified (BranchExample (BranchBody 0)) (hex [0; 2; 1]) (VList [vi 2; VVariant 1 [vi 1]]).
Proof. split; vm_compute; reflexivity. Qed.
Example spec_branch_3 : specified (BranchExample (BranchBody 0)) (hex [0; 3; 1; 0; 2]) (VList [vi 3; VVariant 2 [vi 1; vi 2]]).
Proof. split; vm_compute; reflexivity. Qed.
Example spec_branch_4 : specified (BranchExample (BranchBody 0)) (hex [0; 4; 1; 0; 2]) (VList [vi 4; VVariant 3 [VList [vi 1; vi 2]]]).
Proof. split; vm_compute; reflexivity. Qed.
Example spec_branch_5 : specified (BranchExample (BranchBody 0)) (hex [0; 5; 1; 0; 2]) (VList [vi 5; VVariant 4 [vi 1; vi 2]]).
Proof. split; vm_compute; reflexivity. Qed.
Example spec_branch_6 : specified (BranchExample (BranchBody 0)) (hex [0; 6]) (VList [vi 6; VVariant 5 []]).
Proof. split; vm_compute; reflexivity. Qed.
Example spec_branch_7 : specified (BranchExample (BranchBody 0)) (hex [0; 0x1f]) (VList [vi 0x1f; VVariant 5 []]).
Proof. split; vm_compute; reflexivity. Qed.
Example spec_branch_value_3 : specified (BranchExample (BranchBody 5)) (hex [0; 5; 1; 0; 2]) (VList [vi 5; VVariant 2 [vi 1; vi 2]]).
Proof. split; vm_compute; reflexivity. Qed.
Example spec_branch_value_4 : specified (BranchExample (BranchBody 5)) (hex [0; 6; 1; 0; 2]) (VList [vi 6; VVariant 3 [VList [vi 1; vi 2]]]).
Proof. split; vm_compute; reflexivity. Qed.
Example spec_branch_value_5 : specified (BranchExample (BranchBody 5)) (hex [0; 7; 1; 0; 2]) (VList [vi 7; VVariant 4 [vi 1; vi 2]]).
Proof. split; vm_compute; reflexivity. Qed.
Example spec_branch_value_6 : specified (BranchExample (BranchBody 5)) (hex [0; 8]) (VList [vi 8; VVariant 5 []]).
Proof. split; vm_compute; reflexivity. Qed.
Example spec_branch_bits_1 : specified (BranchExample BranchBits) (hex [0; 1]) (VList [vi 1; VVariant 0 []]).
Proof. split; vm_compute; reflexivity. Qed.
Example spec_branch_bits_2 : specified (BranchExample BranchBits) (hex [0; 2; 1; 0; 2]) (VList [vi 2; VVariant 1 [vi 1; vi 2]]).
Proof. split; vm_compute; reflexivity. Qed.
Example spec_branch_bits_3 : specified (BranchExample BranchBits) (hex [0; 3]) (VList [vi 3; VVariant 0 []]).
Proof. split; vm_compute; reflexivity. Qed.
Example spec_branch_bits_a : specified (BranchExample BranchBits) (hex [0; 10; 1; 0; 2]) (VList [vi 10; VVariant 1 [vi 1; vi 2]]).
Proof. split; vm_compute; reflexivity. Qed.
Example spec_branch_bits_50 : specified (BranchExample BranchBits) (hex [0; 0x50]) (VList [vi 0x50; VVariant 2 []]).
Proof. split; vm_compute; reflexivity. Qed.
Example spec_branch_default_2 : specified (BranchExample BranchNoDefault) (hex [0; 2]) (VList [vi 2; VVariant 1 []]).
Proof. split; vm_compute; reflexivity. Qed.
Example spec_branch_range_1 : specified (BranchExample BranchRange) (hex [0; 1]) (VList [vi 1; VVariant 0 []]).
Proof. split; vm_compute; reflexivity. Qed.
Example spec_branch_range_3 : specified (BranchExample BranchRange) (hex [0; 3]) (VList [vi 3; VVariant 0 []]).
Proof. split; vm_compute; reflexivity. Qed.
Example spec_branch_range_4 : specified (BranchExample BranchRange) (hex [0; 4; 1; 0; 2]) (VList [vi 4; VVariant 1 [vi 1; vi 2]]).
Proof. split; vm_compute; reflexivity. Qed.
Example spec_branch_range_5 : specified (BranchExample BranchRange) (hex [0; 5]) (VList [vi 5; VVariant 2 []]).
Proof. split; vm_compute; reflexivity. Qed.
Example spec_byte_count_1 : specified ByteCountExample (hex [0; 3; 0x31; 0x32; 0x33]) (VList [vs "123"]).
Proof. split; vm_compute; reflexivity. Qed.
Example spec_byte_count_outside : specified (struct [(at_byte_count_outside (const 2) (at_byte_count (const 2) plain), TVec TString)])
       (hex [0; 3] ++ strings_wire) (VList [strings]).
Proof. split; vm_compute; reflexivity. Qed.
Example spec_count_1 : specified (struct [(at_count (const 3) (at_byte_count (const 2) plain), TVec TString)]) strings_wire (VList [strings]).
Proof. split; vm_compute; reflexivity. Qed.
Example spec_try_count_1 : specified (struct [(at_try_count (const 10) (at_byte_count (const 2) plain), TVec TString)]) strings_wire (VList [strings]).
Proof. split; vm_compute; reflexivity. Qed.
Example spec_byteorder_1 : specified (struct [(plain, u16); (at_order (OConst Le) plain, u16)]) (hex [0; 1; 0; 2]) (VList [vi 1; vi 0x200]).
Proof. split; vm_compute; reflexivity. Qed.
Example spec_byteorder_2 : specified (TStruct true (mkcspec (Some Le) None) [(plain, u16); (plain, u16)]) (hex [0; 1; 0; 2]) (VList [vi 0x100; vi 0x200]).
Proof. split; vm_compute; reflexivity. Qed.
Example spec_byteorder_3 : specified (struct [(plain, u8); (at_order (OVar (field_ref 0)) plain, u16)]) (hex [1; 0; 2]) (VList [vi 1; vi 0x200]).
Proof. split; vm_compute; reflexivity. Qed.
Example spec_byteorder_enum : specified (TEnum tagged [(variant_value true 1, [(plain, u16); (at_order (OConst Le) plain, u16)]); (variant_default true, [])])
       (hex [1; 0; 1; 0; 2]) (VVariant 0 [vi 1; vi 0x200]).
Proof. split; vm_compute; reflexivity. Qed.
Example spec_default_1 : specified (struct [(at_byte_count (const 1) plain, TString);
                (at_byte_count (const 1) plain,
                 TEnum tagged [(variant_value true 1, [(plain, u8)]);
                               (variant true, [(plain, u8); (plain, TArray 3 u8)]);
                               (variant_default true, [(at_check (fun _ => vi 10) plain, u8)])])])
       (hex [3; 0x31; 0x32; 0x33; 3; 10]) (VList [vs "123"; VVariant 2 [vi 10]]).
Proof. split; vm_compute; reflexivity. Qed.
Example spec_from_str_1 : specified Http (str "GET" ++ http_rest)
       (VList [VVariant 0 []; vs "http://www.jankincai.com/"; vs "HTTP/1.1";
               VList [VList [vs "Host"; vs "www.jankincai.com"];
                      VList [vs "Accept-Encoding"; vs "gzip, deflate"]]]).
Proof. split; vm_compute; reflexivity. Qed.
Example spec_offset_1 : specified (struct [(at_offset (const 2) plain, u8); (plain, u16)]) (hex [0; 0; 1; 0; 2]) (VList [vi 1; vi 2]).
Proof. split; vm_compute; reflexivity. Qed.
Example spec_offset_2 : specified (struct [(plain, u8); (at_offset (field_ref 0) plain, u16)]) (hex [2; 0; 0; 0; 1]) (VList [vi 2; vi 1]).
Proof. split; vm_compute; reflexivity. Qed.
Example spec_offset_3 : specified (struct [(plain, u8); (at_offset (minus_one 0) plain, u16)]) (hex [2; 0; 0; 1]) (VList [vi 2; vi 1]).
Proof. split; vm_compute; reflexivity. Qed.
Example spec_if_expr_0 : specified OptionExample (hex [0]) (VList [VBool false; VOpt None]).
Proof. split; vm_compute; reflexivity. Qed.
Example spec_if_expr_1 : specified OptionExample (hex [1; 0; 0x31]) (VList [VBool true; VOpt (Some (vi 0x31))]).
Proof. split; vm_compute; reflexivity. Qed.
Example spec_length_1 : specified LengthExample1 (hex [0; 0; 1; 0xff; 0; 0; 2; 0x61; 0x62; 0x63; 0x61; 0x62; 0x63; 0x64])
       (VList [vi 1; VBytes (hex [0xff]); VList [vi 2]; vs "abc"; vs "abcd"]).
Proof. split; vm_compute; reflexivity. Qed.
Example spec_length_2 : specified (struct [(plain, u8); (at_length (field_ref 0) plain, TString); (at_length (minus_one 0) plain, TString)])
       (hex [3; 0x61; 0x62; 0x63; 0x61; 0x62]) (VList [vi 3; vs "abc"; vs "ab"]).
Proof. split; vm_compute; reflexivity. Qed.
Example spec_loop_1 : specified SkipStarts (hex [1; 0xff; 0; 0xff; 1; 0xff; 2; 5]) (VList [vi 1; VList [vi 0; vi 1; vi 2]; vi 5]).
Proof. split; vm_compute; reflexivity. Qed.
Example spec_remaining_1 : specified (struct [(plain, u16); (at_remaining plain, TBytes)]) (hex [0; 1; 0x31; 0x32; 0x33; 0x34; 0x35])
       (VList [vi 1; vs "12345"]).
Proof. split; vm_compute; reflexivity. Qed.
Example spec_skip_1 : specified (struct [(at_skip (vi 0) plain, u16); (plain, u16)]) (hex [0; 1]) (VList [vi 0; vi 1]).
Proof. split; vm_compute; reflexivity. Qed.
Example spec_untake_1 : specified UntakeExample (hex [0; 1; 0; 1]) (VList [vi 0; vi 1; VVariant 0 [vi 0; vi 1]]).
Proof. split; vm_compute; reflexivity. Qed.
Example spec_value_1 : specified (struct [(at_value_decode times_two (at_value_encode halve plain), u8)]) (hex [1]) (VList [vi 2]).
Proof. split; vm_compute; reflexivity. Qed.
Example spec_variable_1 : specified VariableExample (hex [1; 2; 0x61; 0x62; 0x63; 0x64])
       (VList [vi 1; vi 2; VList [vs "ab"]; VVariant 0 [vs "cd"]]).
Proof. split; vm_compute; reflexivity. Qed.
Example spec_enum_repr_1 : specified (ReadWrite 2 None) (hex [0; 0; 1]) (VVariant 0 [vi 1]).
Proof. split; vm_compute; reflexivity. Qed.
Example spec_enum_repr_2 : specified (ReadWrite 1 (Some 1)) (hex [1; 1]) (VVariant 0 [vi 1]).
Proof. split; vm_compute; reflexivity. Qed.
Example spec_match_bytes_1 : specified EnumExample (str "get" ++ hex [1]) (VVariant 0 [vi 1]).
Proof. split; vm_compute; reflexivity. Qed.
Example spec_match_bytes_2 : specified EnumExample (str "set" ++ hex [1; 0; 2]) (VVariant 1 [vi 1; vi 2]).
Proof. split; vm_compute; reflexivity. Qed.
Example spec_match_prefix_1 : specified EnumExample2 (str "read" ++ hex [1]) (VVariant 0 [vi 1]).
Proof. split; vm_compute; reflexivity. Qed.
Example spec_match_prefix_2 : specified EnumExample2 (str "write" ++ hex [1; 0; 2]) (VVariant 1 [vi 1; vi 2]).
Proof. split; vm_compute; reflexivity. Qed.
Example spec_match_prefix_4 : specified (struct [(plain, u8); (plain, EnumExample2)]) (hex [1] ++ str "read" ++ hex [1]) (VList [vi 1; VVariant 0 [vi 1]]).
Proof. split; vm_compute; reflexivity. Qed.
Example spec_hashmap : specified (struct [(at_split (str ":") (at_linend crlf (at_count (const 3) plain)), TMap TString TString)])
       (str "A1:jkc1" ++ crlf ++ str "A2:jkc2" ++ crlf ++ str "A3:" ++ crlf)
       (VList [VMap [(vs "A1", vs "jkc1"); (vs "A2", vs "jkc2"); (vs "A3", vs "")]]).
Proof. split; vm_compute; reflexivity. Qed.
Example spec_int_struct_be : specified (IntExample None (Some Le))
       (hex [1; 0; 2; 0; 0; 0; 3; 0; 0; 0; 0; 0; 0; 0; 4; 0; 0; 0; 0; 0; 0; 0; 0; 0; 0; 0; 0; 0; 0; 0; 5;
             0; 0; 6; 0; 7; 8; 0]) int_value.
Proof. split; vm_compute; reflexivity. Qed.
Example spec_int_struct_le : specified (IntExample (Some Le) (Some Be))
       (hex [1; 2; 0; 3; 0; 0; 0; 4; 0; 0; 0; 0; 0; 0; 0; 5; 0; 0; 0; 0; 0; 0; 0; 0; 0; 0; 0; 0; 0; 0; 0;
             6; 0; 0; 7; 0; 0; 8]) int_value.
Proof. split; vm_compute; reflexivity. Qed.

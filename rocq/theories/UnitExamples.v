(** The model run on the unit tests in /repo/src: every assertion about a codec,
    a reading or writing method or a text form that those tests make. Like
    Examples.v these are tests of the model and not properties: the expected
    values are the ones written in the Rust tests. Tests of serde_json and of
    printing of code (derive/src/jbytes/parse.rs) are left out. *)
From Coq Require Import String.
From Verif Require Import Base Ints Reader Writer BufIo Text IpText Schema Decode Encode Sugar Examples.

(** [decode_inner(&bytes, cattr, fattr)] is [v] and [remaining_len()] is [rest] afterwards *)
Definition takes (t : ty) (ca : cattr) (fa : fattr) (data : bytes) (v : val) (rest : N) : Prop :=
  match dec t ca fa data 0 with Ok x p => x = v /\ remaining_len data p = rest | _ => False end.
(** it is an error, with [remaining_len()] [rest] *)
Definition fails (t : ty) (ca : cattr) (fa : fattr) (data : bytes) (rest : N) : Prop :=
  match dec t ca fa data 0 with Err _ p => remaining_len data p = rest | _ => False end.
(** [encode_inner] into a new buffer returns the number of bytes and leaves these bytes *)
Definition puts (t : ty) (ca : cattr) (fa : fattr) (v : val) (data : bytes) : Prop :=
  match enc t ca fa v buf_new with Ok n b => n = lenN data /\ b_data b = data | _ => False end.
Definition refused (t : ty) (ca : cattr) (fa : fattr) (v : val) : Prop :=
  match enc t ca fa v buf_new with Err _ b => b_data b = [] | _ => False end.
(** the calls return these results ([None]: an error) and end at this position *)
Definition calls (data : bytes) (ops : list rop) (outs : list (option rval)) (pos : N) : Prop :=
  match run_rops ops data 0 with
  | Some (rs, p) => map (fun r => match r with inl v => Some v | inr _ => None end) rs = outs /\ p = pos
  | None => False
  end.

(** src/decode/impls_array.rs, src/encode/impls_array.rs (tests) *)
Example array_1 : takes (TArray 2 u16) no_cattr no_fattr (hex [0; 1; 0; 2]) (VList [vi 1; vi 2]) 0.
Proof. vm_compute; split; reflexivity. Qed.
Example array_2 : takes (TArray 2 u16) (mkcattr (Some Le) None []) no_fattr (hex [0; 1; 0; 2]) (VList [vi 256; vi 512]) 0.
Proof. vm_compute; split; reflexivity. Qed.
Example array_3 : takes (TArray 2 u16) (mkcattr (Some Le) None []) (mkfattr None (Some Be) false None None false None false None None None None None None None) (hex [0; 1; 0; 2]) (VList [vi 1; vi 2]) 0.
Proof. vm_compute; split; reflexivity. Qed.
Example array_4 : fails (TArray 2 u16) no_cattr no_fattr (hex [0; 1; 0]) 1.
Proof. vm_compute; reflexivity. Qed.
Example array_5 : puts (TArray 2 u16) no_cattr no_fattr (VList [vi 1; vi 2]) (hex [0; 1; 0; 2]).
Proof. vm_compute; split; reflexivity. Qed.
Example array_6 : puts (TArray 2 u16) (mkcattr (Some Le) None []) no_fattr (VList [vi 1; vi 2]) (hex [1; 0; 2; 0]).
Proof. vm_compute; split; reflexivity. Qed.
Example array_7 : puts (TArray 2 u16) (mkcattr (Some Le) None []) (mkfattr None (Some Be) false None None false None false None None None None None None None) (VList [vi 1; vi 2]) (hex [0; 1; 0; 2]).
Proof. vm_compute; split; reflexivity. Qed.

(** src/decode/impls_bool.rs, src/encode/impls_bool.rs (tests) *)
Example bool_1 : takes TBool no_cattr no_fattr (hex [0; 1]) (VBool false) 1.
Proof. vm_compute; split; reflexivity. Qed.
Example bool_2 : takes TBool no_cattr no_fattr (hex [1; 1]) (VBool true) 1.
Proof. vm_compute; split; reflexivity. Qed.
Example bool_3 : takes TBool no_cattr no_fattr (hex [16; 1]) (VBool true) 1.
Proof. vm_compute; split; reflexivity. Qed.
Example bool_4 : takes TBool no_cattr no_fattr (hex [255; 1]) (VBool true) 1.
Proof. vm_compute; split; reflexivity. Qed.
Example bool_5 : puts TBool no_cattr no_fattr (VBool false) (hex [0]).
Proof. vm_compute; split; reflexivity. Qed.
Example bool_6 : puts TBool no_cattr no_fattr (VBool true) (hex [1]).
Proof. vm_compute; split; reflexivity. Qed.

(** src/decode/impls_bytes.rs, src/encode/impls_bytes.rs (tests) *)
Example bytes_1 : takes TBytes no_cattr no_fattr (hex [2; 1; 2; 3; 4; 5]) (VBytes (hex [1; 2])) 3.
Proof. vm_compute; split; reflexivity. Qed.
Example bytes_2 : fails TBytes no_cattr no_fattr (hex [6; 1; 2; 3; 4; 5]) 5.
Proof. vm_compute; reflexivity. Qed.
Example bytes_3 : takes TBytes no_cattr (mkfattr (Some 5) None false None None false None false None None None None None None None) (hex [0; 1; 2; 3; 4; 5; 0]) (VBytes (hex [0; 1; 2; 3; 4])) 2.
Proof. vm_compute; split; reflexivity. Qed.
Example bytes_4 : takes TBytes no_cattr (mkfattr None None false None None false (Some 2) false None None None None None None None) (hex [0; 4; 2; 3; 4; 5; 0]) (VBytes (hex [2; 3; 4; 5])) 1.
Proof. vm_compute; split; reflexivity. Qed.
Example bytes_5 : takes TBytes no_cattr (mkfattr None None false None None false None true None None None None None None None) (hex [0; 4; 2]) (VBytes (hex [0; 4; 2])) 0.
Proof. vm_compute; split; reflexivity. Qed.
Example bytes_6 : takes TBytes no_cattr (mkfattr None None true None None false None false None None None (Some (hex [0; 1])) (Some (hex [2])) None None) (hex [0; 1; 2; 3; 4; 5; 0]) (VBytes (hex [3; 4; 5])) 0.
Proof. vm_compute; split; reflexivity. Qed.
Example bytes_7 : takes TBytes no_cattr (mkfattr None None true None None false None false None None None (Some (hex [0; 1])) (Some (hex [3])) None None) (hex [0; 1; 2; 3; 4; 5; 0]) (VBytes (hex [4; 5])) 0.
Proof. vm_compute; split; reflexivity. Qed.
Example bytes_8 : takes TBytes no_cattr (mkfattr None None false (Some (hex [0])) None false None false None None None (Some (hex [0; 1])) (Some (hex [2])) None None) (hex [0; 1; 2; 3; 4; 5; 0]) (VBytes (hex [3; 4; 5])) 0.
Proof. vm_compute; split; reflexivity. Qed.
Example bytes_9 : puts TBytes no_cattr no_fattr (VBytes (hex [1; 2])) (hex [2; 1; 2]).
Proof. vm_compute; split; reflexivity. Qed.
Example bytes_10 : puts TBytes no_cattr (mkfattr (Some 5) None false None None false None false None None None None None None None) (VBytes (hex [1; 2; 3; 4; 5])) (hex [1; 2; 3; 4; 5]).
Proof. vm_compute; split; reflexivity. Qed.
Example bytes_11 : puts TBytes no_cattr (mkfattr None None false None None false (Some 2) false None None None None None None None) (VBytes (hex [1; 2; 3; 4; 5])) (hex [0; 5; 1; 2; 3; 4; 5]).
Proof. vm_compute; split; reflexivity. Qed.
Example bytes_12 : puts TBytes no_cattr (mkfattr None None false None None false None true None None None None None None None) (VBytes (hex [1; 2; 3; 4; 5])) (hex [1; 2; 3; 4; 5]).
Proof. vm_compute; split; reflexivity. Qed.
Example bytes_13 : puts TBytes no_cattr (mkfattr None None false (Some (hex [255])) None false None false None None None (Some (hex [255; 254])) (Some (hex [250])) None None) (VBytes (hex [1; 2; 3; 4; 5])) (hex [255; 254; 250; 1; 2; 3; 4; 5; 255]).
Proof. vm_compute; split; reflexivity. Qed.

(** src/decode/impls_char.rs, src/encode/impls_char.rs (tests) *)
Example char_1 : takes TChar no_cattr no_fattr (hex [97; 98]) (VChar 97) 1.
Proof. vm_compute; split; reflexivity. Qed.
Example char_2 : takes TChar no_cattr no_fattr (hex [98]) (VChar 98) 0.
Proof. vm_compute; split; reflexivity. Qed.
Example char_3 : puts TChar no_cattr no_fattr (VChar 97) (hex [97]).
Proof. vm_compute; split; reflexivity. Qed.
Example char_4 : puts TChar no_cattr no_fattr (VChar 98) (hex [98]).
Proof. vm_compute; split; reflexivity. Qed.

(** src/decode/impls_float.rs, src/encode/impls_float.rs (tests); 0.1 is 0x3dcccccd as an f32 and 0x3fb999999999999a as an f64 *)
Example float_1 : takes TF32 no_cattr no_fattr (hex [61; 204; 204; 205]) (VFloat 0x3dcccccd) 0.
Proof. vm_compute; split; reflexivity. Qed.
Example float_2 : takes TF32 (mkcattr (Some Le) None []) no_fattr (hex [205; 204; 204; 61]) (VFloat 0x3dcccccd) 0.
Proof. vm_compute; split; reflexivity. Qed.
Example float_3 : takes TF32 (mkcattr (Some Le) None []) (mkfattr None (Some Be) false None None false None false None None None None None None None) (hex [61; 204; 204; 205]) (VFloat 0x3dcccccd) 0.
Proof. vm_compute; split; reflexivity. Qed.
Example float_4 : puts TF32 no_cattr no_fattr (VFloat 0x3dcccccd) (hex [61; 204; 204; 205]).
Proof. vm_compute; split; reflexivity. Qed.
Example float_5 : puts TF32 (mkcattr (Some Le) None []) no_fattr (VFloat 0x3dcccccd) (hex [205; 204; 204; 61]).
Proof. vm_compute; split; reflexivity. Qed.
Example float_6 : puts TF32 (mkcattr (Some Le) None []) (mkfattr None (Some Be) false None None false None false None None None None None None None) (VFloat 0x3dcccccd) (hex [61; 204; 204; 205]).
Proof. vm_compute; split; reflexivity. Qed.
Example float_7 : takes TF64 no_cattr no_fattr (hex [63; 185; 153; 153; 153; 153; 153; 154]) (VFloat 0x3fb999999999999a) 0.
Proof. vm_compute; split; reflexivity. Qed.
Example float_8 : takes TF64 (mkcattr (Some Le) None []) no_fattr (hex [154; 153; 153; 153; 153; 153; 185; 63]) (VFloat 0x3fb999999999999a) 0.
Proof. vm_compute; split; reflexivity. Qed.
Example float_9 : takes TF64 (mkcattr (Some Le) None []) (mkfattr None (Some Be) false None None false None false None None None None None None None) (hex [63; 185; 153; 153; 153; 153; 153; 154]) (VFloat 0x3fb999999999999a) 0.
Proof. vm_compute; split; reflexivity. Qed.
Example float_10 : puts TF64 no_cattr no_fattr (VFloat 0x3fb999999999999a) (hex [63; 185; 153; 153; 153; 153; 153; 154]).
Proof. vm_compute; split; reflexivity. Qed.
Example float_11 : puts TF64 (mkcattr (Some Le) None []) no_fattr (VFloat 0x3fb999999999999a) (hex [154; 153; 153; 153; 153; 153; 185; 63]).
Proof. vm_compute; split; reflexivity. Qed.
Example float_12 : puts TF64 (mkcattr (Some Le) None []) (mkfattr None (Some Be) false None None false None false None None None None None None None) (VFloat 0x3fb999999999999a) (hex [63; 185; 153; 153; 153; 153; 153; 154]).
Proof. vm_compute; split; reflexivity. Qed.

(** src/decode/impls_hashmap.rs, src/encode/impls_hashmap.rs (tests); the encoder is given the entries in one of their orders *)
Example hashmap_1 : takes (TMap u16 u16) no_cattr no_fattr (hex [3; 0; 1; 0; 2; 0; 3; 0; 4; 0; 5; 0; 6]) (VMap [(vi 1, vi 2); (vi 3, vi 4); (vi 5, vi 6)]) 0.
Proof. vm_compute; split; reflexivity. Qed.
Example hashmap_2 : puts (TMap u16 u16) no_cattr no_fattr (VMap [(vi 1, vi 2); (vi 3, vi 4); (vi 5, vi 6)]) (hex [3; 0; 1; 0; 2; 0; 3; 0; 4; 0; 5; 0; 6]).
Proof. vm_compute; split; reflexivity. Qed.
Example hashmap_3 : takes (TMap u16 u16) no_cattr (mkfattr None None false None None false None false (Some 3) None None None None None None) (hex [0; 1; 0; 2; 0; 3; 0; 4; 0; 5; 0; 6]) (VMap [(vi 1, vi 2); (vi 3, vi 4); (vi 5, vi 6)]) 0.
Proof. vm_compute; split; reflexivity. Qed.
Example hashmap_4 : puts (TMap u16 u16) no_cattr (mkfattr None None false None None false None false (Some 3) None None None None None None) (VMap [(vi 1, vi 2); (vi 3, vi 4); (vi 5, vi 6)]) (hex [0; 1; 0; 2; 0; 3; 0; 4; 0; 5; 0; 6]).
Proof. vm_compute; split; reflexivity. Qed.
Example hashmap_5 : takes (TMap u16 u16) no_cattr (mkfattr None None false None None false None false None (Some 10) None None None None None) (hex [0; 1; 0; 2; 0; 3; 0; 4; 0; 5; 0; 6]) (VMap [(vi 1, vi 2); (vi 3, vi 4); (vi 5, vi 6)]) 0.
Proof. vm_compute; split; reflexivity. Qed.
Example hashmap_6 : puts (TMap u16 u16) no_cattr (mkfattr None None false None None false None false None (Some 10) None None None None None) (VMap [(vi 1, vi 2); (vi 3, vi 4); (vi 5, vi 6)]) (hex [0; 1; 0; 2; 0; 3; 0; 4; 0; 5; 0; 6]).
Proof. vm_compute; split; reflexivity. Qed.
Example hashmap_7 : takes (TMap u16 u16) no_cattr (mkfattr None None false None None false None false None None (Some 2) None None None None) (hex [0; 3; 0; 1; 0; 2; 0; 3; 0; 4; 0; 5; 0; 6]) (VMap [(vi 1, vi 2); (vi 3, vi 4); (vi 5, vi 6)]) 0.
Proof. vm_compute; split; reflexivity. Qed.
Example hashmap_8 : puts (TMap u16 u16) no_cattr (mkfattr None None false None None false None false None None (Some 2) None None None None) (VMap [(vi 1, vi 2); (vi 3, vi 4); (vi 5, vi 6)]) (hex [0; 3; 0; 1; 0; 2; 0; 3; 0; 4; 0; 5; 0; 6]).
Proof. vm_compute; split; reflexivity. Qed.
Example hashmap_9 : takes (TMap TString u16) no_cattr no_fattr (hex [3; 4; 107; 101; 121; 49; 0; 2; 4; 107; 101; 121; 50; 0; 4; 4; 107; 101; 121; 51; 0; 6]) (VMap [((VBytes (hex [107; 101; 121; 49])), vi 2); ((VBytes (hex [107; 101; 121; 50])), vi 4); ((VBytes (hex [107; 101; 121; 51])), vi 6)]) 0.
Proof. vm_compute; split; reflexivity. Qed.
Example hashmap_10 : takes (TMap TString u16) no_cattr (mkfattr None None false None None false None false None None None None (Some (hex [58])) None None) (hex [3; 107; 101; 121; 49; 58; 0; 2; 107; 101; 121; 50; 58; 0; 4; 107; 101; 121; 51; 58; 0; 6]) (VMap [((VBytes (hex [107; 101; 121; 49])), vi 2); ((VBytes (hex [107; 101; 121; 50])), vi 4); ((VBytes (hex [107; 101; 121; 51])), vi 6)]) 0.
Proof. vm_compute; split; reflexivity. Qed.
Example hashmap_11 : takes (TMap TString TString) no_cattr (mkfattr None None false (Some (hex [13; 10])) None false None false None (Some 50) None None (Some (hex [58; 32])) None None) (hex [75; 49; 58; 32; 86; 49; 13; 10; 75; 50; 58; 32; 86; 50; 13; 10; 75; 51; 58; 32; 86; 51; 13; 10]) (VMap [((VBytes (hex [75; 49])), (VBytes (hex [86; 49]))); ((VBytes (hex [75; 50])), (VBytes (hex [86; 50]))); ((VBytes (hex [75; 51])), (VBytes (hex [86; 51])))]) 0.
Proof. vm_compute; split; reflexivity. Qed.
Example hashmap_12 : puts (TMap TString TString) no_cattr (mkfattr None None false (Some (hex [13; 10])) None false None false None (Some 50) None None (Some (hex [58; 32])) None None) (VMap [((VBytes (hex [75; 49])), (VBytes (hex [86; 49]))); ((VBytes (hex [75; 50])), (VBytes (hex [86; 50]))); ((VBytes (hex [75; 51])), (VBytes (hex [86; 51])))]) (hex [75; 49; 58; 32; 86; 49; 13; 10; 75; 50; 58; 32; 86; 50; 13; 10; 75; 51; 58; 32; 86; 51; 13; 10]).
Proof. vm_compute; split; reflexivity. Qed.

(** src/decode/impls_hashset.rs (tests) *)
Example hashset_1 : takes (TSet u16) no_cattr no_fattr (hex [2; 0; 1; 0; 2]) (VSet [vi 1; vi 2]) 0.
Proof. vm_compute; split; reflexivity. Qed.
Example hashset_2 : takes (TSet u16) no_cattr (mkfattr None None false None None false None false (Some 2) None None None None None None) (hex [0; 1; 0; 2]) (VSet [vi 1; vi 2]) 0.
Proof. vm_compute; split; reflexivity. Qed.
Example hashset_3 : fails (TSet u16) no_cattr (mkfattr None None false None None false None false (Some 2) None None None None None None) (hex [0; 1]) 0.
Proof. vm_compute; reflexivity. Qed.
Example hashset_4 : takes (TSet u16) no_cattr (mkfattr None None false None None false None false None (Some 10) None None None None None) (hex [0; 1; 0; 2]) (VSet [vi 1; vi 2]) 0.
Proof. vm_compute; split; reflexivity. Qed.
Example hashset_5 : takes (TSet u16) no_cattr (mkfattr None None false None None false None false None None (Some 2) None None None None) (hex [0; 2; 0; 1; 0; 2]) (VSet [vi 1; vi 2]) 0.
Proof. vm_compute; split; reflexivity. Qed.

(** src/decode/impls_hex.rs, src/encode/impls_hex.rs (tests) *)
Example hexbytes_1 : takes TBytes no_cattr no_fattr (hex [3; 0; 1; 2]) (VBytes (hex [0; 1; 2])) 0.
Proof. vm_compute; split; reflexivity. Qed.
Example hexbytes_2 : to_hex_lowercase (hex [0; 1; 2]) = str "000102".
Proof. vm_compute; reflexivity. Qed.
Example hexbytes_3 : puts TBytes no_cattr no_fattr (VBytes (hex [0; 1; 2])) (hex [3; 0; 1; 2]).
Proof. vm_compute; split; reflexivity. Qed.

(** src/decode/impls_int.rs, src/encode/impls_int.rs (tests) *)
Example int_1 : takes u32 no_cattr no_fattr (hex [0; 0; 0; 1]) (vi 1) 0.
Proof. vm_compute; split; reflexivity. Qed.
Example int_2 : takes u32 (mkcattr (Some Le) None []) no_fattr (hex [1; 0; 0; 0]) (vi 1) 0.
Proof. vm_compute; split; reflexivity. Qed.
Example int_3 : takes u32 (mkcattr (Some Le) None []) (mkfattr None (Some Be) false None None false None false None None None None None None None) (hex [0; 0; 0; 1]) (vi 1) 0.
Proof. vm_compute; split; reflexivity. Qed.
Example int_4 : takes u32 no_cattr (mkfattr (Some 3) None false None None false None false None None None None None None None) (hex [0; 0; 1; 2]) (vi 1) 1.
Proof. vm_compute; split; reflexivity. Qed.
Example int_5 : takes u32 no_cattr (mkfattr (Some 3) (Some Le) false None None false None false None None None None None None None) (hex [1; 0; 0; 2]) (vi 1) 1.
Proof. vm_compute; split; reflexivity. Qed.
Example int_6 : takes u32 no_cattr (mkfattr (Some 0) None false None None false None false None None None None None None None) (hex [0; 0; 1; 2]) (vi 0) 4.
Proof. vm_compute; split; reflexivity. Qed.
Example int_7 : takes u32 no_cattr (mkfattr (Some 4) None false None None false None false None None None None None None None) (hex [0; 0; 0; 1]) (vi 1) 0.
Proof. vm_compute; split; reflexivity. Qed.
Example int_8 : fails u32 no_cattr (mkfattr (Some 5) None false None None false None false None None None None None None None) (hex [0; 0; 0; 1; 0]) 5.
Proof. vm_compute; reflexivity. Qed.
Example int_9 : puts u32 no_cattr no_fattr (vi 1) (hex [0; 0; 0; 1]).
Proof. vm_compute; split; reflexivity. Qed.
Example int_10 : puts u32 (mkcattr (Some Le) None []) no_fattr (vi 1) (hex [1; 0; 0; 0]).
Proof. vm_compute; split; reflexivity. Qed.
Example int_11 : puts u32 (mkcattr (Some Le) None []) (mkfattr None (Some Be) false None None false None false None None None None None None None) (vi 1) (hex [0; 0; 0; 1]).
Proof. vm_compute; split; reflexivity. Qed.
Example int_12 : puts u32 no_cattr (mkfattr (Some 3) (Some Be) false None None false None false None None None None None None None) (vi 1) (hex [0; 0; 1]).
Proof. vm_compute; split; reflexivity. Qed.
Example int_13 : puts u32 no_cattr (mkfattr (Some 3) (Some Le) false None None false None false None None None None None None None) (vi 1) (hex [1; 0; 0]).
Proof. vm_compute; split; reflexivity. Qed.
Example int_14 : puts u32 no_cattr (mkfattr (Some 0) (Some Le) false None None false None false None None None None None None None) (vi 1) (hex []).
Proof. vm_compute; split; reflexivity. Qed.
Example int_15 : refused u32 no_cattr (mkfattr (Some 5) (Some Le) false None None false None false None None None None None None None) (vi 1).
Proof. vm_compute; reflexivity. Qed.

(** src/decode/impls_ipaddress.rs, src/encode/impls_ipaddress.rs (tests) *)
Example ipaddress_1 : parse4 std_ip (str "192.168.1.100") = Some (hex [192; 168; 1; 100]).
Proof. vm_compute; reflexivity. Qed.
Example ipaddress_2 : parse6 std_ip (str "fa80::e74:abff:fe93:56f0") = Some (hex [250; 128; 0; 0; 0; 0; 0; 0; 14; 116; 171; 255; 254; 147; 86; 240]).
Proof. vm_compute; reflexivity. Qed.
Example ipaddress_3 : takes TIpv4 no_cattr no_fattr (hex [192; 168; 1; 100]) (VBytes (hex [192; 168; 1; 100])) 0.
Proof. vm_compute; split; reflexivity. Qed.
Example ipaddress_4 : takes TIpv4 no_cattr (mkfattr None (Some Le) false None None false None false None None None None None None None) (hex [100; 1; 168; 192]) (VBytes (hex [192; 168; 1; 100])) 0.
Proof. vm_compute; split; reflexivity. Qed.
Example ipaddress_5 : puts TIpv4 no_cattr no_fattr (VBytes (hex [192; 168; 1; 100])) (hex [192; 168; 1; 100]).
Proof. vm_compute; split; reflexivity. Qed.
Example ipaddress_6 : puts TIpv4 no_cattr (mkfattr None (Some Le) false None None false None false None None None None None None None) (VBytes (hex [192; 168; 1; 100])) (hex [100; 1; 168; 192]).
Proof. vm_compute; split; reflexivity. Qed.
Example ipaddress_7 : takes TIpv6 no_cattr no_fattr (hex [250; 128; 0; 0; 0; 0; 0; 0; 14; 116; 171; 255; 254; 147; 86; 240]) (VBytes (hex [250; 128; 0; 0; 0; 0; 0; 0; 14; 116; 171; 255; 254; 147; 86; 240])) 0.
Proof. vm_compute; split; reflexivity. Qed.
Example ipaddress_8 : takes TIpv6 no_cattr (mkfattr None (Some Le) false None None false None false None None None None None None None) (hex [240; 86; 147; 254; 255; 171; 116; 14; 0; 0; 0; 0; 0; 0; 128; 250]) (VBytes (hex [250; 128; 0; 0; 0; 0; 0; 0; 14; 116; 171; 255; 254; 147; 86; 240])) 0.
Proof. vm_compute; split; reflexivity. Qed.
Example ipaddress_9 : puts TIpv6 no_cattr no_fattr (VBytes (hex [250; 128; 0; 0; 0; 0; 0; 0; 14; 116; 171; 255; 254; 147; 86; 240])) (hex [250; 128; 0; 0; 0; 0; 0; 0; 14; 116; 171; 255; 254; 147; 86; 240]).
Proof. vm_compute; split; reflexivity. Qed.
Example ipaddress_10 : puts TIpv6 no_cattr (mkfattr None (Some Le) false None None false None false None None None None None None None) (VBytes (hex [250; 128; 0; 0; 0; 0; 0; 0; 14; 116; 171; 255; 254; 147; 86; 240])) (hex [240; 86; 147; 254; 255; 171; 116; 14; 0; 0; 0; 0; 0; 0; 128; 250]).
Proof. vm_compute; split; reflexivity. Qed.
Example ipaddress_11 : takes TIpAddr no_cattr (mkfattr (Some 4) None false None None false None false None None None None None None None) (hex [192; 168; 1; 100]) (VVariant 0 [(VBytes (hex [192; 168; 1; 100]))]) 0.
Proof. vm_compute; split; reflexivity. Qed.
Example ipaddress_12 : takes TIpAddr no_cattr (mkfattr (Some 4) (Some Le) false None None false None false None None None None None None None) (hex [100; 1; 168; 192]) (VVariant 0 [(VBytes (hex [192; 168; 1; 100]))]) 0.
Proof. vm_compute; split; reflexivity. Qed.
Example ipaddress_13 : puts TIpAddr no_cattr no_fattr (VVariant 0 [(VBytes (hex [192; 168; 1; 100]))]) (hex [192; 168; 1; 100]).
Proof. vm_compute; split; reflexivity. Qed.
Example ipaddress_14 : puts TIpAddr no_cattr (mkfattr None (Some Le) false None None false None false None None None None None None None) (VVariant 0 [(VBytes (hex [192; 168; 1; 100]))]) (hex [100; 1; 168; 192]).
Proof. vm_compute; split; reflexivity. Qed.
Example ipaddress_15 : takes TIpAddr no_cattr (mkfattr (Some 16) None false None None false None false None None None None None None None) (hex [250; 128; 0; 0; 0; 0; 0; 0; 14; 116; 171; 255; 254; 147; 86; 240]) (VVariant 1 [(VBytes (hex [250; 128; 0; 0; 0; 0; 0; 0; 14; 116; 171; 255; 254; 147; 86; 240]))]) 0.
Proof. vm_compute; split; reflexivity. Qed.
Example ipaddress_16 : takes TIpAddr no_cattr (mkfattr (Some 16) (Some Le) false None None false None false None None None None None None None) (hex [240; 86; 147; 254; 255; 171; 116; 14; 0; 0; 0; 0; 0; 0; 128; 250]) (VVariant 1 [(VBytes (hex [250; 128; 0; 0; 0; 0; 0; 0; 14; 116; 171; 255; 254; 147; 86; 240]))]) 0.
Proof. vm_compute; split; reflexivity. Qed.
Example ipaddress_17 : puts TIpAddr no_cattr no_fattr (VVariant 1 [(VBytes (hex [250; 128; 0; 0; 0; 0; 0; 0; 14; 116; 171; 255; 254; 147; 86; 240]))]) (hex [250; 128; 0; 0; 0; 0; 0; 0; 14; 116; 171; 255; 254; 147; 86; 240]).
Proof. vm_compute; split; reflexivity. Qed.
Example ipaddress_18 : puts TIpAddr no_cattr (mkfattr None (Some Le) false None None false None false None None None None None None None) (VVariant 1 [(VBytes (hex [250; 128; 0; 0; 0; 0; 0; 0; 14; 116; 171; 255; 254; 147; 86; 240]))]) (hex [240; 86; 147; 254; 255; 171; 116; 14; 0; 0; 0; 0; 0; 0; 128; 250]).
Proof. vm_compute; split; reflexivity. Qed.
Example ipaddress_19 : fails TIpAddr no_cattr (mkfattr (Some 4) None false None None false None false None None None None None None None) (hex [192; 168; 1]) 3.
Proof. vm_compute; reflexivity. Qed.
Example ipaddress_20 : fails TIpAddr no_cattr no_fattr (hex [192; 168; 1; 100]) 4.
Proof. vm_compute; reflexivity. Qed.

(** src/decode/impls_macaddress.rs, src/encode/impls_macaddress.rs (tests) *)
Example macaddress_1 : takes TMac no_cattr no_fattr (hex [0; 1; 2; 3; 4; 5]) (VBytes (hex [0; 1; 2; 3; 4; 5])) 0.
Proof. vm_compute; split; reflexivity. Qed.
Example macaddress_2 : mac_display (hex [0; 1; 2; 3; 4; 5]) = str "00:01:02:03:04:05".
Proof. vm_compute; reflexivity. Qed.
Example macaddress_3 : takes TMac no_cattr (mkfattr None (Some Le) false None None false None false None None None None None None None) (hex [0; 1; 2; 3; 4; 5]) (VBytes (hex [5; 4; 3; 2; 1; 0])) 0.
Proof. vm_compute; split; reflexivity. Qed.
Example macaddress_4 : mac_display (hex [5; 4; 3; 2; 1; 0]) = str "05:04:03:02:01:00".
Proof. vm_compute; reflexivity. Qed.
Example macaddress_5 : fails TMac no_cattr no_fattr (hex [0; 1; 2; 3; 4]) 5.
Proof. vm_compute; reflexivity. Qed.
Example macaddress_6 : mac_from_bits 0x000102030405 = (hex [0; 1; 2; 3; 4; 5]).
Proof. vm_compute; reflexivity. Qed.
Example macaddress_7 : puts TMac no_cattr no_fattr (VBytes (hex [0; 1; 2; 3; 4; 5])) (hex [0; 1; 2; 3; 4; 5]).
Proof. vm_compute; split; reflexivity. Qed.
Example macaddress_8 : puts TMac no_cattr (mkfattr None (Some Le) false None None false None false None None None None None None None) (VBytes (hex [0; 1; 2; 3; 4; 5])) (hex [5; 4; 3; 2; 1; 0]).
Proof. vm_compute; split; reflexivity. Qed.

(** src/decode/impls_netaddress.rs, src/encode/impls_netaddress.rs (tests) *)
Example netaddress_1 : takes TNetAddr no_cattr (mkfattr (Some 4) None false None None false None false None None None None None None None) (hex [192; 168; 1; 100]) (VVariant 0 [(VBytes (hex [192; 168; 1; 100]))]) 0.
Proof. vm_compute; split; reflexivity. Qed.
Example netaddress_2 : puts TNetAddr no_cattr (mkfattr (Some 4) None false None None false None false None None None None None None None) (VVariant 0 [(VBytes (hex [192; 168; 1; 100]))]) (hex [192; 168; 1; 100]).
Proof. vm_compute; split; reflexivity. Qed.
Example netaddress_3 : takes TNetAddr no_cattr (mkfattr (Some 16) None false None None false None false None None None None None None None) (hex [250; 128; 0; 0; 0; 0; 0; 0; 14; 116; 171; 255; 254; 147; 86; 240]) (VVariant 1 [(VBytes (hex [250; 128; 0; 0; 0; 0; 0; 0; 14; 116; 171; 255; 254; 147; 86; 240]))]) 0.
Proof. vm_compute; split; reflexivity. Qed.
Example netaddress_4 : puts TNetAddr no_cattr (mkfattr (Some 16) None false None None false None false None None None None None None None) (VVariant 1 [(VBytes (hex [250; 128; 0; 0; 0; 0; 0; 0; 14; 116; 171; 255; 254; 147; 86; 240]))]) (hex [250; 128; 0; 0; 0; 0; 0; 0; 14; 116; 171; 255; 254; 147; 86; 240]).
Proof. vm_compute; split; reflexivity. Qed.
Example netaddress_5 : takes TNetAddr no_cattr (mkfattr (Some 6) None false None None false None false None None None None None None None) (hex [0; 1; 2; 3; 4; 5]) (VVariant 2 [(VBytes (hex [0; 1; 2; 3; 4; 5]))]) 0.
Proof. vm_compute; split; reflexivity. Qed.
Example netaddress_6 : puts TNetAddr no_cattr (mkfattr (Some 6) None false None None false None false None None None None None None None) (VVariant 2 [(VBytes (hex [0; 1; 2; 3; 4; 5]))]) (hex [0; 1; 2; 3; 4; 5]).
Proof. vm_compute; split; reflexivity. Qed.
Example netaddress_7 : takes TNetAddr no_cattr (mkfattr (Some 1) None false None None false None false None None None None None None None) (hex [1]) (VVariant 3 [vi 1]) 0.
Proof. vm_compute; split; reflexivity. Qed.
Example netaddress_8 : takes TNetAddr no_cattr (mkfattr (Some 2) None false None None false None false None None None None None None None) (hex [0; 1]) (VVariant 3 [vi 1]) 0.
Proof. vm_compute; split; reflexivity. Qed.
Example netaddress_9 : fails TNetAddr no_cattr (mkfattr (Some 0) None false None None false None false None None None None None None None) (hex [1]) 1.
Proof. vm_compute; reflexivity. Qed.
Example netaddress_10 : puts TNetAddr no_cattr (mkfattr (Some 1) None false None None false None false None None None None None None None) (VVariant 3 [vi 1]) (hex [1]).
Proof. vm_compute; split; reflexivity. Qed.
Example netaddress_11 : puts TNetAddr no_cattr (mkfattr (Some 2) None false None None false None false None None None None None None None) (VVariant 3 [vi 1]) (hex [0; 1]).
Proof. vm_compute; split; reflexivity. Qed.

(** src/decode/impls_option.rs, src/encode/impls_option.rs (tests) *)
Example option_1 : takes (TOption u16) no_cattr no_fattr (hex [1]) (VOpt None) 1.
Proof. vm_compute; split; reflexivity. Qed.
Example option_2 : takes (TOption u16) no_cattr no_fattr (hex [0; 1]) (VOpt (Some (vi 1))) 0.
Proof. vm_compute; split; reflexivity. Qed.
Example option_3 : puts (TOption u16) no_cattr no_fattr (VOpt (Some (vi 1))) (hex [0; 1]).
Proof. vm_compute; split; reflexivity. Qed.
Example option_4 : puts (TOption u16) no_cattr no_fattr (VOpt None) (hex []).
Proof. vm_compute; split; reflexivity. Qed.

(** src/decode/impls_string.rs (tests of String and of &str) *)
Example string_1 : takes TString no_cattr no_fattr (hex [3; 97; 98; 99]) (VBytes (hex [97; 98; 99])) 0.
Proof. vm_compute; split; reflexivity. Qed.
Example string_2 : fails TString no_cattr no_fattr (hex [5; 97; 98; 99]) 3.
Proof. vm_compute; reflexivity. Qed.
Example string_3 : takes TString no_cattr (mkfattr (Some 3) None false None None false None false None None None None None None None) (hex [97; 98; 99]) (VBytes (hex [97; 98; 99])) 0.
Proof. vm_compute; split; reflexivity. Qed.
Example string_4 : takes TString no_cattr (mkfattr None None false None None false (Some 2) false None None None None None None None) (hex [0; 3; 97; 98; 99]) (VBytes (hex [97; 98; 99])) 0.
Proof. vm_compute; split; reflexivity. Qed.
Example string_5 : takes TString no_cattr (mkfattr None None false (Some (hex [13; 10])) None false None false None None None None None None None) (hex [97; 98; 99; 13; 10]) (VBytes (hex [97; 98; 99])) 0.
Proof. vm_compute; split; reflexivity. Qed.
Example string_6 : takes TString no_cattr (mkfattr None None false None None false None true None None None None None None None) (hex [97; 98; 99]) (VBytes (hex [97; 98; 99])) 0.
Proof. vm_compute; split; reflexivity. Qed.

(** src/decode/impls_tuple.rs, src/encode/impls_tuple.rs (tests) *)
Example tuple_1 : takes (TTuple [u8; u8; u16]) no_cattr no_fattr (hex [0; 1; 0; 2]) (VList [vi 0; vi 1; vi 2]) 0.
Proof. vm_compute; split; reflexivity. Qed.
Example tuple_2 : takes (TTuple [u16; u16]) (mkcattr (Some Le) None []) no_fattr (hex [0; 1; 0; 2]) (VList [vi 256; vi 512]) 0.
Proof. vm_compute; split; reflexivity. Qed.
Example tuple_3 : takes (TTuple [u16; u16]) (mkcattr (Some Le) None []) (mkfattr None (Some Be) false None None false None false None None None None None None None) (hex [0; 1; 0; 2]) (VList [vi 1; vi 2]) 0.
Proof. vm_compute; split; reflexivity. Qed.
Example tuple_4 : puts (TTuple [u8; u8; u16]) no_cattr no_fattr (VList [vi 0; vi 1; vi 2]) (hex [0; 1; 0; 2]).
Proof. vm_compute; split; reflexivity. Qed.
Example tuple_5 : puts (TTuple [u16; u16]) (mkcattr (Some Le) None []) no_fattr (VList [vi 1; vi 2]) (hex [1; 0; 2; 0]).
Proof. vm_compute; split; reflexivity. Qed.
Example tuple_6 : puts (TTuple [u16; u16]) (mkcattr (Some Le) None []) (mkfattr None (Some Be) false None None false None false None None None None None None None) (VList [vi 1; vi 2]) (hex [0; 1; 0; 2]).
Proof. vm_compute; split; reflexivity. Qed.

(** src/decode/impls_vec.rs, src/encode/impls_vec.rs (tests) *)
Example vec_1 : takes (TVec u16) no_cattr no_fattr (hex [2; 0; 1; 0; 2]) (VList [vi 1; vi 2]) 0.
Proof. vm_compute; split; reflexivity. Qed.
Example vec_2 : fails (TVec u16) no_cattr no_fattr (hex [3; 0; 1; 0; 2]) 0.
Proof. vm_compute; reflexivity. Qed.
Example vec_3 : takes (TVec u16) no_cattr (mkfattr None (Some Le) false None None false None false None None None None None None None) (hex [2; 0; 1; 0; 2]) (VList [vi 256; vi 512]) 0.
Proof. vm_compute; split; reflexivity. Qed.
Example vec_4 : takes (TVec u16) no_cattr (mkfattr None None false None None false None false (Some 2) None None None None None None) (hex [0; 1; 0; 2]) (VList [vi 1; vi 2]) 0.
Proof. vm_compute; split; reflexivity. Qed.
Example vec_5 : fails (TVec u16) no_cattr (mkfattr None None false None None false None false (Some 3) None None None None None None) (hex [0; 1; 0; 2]) 0.
Proof. vm_compute; reflexivity. Qed.
Example vec_6 : takes (TVec u16) no_cattr (mkfattr None None false None None false None false None (Some 10) None None None None None) (hex [0; 1; 0; 2]) (VList [vi 1; vi 2]) 0.
Proof. vm_compute; split; reflexivity. Qed.
Example vec_7 : takes (TVec u16) no_cattr (mkfattr None None false None None false None false None None (Some 2) None None None None) (hex [0; 2; 0; 1; 0; 2]) (VList [vi 1; vi 2]) 0.
Proof. vm_compute; split; reflexivity. Qed.
Example vec_8 : takes (TVec u16) no_cattr (mkfattr None (Some Le) false None None false None false None None (Some 2) None None None None) (hex [2; 0; 1; 0; 2; 0]) (VList [vi 1; vi 2]) 0.
Proof. vm_compute; split; reflexivity. Qed.
Example vec_9 : puts (TVec u16) no_cattr no_fattr (VList [vi 1; vi 2]) (hex [2; 0; 1; 0; 2]).
Proof. vm_compute; split; reflexivity. Qed.
Example vec_10 : puts (TVec u16) no_cattr (mkfattr None (Some Le) false None None false None false None None None None None None None) (VList [vi 1; vi 2]) (hex [2; 1; 0; 2; 0]).
Proof. vm_compute; split; reflexivity. Qed.
Example vec_11 : puts (TVec u16) no_cattr (mkfattr None None false None None false None false (Some 2) None None None None None None) (VList [vi 1; vi 2]) (hex [0; 1; 0; 2]).
Proof. vm_compute; split; reflexivity. Qed.
Example vec_12 : puts (TVec u16) no_cattr (mkfattr None None false None None false None false None (Some 10) None None None None None) (VList [vi 1; vi 2]) (hex [0; 1; 0; 2]).
Proof. vm_compute; split; reflexivity. Qed.
Example vec_13 : puts (TVec u16) no_cattr (mkfattr None None false None None false None false None None (Some 2) None None None None) (VList [vi 1; vi 2]) (hex [0; 2; 0; 1; 0; 2]).
Proof. vm_compute; split; reflexivity. Qed.
Example vec_14 : puts (TVec u16) no_cattr (mkfattr None (Some Le) false None None false None false None None (Some 2) None None None None) (VList [vi 1; vi 2]) (hex [2; 0; 1; 0; 2; 0]).
Proof. vm_compute; split; reflexivity. Qed.

(** src/types/hex_string.rs, src/types/hex_bytes.rs (tests) *)
Example hex_string_1 : to_hex_lowercase (hex [1; 171; 255]) = str "01abff".
Proof. vm_compute; reflexivity. Qed.
Example hex_string_2 : to_hex_uppercase (hex [1; 171; 255]) = str "01ABFF".
Proof. vm_compute; reflexivity. Qed.
Example hex_string_3 : hexbytes_display (hex [1; 171; 255]) = str "01abff".
Proof. vm_compute; reflexivity. Qed.
Example hex_string_4 : hex_from_str (str "616263") = Parsed (str "abc").
Proof. vm_compute; reflexivity. Qed.
Example hex_string_5 : hexstring_display (str "abc") = str "abc".
Proof. vm_compute; reflexivity. Qed.
Example hex_string_6 : hex_from_str (str "09afAF") = Parsed (hex [9; 175; 175]).
Proof. vm_compute; reflexivity. Qed.
Example hex_string_7 : to_hex_lowercase (hex [9; 175; 175]) = str "09afaf".
Proof. vm_compute; reflexivity. Qed.
Example hex_string_8 : to_hex_uppercase (hex [9; 175; 175]) = str "09AFAF".
Proof. vm_compute; reflexivity. Qed.
Example hex_string_9 : hex_from_str (str "0") = Rejected.
Proof. vm_compute; reflexivity. Qed.
Example hex_string_10 : hex_from_str (str "0g") = Rejected.
Proof. vm_compute; reflexivity. Qed.
Example hex_string_11 : hex_from_str (str "0G") = Rejected.
Proof. vm_compute; reflexivity. Qed.
Example hex_string_12 : hex_from_str (str "0z") = Rejected.
Proof. vm_compute; reflexivity. Qed.
Example hex_string_13 : hex_from_str (str "0Z") = Rejected.
Proof. vm_compute; reflexivity. Qed.
Example hex_string_14 : hex_from_str (str "0-") = Rejected.
Proof. vm_compute; reflexivity. Qed.
Example hex_string_15 : to_hex_lowercase ((hex [9; 175]) ++ (hex [1; 2; 255])) = str "09af0102ff".
Proof. vm_compute; reflexivity. Qed.
Example hex_string_16 : hex_encode (str "jankincai") = str "6a616e6b696e636169".
Proof. vm_compute; reflexivity. Qed.
Example hex_string_17 : hex_encode (str "jankincai" ++ (hex [0; 255])) = str "6a616e6b696e63616900ff".
Proof. vm_compute; reflexivity. Qed.
Example hex_string_18 : hex_decode (str "6a616e6b696e636169") = Parsed (str "jankincai").
Proof. vm_compute; reflexivity. Qed.
Example hex_string_19 : hex_decode (str "6a616e6b696e636169fg") = Rejected.
Proof. vm_compute; reflexivity. Qed.

(** src/types/mac_address.rs (tests) *)
Example mac_address_1 : option_map mac_display (mac_from_str (str "aa:bb:cc:dd:ee:ff")) = Some (str "aa:bb:cc:dd:ee:ff").
Proof. vm_compute; reflexivity. Qed.
Example mac_address_2 : mac_from_str (str "") = None.
Proof. vm_compute; reflexivity. Qed.
Example mac_address_3 : mac_from_str (str ":") = None.
Proof. vm_compute; reflexivity. Qed.
Example mac_address_4 : mac_from_str (str "aa:bb:cc:dd:ee:") = None.
Proof. vm_compute; reflexivity. Qed.
Example mac_address_5 : mac_from_str (str "aa:bb:cc:dd:ee:f") = None.
Proof. vm_compute; reflexivity. Qed.
Example mac_address_6 : mac_from_str (str "aa:bb:cc:dd:ee:ff:") = None.
Proof. vm_compute; reflexivity. Qed.
Example mac_address_7 : mac_from_str (str "aa:bb:cc:dd:ee:fff") = None.
Proof. vm_compute; reflexivity. Qed.
Example mac_address_8 : option_map mac_is_unicast (mac_from_str (str "01:aa:bb:cc:dd")) = Some false.
Proof. vm_compute; reflexivity. Qed.
Example mac_address_9 : option_map mac_is_unicast (mac_from_str (str "00:aa:bb:cc:dd")) = Some true.
Proof. vm_compute; reflexivity. Qed.
Example mac_address_10 : option_map mac_is_unicast (mac_from_str (str "0c:73:eb:92:53:f0")) = Some true.
Proof. vm_compute; reflexivity. Qed.
Example mac_address_11 : option_map mac_is_broadcast (mac_from_str (str "ff:ff:ff:ff:ff:ff")) = Some true.
Proof. vm_compute; reflexivity. Qed.
Example mac_address_12 : option_map mac_is_broadcast (mac_from_str (str "ff:ff:ff:ff:ff:ef")) = Some false.
Proof. vm_compute; reflexivity. Qed.
Example mac_address_13 : option_map mac_is_multicast (mac_from_str (str "01:aa:bb:cc:dd")) = Some true.
Proof. vm_compute; reflexivity. Qed.
Example mac_address_14 : option_map mac_is_multicast (mac_from_str (str "00:aa:bb:cc:dd")) = Some false.
Proof. vm_compute; reflexivity. Qed.
Example mac_address_15 : option_map mac_is_zero (mac_from_str (str "ff:ff:ff:ff:ff:ef")) = Some false.
Proof. vm_compute; reflexivity. Qed.
Example mac_address_16 : option_map mac_is_zero (mac_from_str (str "00:00:00:00:00:00")) = Some true.
Proof. vm_compute; reflexivity. Qed.
Example mac_address_17 : mac_display (hex [1; 2; 3; 4; 5; 6]) = str "01:02:03:04:05:06".
Proof. vm_compute; reflexivity. Qed.
Example mac_address_18 : mac_display (mac_from_bits 0xaabbccddeeff) = str "aa:bb:cc:dd:ee:ff".
Proof. vm_compute; reflexivity. Qed.
Example mac_address_19 : option_map mac_to_bits (mac_from_str (str "aa:bb:cc:dd:ee:ff")) = Some 0xaabbccddeeff.
Proof. vm_compute; reflexivity. Qed.

(** src/types/net_address.rs (tests) *)
Example net_address_1 : net_from_str std_ip (str "192.168.1.1") = Some (V4 (hex [192; 168; 1; 1])).
Proof. vm_compute; reflexivity. Qed.
Example net_address_2 : net_from_str std_ip (str "fe80::4159:f7b2:b9ed:968a") = Some (V6 (hex [254; 128; 0; 0; 0; 0; 0; 0; 65; 89; 247; 178; 185; 237; 150; 138])).
Proof. vm_compute; reflexivity. Qed.
Example net_address_3 : net_from_str std_ip (str "aa:bb:cc:dd:ee:ff") = Some (Mac (hex [170; 187; 204; 221; 238; 255])).
Proof. vm_compute; reflexivity. Qed.
Example net_address_4 : net_from_str std_ip (str "12") = Some (Number 12).
Proof. vm_compute; reflexivity. Qed.
Example net_address_5 : net_from_str std_ip (str "") = None.
Proof. vm_compute; reflexivity. Qed.
Example net_address_6 : net_from_str std_ip (str ":") = None.
Proof. vm_compute; reflexivity. Qed.
Example net_address_7 : net_from_str std_ip (str "aa:bb:cc:dd:ee:") = None.
Proof. vm_compute; reflexivity. Qed.
Example net_address_8 : net_from_str std_ip (str "aa:bb:cc:dd:ee:f") = None.
Proof. vm_compute; reflexivity. Qed.
Example net_address_9 : net_from_str std_ip (str "aa:bb:cc:dd:ee:ff:") = None.
Proof. vm_compute; reflexivity. Qed.
Example net_address_10 : net_from_str std_ip (str "aa:bb:cc:dd:ee:fff") = None.
Proof. vm_compute; reflexivity. Qed.
Example net_address_11 : net_from_str std_ip (str "192.168.1.1345") = None.
Proof. vm_compute; reflexivity. Qed.
Example net_address_12 : net_from_str std_ip (str "192.168.1.") = None.
Proof. vm_compute; reflexivity. Qed.
Example net_address_13 : net_from_str std_ip (str "a") = None.
Proof. vm_compute; reflexivity. Qed.

(** src/bytes.rs, src/buffer.rs, src/impls.rs (tests of the readers) *)
Example reader_1 : calls (hex [1; 2; 3]) [RTakeInt KDefault U8; RTakeInt KDefault U8; RTakeInt KDefault U8; RTakeInt KDefault U8] [Some (RvZ 1); Some (RvZ 2); Some (RvZ 3); None] 3.
Proof. vm_compute; split; reflexivity. Qed.
Example reader_2 : calls (hex [1; 2; 3; 4; 5]) [RTakeBytes 2; RTakeBytes 2; RTakeBytes 2; RTakeBytes 1] [Some (RvBytes (hex [1; 2])); Some (RvBytes (hex [3; 4])); None; Some (RvBytes (hex [5]))] 5.
Proof. vm_compute; split; reflexivity. Qed.
Example reader_3 : calls (hex [1; 2; 3; 4; 5]) [RUntakeInt KDefault U32] [Some (RvZ 16909060)] 0.
Proof. vm_compute; split; reflexivity. Qed.
Example reader_4 : calls (hex [1; 2; 3; 4; 5]) [RTakeStarts (hex [1; 2; 4]); RTakeStarts (hex [1; 2; 3])] [None; Some RvUnit] 3.
Proof. vm_compute; split; reflexivity. Qed.
Example reader_5 : calls (hex [0; 1; 0; 2; 0; 3; 4]) [RTakeInt KDefault U16; RTakeInt KBe U16; RTakeInt KLe U16; RTakeInt KDefault U16; RTakeInt KDefault U8] [Some (RvZ 1); Some (RvZ 2); Some (RvZ 768); None; Some (RvZ 4)] 7.
Proof. vm_compute; split; reflexivity. Qed.
Example reader_6 : calls (hex [0; 0; 1; 0; 0; 2; 0; 0; 3; 4]) [RTakeU24 KDefault; RTakeU24 KBe; RTakeU24 KLe; RTakeU24 KDefault; RTakeInt KDefault U8] [Some (RvN 1); Some (RvN 2); Some (RvN 196608); None; Some (RvZ 4)] 10.
Proof. vm_compute; split; reflexivity. Qed.
Example reader_7 : calls (hex [0; 0; 0; 1; 0; 0; 0; 2; 0; 0; 0; 3; 4]) [RTakeInt KDefault U32; RTakeInt KBe U32; RTakeInt KLe U32; RTakeInt KDefault U32; RTakeInt KDefault U8] [Some (RvZ 1); Some (RvZ 2); Some (RvZ 50331648); None; Some (RvZ 4)] 13.
Proof. vm_compute; split; reflexivity. Qed.
Example reader_8 : calls (hex [0; 0; 0; 0; 0; 0; 0; 1; 0; 0; 0; 0; 0; 0; 0; 2; 0; 0; 0; 0; 0; 0; 0; 3; 4]) [RTakeInt KDefault U64; RTakeInt KBe U64; RTakeInt KLe U64; RTakeInt KDefault U64; RTakeInt KDefault U8] [Some (RvZ 1); Some (RvZ 2); Some (RvZ 216172782113783808); None; Some (RvZ 4)] 25.
Proof. vm_compute; split; reflexivity. Qed.
Example reader_9 : calls (hex [0; 0; 0; 0; 0; 0; 0; 0; 0; 0; 0; 0; 0; 0; 0; 1; 0; 0; 0; 0; 0; 0; 0; 0; 0; 0; 0; 0; 0; 0; 0; 2; 0; 0; 0; 0; 0; 0; 0; 0; 0; 0; 0; 0; 0; 0; 0; 3; 4]) [RTakeInt KDefault U128; RTakeInt KBe U128; RTakeInt KLe U128; RTakeInt KDefault U128; RTakeInt KDefault U8] [Some (RvZ 1); Some (RvZ 2); Some (RvZ 3987683987354747618711421180841033728); None; Some (RvZ 4)] 49.
Proof. vm_compute; split; reflexivity. Qed.
Example reader_10 : calls (hex [0; 0; 0; 0; 1; 0; 0; 0; 0; 2; 0; 0; 0; 0; 3; 4]) [RTakeUint KDefault 5; RTakeUint KBe 5; RTakeUint KLe 5; RTakeUint KDefault 5; RTakeInt KDefault U8] [Some (RvN 1); Some (RvN 2); Some (RvN 12884901888); None; Some (RvZ 4)] 16.
Proof. vm_compute; split; reflexivity. Qed.
Example reader_11 : calls (hex [1; 2; 3; 4; 5]) [RTakeArray 2; RTakeArray 2; RTakeArray 2; RTakeArray 1] [Some (RvBytes (hex [1; 2])); Some (RvBytes (hex [3; 4])); None; Some (RvBytes (hex [5]))] 5.
Proof. vm_compute; split; reflexivity. Qed.
Example reader_12 : calls (hex [1; 2; 3; 4; 5]) [RFind (hex [3; 4])] [Some (RvBytes (hex [1; 2]))] 4.
Proof. vm_compute; split; reflexivity. Qed.
Example reader_13 : calls (hex [1; 2; 3; 4; 5]) [RFindNeedle (hex [3; 4]) false] [Some (RvBytes (hex [1; 2]))] 2.
Proof. vm_compute; split; reflexivity. Qed.
Example reader_14 : calls (hex [1; 2; 3; 4; 5]) [RFindNeedle (hex [3; 4]) true] [Some (RvBytes (hex [1; 2; 3; 4]))] 4.
Proof. vm_compute; split; reflexivity. Qed.
Example reader_15 : calls (hex [1; 2; 3; 4; 5]) [RFinds [(hex [3; 4]); (hex [4; 5])]] [Some (RvBytes (hex [1; 2]))] 4.
Proof. vm_compute; split; reflexivity. Qed.
Example reader_16 : calls (hex [1; 2; 3; 4; 5]) [RFinds [(hex [4; 4]); (hex [4; 5])]] [Some (RvBytes (hex [1; 2; 3]))] 5.
Proof. vm_compute; split; reflexivity. Qed.
Example reader_17 : calls (hex [1; 2; 3; 4; 5]) [RFindsNeedle [(hex [3; 4]); (hex [4; 5])] false] [Some (RvBytes (hex [1; 2]))] 2.
Proof. vm_compute; split; reflexivity. Qed.
Example reader_18 : calls (hex [1; 2; 3; 4; 5]) [RFindsNeedle [(hex [3; 4]); (hex [4; 5])] true] [Some (RvBytes (hex [1; 2; 3; 4]))] 4.
Proof. vm_compute; split; reflexivity. Qed.
Example reader_19 : calls (hex [1; 2; 3; 4]) [RTakeInt KDefault U16; RTakeInt KDefault U16; RTakeInt KDefault U16] [Some (RvZ 258); Some (RvZ 772); None] 4.
Proof. vm_compute; split; reflexivity. Qed.

(** src/buffer.rs (tests of the writer) *)
Example writer_1 : option_map snd (run_wops [WPushInt KDefault U8 2; WPushInt KDefault U16 3; WPushU24 KDefault 4; WPushInt KDefault U32 5; WPushInt KDefault U64 6; WPushInt KDefault U128 7; WPushUint KDefault 1 3; WPushUint KLe 1 3; WPushChar 49; WPush (hex [50; 51]); WPush (hex [52; 53]); WPush (hex [4; 5]); WPush (hex [6; 7]); WPush (hex [8; 9])] buf_new) = Some (mkbuf (hex [2; 0; 3; 0; 0; 4; 0; 0; 0; 5; 0; 0; 0; 0; 0; 0; 0; 6; 0; 0; 0; 0; 0; 0; 0; 0; 0; 0; 0; 0; 0; 0; 0; 7; 0; 0; 1; 1; 0; 0; 49; 50; 51; 52; 53; 4; 5; 6; 7; 8; 9]) 51).
Proof. vm_compute; reflexivity. Qed.
Example writer_2 : (_ <~ on_reader (set_position 10) ;; push_u8 1) (buf_from (hex [1; 2; 3; 4; 5])) = Ok 1 (mkbuf (hex [1; 2; 3; 4; 5; 0; 0; 0; 0; 0; 1]) 11).
Proof. vm_compute; reflexivity. Qed.
Example writer_3 : option_map snd (run_ios [OpRead 5; OpSeek (SStart 0); OpWrite (str "Rust"); OpSeek (SEnd (-2)); OpWrite (str "!")] (buf_from (str "Hello, world!"))) = Some (mkbuf (str "Rusto, worl!!") 12).
Proof. vm_compute; reflexivity. Qed.

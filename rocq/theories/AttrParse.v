(** From the tokens of [#[jbytes(...)]] to the modifiers of a field:
    derive/src/jbytes/parse.rs, derive/src/jbytes/attribute.rs, src/byteorder.rs.

    Text is a list of bytes. The tokens are split by the external crate virtue; an
    attribute [#[name(a, k = lit, ...)]] arrives as its name and the list of its
    entries, literals as the text written in the source. *)
From Coq Require Import Ascii String.
From Verif Require Import Base Ints Schema Reader Writer Text Sugar.
Close Scope string_scope.

Definition txt (s : string) : bytes := list_byte_of_string s.
Definition QUOTE : byte := n2b 34.
Definition BACKSLASH : byte := n2b 92.

(** ** Literals (derive/src/jbytes/parse.rs) *)

(** parse.rs:5-12 *)
Inductive attr_value :=
| AString (s : bytes)
| ABytes (s : bytes)
| AVar (s : bytes)
| AUsize (n : N)
| AOption (s : bytes)
| AList (l : list attr_value).

(** [replace("\\\"", "\"")] of the standard library *)
Fixpoint unescape_quotes (s : bytes) : bytes :=
  match s with
  | [] => []
  | c :: r =>
      match r with
      | d :: r' =>
          if Byte.eqb c BACKSLASH && Byte.eqb d QUOTE then QUOTE :: unescape_quotes r'
          else c :: unescape_quotes r
      | [] => [c]
      end
  end.
(** parse.rs:15-24. A literal never is a lone quote, for which the slice
    [1..len - 1] would panic. *)
Definition parse_value_string (lit : bytes) : bytes :=
  let s := unescape_quotes lit in
  match s with
  | c :: (_ :: _) as r =>
      if Byte.eqb c QUOTE && Byte.eqb (last r x00) QUOTE then removelast (tl s) else s
  | _ => s
  end.
(** [trim_start_matches("0x")] *)
Fixpoint trim_0x (s : bytes) : bytes :=
  match s with
  | "0"%byte :: "x"%byte :: r => trim_0x r
  | _ => s
  end.
(** parse.rs:48-50, 63-65: the number a text denotes, if any *)
Definition numeral_of (s : bytes) : option N :=
  from_str_radix (if starts_with (txt "0x") s then 16 else 10) (2 ^ 64) (trim_0x s).
(** parse.rs:46-55 *)
Definition parse_usize (lit : bytes) : attr_value :=
  let s := parse_value_string lit in
  match numeral_of s with Some n => AUsize n | None => AVar s end.
(** parse.rs:34-37 *)
Definition parse_bytes (lit : bytes) : attr_value := ABytes (parse_value_string lit).
(** parse.rs:58-73: a number is entered twice *)
Definition parse_list (lit : bytes) : attr_value :=
  AList (flat_map (fun v => match numeral_of v with Some n => [AUsize n; AString v] | None => [AString v] end)
                  (split_on ","%byte (parse_value_string lit))).
(** parse.rs:76-83 *)
Definition parse_byteorder (lit : bytes) : attr_value :=
  let s := parse_value_string lit in
  if existsb (bytes_eqb s) (map txt ["BE"; "LE"; "0"; "1"; ">"; "<"]%string) then AString s else AVar s.

(** src/byteorder.rs:10-25: [ByteOrder::parse], as derived by jkcenum from the names
    and aliases of the variants. *)
Definition byteorder_parse (s : bytes) : option byteorder :=
  if existsb (bytes_eqb s) (map txt ["BE"; ">"; "0"]%string) then Some Be
  else if existsb (bytes_eqb s) (map txt ["LE"; "<"; "1"]%string) then Some Le
  else None.
(** src/byteorder.rs:27-29: [ByteOrder::parse_int] *)
Definition byteorder_parse_int (z : Z) : option byteorder :=
  if Z.eqb z 0 then Some Be else if Z.eqb z 1 then Some Le else None.

(** ** Attributes (derive/src/jbytes/attribute.rs) *)

(** virtue's [ParsedAttribute] *)
Inductive entry := Tag (name : bytes) | Property (key : bytes) (lit : bytes).
Record attribute := mkattribute { t_name : bytes; t_entries : list entry }.

(** The members of [FieldAttributes] (attribute.rs:122-170). *)
Inductive slot :=
| SByteorder | SLength | SOffset | SUntake | SFull | SCount | STryCount | SBits | SBitsStart
| SByteCount | SByteCountOutside | SDefaultValue | SDefaultBool | SValueEncode | SValueDecode
| SFromStrBool | SFromStr | SVariableName | SKey | SSplit | SLinend | SRemaining
| SBranch | SBranchBits | SBranchBitsValue | SBranchRange | SBranchValue | SBranchDefault
| SWithEncode | SWithDecode | SWith | SWithArgs | SIfExpr | SSkip | SSkipEncode | SSkipDecode
| SLoopSkipStarts | SCheckValue.
Scheme Equality for slot.
(** What a member holds once it is set: [true], an [AttrValue] or a [String]. *)
Inductive content := Flag | Value (v : attr_value) | Raw (s : bytes).
(** The record, as a function from its members. *)
Record field_attributes := mkfields { is_use : bool; member : slot -> option content }.
Definition default_fields : field_attributes := mkfields false (fun _ => None).
Definition put (s : slot) (c : content) (fa : field_attributes) : field_attributes :=
  mkfields (is_use fa) (fun s' => if slot_beq s s' then Some c else member fa s').

(** attribute.rs:255-265 *)
Definition field_tags : list (string * slot) :=
  [("enum_default", SBranchDefault); ("branch_default", SBranchDefault); ("untake", SUntake);
   ("bits_start", SBitsStart); ("skip", SSkip); ("skip_encode", SSkipEncode); ("skip_decode", SSkipDecode);
   ("default", SDefaultBool); ("default_value", SDefaultBool); ("from_str", SFromStrBool);
   ("remaining", SRemaining)]%string.
(** Which function reads the literal. *)
Inductive reader_kind := RUsize | RBytes | RList | ROrder | RString.
(** attribute.rs:269-307. [bits_start = n] sets [bits] and the flag [bits_start]. *)
Definition field_properties : list (string * (reader_kind * slot)) :=
  [("byteorder", (ROrder, SByteorder)); ("length", (RUsize, SLength)); ("offset", (RUsize, SOffset));
   ("count", (RUsize, SCount)); ("try_count", (RUsize, STryCount)); ("full", (RUsize, SFull));
   ("key", (RBytes, SKey)); ("starts_with", (RBytes, SKey)); ("split", (RBytes, SSplit));
   ("linend", (RBytes, SLinend)); ("end_with", (RBytes, SLinend)); ("branch", (RUsize, SBranch));
   ("branch_range", (RString, SBranchRange)); ("branch_value", (RString, SBranchValue));
   ("branch_bits", (RString, SBranchBits)); ("branch_bits_value", (RString, SBranchBitsValue));
   ("byte_count", (RUsize, SByteCount)); ("byte_size", (RUsize, SByteCount));
   ("byte_count_outside", (RUsize, SByteCountOutside)); ("byte_size_outside", (RUsize, SByteCountOutside));
   ("default_value", (RString, SDefaultValue)); ("default", (RString, SDefaultValue));
   ("bits", (RUsize, SBits)); ("bits_start", (RUsize, SBits));
   ("value_encode", (RString, SValueEncode)); ("encode_value", (RString, SValueEncode));
   ("value_decode", (RString, SValueDecode)); ("decode_value", (RString, SValueDecode));
   ("from_str", (RString, SFromStr)); ("with_encode", (RString, SWithEncode)); ("encode_with", (RString, SWithEncode));
   ("with_decode", (RString, SWithDecode)); ("decode_with", (RString, SWithDecode));
   ("with_args", (RString, SWithArgs)); ("with", (RString, SWith)); ("variable_name", (RList, SVariableName));
   ("if_expr", (RString, SIfExpr)); ("check_value", (RString, SCheckValue));
   ("loop_skip_starts", (RBytes, SLoopSkipStarts))]%string.
Fixpoint assoc {A} (k : bytes) (l : list (string * A)) : option A :=
  match l with
  | [] => None
  | (x, a) :: r => if bytes_eqb k (txt x) then Some a else assoc k r
  end.
Definition read_literal (k : reader_kind) (lit : bytes) : content :=
  match k with
  | RUsize => Value (parse_usize lit)
  | RBytes => Value (parse_bytes lit)
  | RList => Value (parse_list lit)
  | ROrder => Value (parse_byteorder lit)
  | RString => Raw (parse_value_string lit)
  end.
(** One turn of the loop attribute.rs:251-312; [None]: "Unknown field attribute". *)
Definition field_entry (fa : field_attributes) (e : entry) : option field_attributes :=
  match e with
  | Tag i => option_map (fun s => put s Flag fa) (assoc i field_tags)
  | Property k lit =>
      option_map (fun ks : reader_kind * slot => let (rk, s) := ks in
                  let fa' := put s (read_literal rk lit) fa in
                  if bytes_eqb k (txt "bits_start") then put SBitsStart Flag fa' else fa')
                 (assoc k field_properties)
  end.
Fixpoint field_entries (fa : field_attributes) (l : list entry) : option field_attributes :=
  match l with
  | [] => Some fa
  | e :: r => match field_entry fa e with Some fa' => field_entries fa' r | None => None end
  end.
(** The two outcomes of parsing one attribute: an error, or perhaps something. *)
Inductive outcome (A : Type) := Refused | Parses (o : option A).
Arguments Refused {A}.
Arguments Parses {A} o.
(** attribute.rs:228-315 *)
Definition parse_field_attribute (a : attribute) : outcome field_attributes :=
  if bytes_eqb (t_name a) (txt "default") then Parses (Some (put SBranchDefault Flag default_fields))
  else if bytes_eqb (t_name a) (txt "jbytes") then
    match field_entries (mkfields (match t_entries a with [] => false | _ => true end) (fun _ => None)) (t_entries a) with
    | Some fa => Parses (Some fa)
    | None => Refused
    end
  else Parses None.

(** virtue's [get_attribute]: the first attribute that parses to something. *)
Fixpoint get_attribute {A} (parse : attribute -> outcome A) (l : list attribute) : outcome A :=
  match l with
  | [] => Parses None
  | a :: r =>
      match parse a with
      | Refused => Refused
      | Parses (Some x) => Parses (Some x)
      | Parses None => get_attribute parse r
      end
  end.
(** [field.attributes.get_attribute::<FieldAttributes>()?.unwrap_or_default()]
    (derive/src/jbytes/derive_struct.rs:85, 92, 248) *)
Definition attributes_of (l : list attribute) : option field_attributes :=
  match get_attribute parse_field_attribute l with
  | Refused => None
  | Parses (Some fa) => Some fa
  | Parses None => Some default_fields
  end.

(** attribute.rs:53-118: of a container only what [cspec] and [espec] hold. *)
Record container_attributes := mkcontainer {
  ca_order : option attr_value; ca_byte_count : option attr_value; ca_disable : bool;
  ca_take_bytes : option attr_value; ca_starts_with : bool; ca_starts_with_untake : bool }.
Definition default_container : container_attributes := mkcontainer None None false None false false.
(** attribute.rs:80-94 *)
Definition container_tag (ca : container_attributes) (i : bytes) : option container_attributes :=
  let '(mkcontainer o bc d tb sw swu) := ca in
  if bytes_eqb i (txt "default") || bytes_eqb i (txt "default_value") then Some ca
  else if bytes_eqb i (txt "byte_count_disable") then Some (mkcontainer o bc true tb sw swu)
  else if bytes_eqb i (txt "branch_starts_with") then Some (mkcontainer o bc d tb true swu)
  else if bytes_eqb i (txt "branch_starts_with_untake") then Some (mkcontainer o bc d tb sw true)
  else if bytes_eqb i (txt "u8") then Some (mkcontainer o (Some (AUsize 1)) d tb sw swu)
  else if bytes_eqb i (txt "u16") then Some (mkcontainer o (Some (AUsize 2)) d tb sw swu)
  else if bytes_eqb i (txt "u32") then Some (mkcontainer o (Some (AUsize 4)) d tb sw swu)
  else if bytes_eqb i (txt "u64") then Some (mkcontainer o (Some (AUsize 8)) d tb sw swu)
  else if bytes_eqb i (txt "usize") then Some (mkcontainer o (Some (AUsize 8)) d tb sw swu)
  else None.
(** attribute.rs:95-114; the members left out of the record accept any literal *)
Definition container_property (ca : container_attributes) (k lit : bytes) : option container_attributes :=
  let '(mkcontainer o bc d tb sw swu) := ca in
  if bytes_eqb k (txt "byteorder") then Some (mkcontainer (Some (parse_byteorder lit)) bc d tb sw swu)
  else if bytes_eqb k (txt "byte_count") then Some (mkcontainer o (Some (parse_usize lit)) d tb sw swu)
  else if bytes_eqb k (txt "branch_take_bytes") then Some (mkcontainer o bc d (Some (parse_usize lit)) sw swu)
  else if existsb (bytes_eqb k)
            (map txt ["get_variable_name"; "default_value"; "default"; "with_encode"; "encode_with";
                      "with_decode"; "decode_with"; "with"]%string) then Some ca
  else None.
Fixpoint container_entries (ca : container_attributes) (l : list entry) : option container_attributes :=
  match l with
  | [] => Some ca
  | e :: r =>
      match (match e with Tag i => container_tag ca i | Property k lit => container_property ca k lit end) with
      | Some ca' => container_entries ca' r
      | None => None
      end
  end.
Definition parse_container_attribute (a : attribute) : outcome container_attributes :=
  if bytes_eqb (t_name a) (txt "jbytes") || bytes_eqb (t_name a) (txt "repr") then
    match container_entries default_container (t_entries a) with
    | Some ca => Parses (Some ca)
    | None => Refused
    end
  else Parses None.
(** derive/src/lib.rs:61-65 and the same in the other three derives *)
Definition container_attributes_of (l : list attribute) : option container_attributes :=
  match get_attribute parse_container_attribute l with
  | Refused => None
  | Parses (Some ca) => Some ca
  | Parses None => Some default_container
  end.

(** ** What the generated code does with them *)

(** The meaning rustc gives to the pieces of Rust code written in attributes. *)
Record meaning := mkmeaning {
  m_number : bytes -> expr;                 (* an expression used as a number *)
  m_order : bytes -> expr;                  (* an expression used as a byte order *)
  m_condition : bytes -> env -> bool;       (* if_expr *)
  m_function : bytes -> env -> val -> val;  (* value_decode, value_encode *)
  m_value : bytes -> env -> val;            (* check_value *)
  m_literal : bytes -> bytes;               (* a byte string literal *)
  m_name : bytes -> nat;                    (* names of variables *)
  m_default : val;                          (* [Default] of the field's type *)
  m_from_str : option bytes -> (bytes -> option val) * (val -> bytes);
  (* with_decode, with_encode: the path of a function and its extra argument *)
  m_decoder : bytes -> option bytes -> env -> cattr -> fattr -> rd val;
  m_encoder : bytes -> option bytes -> env -> cattr -> fattr -> val -> wr N }.

(** parse.rs:85-105, [to_code]: [n as usize], [(expr) as usize] *)
Definition number_code (m : meaning) (c : option content) : option expr :=
  match c with
  | Some (Value (AUsize n)) => Some (const (Z.of_N n))
  | Some (Value (AVar s)) => Some (m_number m s)
  | _ => None
  end.
(** parse.rs:126-136, [to_byteorder]. [ByteOrder::parse(..).unwrap()] does not
    panic on what [parse_byteorder] lets through (theorem C49_no_panic). *)
Definition order_code (m : meaning) (c : option content) : option order_attr :=
  match c with
  | Some (Value (AString s)) => option_map OConst (byteorder_parse s)
  | Some (Value (AVar s)) => Some (OVar (m_order m s))
  | _ => None
  end.
Definition literal_code (m : meaning) (c : option content) : option bytes :=
  match c with Some (Value (ABytes s)) => Some (m_literal m s) | _ => None end.
Definition given_flag (c : option content) : bool := match c with Some _ => true | None => false end.
Definition raw_code {A} (f : bytes -> A) (c : option content) : option A :=
  match c with Some (Raw s) => Some (f s) | _ => None end.
(** decode.rs:20-32, encode.rs:26-35: the function named by [with_decode], else the
    one of that kind in the module named by [with]. *)
Definition with_code {A} (f : bytes -> option bytes -> A) (own module : option content) (kind : string)
                     (args : option content) : option A :=
  let a := raw_code (fun s => s) args in
  match raw_code (fun s => f s a) own with
  | Some x => Some x
  | None => raw_code (fun s => f (s ++ txt kind) a) module
  end.
(** derive/src/jbytes/attribute.rs:184-224 and the branches of decode.rs:19-105,
    encode.rs:22-67. A [full] that is not a number is not modelled. *)
Definition field_spec (m : meaning) (fa : field_attributes) : fspec :=
  let g := member fa in
  mkfspec (is_use fa) (order_code m (g SByteorder)) (number_code m (g SLength)) (number_code m (g SCount))
    (number_code m (g STryCount)) (number_code m (g SBranch)) (number_code m (g SBits)) (given_flag (g SBitsStart))
    (number_code m (g SByteCount)) (number_code m (g SByteCountOutside)) (given_flag (g SRemaining))
    (literal_code m (g SKey)) (literal_code m (g SSplit)) (literal_code m (g SLinend)) (literal_code m (g SLoopSkipStarts))
    (number_code m (g SOffset))
    (match g SFull with Some (Value (AUsize n)) => n | _ => 0 end)
    (given_flag (g SUntake))
    (if given_flag (g SSkip) || given_flag (g SSkipDecode) then Some (m_default m) else None)
    (given_flag (g SSkip) || given_flag (g SSkipEncode))
    (match g SFromStrBool, g SFromStr with
     | Some _, _ => Some (m_from_str m None)
     | None, Some (Raw s) => Some (m_from_str m (Some s))
     | None, _ => None
     end)
    (raw_code (m_condition m) (g SIfExpr)) (raw_code (m_function m) (g SValueDecode))
    (raw_code (m_function m) (g SValueEncode)) (raw_code (m_value m) (g SCheckValue))
    (match g SVariableName with
     | Some (Value (AList l)) =>
         flat_map (fun a => match a with AString s => [(m_name m s, m_number m s)] | _ => [] end) l
     | _ => []
     end)
    (with_code (m_decoder m) (g SWithDecode) (g SWith) "::decode" (g SWithArgs))
    (with_code (m_encoder m) (g SWithEncode) (g SWith) "::encode" (g SWithArgs))
    None.
(** attribute.rs:36-49: [ContainerAttrModifiers] *)
Definition container_spec (ca : container_attributes) : cspec :=
  mkcspec (match ca_order ca with Some (AString s) => byteorder_parse s | _ => None end)
          (match ca_byte_count ca with Some (AUsize n) => Some n | _ => None end).
(** derive/src/jbytes/derive_enum.rs:112-123, 473-497. With both [branch_starts_with] and
    [branch_starts_with_untake] this is what the encoder does (EnumText.v). *)
Definition enum_spec (ca : container_attributes) : espec :=
  mkespec (container_spec ca)
    (if ca_starts_with ca then ByPrefix
     else if ca_starts_with_untake ca then ByPrefixUntake
     else match ca_take_bytes ca with Some (AUsize n) => ByBytes n | _ => ByTag end)
    (ca_disable ca).

(** Structs and enums as they are written (Source.v, EnumSource.v), with variables that one
    hands to another: [variable_name] and [get_variable_name]. Decoders only: encoders hand on nothing
    (encode.rs has no branch for [variable_name]). *)
From Coq Require Import Ascii String.
From Verif Require Import Base Ints Sugar AttrParse GenExpr GenDecode Source EnumSource Schema.
Close Scope string_scope.

(** derive/src/jbytes/parse.rs:58-73 and the loops over the list. A number in the list is
    not a name, and its code does not compile. *)
Fixpoint names_of (l : list attr_value) : option (list bytes) :=
  match l with
  | [] => Some []
  | AString s :: r => option_map (cons s) (names_of r)
  | _ :: _ => None
  end.
Definition listed (lit : bytes) : option (list bytes) :=
  match parse_list lit with AList l => names_of l | _ => None end.
(** attribute.rs:99: the last entry counts. *)
Fixpoint last_property (key : bytes) (l : list entry) : option bytes :=
  match l with
  | [] => None
  | e :: r =>
      match last_property key r, e with
      | Some lit, _ => Some lit
      | None, Property k lit => if bytes_eqb k key then Some lit else None
      | None, Tag _ => None
      end
  end.
Definition asked_names (l : list attribute) : option (list bytes) :=
  match find (fun a => bytes_eqb (t_name a) (txt "jbytes") || bytes_eqb (t_name a) (txt "repr")) l with
  | Some a => match last_property (txt "get_variable_name") (t_entries a) with Some lit => listed lit | None => Some [] end
  | None => Some []
  end.
(** [let mut {variable_name_str} = 0;]: the variable that is bound. *)
Definition bound (s : bytes) : option bytes :=
  match lex [] s with Some [TName x] => Some x | _ => None end.
(** A variable must not have a name the decoder has for itself. With [cr] and [value] the
    code above does not compile ([value = *value] with a reference on the left), with [cattr]
    neither; others are in the way of what follows. All are left out. *)
Definition taken_names : list bytes :=
  map txt ["input"; "cattr"; "fattr"; "cattr_new"; "cattr_new2"; "fattr_new"; "position"; "cr"; "value"]%string.
Definition usable (taken : list bytes) (s : bytes) : bool :=
  match bound s with Some x => negb (existsb (bytes_eqb x) taken) | None => false end.
(** derive_struct.rs:174-188: each name in the list is a variable, with the value that
    stands under exactly this text in the [variable_name] of [cattr], and 0 without one. A
    later name in the list shadows an earlier one; constants are shadowed by both. [key]
    numbers the texts, as in [cattr]. *)
Definition asked (key : bytes -> nat) (gets : list bytes) (vars : list (nat * N)) (others : bytes -> option val)
                 (x : bytes) : option val :=
  match find (fun s => match bound s with Some y => bytes_eqb x y | None => false end) (rev gets) with
  | Some s => Some (VInt (match find (fun kv => Nat.eqb (fst kv) (key s)) vars with Some kv => Z.of_N (snd kv) | None => 0 end))
  | None => others x
  end.
(** The code of expressions: these variables are in scope, behind the fields decoded so
    far. *)
Definition handed_number (A : arithmetic val) (others : bytes -> option val) (key : bytes -> nat) (gets : list bytes)
                         (code : bool -> bytes -> bytes) (names : list bytes) (text : bytes) : expr :=
  fun en => decoder_number A (asked key gets (ev_vars en) others) code names text en.
(** decode.rs:94-101: [x.into()] for a name [x] in [variable_name]. (rustc takes [u8],
    [u16], [usize] and [bool] here; [bool] is left out.) *)
Definition published_number (A : arithmetic val) (others : bytes -> option val) (key : bytes -> nat) (gets : list bytes)
                            (names : list bytes) (text : bytes) : expr :=
  handed_number A others key gets (fun _ t => t) names text.
Definition set_vars (l : list (nat * expr)) (f : fspec) : fspec :=
  mkfspec (f_use f) (f_order f) (f_length f) (f_count f) (f_try_count f) (f_branch f) (f_bits f) (f_bits_start f) (f_byte_count f)
    (f_byte_count_outside f) (f_remaining f) (f_key f) (f_split f) (f_linend f) (f_loop f) (f_offset f) (f_full f)
    (f_untake f) (f_skip_decode f) (f_skip_encode f) (f_from_str f) (f_if f) (f_value_decode f) (f_value_encode f)
    (f_check f) l (f_with_decode f) (f_with_encode f) (f_format f).
(** decode.rs:84-101. *)
Definition published_names (fa : field_attributes) : option (list bytes) :=
  match member fa SVariableName with
  | Some (AttrParse.Value (AList l)) => names_of l
  | _ => Some []
  end.

(** derive_struct.rs:87-150: as [read_fields]. *)
Fixpoint read_handing (A : arithmetic val) (others : bytes -> option val) (key : bytes -> nat) (gets : list bytes)
                      (before : list bytes) (fs : list source_field) : option (list field) :=
  match fs with
  | [] => Some []
  | f :: r =>
      let names := before ++ [s_name f] in
      match attributes_of (s_lines f), read_handing A others key gets names r with
      | Some fa, Some l =>
          let number := handed_number A others key gets in
          let m := with_numbers (number var_code before) (number GenExpr.order_code before) (s_meaning f) in
          match published_names fa with
          | Some xs =>
              let vars := map (fun x => (key x, published_number A others key gets names x)) xs in
              Some (mkfield (s_name f) (set_vars vars (field_spec m fa)) (s_type f) :: l)
          | None => None
          end
      | _, _ => None
      end
  end.
(** Whether the container has a codec of its own (derive_struct.rs:165-170); these are left
    out here. *)
Definition container_codec (l : list attribute) : bool :=
  match find (fun a => bytes_eqb (t_name a) (txt "jbytes") || bytes_eqb (t_name a) (txt "repr")) l with
  | Some a =>
      existsb (fun e => match e with
                        | Tag _ => false
                        | Property k _ =>
                            existsb (bytes_eqb k) (map txt ["with_encode"; "encode_with"; "with_decode"; "decode_with"; "with"]%string)
                        end) (t_entries a)
  | None => false
  end.
(** What [#[derive(ByteDecode)]] makes of the fields (derive_struct.rs:171-193). *)
Definition handing_fields_decoder (A : arithmetic val) (others : bytes -> option val) (key : bytes -> nat) (s : source) : option decl :=
  match container_attributes_of (s_container s), asked_names (s_container s) with
  | Some ca, Some gets =>
      if negb (forallb (usable taken_names) gets) then None
      else
        match read_handing A others key gets [] (s_fields s) with
        | Some fs => Some (mkdecl true (if container_used (s_container s) then Some (container_spec ca) else None) (Some fs))
        | None => None
        end
  | _, _ => None
  end.
(** And of a struct without a codec of its own (derive_struct.rs:164-193; for the others see
    OwnCodec.v). *)
Definition handing_decoder (A : arithmetic val) (others : bytes -> option val) (key : bytes -> nat) (s : source) : option decl :=
  if container_codec (s_container s) then None else handing_fields_decoder A others key s.

(** What it makes of an enum (derive_enum.rs:84-115). The code of the arms is the same as in
    EnumSource.v, with these variables in scope. [data] and [cr_byte_count] are further names
    of its own (derive_enum.rs:142, 241). *)
Definition asking_decoder (A : arithmetic val) (others : bytes -> option val) (key : bytes -> nat) (s : source_enum) : option enum_decoder :=
  match asked_names (g_container s) with
  | Some gets =>
      if container_codec (g_container s) || negb (forallb (usable (txt "data" :: txt "cr_byte_count" :: taken_names)) gets) then None
      else enum_decoder_with (handed_number A others key gets) s
  | None => None
  end.

(** Encoders of structs and enums with [variable_name] and [get_variable_name], as they are
    written (VarSource.v has the decoders). *)
From Coq Require Import Ascii String.
From Verif Require Import Base Ints Sugar AttrParse GenExpr GenDecode Source EnumSource VarSource Schema.
Close Scope string_scope.

(** derive/src/jbytes/derive_struct.rs:227-243, 246-253: the variables that are asked for
    are declared here as in the decoder, next to [self]. *)
Definition asking_number (A : arithmetic val) (others : bytes -> option val) (key : bytes -> nat) (gets : list bytes)
                         (code : bool -> bytes -> bytes) (names : list bytes) (vs : list val) (text : bytes) : expr :=
  fun en => encoder_number A (asked key gets (ev_vars en) others) code names vs text en.
(** attribute.rs:186-193: [length] alone has code of its own. *)
Definition asked_code (gets : list bytes) : bool -> bytes -> bytes :=
  length_code (match gets with [] => None | _ => Some gets end).
Definition with_length (o : option expr) (f : fspec) : fspec :=
  mkfspec (f_use f) (f_order f) o (f_count f) (f_try_count f) (f_branch f) (f_bits f) (f_bits_start f) (f_byte_count f)
    (f_byte_count_outside f) (f_remaining f) (f_key f) (f_split f) (f_linend f) (f_loop f) (f_offset f) (f_full f)
    (f_untake f) (f_skip_decode f) (f_skip_encode f) (f_from_str f) (f_if f) (f_value_decode f) (f_value_encode f)
    (f_check f) (f_vars f) (f_with_decode f) (f_with_encode f) (f_format f).
(** derive_struct.rs:246-253: field after field. *)
Fixpoint read_asking (number : (bool -> bytes -> bytes) -> bytes -> expr) (gets : list bytes) (fs : list source_field) : option (list field) :=
  match fs with
  | [] => Some []
  | f :: r =>
      match attributes_of (s_lines f), read_asking number gets r with
      | Some fa, Some l =>
          let order := number GenExpr.order_code in
          Some (mkfield (s_name f)
                  (with_length (f_length (field_spec (with_numbers (number (asked_code gets)) order (s_meaning f)) fa))
                               (field_spec (with_numbers (number var_code) order (s_meaning f)) fa))
                  (s_type f) :: l)
      | _, _ => None
      end
  end.
(** The names an encoder has for itself: a variable with one of them is in the way of what
    follows. These are left out. *)
Definition encoder_taken : list bytes :=
  map txt ["self"; "buffer"; "cattr"; "fattr"; "cattr_new"; "fattr_new"; "r_nbytes"; "cr"; "value"]%string.
(** What [#[derive(ByteEncode)]] makes of the fields, for a value with the fields [vs]
    (derive_struct.rs:226-253). *)
Definition asking_fields_encoder (A : arithmetic val) (others : bytes -> option val) (key : bytes -> nat) (s : source) (vs : list val) : option decl :=
  match container_attributes_of (s_container s), asked_names (s_container s) with
  | Some ca, Some gets =>
      if negb (forallb (usable encoder_taken) gets) then None
      else
        match read_asking (fun code => asking_number A others key gets code (map s_name (s_fields s)) vs) gets (s_fields s) with
        | Some fs => Some (mkdecl true (if container_used (s_container s) then Some (container_spec ca) else None) (Some fs))
        | None => None
        end
  | _, _ => None
  end.
(** And of a struct without a codec of its own (derive_struct.rs:207-261). *)
Definition asking_encoder (A : arithmetic val) (others : bytes -> option val) (key : bytes -> nat) (s : source) (vs : list val) : option decl :=
  if container_codec (s_container s) then None else asking_fields_encoder A others key s vs.

(** ** Enums *)

(** derive_enum.rs:416-431, 525-552: the variables are declared before the [match]; the
    fields of the variant are references. *)
Definition asking_variant_number (A : arithmetic val) (others : bytes -> option val) (key : bytes -> nat) (gets : list bytes)
                                 (code : bytes -> bytes) (names : list bytes) (vs : list val) (text : bytes) : expr :=
  fun en => variant_number A (asked key gets (ev_vars en) others) code names vs text en.
(** derive_enum.rs:534, 546: [to_code(false, true)] in a variant with names,
    [to_code(false, false)] in a tuple. *)
Definition bound_code (named : bool) : bytes -> bytes := if named then star_code else var_code false.
(** attribute.rs:186-193: no star before a text that occurs in the list. *)
Definition asked_bound_code (gets : list bytes) (named : bool) (text : bytes) : bytes :=
  match gets with
  | [] => bound_code named text
  | _ => if has_text text (join_names gets) then var_code false text else bound_code named text
  end.
(** As [read_bound] (EnumSource.v), and [length] with its own code. *)
Fixpoint read_bound_asking (number : (bytes -> bytes) -> bytes -> expr) (gets : list bytes) (named : bool) (fs : list source_field) : option (list field) :=
  match fs with
  | [] => Some []
  | f :: r =>
      match attributes_of (s_lines f), read_bound_asking number gets named r with
      | Some fa, Some l =>
          let spec code := field_spec (with_numbers (number code) (number (GenExpr.order_code false)) (s_meaning f)) fa in
          Some (mkfield (s_name f)
                  (with_length (f_length (spec (asked_bound_code gets named)))
                     (with_offset (f_offset (spec star_code)) (spec (bound_code named))))
                  (s_type f) :: l)
      | _, _ => None
      end
  end.
(** What [#[derive(ByteEncode)]] makes of the enum, as it does for a variant with the fields
    [vs]. [cr_byte_count] is a further name of its own (derive_enum.rs:434-562). *)
Definition asking_enum_encoder (A : arithmetic val) (others : bytes -> option val) (key : bytes -> nat) (s : source_enum) (vs : list val) : option enum_encoder :=
  match asked_names (g_container s) with
  | Some gets =>
      if container_codec (g_container s) || negb (forallb (usable (txt "cr_byte_count" :: encoder_taken)) gets) then None
      else
        enum_encoder_with
          (fun x => read_bound_asking (fun code => asking_variant_number A others key gets code (map s_name (x_fields x)) vs) gets (x_named x) (x_fields x)) s
  | None => None
  end.

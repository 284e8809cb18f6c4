(** A struct as it is written, and what the derive macros make of it: the lines of
    attributes are parsed (AttrParse.v), the expressions in them become code (GenExpr.v),
    and that is what the statements of the decoder (GenDecode.v) and of the encoder
    (GenEncode.v) are made from. Structs with named fields only. *)
From Coq Require Import Ascii String.
From Verif Require Import Base Ints Sugar AttrParse GenExpr GenDecode Schema.
Close Scope string_scope.

(** A field as written: its name, its lines of attributes, its type. [s_meaning] is what
    rustc makes of the Rust texts in the attributes other than numbers and byte orders. *)
Record source_field := mksource_field {
  s_name : bytes; s_lines : list attribute; s_meaning : meaning; s_type : ty }.
Record source := mksource { s_container : list attribute; s_fields : list source_field }.

(** ** Expressions *)

(** rustc's arithmetic on values, and [self]. *)
Inductive thing := Held (v : val) | Self_ (fields : list (bytes * val)).
Definition with_self (A : arithmetic val) : arithmetic thing :=
  mkarithmetic thing
    (fun n => option_map Held (a_num A n))
    (fun o x y => match x, y with Held v, Held w => option_map Held (a_op A o v w) | _, _ => None end)
    (fun t x => match x with Held v => option_map Held (a_cast A t v) | Self_ _ => None end)
    (fun x f =>
       match x, f with
       | Held v, _ => option_map Held (a_get A v f)
       | Self_ l, LName y =>
           match find (fun xv => bytes_eqb y (fst xv)) l with Some (_, v) => Some (Held v) | None => None end
       | Self_ _, _ => None
       end).
Definition number_of (x : option thing) : Z := match x with Some (Held (VInt z)) => z | _ => 0%Z end.
Definition held (l : list (bytes * val)) : list (bytes * thing) := map (fun xv => (fst xv, Held (snd xv))) l.
Definition held_all (others : bytes -> option val) (x : bytes) : option thing := option_map Held (others x).

(** derive/src/jbytes/derive_struct.rs:87-186: in the decoder the fields decoded so far are
    local variables. [names]: what they are called. [code]: [var_code] or [order_code]. *)
Definition decoder_number (A : arithmetic val) (others : bytes -> option val) (code : bool -> bytes -> bytes)
                          (names : list bytes) (text : bytes) : expr :=
  fun en => number_of (code_value (with_self A)
                        (decoder_scope (held (combine names (ev_fields en))) (held_all others)) (code false text)).
(** derive_struct.rs:207-261: in the encoder they are members of [self], whose fields are
    [vs]. *)
Definition encoder_number (A : arithmetic val) (others : bytes -> option val) (code : bool -> bytes -> bytes)
                          (names : list bytes) (vs : list val) (text : bytes) : expr :=
  fun _ => number_of (code_value (with_self A) (encoder_scope (Self_ (combine names vs)) (held_all others)) (code true text)).

Definition with_numbers (number order : bytes -> expr) (m : meaning) : meaning :=
  mkmeaning number order (m_condition m) (m_function m) (m_value m) (m_literal m) (m_name m) (m_default m)
            (m_from_str m) (m_decoder m) (m_encoder m).

(** ** Declarations *)

(** derive_struct.rs:100-150, 246-253: field after field. [numbers]: the code of
    expressions in a field, given the names of the fields before it. *)
Fixpoint read_fields (numbers : (bool -> bytes -> bytes) -> list bytes -> bytes -> expr) (before : list bytes)
                     (fs : list source_field) : option (list field) :=
  match fs with
  | [] => Some []
  | f :: r =>
      match attributes_of (s_lines f), read_fields numbers (before ++ [s_name f]) r with
      | Some fa, Some l =>
          let m := with_numbers (numbers var_code before) (numbers GenExpr.order_code before) (s_meaning f) in
          Some (mkfield (s_name f) (field_spec m fa) (s_type f) :: l)
      | _, _ => None
      end
  end.
(** attribute.rs:53-74, [is_use]: whether the line that is read has any entries *)
Definition container_used (l : list attribute) : bool :=
  match find (fun a => bytes_eqb (t_name a) (txt "jbytes") || bytes_eqb (t_name a) (txt "repr")) l with
  | Some a => match t_entries a with [] => false | _ => true end
  | None => false
  end.
(** Whether that line names a codec of the container's own (derive_struct.rs:165-170,
    220-225) or variables ([get_variable_name]). These are left out here. *)
Definition container_other (l : list attribute) : bool :=
  match find (fun a => bytes_eqb (t_name a) (txt "jbytes") || bytes_eqb (t_name a) (txt "repr")) l with
  | Some a =>
      existsb (fun e => match e with
                        | Tag _ => false
                        | Property k _ =>
                            existsb (bytes_eqb k) (map txt ["get_variable_name"; "with_encode"; "encode_with"; "with_decode"; "decode_with"; "with"]%string)
                        end) (t_entries a)
  | None => false
  end.
Definition derived (numbers : (bool -> bytes -> bytes) -> list bytes -> bytes -> expr) (s : source) : option decl :=
  match container_attributes_of (s_container s), read_fields numbers [] (s_fields s) with
  | Some ca, Some fs =>
      if container_other (s_container s) then None
      else Some (mkdecl true (if container_used (s_container s) then Some (container_spec ca) else None) (Some fs))
  | _, _ => None
  end.
(** What [#[derive(ByteDecode)]] makes of the struct. *)
Definition derived_decoder (A : arithmetic val) (others : bytes -> option val) (s : source) : option decl :=
  derived (decoder_number A others) s.
(** What [#[derive(ByteEncode)]] makes of it, for a value with the fields [vs]. *)
Definition derived_encoder (A : arithmetic val) (others : bytes -> option val) (s : source) (vs : list val) : option decl :=
  derived (fun code _ => encoder_number A others code (map s_name (s_fields s)) vs) s.

(** A tuple struct as it is written, and what the derive macros make of it: as in [Source.v],
    but the fields have no names. In the decoder they are variables called [v0], [v1], ...
    (derive/src/jbytes/derive_struct.rs:78-100, decode.rs:19); in the encoder they are
    [self.0], [self.1], ... (derive_struct.rs:246-253), and so is whatever an expression
    begins with. *)
From Coq Require Import Ascii String.
From Verif Require Import Base Ints Sugar Text AttrParse GenExpr GenDecode Source Schema.
Close Scope string_scope.

(** A field as written. *)
Record tuple_field := mktuple_field { u_lines : list attribute; u_meaning : meaning; u_type : ty }.
Record tuple_source := mktuple { u_container : list attribute; u_fields : list tuple_field }.

(** The fields, called as the generated code calls them. *)
Fixpoint called_by (name : nat -> bytes) (i : nat) (fs : list tuple_field) : list source_field :=
  match fs with
  | [] => []
  | f :: r => mksource_field (name i) (u_lines f) (u_meaning f) (u_type f) :: called_by name (S i) r
  end.
(** virtue, [IdentOrIndex]: how the encoder calls them. *)
Definition index_name (i : nat) : bytes := show_usize (N.of_nat i).

(** rustc's arithmetic on values, and a [self] with numbered fields. *)
Inductive member := Plain (v : val) | Self_tuple (vs : list val).
Definition with_tuple (A : arithmetic val) : arithmetic member :=
  mkarithmetic member
    (fun n => option_map Plain (a_num A n))
    (fun o x y => match x, y with Plain v, Plain w => option_map Plain (a_op A o v w) | _, _ => None end)
    (fun t x => match x with Plain v => option_map Plain (a_cast A t v) | Self_tuple _ => None end)
    (fun x f =>
       match x, f with
       | Plain v, _ => option_map Plain (a_get A v f)
       | Self_tuple l, LNum n => option_map Plain (nth_error l (N.to_nat n))
       | Self_tuple _, _ => None
       end).
(** What the code of an expression in the encoder is worth; [None]: it does not compile. *)
Definition tuple_value (A : arithmetic val) (others : bytes -> option val) (code : bool -> bytes -> bytes)
                       (vs : list val) (text : bytes) : option member :=
  code_value (with_tuple A) (encoder_scope (Self_tuple vs) (fun x => option_map Plain (others x))) (code true text).
Definition tuple_number (A : arithmetic val) (others : bytes -> option val) (code : bool -> bytes -> bytes)
                        (vs : list val) (text : bytes) : expr :=
  fun _ => match tuple_value A others code vs text with Some (Plain (VInt z)) => z | _ => 0%Z end.

(** As [Source.derived], with the fields already called by their names. *)
Definition derived_tuple (numbers : (bool -> bytes -> bytes) -> list bytes -> bytes -> expr) (name : nat -> bytes)
                         (s : tuple_source) : option decl :=
  match container_attributes_of (u_container s), read_fields numbers [] (called_by name 0 (u_fields s)) with
  | Some ca, Some fs =>
      if container_other (u_container s) then None
      else Some (mkdecl false (if container_used (u_container s) then Some (container_spec ca) else None) (Some fs))
  | _, _ => None
  end.
(** What [#[derive(ByteDecode)]] makes of the struct. *)
Definition tuple_decoder (A : arithmetic val) (others : bytes -> option val) (s : tuple_source) : option decl :=
  derived_tuple (decoder_number A others) tuple_name s.
(** What [#[derive(ByteEncode)]] makes of it, for a value with the fields [vs]. *)
Definition tuple_encoder (A : arithmetic val) (others : bytes -> option val) (s : tuple_source) (vs : list val) : option decl :=
  derived_tuple (fun code _ => tuple_number A others code vs) index_name s.

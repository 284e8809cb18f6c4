(** What a tuple struct, as written, is supposed to mean. *)
From Coq Require Import Ascii String.
From Verif Require Import Base Ints Sugar TextSpec AttrParse AttrSpec EnumTextSpec GenExpr GenExprSpec GenDecode Source SourceSpec TupleSource Schema.
Close Scope string_scope.

(** The container and the fields, which expressions call [v0], [v1] and so on. *)
Record tuple_says (A : arithmetic val) (others : bytes -> option val) (s : tuple_source) (c : cspec) (fs : list (fspec * ty)) : Prop := mktuple_says {
  ts_container : exists l, first_line ["jbytes"; "repr"]%string (u_container s) l /\ Forall container_entry l /\ Forall own_codec l /\
                   decided about_order l (c_order c) /\ decided about_width l (c_byte_count c);
  ts_fields : field_says A others [] (called_by tuple_name 0 (u_fields s)) fs }.

(** Every number and byte order in it is written out, and nothing is written as something
    else. *)
Definition literal_entry (e : entry) : Prop :=
  match e with
  | Tag _ => True
  | Property k lit => ~ called k ["value_encode"; "encode_value"]%string /\ forall s, string_literal lit s ->
      (called k number_keys -> ~ expression s) /\
      (called k ["byteorder"%string] -> called s ["BE"; ">"; "0"; "LE"; "<"; "1"]%string)
  end.
Definition literals_only (s : tuple_source) : Prop := forall f l, In f (u_fields s) -> first_line ["jbytes"%string] (u_lines f) l ->
  Forall literal_entry l.
(** The first field has an attribute. *)
Definition first_attributed (s : tuple_source) : Prop :=
  match u_fields s with
  | [] => True
  | f :: _ => exists e l, first_line ["jbytes"%string] (u_lines f) (e :: l)
  end.
(** The names of the fields in the decoder. *)
Definition tuple_names (s : tuple_source) : list bytes := map tuple_name (seq 0 (length (u_fields s))).
(** The text begins with a number and mentions none of these names. *)
Definition number_first (fields : list bytes) (text : bytes) (n : N) : Prop :=
  exists r, lex [] text = Some (TNum n :: r) /\ forall y, In y (bare r) -> ~ In y fields.

(** What a tuple struct with variables, as written, is supposed to mean. *)
From Coq Require Import Ascii String.
From Verif Require Import Base Ints Sugar TextSpec AttrParse AttrSpec EnumTextSpec GenExpr GenExprSpec GenDecode Source SourceSpec TupleSource TupleSpec
  VarSource VarSourceSpec VarEncodeSpec Schema.
Close Scope string_scope.

(** The container, the variables it asks for, and the fields, which expressions and
    [variable_name] call [v0], [v1] and so on. *)
Record tuple_hands A others key (s : tuple_source) (gets : list bytes) (c : cspec) (fs : list (fspec * ty)) : Prop := mktuple_hands {
  th_container : exists l, first_line ["jbytes"; "repr"]%string (u_container s) l /\ Forall container_entry l /\ Forall no_codec l /\
                   decided about_order l (c_order c) /\ decided about_width l (c_byte_count c) /\
                   asks_for l gets;
  th_fields : fields_hand A others key gets [] (called_by tuple_name 0 (u_fields s)) fs }.

(** Nothing is written as something else, and every number and byte order is written out,
    but for a [length] that occurs in the list of variables: that is an expression with a
    value, and mentions no field before it. *)
Definition tuple_asking_entry (A : arithmetic val) (scope : bytes -> option val) (gets fields : list bytes) (before : list (bytes * val)) (e : entry) : Prop :=
  match e with
  | Tag _ => True
  | Property k lit => ~ called k ["value_encode"; "encode_value"]%string /\ forall s, string_literal lit s ->
      (called k number_keys -> expression s ->
       called k ["length"%string] /\ in_the_list gets s /\ no_field fields s /\ exists z, number_is A scope before s z) /\
      (called k ["byteorder"%string] -> called s ["BE"; ">"; "0"; "LE"; "<"; "1"]%string)
  end.
Definition tuple_asking_writable (A : arithmetic val) (scope : bytes -> option val) (gets : list bytes) (s : tuple_source) (vs : list val) : Prop :=
  forall i f l, nth_error (u_fields s) i = Some f -> first_line ["jbytes"%string] (u_lines f) l ->
    Forall (tuple_asking_entry A scope gets (firstn i (tuple_names s)) (combine (firstn i (tuple_names s)) (firstn i vs))) l.

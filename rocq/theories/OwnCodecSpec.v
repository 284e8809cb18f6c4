(** Which functions the entries on a container name. *)
From Coq Require Import Ascii String.
From Verif Require Import Base Ints Sugar TextSpec AttrParse AttrSpec EnumTextSpec GenExpr GenExprSpec Source SourceSpec VarSourceSpec Schema.
Close Scope string_scope.

(** The function that decodes the container: what [with_decode] says, or else [decode] in the
    module that [with] says; [None]: neither is there. *)
Inductive decodes_with (l : list entry) : option bytes -> Prop :=
| decodes_function f : decided (text_of ["with_decode"; "decode_with"]%string) l (Some f) -> decodes_with l (Some f)
| decodes_module m : decided (text_of ["with_decode"; "decode_with"]%string) l None -> decided (text_of ["with"%string]) l (Some m) ->
    decodes_with l (Some (m ++ list_byte_of_string "::decode"))
| decodes_derived : decided (text_of ["with_decode"; "decode_with"]%string) l None -> decided (text_of ["with"%string]) l None ->
    decodes_with l None.
Inductive encodes_with (l : list entry) : option bytes -> Prop :=
| encodes_function f : decided (text_of ["with_encode"; "encode_with"]%string) l (Some f) -> encodes_with l (Some f)
| encodes_module m : decided (text_of ["with_encode"; "encode_with"]%string) l None -> decided (text_of ["with"%string]) l (Some m) ->
    encodes_with l (Some (m ++ list_byte_of_string "::encode"))
| encodes_derived : decided (text_of ["with_encode"; "encode_with"]%string) l None -> decided (text_of ["with"%string]) l None ->
    encodes_with l None.
(** The entries of a container: all exist, and those that name functions hold string
    literals. *)
Definition container_with_functions (lines : list attribute) (l : list entry) : Prop :=
  first_line ["jbytes"; "repr"]%string lines l /\ Forall container_entry l /\
  forall k lit, In (Property k lit) l -> called k ["with_encode"; "encode_with"; "with_decode"; "decode_with"; "with"]%string ->
    exists t, string_literal lit t.
(** What the fields of a struct describe ([source_hands], VarSourceSpec.v), whatever
    functions its container names. *)
Record body_hands A others key (s : source) (l : list entry) (gets : list bytes) (c : cspec) (fs : list (fspec * ty)) : Prop := mkbody_hands {
  bh_order : decided about_order l (c_order c);
  bh_width : decided about_width l (c_byte_count c);
  bh_asks : asks_for l gets;
  bh_fields : fields_hand A others key gets [] (s_fields s) fs }.

(** Variables that a struct hands to another type, as they are written. *)
From Coq Require Import Ascii String.
From Verif Require Import Base Ints Sugar TextSpec AttrParse AttrSpec EnumText EnumTextSpec GenExpr GenExprSpec Source SourceSpec
  EnumSource EnumSourceSpec VarSource SpecOps Schema.
Close Scope string_scope.

(** An entry [key = "a,b,c"] with names in it: no numbers, no spaces. *)
Definition about_names (key : string) (e : entry) (names : list bytes) : Prop :=
  exists k lit, e = Property k lit /\ called k [key] /\ names <> [] /\ Forall a_name names /\
    string_literal lit (joined ","%byte names).
(** A field has [variable_name = "..,x,.."] on it. *)
Definition publishes (f : source_field) (x : bytes) : Prop :=
  exists l names, first_line ["jbytes"%string] (s_lines f) l /\
    decided (about_names "variable_name") l (Some names) /\ In x names.

(** What the fields [fs], with the values [vs], hand on under the name [x]: the value of the
    field [x], from where it is published, converted to usize; 0 if it is not published. *)
Inductive hands (fs : list source_field) (vs : list val) (x : bytes) : N -> Prop :=
| hands_value i j f z :
    nth_error fs i = Some f -> publishes f x -> (j <= i)%nat ->
    nth_error (map s_name fs) j = Some x -> nth_error vs j = Some (VInt z) ->
    hands fs vs x (unsigned Usize z)
| hands_nothing : (forall f, In f fs -> ~ publishes f x) -> hands fs vs x 0.

(** What is in scope behind the fields: the variables that are asked for, and then
    whatever else there is. *)
Definition in_scope (gets : list bytes) (fs : list source_field) (vs : list val) (others scope : bytes -> option val) : Prop :=
  forall x, (In x gets -> exists n, hands fs vs x n /\ scope x = Some (VInt (Z.of_N n))) /\
            (~ In x gets -> scope x = others x).

(** The meaning of the attributes of a field behind the fields [before]. *)
Definition handed_meaning A others key gets (before : list bytes) (f : source_field) : meaning :=
  with_numbers (handed_number A others key gets var_code before) (handed_number A others key gets GenExpr.order_code before) (s_meaning f).
Inductive fields_hand A others key gets : list bytes -> list source_field -> list (fspec * ty) -> Prop :=
| hand_end before : fields_hand A others key gets before [] []
| hand_more before f r l gs names more :
    first_line ["jbytes"%string] (s_lines f) l -> ~ (exists a, In a (s_lines f) /\ called (t_name a) ["default"%string]) ->
    Forall2 (says (handed_meaning A others key gets before f)) l gs ->
    decided (about_names "variable_name") l names ->
    (forall k lit, In (Property k lit) l -> called k ["variable_name"%string] -> exists names, about_names "variable_name" (Property k lit) names) ->
    fields_hand A others key gets (before ++ [s_name f]) r more ->
    fields_hand A others key gets before (f :: r)
      ((set_vars (map (fun x => (key x, published_number A others key gets (before ++ [s_name f]) x))
                      (match names with Some xs => xs | None => [] end))
                 (fold_left (fun spec g => g spec) gs plain), s_type f) :: more).
Definition no_codec (e : entry) : Prop :=
  match e with
  | Tag _ => True
  | Property k _ => ~ called k ["with_encode"; "encode_with"; "with_decode"; "decode_with"; "with"]%string
  end.
(** A name for a variable that the generated code does not use itself. *)
Definition own_variable (x : bytes) : Prop :=
  ~ In x (map list_byte_of_string ["input"; "cattr"; "fattr"; "cattr_new"; "cattr_new2"; "fattr_new"; "position"; "cr"; "value"]%string).
(** The variables a struct or an enum asks for. *)
Definition asks_for (l : list entry) (gets : list bytes) : Prop :=
  exists names, decided (about_names "get_variable_name") l names /\
    (forall k lit, In (Property k lit) l -> called k ["get_variable_name"%string] ->
       exists names, about_names "get_variable_name" (Property k lit) names) /\
    gets = (match names with Some xs => xs | None => [] end) /\ Forall own_variable gets.
(** The whole struct, and the variables it asks for. *)
Record source_hands A others key (s : source) (gets : list bytes) (c : cspec) (fs : list (fspec * ty)) : Prop := mkhands {
  sh_container : exists l, first_line ["jbytes"; "repr"]%string (s_container s) l /\ Forall container_entry l /\ Forall no_codec l /\
                   decided about_order l (c_order c) /\ decided about_width l (c_byte_count c) /\
                   asks_for l gets;
  sh_fields : fields_hand A others key gets [] (s_fields s) fs }.
(** The whole enum (EnumSourceSpec.v), and the variables it asks for. *)
Record enum_asks (pm : patterns) A others key (s : source_enum) (gets : list bytes)
                 (e : espec) (vs : list (vspec * list (fspec * ty))) : Prop := mkenum_asks {
  ek_enum : enum_means no_codec pm (handed_number A others key gets) s e vs;
  ek_names : exists l, first_line ["jbytes"; "repr"]%string (g_container s) l /\ asks_for l gets;
  ek_free : Forall (fun x => ~ In x (map list_byte_of_string ["data"; "cr_byte_count"]%string)) gets }.

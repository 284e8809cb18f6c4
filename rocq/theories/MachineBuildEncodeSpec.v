(** When the expressions a derived encoder evaluates have values. *)
From Coq Require Import Ascii String.
From Verif Require Import Base Ints TextSpec AttrParse AttrSpec EnumTextSpec GenExpr GenExprSpec Source SourceSpec MachineExpr MachineEncode MachineSpec MachineEncodeSpec MachineBuild MachineBuildSpec Schema.
Close Scope string_scope.

(** The expressions begin with a field and mention no other, so that they compile in the
    encoder (C66). *)
Definition source_one_field (s : source) : Prop :=
  forall f l k lit text, In f (s_fields s) -> first_line ["jbytes"%string] (s_lines f) l -> In (Property k lit) l -> string_literal lit text ->
    called k number_keys /\ expression text \/ called k ["byteorder"%string] /\ ~ called text ["BE"; ">"; "0"; "LE"; "<"; "1"]%string ->
    one_field_first (calculable_fields s) text.
(** The padding in front of a field is written unless the field is skipped, or is not
    taken from the input. *)
Definition padded (l : list entry) : Prop :=
  (forall x, In (Tag x) l -> ~ called x ["skip"; "skip_encode"]%string) /\
  ((exists k lit, In (Property k lit) l /\ called k ["bits"; "bits_start"]%string) \/
   forall x, In (Tag x) l -> ~ called x ["untake"%string]).
Definition is_offset (e : entry) : Prop := match e with Property k _ => called k ["offset"%string] | Tag _ => False end.
Definition entry_encodes (fields : list (bytes * (ty * val))) (l : list entry) (e : entry) : Prop :=
  forall x t, holds_number e x -> has_type (integer_field (map (fun f => (fst f, fst (snd f))) fields)) x t ->
    (is_offset e -> padded l) -> exists z, value (number_in fields) x t z.
(** Every expression the encoder evaluates has a value. *)
Definition source_encodes (s : source) (vs : list val) : Prop :=
  forall i f l e, nth_error (s_fields s) i = Some f -> first_line ["jbytes"%string] (s_lines f) l -> In e l ->
    entry_encodes (fields_before s vs i) l e.
(** Conditions mean what the machine computes with the fields in front. *)
Definition conditions_meant (s : source) : Prop :=
  forall i f l k lit, nth_error (s_fields s) i = Some f -> first_line ["jbytes"%string] (s_lines f) l -> In (Property k lit) l ->
    called k ["if_expr"%string] -> m_condition (s_meaning f) = machine_condition (types_of s) (firstn i (map s_name (s_fields s))).

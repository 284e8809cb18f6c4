(** Structs whose attributes rustc accepts. *)
From Coq Require Import Ascii String.
From Verif Require Import Base Ints TextSpec AttrParse AttrSpec EnumTextSpec GenExpr GenExprSpec Source SourceSpec MachineSpec MachineEncodeSpec Schema.
Close Scope string_scope.

(** The types of the fields in front, with their names. *)
Definition field_type (fields : list (bytes * ty)) (x : bytes) : option ty :=
  option_map snd (find (fun f => if list_eq_dec Byte.byte_eq_dec x (fst f) then true else false) fields).
Definition integer_field (fields : list (bytes * ty)) (x : bytes) : option ity :=
  match field_type fields x with Some (TInt t) => Some t | _ => None end.
Definition flag_field (fields : list (bytes * ty)) (x : bytes) : Prop := field_type fields x = Some TBool.

(** The expressions in entries. *)
Inductive holds_number : entry -> rexpr -> Prop :=
| hn_number k lit text e : string_literal lit text -> called k number_keys -> expression text -> reads_as Disjunction text e ->
    holds_number (Property k lit) e
| hn_order k lit text e : string_literal lit text -> called k ["byteorder"%string] ->
    ~ called text ["BE"; ">"; "0"; "LE"; "<"; "1"]%string -> reads_as Cast text e -> holds_number (Property k lit) e.
Inductive holds_condition : entry -> rexpr -> Prop :=
| hc_if k lit text e : string_literal lit text -> called k ["if_expr"%string] -> reads_as Disjunction text e ->
    holds_condition (Property k lit) e.
(** An expression stands for a number and has a type, a condition is one. *)
Definition entry_typed (fields : list (bytes * ty)) (e : entry) : Prop :=
  match e with
  | Tag _ => True
  | Property k lit => forall text, string_literal lit text ->
      (called k number_keys -> expression text ->
       exists x t, reads_as Disjunction text x /\ has_type (integer_field fields) x t) /\
      (called k ["byteorder"%string] -> ~ called text ["BE"; ">"; "0"; "LE"; "<"; "1"]%string ->
       exists x t, reads_as Cast text x /\ has_type (integer_field fields) x t) /\
      (called k ["if_expr"%string] ->
       exists x, reads_as Disjunction text x /\ is_condition (integer_field fields) (flag_field fields) x)
  end.
Definition source_typed (s : source) : Prop :=
  forall i f l, nth_error (s_fields s) i = Some f -> first_line ["jbytes"%string] (s_lines f) l ->
    Forall (entry_typed (map (fun g => (s_name g, s_type g)) (firstn i (s_fields s)))) l.
(** No expression divides. *)
Definition source_divides (s : source) : Prop :=
  exists f l e x, In f (s_fields s) /\ first_line ["jbytes"%string] (s_lines f) l /\ In e l /\
    (holds_number e x \/ holds_condition e x) /\ has_division x.

(** ** When expressions have values *)

(** The fields in front of the [i]th, with what they hold. *)
Definition fields_before (s : source) (vs : list val) (i : nat) : list (bytes * (ty * val)) :=
  map (fun fv => (s_name (fst fv), (s_type (fst fv), snd fv))) (firstn i (combine (s_fields s) vs)).
Definition number_in (fields : list (bytes * (ty * val))) : bytes -> option (ity * Z) :=
  integers_of (fun t => match t with TInt t => Some t | _ => None end) (fun v => match v with VInt z => Some z | _ => None end) fields.
Definition flag_in (fields : list (bytes * (ty * val))) : bytes -> option bool :=
  truths_of (fun t => match t with TBool => true | _ => false end) (fun v => match v with VBool b => Some b | _ => None end) fields.
(** The decoder evaluates the condition of a field it does decode. *)
Definition conditional (l : list entry) : Prop := forall x, In (Tag x) l -> ~ called x ["skip"; "skip_decode"; "from_str"]%string.
Definition entry_defined (fields : list (bytes * (ty * val))) (l : list entry) (e : entry) : Prop :=
  (forall x t, holds_number e x -> has_type (integer_field (map (fun f => (fst f, fst (snd f))) fields)) x t ->
   exists z, value (number_in fields) x t z) /\
  (forall x, holds_condition e x ->
   is_condition (integer_field (map (fun f => (fst f, fst (snd f))) fields)) (flag_field (map (fun f => (fst f, fst (snd f))) fields)) x ->
   conditional l -> exists c, decides (number_in fields) (flag_in fields) x c).
(** Every expression in the attributes has a value, given that the fields hold [vs]. *)
Definition source_defined (s : source) (vs : list val) : Prop :=
  forall i f l e, nth_error (s_fields s) i = Some f -> first_line ["jbytes"%string] (s_lines f) l -> In e l ->
    entry_defined (fields_before s vs i) l e.

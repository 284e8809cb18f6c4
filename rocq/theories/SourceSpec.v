(** What a struct, as written, is supposed to mean. *)
From Coq Require Import Ascii String.
From Verif Require Import Base Ints Sugar TextSpec AttrParse AttrSpec EnumTextSpec GenExpr GenExprSpec Source Schema.
Close Scope string_scope.

(** ** Expressions *)

(** The number a text stands for, given the fields it can see and what else is in scope:
    that of [text as usize]. *)
Definition number_is (A : arithmetic val) (others : bytes -> option val) (fields : list (bytes * val)) (text : bytes) (z : Z) : Prop :=
  exists e v, reads_as Disjunction text e /\ eval A (decoder_scope fields others) e = Some v /\
              a_cast A (list_byte_of_string "usize") v = Some (VInt z).
(** The same for a byte order, [text as isize]; there are no parentheses around it. *)
Definition order_is (A : arithmetic val) (others : bytes -> option val) (fields : list (bytes * val)) (text : bytes) (z : Z) : Prop :=
  exists e v, reads_as Cast text e /\ eval A (decoder_scope fields others) e = Some v /\
              a_cast A (list_byte_of_string "isize") v = Some (VInt z).

(** ** Attributes *)

(** The first line of attributes that is read, and what is in it. *)
Definition first_line (names : list string) (lines : list attribute) (l : list entry) : Prop :=
  (exists before a more, lines = before ++ a :: more /\ called (t_name a) names /\ t_entries a = l /\
     forall b, In b before -> ~ called (t_name b) names) \/
  (l = [] /\ forall b, In b lines -> ~ called (t_name b) names).

(** The meaning of the attributes of a field behind the fields [before]. *)
Definition numbering_of : Type := (bool -> bytes -> bytes) -> list bytes -> bytes -> expr.
Definition field_meaning (numbers : numbering_of) (before : list bytes) (f : source_field) : meaning :=
  with_numbers (numbers var_code before) (numbers GenExpr.order_code before) (s_meaning f).
Inductive fields_mean (numbers : numbering_of) : list bytes -> list source_field -> list (fspec * ty) -> Prop :=
| fields_end before : fields_mean numbers before [] []
| fields_more before f r l gs more :
    first_line ["jbytes"%string] (s_lines f) l -> ~ (exists a, In a (s_lines f) /\ called (t_name a) ["default"%string]) ->
    Forall2 (says (field_meaning numbers before f)) l gs ->
    (forall k lit, In (Property k lit) l -> ~ called k ["variable_name"%string]) ->
    fields_mean numbers (before ++ [s_name f]) r more ->
    fields_mean numbers before (f :: r) ((fold_left (fun spec g => g spec) gs plain, s_type f) :: more).
(** With the numbers of [decoder_number]: an expression speaks of the fields before it. *)
Definition field_says (A : arithmetic val) (others : bytes -> option val) := fields_mean (decoder_number A others).
(** No functions named to encode and decode the container, no variables. *)
Definition own_codec (e : entry) : Prop :=
  match e with
  | Tag _ => True
  | Property k _ => ~ called k ["get_variable_name"; "with_encode"; "encode_with"; "with_decode"; "decode_with"; "with"]%string
  end.
(** The whole struct: the byte order and so on of the container, and the fields. *)
Record source_says (A : arithmetic val) (others : bytes -> option val) (s : source) (c : cspec) (fs : list (fspec * ty)) : Prop := mksays {
  ss_container : exists l, first_line ["jbytes"; "repr"]%string (s_container s) l /\ Forall container_entry l /\ Forall own_codec l /\
                   decided about_order l (c_order c) /\ decided about_width l (c_byte_count c);
  ss_fields : field_says A others [] (s_fields s) fs }.

(** ** What the encoder can do *)

(** Which entries hold numbers. *)
Definition number_keys : list string :=
  ["length"; "offset"; "count"; "try_count"; "branch"; "bits"; "bits_start"; "byte_count"; "byte_size";
   "byte_count_outside"; "byte_size_outside"]%string.
(** Expressions that begin with a field and mention no other (C66), and have a value. *)
Definition writable (A : arithmetic val) (others : bytes -> option val) (names : list bytes) (before : list (bytes * val)) (e : entry) : Prop :=
  match e with
  | Tag _ => True
  | Property k lit => forall s, string_literal lit s ->
      (called k number_keys -> expression s -> one_field_first names s /\ exists z, number_is A others before s z) /\
      (called k ["byteorder"%string] -> ~ called s ["BE"; ">"; "0"; "LE"; "<"; "1"]%string ->
       one_field_first names s /\ exists z, order_is A others before s z)
  end.
Definition source_writable (A : arithmetic val) (others : bytes -> option val) (s : source) (vs : list val) : Prop :=
  let names := map s_name (s_fields s) in
  forall i f l, nth_error (s_fields s) i = Some f -> first_line ["jbytes"%string] (s_lines f) l ->
    Forall (writable A others names (combine (firstn i names) (firstn i vs))) l.

(** A name the generated code does not use itself. *)
Definition own_name (x : bytes) : Prop :=
  ~ In x (map list_byte_of_string ["input"; "cattr_new"; "cattr_new2"; "fattr_new"; "position"; "buffer"; "r_nbytes"; "self"]%string) /\
  exists c r, x = c :: r /\ ~ (48 <= Byte.to_N c <= 57).

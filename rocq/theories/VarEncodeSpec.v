(** What the encoder of a struct or an enum with variables can do. *)
From Coq Require Import Ascii String.
From Verif Require Import Base Ints Sugar TextSpec AttrParse AttrSpec EnumTextSpec GenExpr GenExprSpec Source SourceSpec EnumSource EnumSourceSpec VarSourceSpec Schema.
Close Scope string_scope.

(** The text occurs in the list of variables, written with a comma and a space between two
    names. *)
Definition in_the_list (gets : list bytes) (text : bytes) : Prop :=
  gets <> [] /\ exists l r, join_names gets = l ++ text ++ r.
(** Expressions that have a value; that of [length] mentions no field if it occurs in the
    list of variables, and all others begin with a field and mention no other. *)
Definition asking_writable (A : arithmetic val) (scope : bytes -> option val) (gets names : list bytes) (before : list (bytes * val)) (e : entry) : Prop :=
  match e with
  | Tag _ => True
  | Property k lit => forall s, string_literal lit s ->
      (called k number_keys -> expression s ->
       (exists z, number_is A scope before s z) /\
       (called k ["length"%string] -> in_the_list gets s -> no_field names s) /\
       (~ (called k ["length"%string] /\ in_the_list gets s) -> one_field_first names s)) /\
      (called k ["byteorder"%string] -> ~ called s ["BE"; ">"; "0"; "LE"; "<"; "1"]%string ->
       one_field_first names s /\ exists z, order_is A scope before s z)
  end.
Definition source_asking_writable (A : arithmetic val) (scope : bytes -> option val) (gets : list bytes) (s : source) (vs : list val) : Prop :=
  let names := map s_name (s_fields s) in
  forall i f l, nth_error (s_fields s) i = Some f -> first_line ["jbytes"%string] (s_lines f) l ->
    Forall (asking_writable A scope gets names (combine (firstn i names) (firstn i vs))) l.
(** A name for a variable that neither the decoder nor the encoder uses itself. *)
Definition free_variable (x : bytes) : Prop :=
  own_variable x /\ ~ In x (map list_byte_of_string ["self"; "buffer"; "r_nbytes"]%string).
(** The value handed on under the number of a name: the first there is, else 0. *)
Definition handed_on (key : bytes -> nat) (vars : list (nat * N)) (x : bytes) (n : N) : Prop :=
  (exists l r, vars = l ++ (key x, n) :: r /\ ~ In (key x) (map fst l)) \/ (~ In (key x) (map fst vars) /\ n = 0).
(** What expressions see: the variables asked for, with the values handed on, and what else
    there is. *)
Definition handed_in (gets : list bytes) (key : bytes -> nat) (vars : list (nat * N)) (others scope : bytes -> option val) : Prop :=
  forall x, (In x gets -> exists n, handed_on key vars x n /\ scope x = Some (VInt (Z.of_N n))) /\
            (~ In x gets -> scope x = others x).

(** The same in a variant of an enum ([variant_writable], EnumSourceSpec.v): a [length] that
    occurs in the list of variables need not begin with a field, but must not be one. *)
Definition asking_variant_writable (A : arithmetic val) (scope : bytes -> option val) (gets : list bytes) (named : bool) (names : list bytes)
                                   (before : list (bytes * val)) (e : entry) : Prop :=
  match e with
  | Tag _ => True
  | Property k lit => forall s, string_literal lit s ->
      (called k number_keys -> expression s ->
       let variable := called k ["length"%string] /\ in_the_list gets s in
       exists t v z, reads_as Disjunction s t /\ plain_expr t /\ eval A (decoder_scope before scope) t = Some v /\
         a_cast A (list_byte_of_string "usize") v = Some (VInt z) /\
         (variable -> forall x, In x names -> t <> EName x) /\
         (~ variable -> named = true \/ called k ["offset"%string] -> name_first names s) /\
         (named = false -> ~ called k ["offset"%string] -> forall x, In x names -> t <> EName x)) /\
      (called k ["byteorder"%string] -> ~ called s ["BE"; ">"; "0"; "LE"; "<"; "1"]%string ->
       exists t v z, reads_as Cast s t /\ plain_expr t /\ eval A (decoder_scope before scope) t = Some v /\
         a_cast A (list_byte_of_string "isize") v = Some (VInt z) /\ forall x, In x names -> t <> EName x)
  end.
Definition fields_asking_writable (A : arithmetic val) (scope : bytes -> option val) (gets : list bytes) (x : source_variant) (vs : list val) : Prop :=
  let names := map s_name (x_fields x) in
  forall i f l, nth_error (x_fields x) i = Some f -> first_line ["jbytes"%string] (s_lines f) l ->
    Forall (asking_variant_writable A scope gets (x_named x) names (combine (firstn i names) (firstn i vs))) l.

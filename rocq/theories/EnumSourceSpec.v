(** What an enum, as written, is supposed to mean. *)
From Coq Require Import Ascii String.
From Verif Require Import Base Ints Reader Writer Sugar TextSpec AttrParse AttrSpec EnumText EnumTextSpec GenExpr GenExprSpec GenDecode GenEncodeSpec
  Source SourceSpec EnumSource Schema.
Close Scope string_scope.

(** ** The variant itself *)

(** No expression where a number or a byte order is expected. *)
Definition no_expression (e : entry) : Prop :=
  forall k lit s, e = Property k lit -> string_literal lit s ->
    (called k number_keys -> ~ expression s) /\
    (called k ["byteorder"%string] -> called s ["BE"; ">"; "0"; "LE"; "<"; "1"]%string).
(** Entries about how the variant is found; their meaning is in [declares] (EnumTextSpec.v). *)
Definition about_variant (e : entry) : Prop :=
  match e with
  | Tag i => called i ["branch_default"; "enum_default"]%string
  | Property k _ => called k ["branch_value"; "branch_range"; "branch_bits"; "branch_bits_value"]%string
  end.
Definition in_use (f : fspec) : fspec :=
  mkfspec true (f_order f) (f_length f) (f_count f) (f_try_count f) (f_branch f) (f_bits f) (f_bits_start f) (f_byte_count f)
    (f_byte_count_outside f) (f_remaining f) (f_key f) (f_split f) (f_linend f) (f_loop f) (f_offset f) (f_full f)
    (f_untake f) (f_skip_decode f) (f_skip_encode f) (f_from_str f) (f_if f) (f_value_decode f) (f_value_encode f)
    (f_check f) (f_vars f) (f_with_decode f) (f_with_encode f) (f_format f).
Inductive variant_entry (m : meaning) : entry -> (fspec -> fspec) -> Prop :=
| own_entry : forall e g, says m e g -> no_expression e -> variant_entry m e g
| variant_only : forall e, about_variant e -> variant_entry m e in_use.

(** Entries of fields that are left out: texts ([from_str]), for which no encoder of a
    variant compiles (C69), and values changed on the way out. *)
Definition ordinary_entry (e : entry) : Prop :=
  match e with
  | Tag i => ~ called i ["from_str"%string]
  | Property k _ => ~ called k ["value_encode"; "encode_value"]%string
  end.
(** A variant with the fields [fs]. Those of [V(..)] are called [v0], [v1] and so on. *)
Record variant_means (pm : patterns) (numbers : numbering_of) (x : source_variant)
                     (v : vspec) (fs : list (fspec * ty)) : Prop := mkvariant_means {
  vs_entries : exists l gs, declares pm (variant_of x) l v /\ Forall2 (variant_entry (x_meaning x)) l gs /\
                 v_attr v = fold_left (fun spec g => g spec) gs plain;
  vs_named : v_named v = x_named x;
  vs_fields : fields_mean numbers [] (x_fields x) fs;
  vs_ordinary : forall f l, In f (x_fields x) -> first_line ["jbytes"%string] (s_lines f) l -> Forall ordinary_entry l;
  vs_names : if x_named x then
               NoDup (map s_name (x_fields x)) /\
               (forall f, In f (x_fields x) -> own_name (s_name f) /\ ~ In (s_name f) tag_names)
             else N.of_nat (length (x_fields x)) < 2 ^ 64 /\
               forall i f, nth_error (x_fields x) i = Some f -> s_name f = tuple_name i }.

(** ** The enum *)

(** [own]: what else holds for the entries on the enum. *)
Record enum_means (own : entry -> Prop) (pm : patterns) (numbers : numbering_of) (s : source_enum)
                  (e : espec) (vs : list (vspec * list (fspec * ty))) : Prop := mkenum_means {
  es_container : exists l, first_line ["jbytes"; "repr"]%string (g_container s) l /\ Forall container_entry l /\ Forall own l /\
                   decided about_order l (c_order (e_c e)) /\ decided about_width l (c_byte_count (e_c e)) /\
                   (e_no_tag e = true <-> tagged l "byte_count_disable") /\ announced l (e_branching e) /\
                   ~ (tagged l "branch_starts_with" /\ tagged l "branch_starts_with_untake");
  es_some : vs <> [];
  es_variants : Forall2 (fun x vf => variant_means pm numbers x (fst vf) (snd vf)) (g_variants s) vs;
  (* numbers where numbers are expected, byte strings where bytes are, and conditions that
     form a chain (C64) *)
  es_branching : match e_branching e with
                 | ByTag => forall vf, In vf vs -> v_bytes (fst vf) = None
                 | ByBytes _ => forall vf, In vf vs -> v_value (fst vf) = None /\ v_bits (fst vf) = None /\
                                  (v_default (fst vf) = true \/ v_bytes (fst vf) <> None)
                 | ByPrefix | ByPrefixUntake => (forall vf, In vf vs -> v_value (fst vf) = None) /\ chain_order (map fst vs)
                 end }.
Definition enum_says (pm : patterns) (A : arithmetic val) (others : bytes -> option val) :=
  enum_means own_codec pm (decoder_number A others).

(** ** What the encoder can do *)

(** Expressions without casts that have a value. With the code of the encoder, see C70:
    in a named variant, and in [offset], they begin with a field; elsewhere in a tuple
    they, and byte orders everywhere, must not be a field alone. *)
Definition variant_writable (A : arithmetic val) (others : bytes -> option val) (named : bool) (names : list bytes)
                            (before : list (bytes * val)) (e : entry) : Prop :=
  match e with
  | Tag _ => True
  | Property k lit => forall s, string_literal lit s ->
      (called k number_keys -> expression s ->
       exists t v z, reads_as Disjunction s t /\ plain_expr t /\ eval A (decoder_scope before others) t = Some v /\
         a_cast A (list_byte_of_string "usize") v = Some (VInt z) /\
         (named = true \/ called k ["offset"%string] -> name_first names s) /\
         (named = false -> ~ called k ["offset"%string] -> forall x, In x names -> t <> EName x)) /\
      (called k ["byteorder"%string] -> ~ called s ["BE"; ">"; "0"; "LE"; "<"; "1"]%string ->
       exists t v z, reads_as Cast s t /\ plain_expr t /\ eval A (decoder_scope before others) t = Some v /\
         a_cast A (list_byte_of_string "isize") v = Some (VInt z) /\ forall x, In x names -> t <> EName x)
  end.
Definition fields_writable (A : arithmetic val) (others : bytes -> option val) (x : source_variant) (vs : list val) : Prop :=
  let names := map s_name (x_fields x) in
  forall i f l, nth_error (x_fields x) i = Some f -> first_line ["jbytes"%string] (s_lines f) l ->
    Forall (variant_writable A others (x_named x) names (combine (firstn i names) (firstn i vs))) l.

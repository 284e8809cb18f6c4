(** What the entries on a container and on the variants of an enum are supposed to
    mean. Of AttrParse.v and EnumText.v only the types of declarations are used. *)
From Coq Require Import Ascii String.
From Verif Require Import Base Ints Spec SpecOps TextSpec AttrParse AttrSpec Schema JDefaultSpec WireSpec EnumText.
Close Scope string_scope.

(** The last entry about something decides. *)
Inductive decided {A} (about : entry -> A -> Prop) : list entry -> option A -> Prop :=
| undecided : forall l, (forall e a, In e l -> ~ about e a) -> decided about l None
| decided_by : forall l e r a, about e a -> (forall e' a', In e' r -> ~ about e' a') -> decided about (l ++ e :: r) (Some a).
Definition number_literal (lit : bytes) (n : N) : Prop :=
  exists s, (lit = s \/ lit = quoted s) /\ numeral s n /\ n < 2 ^ 64.

(** An entry under one of these names, and the text in its string literal. *)
Definition text_of (names : list string) (e : entry) (t : bytes) : Prop :=
  exists k lit, e = Property k lit /\ called k names /\ string_literal lit t.

(** ** Containers *)
Inductive about_order : entry -> byteorder -> Prop :=
| order_big : forall k s, called k ["byteorder"%string] -> called s ["BE"; ">"; "0"]%string -> about_order (Property k (quoted s)) Be
| order_little : forall k s, called k ["byteorder"%string] -> called s ["LE"; "<"; "1"]%string -> about_order (Property k (quoted s)) Le.
(** The width of the tag. *)
Inductive about_width : entry -> N -> Prop :=
| width_type : forall i n, In (i, n) [("u8", 1); ("u16", 2); ("u32", 4); ("u64", 8); ("usize", 8)]%string ->
    about_width (Tag (list_byte_of_string i)) n
| width_number : forall k lit n, called k ["byte_count"%string] -> number_literal lit n -> about_width (Property k lit) n.
Inductive about_take : entry -> N -> Prop :=
| take_number : forall k lit n, called k ["branch_take_bytes"%string] -> number_literal lit n -> about_take (Property k lit) n.
Definition tagged (l : list entry) (i : string) : Prop := In (Tag (list_byte_of_string i)) l.
(** Entries with nothing to say about the wire, or (the last three) about structs and
    enums with codecs of their own. *)
Definition about_other (e : entry) : Prop :=
  match e with
  | Tag i => called i ["default"; "default_value"]%string
  | Property k _ => called k ["get_variable_name"; "default_value"; "default"; "with_encode"; "encode_with"; "with_decode";
                              "decode_with"; "with"]%string
  end.
Definition container_entry (e : entry) : Prop :=
  (exists bo, about_order e bo) \/ (exists n, about_width e n) \/ (exists n, about_take e n) \/ about_other e
  \/ exists i, e = Tag i /\ called i ["byte_count_disable"; "branch_starts_with"; "branch_starts_with_untake"]%string.
(** Which entries exist. *)
Definition known_container (e : entry) : Prop :=
  match e with
  | Tag i => called i ["default"; "default_value"; "byte_count_disable"; "branch_starts_with"; "branch_starts_with_untake";
                       "u8"; "u16"; "u32"; "u64"; "usize"]%string
  | Property k _ => called k ["byteorder"; "byte_count"; "branch_take_bytes"; "get_variable_name"; "default_value"; "default";
                              "with_encode"; "encode_with"; "with_decode"; "decode_with"; "with"]%string
  end.

(** How the decoder finds the variant. *)
Inductive announced (l : list entry) : branching -> Prop :=
| ann_untake : tagged l "branch_starts_with_untake" -> announced l ByPrefixUntake
| ann_prefix : tagged l "branch_starts_with" -> ~ tagged l "branch_starts_with_untake" -> announced l ByPrefix
| ann_bytes : forall n, ~ tagged l "branch_starts_with" -> ~ tagged l "branch_starts_with_untake" ->
    decided about_take l (Some n) -> announced l (ByBytes n)
| ann_tag : ~ tagged l "branch_starts_with" -> ~ tagged l "branch_starts_with_untake" ->
    decided about_take l None -> announced l ByTag.

(** ** Variants *)
Definition about_text (key : string) (e : entry) (s : bytes) : Prop :=
  exists k lit, e = Property k lit /\ called k [key] /\ literal_text lit s.
(** "3..=7" and "3..7" *)
Definition range_text (s : bytes) (lo hi : N) (inclusive : bool) : Prop :=
  exists a b, s = a ++ list_byte_of_string (if inclusive then "..=" else "..") ++ b /\
    written_in 10 a lo /\ written_in 10 b hi /\ hi < 2 ^ 64.
(** [t] is what follows the first [p] in [s]. *)
Definition follows_first (p s t : bytes) : Prop :=
  exists a, s = a ++ p ++ t /\ forall b u, s = b ++ p ++ u -> (length a <= length b)%nat.
Definition contains (p s : bytes) : Prop := exists a t, s = a ++ p ++ t.
Definition dots : bytes := list_byte_of_string "..".
(** A number as the standard library reads it: a plus sign may come first. *)
Definition signed_numeral (base : N) (s : bytes) (n : N) : Prop :=
  exists t, (s = t \/ s = "+"%byte :: t) /\ written_in base t n /\ n < 2 ^ 64.
(** All the texts a variant's number can be taken from, [current] being next. *)
Inductive counted (current : N) (s : bytes) : N -> Prop :=
| counted_hex : forall t n, s = list_byte_of_string "0x" ++ t -> signed_numeral 16 t n -> counted current s n
| counted_upto : forall t n, ~ (exists t, s = list_byte_of_string "0x" ++ t) ->
    follows_first (list_byte_of_string "..=") s t -> signed_numeral 10 t n -> counted current s n
| counted_below : forall t n, ~ (exists t, s = list_byte_of_string "0x" ++ t) -> ~ contains (list_byte_of_string "..=") s ->
    follows_first dots s t -> signed_numeral 10 t n -> counted current s n
| counted_bytes : ~ (exists t, s = list_byte_of_string "0x" ++ t) -> ~ contains dots s ->
    contains ["b"%byte; byte_of 34] s -> counted current s current
| counted_decimal : forall n, ~ (exists t, s = list_byte_of_string "0x" ++ t) -> ~ contains dots s ->
    ~ contains ["b"%byte; byte_of 34] s -> signed_numeral 10 s n -> counted current s n.
(** The declaration of a variant with the entries [l], and its schema. *)
Record declares (pm : patterns) (d : variant_decl) (l : list entry) (v : vspec) : Prop := mkdeclares {
  dl_line : (l = [] /\ forall a, In a (d_attrs d) -> ~ called (t_name a) ["jbytes"; "default"]%string)
            \/ exists before more, (forall a, In a before -> ~ called (t_name a) ["jbytes"; "default"]%string) /\
                  d_attrs d = before ++ mkattribute (list_byte_of_string "jbytes") l :: more;
  dl_name : p_bytes pm ("b"%byte :: quoted (d_name d)) = v_name v;
  dl_known : forall e, In e l -> known e;
  dl_literals : forall k lit, In (Property k lit) l ->
    called k ["branch_value"; "branch_range"; "branch_bits"; "branch_bits_value"]%string -> exists s, literal_text lit s;
  dl_default : v_default v = true <-> exists i, In (Tag i) l /\ called i ["branch_default"; "enum_default"]%string;
  dl_disc : match v_disc v with
            | None => d_disc d = None
            | Some n => exists s, d_disc d = Some s /\ numeral s n /\ n < 2 ^ 64
            end;
  dl_value : (decided (about_text "branch_value") l None /\ v_value v = None /\ v_bytes v = None)
             \/ exists s, decided (about_text "branch_value") l (Some s) /\
                ((exists n, numeral s n /\ n < 2 ^ 64 /\ v_value v = Some n /\ v_bytes v = None)
                 \/ (byte_string_literal s /\ ~ contains dots s /\ v_value v = None /\ v_bytes v = Some (p_bytes pm s)));
  dl_range : match v_range v with
             | None => decided (about_text "branch_range") l None
             | Some (lo, hi, incl) => exists s, decided (about_text "branch_range") l (Some s) /\ range_text s lo hi incl
             end;
  dl_bits : match v_bits v with
            | None => decided (about_text "branch_bits") l None
            | Some (mask, want) => exists s o, decided (about_text "branch_bits") l (Some s) /\
                decided (about_text "branch_bits_value") l o /\ p_number pm s = mask /\
                p_number pm (match o with Some t => t | None => s end) = want
            end }.
(** rustc reads numbers and ranges of numbers in patterns. *)
Definition reads_numbers (pm : patterns) : Prop :=
  (forall s n tag, numeral s n -> n < 2 ^ 64 -> p_matches pm s tag = (tag =? n)) /\
  (forall s lo hi (inclusive : bool) tag, range_text s lo hi inclusive ->
     p_matches pm s tag = ((lo <=? tag) && (if inclusive then tag <=? hi else tag <? hi))).

(** In an enum that goes by prefixes: the first variant has a [branch_value] and the
    number 0, the default variant is the last one, and no other variant with a
    [branch_value] has the number 0. *)
Definition value_given (v : vspec) : Prop := v_value v <> None \/ v_bytes v <> None.
Definition chain_order (vs : list vspec) : Prop :=
  match combine vs (numbering 0 vs) with
  | [] => False
  | (v, n) :: r =>
      v_default v = false /\ value_given v /\ n = 0 /\
      forall i w k, nth_error r i = Some (w, k) ->
        (v_default w = true -> S i = length r) /\ (v_default w = false -> value_given w -> k <> 0)
  end.

(** What the entries of [#[jbytes(...)]] are supposed to mean, in terms of the
    schema notation of Sugar.v. Of AttrParse.v only the types of attributes and of
    meanings are used. *)
From Coq Require Import Ascii String.
From Verif Require Import Base Ints Spec SpecOps TextSpec Sugar AttrParse Schema.
Close Scope string_scope.

(** ** Numbers *)

(** A numeral in base [base], most significant digit first. *)
Inductive written_in (base : N) : bytes -> N -> Prop :=
| written_one : forall c d, hex_digit c d -> d < base -> written_in base [c] d
| written_more : forall s n c d, written_in base s n -> hex_digit c d -> d < base ->
    written_in base (s ++ [c]) (base * n + d).
(** Decimal, or hexadecimal behind "0x". *)
Definition numeral (s : bytes) (n : N) : Prop :=
  written_in 10 s n \/ exists t, s = list_byte_of_string "0x" ++ t /\ written_in 16 t n.
(** The literal is the text itself or the text between quotes. *)
Definition quoted (s : bytes) : bytes := [byte_of 34] ++ s ++ [byte_of 34].
Definition no_quotes (s : bytes) : Prop := ~ In (byte_of 34) s.
(** The source of a string literal: quotes inside are escaped. *)
Fixpoint escaped (s : bytes) : bytes :=
  match s with
  | [] => []
  | c :: r => if Byte.eqb c (byte_of 34) then [byte_of 92; c] ++ escaped r else c :: escaped r
  end.
Definition string_literal (lit s : bytes) : Prop := lit = quoted (escaped s) /\ ~ In (byte_of 92) s.
(** A text that is certainly not a number: it begins with neither a digit nor "+". *)
Definition expression (s : bytes) : Prop :=
  match s with
  | [] => True
  | c :: _ => ~ (48 <= Byte.to_N c <= 57) /\ c <> "+"%byte
  end.
(** The number a literal stands for. *)
Inductive denotes (m : meaning) : bytes -> expr -> Prop :=
| denotes_number : forall lit s n, lit = s \/ lit = quoted s -> numeral s n -> n < 2 ^ 64 ->
    denotes m lit (const (Z.of_N n))
| denotes_expression : forall lit s, string_literal lit s -> expression s -> denotes m lit (m_number m s).

(** What the parser takes for a number: a plus sign is allowed in front of the
    digits, and "0x" any number of times. *)
Fixpoint times_0x (k : nat) : bytes := match k with O => [] | S j => list_byte_of_string "0x" ++ times_0x j end.
Definition lenient_numeral (s : bytes) (n : N) : Prop :=
  exists k sign t, s = times_0x k ++ sign ++ t /\ (sign = [] \/ sign = ["+"%byte])
                   /\ written_in (match k with O => 10 | S _ => 16 end) t n.

(** A byte string literal without quotes in it, which does not end in a
    backslash. *)
Definition byte_string_literal (lit : bytes) : Prop :=
  exists s, lit = "b"%byte :: quoted s /\ no_quotes s /\ forall t, s <> t ++ [byte_of 92].

(** ** One entry *)
Definition called (name : bytes) (l : list string) : Prop := In name (map list_byte_of_string l).
Definition with_flag_bits_start (f : fspec) : fspec :=
  mkfspec true (f_order f) (f_length f) (f_count f) (f_try_count f) (f_branch f) (f_bits f) true (f_byte_count f)
    (f_byte_count_outside f) (f_remaining f) (f_key f) (f_split f) (f_linend f) (f_loop f) (f_offset f) (f_full f)
    (f_untake f) (f_skip_decode f) (f_skip_encode f) (f_from_str f) (f_if f) (f_value_decode f) (f_value_encode f)
    (f_check f) (f_vars f) (f_with_decode f) (f_with_encode f) (f_format f).
Definition with_variables (l : list (nat * expr)) (f : fspec) : fspec :=
  mkfspec true (f_order f) (f_length f) (f_count f) (f_try_count f) (f_branch f) (f_bits f) (f_bits_start f) (f_byte_count f)
    (f_byte_count_outside f) (f_remaining f) (f_key f) (f_split f) (f_linend f) (f_loop f) (f_offset f) (f_full f)
    (f_untake f) (f_skip_decode f) (f_skip_encode f) (f_from_str f) (f_if f) (f_value_decode f) (f_value_encode f)
    (f_check f) l (f_with_decode f) (f_with_encode f) (f_format f).
(** What an entry does to the modifiers of its field. [from_str = ".."] is not here:
    it does nothing beside the tag [from_str]. *)
Inductive says (m : meaning) : entry -> (fspec -> fspec) -> Prop :=
| says_untake : says m (Tag (list_byte_of_string "untake")) at_untake
| says_remaining : says m (Tag (list_byte_of_string "remaining")) at_remaining
| says_bits_flag : says m (Tag (list_byte_of_string "bits_start")) with_flag_bits_start
| says_skip : says m (Tag (list_byte_of_string "skip")) (at_skip (m_default m))
| says_skip_encode : says m (Tag (list_byte_of_string "skip_encode")) at_skip_encode
| says_skip_decode : says m (Tag (list_byte_of_string "skip_decode")) (at_skip_decode (m_default m))
| says_from_str : says m (Tag (list_byte_of_string "from_str"))
                         (at_from_str (fst (m_from_str m None)) (snd (m_from_str m None)))
| says_big : forall k lit s, called k ["byteorder"%string] -> lit = quoted s -> called s ["BE"; ">"; "0"]%string ->
    says m (Property k lit) (at_order (OConst Be))
| says_little : forall k lit s, called k ["byteorder"%string] -> lit = quoted s -> called s ["LE"; "<"; "1"]%string ->
    says m (Property k lit) (at_order (OConst Le))
| says_order : forall k lit s, called k ["byteorder"%string] -> string_literal lit s ->
    ~ called s ["BE"; ">"; "0"; "LE"; "<"; "1"]%string ->
    says m (Property k lit) (at_order (OVar (m_order m s)))
| says_length : forall k lit e, called k ["length"%string] -> denotes m lit e -> says m (Property k lit) (at_length e)
| says_offset : forall k lit e, called k ["offset"%string] -> denotes m lit e -> says m (Property k lit) (at_offset e)
| says_count : forall k lit e, called k ["count"%string] -> denotes m lit e -> says m (Property k lit) (at_count e)
| says_try_count : forall k lit e, called k ["try_count"%string] -> denotes m lit e -> says m (Property k lit) (at_try_count e)
| says_branch : forall k lit e, called k ["branch"%string] -> denotes m lit e -> says m (Property k lit) (at_branch e)
| says_bits : forall k lit e, called k ["bits"%string] -> denotes m lit e -> says m (Property k lit) (at_bits e)
| says_bits_start : forall k lit e, called k ["bits_start"%string] -> denotes m lit e ->
    says m (Property k lit) (at_bits_start e)
| says_byte_count : forall k lit e, called k ["byte_count"; "byte_size"]%string -> denotes m lit e ->
    says m (Property k lit) (at_byte_count e)
| says_outside : forall k lit e, called k ["byte_count_outside"; "byte_size_outside"]%string -> denotes m lit e ->
    says m (Property k lit) (at_byte_count_outside e)
| says_full : forall k lit s n, called k ["full"%string] -> lit = s \/ lit = quoted s -> numeral s n -> n < 2 ^ 64 ->
    says m (Property k lit) (at_full n)
| says_key : forall k lit, called k ["key"; "starts_with"]%string -> byte_string_literal lit ->
    says m (Property k lit) (at_key (m_literal m lit))
| says_split : forall k lit, called k ["split"%string] -> byte_string_literal lit ->
    says m (Property k lit) (at_split (m_literal m lit))
| says_linend : forall k lit, called k ["linend"; "end_with"]%string -> byte_string_literal lit ->
    says m (Property k lit) (at_linend (m_literal m lit))
| says_loop : forall k lit, called k ["loop_skip_starts"%string] -> byte_string_literal lit ->
    says m (Property k lit) (at_loop (m_literal m lit))
| says_if : forall k lit s, called k ["if_expr"%string] -> string_literal lit s ->
    says m (Property k lit) (at_if (m_condition m s))
| says_value_decode : forall k lit s, called k ["value_decode"; "decode_value"]%string -> string_literal lit s ->
    says m (Property k lit) (at_value_decode (m_function m s))
| says_value_encode : forall k lit s, called k ["value_encode"; "encode_value"]%string -> string_literal lit s ->
    says m (Property k lit) (at_value_encode (m_function m s))
| says_check : forall k lit s, called k ["check_value"%string] -> string_literal lit s ->
    says m (Property k lit) (at_check (m_value m s))
| says_variables : forall k lit names, called k ["variable_name"%string] -> names <> [] ->
    Forall (fun x => ~ In ","%byte x) names -> string_literal lit (joined ","%byte names) ->
    says m (Property k lit) (with_variables (map (fun x => (m_name m x, m_number m x)) names)).

(** ** Which entries exist *)
Definition known (e : entry) : Prop :=
  match e with
  | Tag i => called i ["enum_default"; "branch_default"; "untake"; "bits_start"; "skip"; "skip_encode"; "skip_decode";
                       "default"; "default_value"; "from_str"; "remaining"]%string
  | Property k _ =>
      called k ["byteorder"; "length"; "offset"; "count"; "try_count"; "full"; "key"; "starts_with"; "split"; "linend";
                "end_with"; "branch"; "branch_range"; "branch_value"; "branch_bits"; "branch_bits_value"; "byte_count";
                "byte_size"; "byte_count_outside"; "byte_size_outside"; "default_value"; "default"; "bits"; "bits_start";
                "value_encode"; "encode_value"; "value_decode"; "decode_value"; "from_str"; "with_encode"; "encode_with";
                "with_decode"; "decode_with"; "with_args"; "with"; "variable_name"; "if_expr"; "check_value";
                "loop_skip_starts"]%string
  end.
(** Two names for the same thing; the first one counts as the name of the thing. *)
Definition same_names : list (list string) :=
  [["branch_default"; "enum_default"]; ["default"; "default_value"]; ["key"; "starts_with"]; ["linend"; "end_with"];
   ["byte_count"; "byte_size"]; ["byte_count_outside"; "byte_size_outside"]; ["value_encode"; "encode_value"];
   ["value_decode"; "decode_value"]; ["with_encode"; "encode_with"]; ["with_decode"; "decode_with"]]%string.
Definition alias (a b : bytes) : Prop := a = b \/ exists l, In l same_names /\ called a l /\ called b l.
(** Two entries that do not set the same thing. [bits_start = n] is [bits = n]
    together with the tag [bits_start]. *)
Definition distinct (e f : entry) : Prop :=
  let word k := called k ["bits"; "bits_start"]%string in
  let start k := k = list_byte_of_string "bits_start" in
  match e, f with
  | Tag a, Tag b => ~ alias a b
  | Property a _, Property b _ => ~ alias a b /\ ~ (word a /\ word b)
  | Tag a, Property b _ | Property b _, Tag a => ~ (start a /\ start b)
  end.

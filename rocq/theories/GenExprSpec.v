(** What the theorems about expressions in attributes talk about. *)
From Coq Require Import Ascii String.
From Verif Require Import Base GenExpr TextSpec.
Close Scope string_scope.

(** The names a text uses as variables: not those after a dot or [as]. *)
Fixpoint bare (ts : list token) : list bytes :=
  match ts with
  | [] => []
  | TDot :: TName _ :: r => bare r
  | TAs :: TName _ :: r => bare r
  | TName x :: r => x :: bare r
  | _ :: r => bare r
  end.

(** A struct with these fields, seen through [self]. *)
Record struct_value {V} (A : arithmetic V) (fields : list (bytes * V)) (self : V) : Prop := mkstruct {
  sv_distinct : NoDup (map fst fields);
  sv_get : forall x v, In (x, v) fields -> a_get A self (LName x) = Some v;
  sv_only : forall x, ~ In x (map fst fields) -> a_get A self (LName x) = None;
  sv_number : forall n, a_get A self (LNum n) = None }.
(** What else is in scope has other names. *)
Definition apart {V} (fields : list (bytes * V)) (others : bytes -> option V) : Prop :=
  others (list_byte_of_string "self") = None /\
  ~ In (list_byte_of_string "self") (map fst fields) /\
  forall x, In x (map fst fields) -> others x = None.

(** The text begins with a field, and no other field is mentioned. *)
Definition one_field_first (fields : list bytes) (text : bytes) : Prop :=
  exists x r, lex [] text = Some (TName x :: r) /\ In x fields /\ forall y, In y (bare r) -> ~ In y fields.
(** No field is mentioned. *)
Definition no_field (fields : list bytes) (text : bytes) : Prop :=
  exists ts, lex [] text = Some ts /\ forall y, In y (bare ts) -> ~ In y fields.

(** A name: letters, digits and [_], not beginning with a digit, not the keyword [as]. *)
Definition letter (c : byte) : Prop :=
  97 <= Byte.to_N c <= 122 \/ 65 <= Byte.to_N c <= 90 \/ c = "_"%byte.
Definition digit (c : byte) : Prop := 48 <= Byte.to_N c <= 57.
Definition a_name (x : bytes) : Prop :=
  match x with
  | [] => False
  | c :: r => letter c /\ Forall (fun d => letter d \/ digit d) r
  end /\ x <> list_byte_of_string "as".
(** A hexadecimal number. *)
Inductive hex_number : bytes -> N -> Prop :=
| hn_one c d : hex_digit c d -> hex_number ["0"; "x"; c]%byte d
| hn_more s n c d : hex_number s n -> hex_digit c d -> hex_number (s ++ [c]) (16 * n + d).
(** Rust's grammar, from the operators that bind least. [Atom]: numbers, names, what is in
    parentheses, fields of atoms other than numbers; [Cast]: an atom, with or without one of
    [* - !] in front, and [as]; then the operators. All are grouped from the left but the
    comparisons, which do not follow one another. Spaces around any of these. *)
Inductive strength := Disjunction | Conjunction | Comparison | BitOr | BitXor | BitAnd | Shift | Sum | Product | Cast | Atom.
(** An operator, its sign, what it makes, and its operands. *)
Inductive sign_of : binop -> string -> strength -> strength -> strength -> Prop :=
| sg_or : sign_of OrElse "||" Disjunction Disjunction Conjunction
| sg_and : sign_of AndAlso "&&" Conjunction Conjunction Comparison
| sg_equal : sign_of IsEqual "==" Comparison BitOr BitOr
| sg_differs : sign_of Differs "!=" Comparison BitOr BitOr
| sg_less : sign_of Less "<" Comparison BitOr BitOr
| sg_greater : sign_of Greater ">" Comparison BitOr BitOr
| sg_most : sign_of AtMost "<=" Comparison BitOr BitOr
| sg_least : sign_of AtLeast ">=" Comparison BitOr BitOr
| sg_bitor : sign_of OrBits "|" BitOr BitOr BitXor
| sg_bitxor : sign_of XorBits "^" BitXor BitXor BitAnd
| sg_bitand : sign_of AndBits "&" BitAnd BitAnd Shift
| sg_left : sign_of ShiftLeft "<<" Shift Shift Sum
| sg_right : sign_of ShiftRight ">>" Shift Shift Sum
| sg_plus : sign_of Plus "+" Sum Sum Product
| sg_minus : sign_of Minus "-" Sum Sum Product
| sg_times : sign_of Times "*" Product Product Cast
| sg_divide : sign_of Divide "/" Product Product Cast
| sg_remainder : sign_of Remainder "%" Product Product Cast.
Inductive front_sign : byte -> label -> Prop :=
| fs_star : front_sign "*"%byte LStar
| fs_minus : front_sign "-"%byte LMinus
| fs_not : front_sign "!"%byte LNot.
(** What binds tighter counts as what binds less tightly. *)
Inductive next_tighter : strength -> strength -> Prop :=
| nt_or : next_tighter Disjunction Conjunction
| nt_and : next_tighter Conjunction Comparison
| nt_compare : next_tighter Comparison BitOr
| nt_bitor : next_tighter BitOr BitXor
| nt_bitxor : next_tighter BitXor BitAnd
| nt_bitand : next_tighter BitAnd Shift
| nt_shift : next_tighter Shift Sum
| nt_sum : next_tighter Sum Product
| nt_product : next_tighter Product Cast
| nt_cast : next_tighter Cast Atom.
Inductive reads_as : strength -> bytes -> rexpr -> Prop :=
| ra_number s n : decimal_text s n -> reads_as Atom s (ENum n)
| ra_hex s n : hex_number s n -> reads_as Atom s (ENum n)
| ra_name x : a_name x -> reads_as Atom x (EName x)
| ra_paren s e : reads_as Disjunction s e -> reads_as Atom ("("%byte :: s ++ [")"%byte]) e
| ra_field s e x : reads_as Atom s e -> (forall m, e <> ENum m) -> a_name x ->
    reads_as Atom (s ++ "."%byte :: x) (EField e (LName x))
| ra_index s e t n : reads_as Atom s e -> (forall m, e <> ENum m) -> decimal_text t n ->
    reads_as Atom (s ++ "."%byte :: t) (EField e (LNum n))
| ra_front c f s e : front_sign c f -> reads_as Atom s e -> reads_as Cast (c :: s) (EField e f)
| ra_cast s e t : reads_as Cast s e -> a_name t ->
    reads_as Cast (s ++ list_byte_of_string " as " ++ t) (ECast e t)
| ra_operation s a t b o sign result left right : sign_of o sign result left right ->
    reads_as left s a -> reads_as right t b ->
    reads_as result (s ++ list_byte_of_string sign ++ t) (EOp o a b)
| ra_tighter l l' s e : next_tighter l l' -> reads_as l' s e -> reads_as l s e
| ra_before l s e : reads_as l s e -> reads_as l (" "%byte :: s) e
| ra_after l s e : reads_as l s e -> reads_as l (s ++ [" "%byte]) e.

(** No comparisons, no [&&] and [||]. *)
Definition computes (o : binop) : Prop :=
  match o with
  | Plus | Minus | Times | Divide | Remainder | ShiftLeft | ShiftRight | AndBits | XorBits | OrBits => True
  | _ => False
  end.
(** Operators that compute, no [as] and nothing in front of an operand. *)
Fixpoint plain_expr (e : rexpr) : Prop :=
  match e with
  | ENum _ | EName _ => True
  | EField e f => plain_expr e /\ match f with LName _ | LNum _ => True | _ => False end
  | ECast _ _ => False
  | EOp o a b => computes o /\ plain_expr a /\ plain_expr b
  end.
(** The first operand is one of these names, and not a field of it; it may be in
    parentheses of its own. *)
Definition name_first (names : list bytes) (text : bytes) : Prop :=
  exists s x rest, text = s ++ rest /\ reads_as Atom s (EName x) /\ In x names /\
    (rest = [] \/ exists c r, rest = c :: r /\ In c (list_byte_of_string "+-*/%&|^<>")).

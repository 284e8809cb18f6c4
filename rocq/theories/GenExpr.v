(** Expressions in attributes, as text: what the derive macros write for them into the
    decoder and into the encoder (derive/src/jbytes/parse.rs:101-120, attribute.rs:184-207,
    encode.rs:7-18), and what rustc makes of it.

    The expressions are those made of numbers, names, field access, the operators [* - !]
    in front, [as], the operators between two operands and parentheses. *)
From Coq Require Import Ascii String.
From Verif Require Import Base Ints Text AttrParse.
Close Scope string_scope.

(** ** rustc: from text to tokens *)
Inductive binop :=
| Plus | Minus | Times | Divide | Remainder
| ShiftLeft | ShiftRight | AndBits | XorBits | OrBits
| IsEqual | Differs | Less | Greater | AtMost | AtLeast
| AndAlso | OrElse.
Inductive token :=
| TName (x : bytes) | TNum (n : N) | TOp (o : binop) | TNot | TOpen | TClose | TDot | TAs.

Definition is_digit (c : byte) : bool := let v := b2n c in (48 <=? v) && (v <=? 57).
Definition is_word (c : byte) : bool :=
  let v := b2n c in
  is_digit c || ((65 <=? v) && (v <=? 90)) || ((97 <=? v) && (v <=? 122)) || (v =? 95).
Definition is_hex (c : byte) : bool :=
  let v := b2n c in is_digit c || ((65 <=? v) && (v <=? 70)) || ((97 <=? v) && (v <=? 102)).
Definition hex_value (c : byte) : N :=
  let v := b2n c in if is_digit c then v - 48 else if v <=? 70 then v - 55 else v - 87.
(** A word: a number, [as] or a name. Numbers are decimal or hexadecimal, without suffixes
    or underscores. *)
Definition word_token (w : bytes) : option token :=
  match w with
  | [] => None
  | c :: _ =>
      if is_digit c then
        match w with
        | "0"%byte :: "x"%byte :: (_ :: _) as h =>
            if forallb is_hex h then Some (TNum (fold_left (fun n d => 16 * n + hex_value d) h 0)) else None
        | _ => if forallb is_digit w then Some (TNum (fold_left (fun n d => 10 * n + (b2n d - 48)) w 0)) else None
        end
      else if bytes_eqb w (txt "as") then Some TAs
      else Some (TName w)
  end.
Definition punct_token (c : byte) : option (list token) :=
  match c with
  | "("%byte => Some [TOpen]
  | ")"%byte => Some [TClose]
  | "."%byte => Some [TDot]
  | "+"%byte => Some [TOp Plus]
  | "-"%byte => Some [TOp Minus]
  | "*"%byte => Some [TOp Times]
  | "/"%byte => Some [TOp Divide]
  | "%"%byte => Some [TOp Remainder]
  | "&"%byte => Some [TOp AndBits]
  | "^"%byte => Some [TOp XorBits]
  | "|"%byte => Some [TOp OrBits]
  | "<"%byte => Some [TOp Less]
  | ">"%byte => Some [TOp Greater]
  | "!"%byte => Some [TNot]
  | " "%byte => Some []
  | _ => None
  end.
(** Two characters that make one operator. *)
Definition punct_pair (c d : byte) : option binop :=
  match c, d with
  | "<"%byte, "<"%byte => Some ShiftLeft
  | ">"%byte, ">"%byte => Some ShiftRight
  | "="%byte, "="%byte => Some IsEqual
  | "!"%byte, "="%byte => Some Differs
  | "<"%byte, "="%byte => Some AtMost
  | ">"%byte, "="%byte => Some AtLeast
  | "&"%byte, "&"%byte => Some AndAlso
  | "|"%byte, "|"%byte => Some OrElse
  | _, _ => None
  end.
Definition flush (w : bytes) (rest : option (list token)) : option (list token) :=
  match w with
  | [] => rest
  | _ => match word_token w, rest with Some t, Some l => Some (t :: l) | _, _ => None end
  end.
Definition then_tokens (ts : list token) (l : option (list token)) : option (list token) :=
  match l with Some l => Some (ts ++ l) | None => None end.
Definition punct (w : bytes) (c : byte) (rest : option (list token)) : option (list token) :=
  match punct_token c with Some ts => flush w (then_tokens ts rest) | None => None end.
(** [w]: the word being read. Longer operators go first. ([<-] is one token in Rust, and
    not an operator; here it is [<] and [-].) *)
Fixpoint lex (w : bytes) (s : bytes) : option (list token) :=
  match s with
  | [] => flush w (Some [])
  | c :: r =>
      if is_word c then lex (w ++ [c]) r
      else
        let one := punct w c (lex [] r) in
        match r with
        | d :: r' => match punct_pair c d with Some o => flush w (then_tokens [TOp o] (lex [] r')) | None => one end
        | [] => one
        end
  end.

(** ** rustc: from tokens to expressions *)

(** What is made of one value: a field, by name or number; what it refers to; [-] and [!]. *)
Inductive label := LName (x : bytes) | LNum (n : N) | LStar | LMinus | LNot.
Inductive rexpr :=
| ENum (n : N)
| EName (x : bytes)
| EField (e : rexpr) (f : label)  (** [e.f], [*e], [-e], [!e] *)
| ECast (e : rexpr) (t : bytes)
| EOp (o : binop) (a b : rexpr).
(** How tightly operators bind; a higher number binds tighter. *)
Definition prec (o : binop) : nat :=
  match o with
  | OrElse => 0
  | AndAlso => 1
  | IsEqual | Differs | Less | Greater | AtMost | AtLeast => 2
  | OrBits => 3
  | XorBits => 4
  | AndBits => 5
  | ShiftLeft | ShiftRight => 6
  | Plus | Minus => 7
  | Times | Divide | Remainder => 8
  end.
Definition compares (o : binop) : bool := (prec o =? 2)%nat.
(** [a == b == c] is refused. *)
Definition compares_next (ts : list token) : bool := match ts with TOp o :: _ => compares o | _ => false end.
Definition in_front (t : token) : option label :=
  match t with TOp Times => Some LStar | TOp Minus => Some LMinus | TNot => Some LNot | _ => None end.
(** An expression whose operators bind at least as tightly as [level], and what is left.
    Levels: those of [prec], 9 casts, 10 operators in front and fields. rustc refuses a
    field of a cast without parentheses, [a as t.f], and [a as t < b], [a as t << b]; not
    this. *)
Fixpoint parse (fuel level : nat) (ts : list token) : option (rexpr * list token) :=
  match fuel with
  | O => None
  | S k =>
      match ts with
      | TNum n :: r => extend k level (ENum n) r
      | TName x :: r => extend k level (EName x) r
      | TOpen :: r =>
          match parse k 0 r with
          | Some (e, TClose :: r') => extend k level e r'
          | _ => None
          end
      | t :: r =>
          match in_front t with
          | Some f =>
              match parse k 10 r with
              | Some (e, r') => extend k level (EField e f) r'
              | None => None
              end
          | None => None
          end
      | [] => None
      end
  end
(** [a] and what follows it. *)
with extend (fuel level : nat) (a : rexpr) (ts : list token) : option (rexpr * list token) :=
  match fuel with
  | O => None
  | S k =>
      match ts with
      | TDot :: TName f :: r => extend k level (EField a (LName f)) r
      | TDot :: TNum n :: r => extend k level (EField a (LNum n)) r
      | TAs :: TName t :: r => if (9 <? level)%nat then Some (a, ts) else extend k level (ECast a t) r
      | TOp o :: r =>
          if (prec o <? level)%nat then Some (a, ts)
          else
            match parse k (S (prec o)) r with
            | Some (b, r') =>
                if compares o && compares_next r' then None else extend k level (EOp o a b) r'
            | None => None
            end
      | _ => Some (a, ts)
      end
  end.
Definition parse_all (ts : list token) : option rexpr :=
  match parse (2 * length ts + 2) 0 ts with Some (e, []) => Some e | _ => None end.

(** ** rustc: what an expression means *)

(** Numbers, operators, casts and fields of values of any kind. [None]: refused. ([&&] and
    [||] evaluate both operands here.) *)
Record arithmetic (V : Type) := mkarithmetic {
  a_num : N -> option V;
  a_op : binop -> V -> V -> option V;
  a_cast : bytes -> V -> option V;
  a_get : V -> label -> option V }.
Arguments a_num {V}. Arguments a_op {V}. Arguments a_cast {V}. Arguments a_get {V}.
Fixpoint eval {V} (A : arithmetic V) (scope : bytes -> option V) (e : rexpr) : option V :=
  match e with
  | ENum n => a_num A n
  | EName x => scope x
  | EField e f => match eval A scope e with Some v => a_get A v f | None => None end
  | ECast e t => match eval A scope e with Some v => a_cast A t v | None => None end
  | EOp o a b =>
      match eval A scope a, eval A scope b with Some v, Some w => a_op A o v w | _, _ => None end
  end.
Definition code_value {V} (A : arithmetic V) (scope : bytes -> option V) (code : bytes) : option V :=
  match lex [] code with
  | Some ts => match parse_all ts with Some e => eval A scope e | None => None end
  | None => None
  end.

(** ** The macros *)

(** parse.rs:109, [AttrValue::Var(v)] without [deref_arg] *)
Definition var_code (is_self : bool) (v : bytes) : bytes :=
  txt "(" ++ (if is_self then txt "self." else []) ++ v ++ txt ") as usize".
(** parse.rs:141-151, [AttrValue::Var(v)]: the argument of [ByteOrder::parse_int] *)
Definition order_code (is_self : bool) (v : bytes) : bytes :=
  (if is_self then txt "self." else []) ++ v ++ txt " as isize".
(** [names.join(", ")], [haystack.contains(needle)] *)
Fixpoint join_names (l : list bytes) : bytes :=
  match l with
  | [] => []
  | [x] => x
  | x :: r => x ++ txt ", " ++ join_names r
  end.
Fixpoint has_text (needle s : bytes) : bool :=
  starts_with needle s || match s with [] => false | _ :: r => has_text needle r end.
(** attribute.rs:187-194: the code for [length], given the names in
    [get_variable_name] of the container *)
Definition length_code (variables : option (list bytes)) (is_self : bool) (v : bytes) : bytes :=
  match variables with
  | Some l => if has_text v (join_names l) then var_code false v else var_code is_self v
  | None => var_code is_self v
  end.

(** The variables in scope of the code for a field: in the decoder the fields before it
    (decode.rs), in the encoder of a struct [self]; in both whatever else there is:
    constants, and the variables of [get_variable_name]. *)
Definition decoder_scope {V} (before : list (bytes * V)) (others : bytes -> option V) (x : bytes) : option V :=
  match find (fun xv => bytes_eqb x (fst xv)) before with Some (_, v) => Some v | None => others x end.
Definition encoder_scope {V} (self : V) (others : bytes -> option V) (x : bytes) : option V :=
  if bytes_eqb x (txt "self") then Some self else others x.

(** ** Variants *)

(** In the encoder of a variant the fields are references (derive_enum.rs:441-463). *)
Inductive place (V : Type) := Value (v : V) | Reference (v : V).
Arguments Value {V}. Arguments Reference {V}.
Definition target {V} (p : place V) : V := match p with Value v | Reference v => v end.
(** rustc: operators take references as well as values, and give values; so does the access
    to a field. But comparisons take two of a kind, [&&] and [||] values only; references
    cannot be cast, values cannot be dereferenced. *)
Definition takes {V} (o : binop) (p q : place V) : bool :=
  match o, p, q with
  | (AndAlso | OrElse), Value _, Value _ => true
  | (AndAlso | OrElse), _, _ => false
  | (IsEqual | Differs | Less | Greater | AtMost | AtLeast), Value _, Value _ => true
  | (IsEqual | Differs | Less | Greater | AtMost | AtLeast), Reference _, Reference _ => true
  | (IsEqual | Differs | Less | Greater | AtMost | AtLeast), _, _ => false
  | _, _, _ => true
  end.
Definition with_references {V} (A : arithmetic V) : arithmetic (place V) :=
  mkarithmetic (place V)
    (fun n => option_map Value (a_num A n))
    (fun o p q => if takes o p q then option_map Value (a_op A o (target p) (target q)) else None)
    (fun t p => match p with Value v => option_map Value (a_cast A t v) | Reference _ => None end)
    (fun p f =>
       match f, p with
       | LStar, Reference v => Some (Value v)
       | LStar, Value _ => None
       | _, _ => option_map Value (a_get A (target p) f)
       end).
Definition variant_scope {V} (fields : list (bytes * V)) (others : bytes -> option V) (x : bytes) : option (place V) :=
  match find (fun xv => bytes_eqb x (fst xv)) fields with
  | Some (_, v) => Some (Reference v)
  | None => option_map Value (others x)
  end.
(** parse.rs:85-93 with [deref_arg]: fields of variants with names (derive_enum.rs:533); also
    [offset] in any variant (encode.rs:12-15, parse.rs:106-112). Fields of tuple variants
    have the code [var_code false] (derive_enum.rs:545), and [byteorder] has
    [order_code false] in both. *)
Definition star_code (v : bytes) : bytes := txt "(*" ++ v ++ txt ") as usize".

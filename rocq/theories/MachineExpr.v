(** Expressions in attributes, computed as rustc does: in the types of the fields, with and
    without overflow checks. The generated code is compiled in the crate that derives it, so
    that crate's profile decides about the checks, not that of jbytes (Cargo.toml:38-40). *)
From Coq Require Import Ascii String.
From Verif Require Import Base Ints Sugar AttrParse GenExpr GenDecode Source Schema.
Close Scope string_scope.

(** [Literal]: a number in the text, whose type the other operand decides. [Panicked]: what
    the program does there. [Members]: a struct. *)
Inductive machine :=
| Whole (t : ity) (z : Z)
| Literal (z : Z)
| Truth (b : bool)
| Panicked
| Members (l : list (bytes * machine)).

Definition ity_dec (t u : ity) : {t = u} + {t <> u}.
Proof. decide equality. Defined.
(** [u8], ..., [isize] *)
Definition integer_types : list (string * ity) :=
  [("u8", U8); ("u16", U16); ("u32", U32); ("u64", U64); ("usize", Usize); ("u128", U128);
   ("i8", I8); ("i16", I16); ("i32", I32); ("i64", I64); ("isize", Isize); ("i128", I128)]%string.
Definition integer_type (x : bytes) : option ity :=
  option_map snd (find (fun nt => bytes_eqb x (txt (fst nt))) integer_types).
Definition bits_of (t : ity) : Z := (8 * Z.of_nat (isize_of t))%Z.

(** [+], [-], [*] and [-] in front *)
Definition fitted (checks : bool) (t : ity) (z : Z) : machine :=
  if in_rangeb t z then Whole t z else if checks then Panicked else Whole t (cast t z).
Definition compared (o : binop) (x y : Z) : option bool :=
  match o with
  | IsEqual => Some (x =? y)%Z
  | Differs => Some (negb (x =? y)%Z)
  | Less => Some (x <? y)%Z
  | Greater => Some (y <? x)%Z
  | AtMost => Some (x <=? y)%Z
  | AtLeast => Some (y <=? x)%Z
  | _ => None
  end.
(** Operators on two numbers of one type. [/] and [%] round towards 0, and panic on 0 and
    on overflow in every profile. *)
Definition calculate (checks : bool) (o : binop) (t : ity) (x y : Z) : option machine :=
  match o with
  | Plus => Some (fitted checks t (x + y))
  | Minus => Some (fitted checks t (x - y))
  | Times => Some (fitted checks t (x * y))
  | Divide => Some (if (y =? 0)%Z then Panicked else if in_rangeb t (Z.quot x y) then Whole t (Z.quot x y) else Panicked)
  | Remainder => Some (if (y =? 0)%Z then Panicked else if in_rangeb t (Z.quot x y) then Whole t (Z.rem x y) else Panicked)
  | AndBits => Some (Whole t (Z.land x y))
  | XorBits => Some (Whole t (Z.lxor x y))
  | OrBits => Some (Whole t (Z.lor x y))
  | _ => option_map Truth (compared o x y)
  end.
(** Operators on truth values; [false < true]. *)
Definition connected (o : binop) (a b : bool) : option machine :=
  match o with
  | AndAlso | AndBits => Some (Truth (a && b))
  | OrElse | OrBits => Some (Truth (a || b))
  | XorBits => Some (Truth (xorb a b))
  | _ => option_map Truth (compared o (Z.b2z a) (Z.b2z b))
  end.
(** [&&] and [||] may leave out the second operand, whatever it does. *)
Definition cut_short (o : binop) (a : bool) : machine :=
  match o with
  | AndAlso => if a then Panicked else Truth false
  | OrElse => if a then Truth true else Panicked
  | _ => Panicked
  end.
(** [<<] and [>>]: the second number may have another type. Without checks its high bits
    are cut off. *)
Definition shifted (o : binop) (t : ity) (x y : Z) : option machine :=
  match o with
  | ShiftLeft => Some (Whole t (cast t (Z.shiftl x y)))
  | ShiftRight => Some (Whole t (Z.shiftr x y))
  | _ => None
  end.
Definition shift (checks : bool) (o : binop) (t : ity) (x y : Z) : option machine :=
  if ((0 <=? y) && (y <? bits_of t))%Z then shifted o t x y
  else if checks then Some Panicked else shifted o t x (y mod bits_of t).
Definition shifts (o : binop) : bool := match o with ShiftLeft | ShiftRight => true | _ => false end.
Definition divides (o : binop) : bool := match o with Divide | Remainder => true | _ => false end.
(** A literal must fit the type of the other operand ([overflowing_literals] is an error),
    a literal 0 does not divide ([unconditional_panic]), and a literal shift is within the
    width ([arithmetic_overflow]). Operations on literals alone are left out, and so are
    those shifted: rustc decides about their type later. *)
Definition machine_op (checks : bool) (o : binop) (v w : machine) : option machine :=
  match v, w with
  | Truth a, Truth b => connected o a b
  | Truth a, Panicked => Some (cut_short o a)
  | Panicked, _ | _, Panicked => Some Panicked
  | Whole t x, Whole u y =>
      if shifts o then shift checks o t x y
      else if ity_dec t u then calculate checks o t x y else None
  | Whole t x, Literal y =>
      if shifts o then (if ((0 <=? y) && (y <? bits_of t))%Z then shift checks o t x y else None)
      else if in_rangeb t y && negb (divides o && (y =? 0)%Z) then calculate checks o t x y else None
  | Literal x, Whole t y =>
      if shifts o then None
      else if in_rangeb t x then calculate checks o t x y else None
  | _, _ => None
  end.
Definition machine_cast (name : bytes) (v : machine) : option machine :=
  match integer_type name, v with
  | Some u, Whole _ z => Some (Whole u (cast u z))
  | Some u, Literal z => if in_rangeb u z then Some (Whole u z) else None
  | Some u, Truth b => Some (Whole u (Z.b2z b))
  | Some _, Panicked => Some Panicked
  | _, _ => None
  end.
(** [-] only before signed numbers; [!] turns all bits. *)
Definition machine_get (checks : bool) (v : machine) (f : label) : option machine :=
  match f, v with
  | LMinus, Whole t z => if signed t then Some (fitted checks t (- z)) else None
  | LMinus, Literal z => Some (Literal (- z))
  | LMinus, Panicked => Some Panicked
  | LNot, Whole t z => Some (Whole t (cast t (- z - 1)))
  | LNot, Truth b => Some (Truth (negb b))
  | LNot, Panicked => Some Panicked
  | LName x, Members l => option_map snd (find (fun xv => bytes_eqb x (fst xv)) l)
  | _, _ => None
  end.
Definition machine_arithmetic (checks : bool) : arithmetic machine :=
  mkarithmetic machine (fun n => Some (Literal (Z.of_N n))) (machine_op checks) machine_cast (machine_get checks).

(** ** Structs

    derive_struct.rs:87-186: the local variables a decoder has for the fields read so far,
    with their types. Fields that are neither integers nor truth values are left out. *)
Definition variables (types : bytes -> option ty) (names : list bytes) (vs : list val) (x : bytes) : option machine :=
  match find (fun xv => bytes_eqb x (fst xv)) (combine names vs), types x with
  | Some (_, VInt z), Some (TInt t) => Some (Whole t z)
  | Some (_, VBool b), Some TBool => Some (Truth b)
  | _, _ => None
  end.
(** The number in an attribute, without overflow checks. (Where dividing by a field that is
    0 panics, this is 0.) *)
Definition machine_number (types : bytes -> option ty) (code : bool -> bytes -> bytes) (names : list bytes) (text : bytes) : expr :=
  fun en =>
    match code_value (machine_arithmetic false) (variables types names (ev_fields en)) (code false text) with
    | Some (Whole _ z) => z
    | _ => 0%Z
    end.
(** derive/src/jbytes/decode.rs:57-61: [if {if_expr} {], likewise. (Where it panics, this is
    [false].) *)
Definition machine_condition (types : bytes -> option ty) (names : list bytes) (text : bytes) : env -> bool :=
  fun en =>
    match code_value (machine_arithmetic false) (variables types names (ev_fields en)) text with
    | Some (Truth b) => b
    | _ => false
    end.
(** decode.rs:57-61: the attributes of a field whose conditions mean that. *)
Definition machine_conditions (types : bytes -> option ty) (names : list bytes) (m : meaning) : meaning :=
  mkmeaning (m_number m) (m_order m) (machine_condition types names) (m_function m) (m_value m) (m_literal m) (m_name m) (m_default m)
            (m_from_str m) (m_decoder m) (m_encoder m).
Definition types_of (s : source) (x : bytes) : option ty :=
  option_map s_type (find (fun f => bytes_eqb x (s_name f)) (s_fields s)).
(** The decoder derived for a struct, as in Source.v. *)
Definition machine_decoder (s : source) : option decl := derived (machine_number (types_of s)) s.

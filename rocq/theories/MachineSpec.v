(** The numbers that expressions stand for in mathematics, and in a type. *)
From Coq Require Import Ascii String.
From Verif Require Import Base Ints GenExpr TextSpec.
Close Scope string_scope.

(** The value of the type that differs from [z] by a multiple of the number of its values. *)
Definition wraps_to (t : ity) (z w : Z) : Prop := in_range t w /\ exists k, z = (w + k * imod t)%Z.
Definition width (t : ity) : Z := (8 * Z.of_nat (isize_of t))%Z.

Inductive type_name : bytes -> ity -> Prop :=
| tn_u8 : type_name (list_byte_of_string "u8") U8
| tn_u16 : type_name (list_byte_of_string "u16") U16
| tn_u32 : type_name (list_byte_of_string "u32") U32
| tn_u64 : type_name (list_byte_of_string "u64") U64
| tn_usize : type_name (list_byte_of_string "usize") Usize
| tn_u128 : type_name (list_byte_of_string "u128") U128
| tn_i8 : type_name (list_byte_of_string "i8") I8
| tn_i16 : type_name (list_byte_of_string "i16") I16
| tn_i32 : type_name (list_byte_of_string "i32") I32
| tn_i64 : type_name (list_byte_of_string "i64") I64
| tn_isize : type_name (list_byte_of_string "isize") Isize
| tn_i128 : type_name (list_byte_of_string "i128") I128.

(** What an operator makes of two numbers. Division rounds towards 0; [q] is the
    quotient. *)
Inductive amounts : binop -> Z -> Z -> Z -> Prop :=
| am_plus x y : amounts Plus x y (x + y)
| am_minus x y : amounts Minus x y (x - y)
| am_times x y : amounts Times x y (x * y)
| am_and x y : amounts AndBits x y (Z.land x y)
| am_or x y : amounts OrBits x y (Z.lor x y)
| am_xor x y : amounts XorBits x y (Z.lxor x y).
Definition quotient (x y q r : Z) : Prop := (x = q * y + r /\ Z.abs r < Z.abs y /\ (r = 0 \/ Z.sgn r = Z.sgn x))%Z.
Definition numeral (e : rexpr) : Prop := exists n, e = ENum n.

(** ** Types *)

(** An expression of integers of one type; numbers in it take that type. *)
Section Types.
Context (types : bytes -> option ity).
Inductive has_type : rexpr -> ity -> Prop :=
| ht_name x t : types x = Some t -> has_type (EName x) t
| ht_op o a b t : In o [Plus; Minus; Times; AndBits; OrBits; XorBits; Divide; Remainder] ->
    ~ (numeral a /\ numeral b) -> (In o [Divide; Remainder] -> b <> ENum 0) ->
    fits_type a t -> fits_type b t -> has_type (EOp o a b) t
| ht_shift o a b t u : In o [ShiftLeft; ShiftRight] -> has_type a t -> has_type b u -> has_type (EOp o a b) t
| ht_shift_number o a n t : In o [ShiftLeft; ShiftRight] -> has_type a t -> (Z.of_N n < width t)%Z -> has_type (EOp o a (ENum n)) t
| ht_cast e t name u : has_type e t -> type_name name u -> has_type (ECast e name) u
| ht_cast_number n name u : in_range u (Z.of_N n) -> type_name name u -> has_type (ECast (ENum n) name) u
| ht_minus e t : has_type e t -> (imin t < 0)%Z -> has_type (EField e LMinus) t
| ht_not e t : has_type e t -> has_type (EField e LNot) t
with fits_type : rexpr -> ity -> Prop :=
| ft_number n t : in_range t (Z.of_N n) -> fits_type (ENum n) t
| ft_type e t : has_type e t -> fits_type e t.
End Types.

(** ** Values *)

(** [value e t z]: the expression has this type and, as a matter of arithmetic, this value,
    and so has every part of it: no part leaves its type. (The bits shifted out at the left
    and those cut off by [as] are lost.) *)
Section Values.
Context (scope : bytes -> option (ity * Z)).
Inductive value : rexpr -> ity -> Z -> Prop :=
| va_name x t z : scope x = Some (t, z) -> value (EName x) t z
| va_op o a b t x y z : ~ (numeral a /\ numeral b) -> operand a t x -> operand b t y -> amounts o x y z -> in_range t z ->
    value (EOp o a b) t z
| va_divide a b t x y q r : ~ (numeral a /\ numeral b) -> operand a t x -> operand b t y -> quotient x y q r -> in_range t q ->
    value (EOp Divide a b) t q
| va_remainder a b t x y q r : ~ (numeral a /\ numeral b) -> operand a t x -> operand b t y -> quotient x y q r -> in_range t q ->
    value (EOp Remainder a b) t r
| va_left a b t x y z : value a t x -> amount b y -> (0 <= y < width t)%Z -> wraps_to t (x * 2 ^ y) z -> value (EOp ShiftLeft a b) t z
| va_right a b t x y z : value a t x -> amount b y -> (0 <= y < width t)%Z -> (z * 2 ^ y <= x < (z + 1) * 2 ^ y)%Z -> value (EOp ShiftRight a b) t z
| va_cast e t x name u z : value e t x -> type_name name u -> wraps_to u x z -> value (ECast e name) u z
| va_cast_number n name u : type_name name u -> in_range u (Z.of_N n) -> value (ECast (ENum n) name) u (Z.of_N n)
| va_minus e t x : value e t x -> (imin t < 0)%Z -> in_range t (- x) -> value (EField e LMinus) t (- x)
| va_not e t x : value e t x -> value (EField e LNot) t (if (imin t <? 0)%Z then - x - 1 else imax t - x)
with operand : rexpr -> ity -> Z -> Prop :=
| op_number n t : in_range t (Z.of_N n) -> operand (ENum n) t (Z.of_N n)
| op_value e t z : value e t z -> operand e t z
with amount : rexpr -> Z -> Prop :=
| at_number n : amount (ENum n) (Z.of_N n)
| at_value e u y : value e u y -> amount e y.
End Values.

(** The value of sums, differences and products, whatever the type. *)
Inductive sum_of (scope : bytes -> option Z) : rexpr -> Z -> Prop :=
| so_number n : sum_of scope (ENum n) (Z.of_N n)
| so_name x z : scope x = Some z -> sum_of scope (EName x) z
| so_plus a b x y : sum_of scope a x -> sum_of scope b y -> sum_of scope (EOp Plus a b) (x + y)
| so_minus a b x y : sum_of scope a x -> sum_of scope b y -> sum_of scope (EOp Minus a b) (x - y)
| so_times a b x y : sum_of scope a x -> sum_of scope b y -> sum_of scope (EOp Times a b) (x * y).
(** There is a division in it. *)
Fixpoint has_division (e : rexpr) : Prop :=
  match e with
  | ENum _ | EName _ => False
  | EField e _ | ECast e _ => has_division e
  | EOp o a b => In o [Divide; Remainder] \/ has_division a \/ has_division b
  end.
(** The integers among the fields read so far, with their types. *)
Definition integers_of {T V} (is_type : T -> option ity) (is_int : V -> option Z) (fields : list (bytes * (T * V))) (x : bytes) : option (ity * Z) :=
  match find (fun f => if list_eq_dec Byte.byte_eq_dec x (fst f) then true else false) fields with
  | Some (_, (t, v)) => match is_type t, is_int v with Some t, Some z => Some (t, z) | _, _ => None end
  | None => None
  end.
(** And the truth values. *)
Definition truths_of {T V} (is_bool : T -> bool) (is_truth : V -> option bool) (fields : list (bytes * (T * V))) (x : bytes) : option bool :=
  match find (fun f => if list_eq_dec Byte.byte_eq_dec x (fst f) then true else false) fields with
  | Some (_, (t, v)) => if is_bool t then is_truth v else None
  | None => None
  end.

(** ** Conditions *)

(** Operators on two truth values, both of which are needed. *)
Inductive connective : binop -> (bool -> bool -> bool) -> Prop :=
| co_and : connective AndBits (fun a b => if a then b else false)
| co_or : connective OrBits (fun a b => if a then true else b)
| co_xor : connective XorBits (fun a b => if a then negb b else b)
| co_equal : connective IsEqual (fun a b => if a then b else negb b)
| co_differs : connective Differs (fun a b => if a then negb b else b)
| co_less : connective Less (fun a b => if a then false else b)
| co_greater : connective Greater (fun a b => if a then negb b else false)
| co_at_most : connective AtMost (fun a b => if a then b else true)
| co_at_least : connective AtLeast (fun a b => if a then true else negb b).
(** Comparisons of numbers of one type and fields that hold truth values, connected by
    [&&], [||], [!] and the operators above. *)
Section Conditions.
Context (types : bytes -> option ity) (is_flag : bytes -> Prop).
Inductive is_condition : rexpr -> Prop :=
| ic_flag x : is_flag x -> is_condition (EName x)
| ic_compare o a b t : In o [IsEqual; Differs; Less; Greater; AtMost; AtLeast] -> ~ (numeral a /\ numeral b) ->
    fits_type types a t -> fits_type types b t -> is_condition (EOp o a b)
| ic_and a b : is_condition a -> is_condition b -> is_condition (EOp AndAlso a b)
| ic_or a b : is_condition a -> is_condition b -> is_condition (EOp OrElse a b)
| ic_not e : is_condition e -> is_condition (EField e LNot)
| ic_both o f a b : connective o f -> is_condition a -> is_condition b -> is_condition (EOp o a b).
End Conditions.
Inductive relation : binop -> (Z -> Z -> Prop) -> Prop :=
| re_equal : relation IsEqual (fun x y => x = y)
| re_differs : relation Differs (fun x y => x <> y)
| re_less : relation Less (fun x y => (x < y)%Z)
| re_greater : relation Greater (fun x y => (y < x)%Z)
| re_at_most : relation AtMost (fun x y => (x <= y)%Z)
| re_at_least : relation AtLeast (fun x y => (y <= x)%Z).
(** Whether a condition is true, as a matter of arithmetic. The second operand of [&&] and
    [||] need have no value if the first decides. *)
Section Truth.
Context (scope : bytes -> option (ity * Z)) (flags : bytes -> option bool).
Let compiles : rexpr -> Prop := is_condition (fun x => option_map fst (scope x)) (fun x => flags x <> None).
Inductive decides : rexpr -> bool -> Prop :=
| de_flag x b : flags x = Some b -> decides (EName x) b
| de_true o R a b t x y : relation o R -> ~ (numeral a /\ numeral b) -> operand scope a t x -> operand scope b t y -> R x y -> decides (EOp o a b) true
| de_false o R a b t x y : relation o R -> ~ (numeral a /\ numeral b) -> operand scope a t x -> operand scope b t y -> ~ R x y -> decides (EOp o a b) false
| de_and a b c : decides a true -> decides b c -> decides (EOp AndAlso a b) c
| de_and_not a b : decides a false -> compiles b -> decides (EOp AndAlso a b) false
| de_or a b c : decides a false -> decides b c -> decides (EOp OrElse a b) c
| de_or_so a b : decides a true -> compiles b -> decides (EOp OrElse a b) true
| de_not e b : decides e b -> decides (EField e LNot) (negb b)
| de_both o f a b c d : connective o f -> decides a c -> decides b d -> decides (EOp o a b) (f c d).
End Truth.

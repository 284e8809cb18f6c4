(** What the theorems about conditions, checks and changed values talk about. *)
From Coq Require Import Ascii String.
From Verif Require Import Base Ints GenExpr GenExprSpec Schema.
Close Scope string_scope.

(** What rustc reads in [x != text]: [!=] takes the first operand of [&&] and [||]. *)
Inductive compared (x : bytes) : strength -> bytes -> rexpr -> Prop :=
| cm_plain s e : reads_as BitOr s e -> compared x Comparison s (EOp Differs (EName x) e)
| cm_and s a t b : compared x Conjunction s a -> reads_as Comparison t b ->
    compared x Conjunction (s ++ list_byte_of_string "&&" ++ t) (EOp AndAlso a b)
| cm_or s a t b : compared x Disjunction s a -> reads_as Conjunction t b ->
    compared x Disjunction (s ++ list_byte_of_string "||" ++ t) (EOp OrElse a b)
| cm_conjunction s e : compared x Comparison s e -> compared x Conjunction s e
| cm_disjunction s e : compared x Conjunction s e -> compared x Disjunction s e.

(** The text begins with a comparison. *)
Inductive begins_comparison : bytes -> Prop :=
| bc_sign s a o sign t b rest : sign_of o sign Comparison BitOr BitOr -> reads_as BitOr s a -> reads_as BitOr t b ->
    begins_comparison (s ++ list_byte_of_string sign ++ t ++ rest).

(** An expression over the fields, and how [value_encode] has to put it. In a struct the
    fields are written [self.k]. The fields in [own] are local variables, and references:
    they are not cast, and not compared with values; [*x] is what [x] refers to. *)
Definition a_reference (own : bytes -> Prop) (e : rexpr) : Prop := exists k, e = EName k /\ own k.
Definition a_comparison (o : binop) : Prop := exists sign, sign_of o sign Comparison BitOr BitOr.
Inductive put (fields : list bytes) (in_struct : bool) (own : bytes -> Prop) : rexpr -> rexpr -> Prop :=
| pu_num n : put fields in_struct own (ENum n) (ENum n)
| pu_field k : in_struct = true -> In k fields ->
    put fields in_struct own (EName k) (EField (EName (list_byte_of_string "self")) (LName k))
| pu_own k : own k -> put fields in_struct own (EName k) (EName k)
| pu_star k : own k -> put fields in_struct own (EName k) (EField (EName k) LStar)
| pu_name k : ~ In k fields -> put fields in_struct own (EName k) (EName k)
| pu_get e e' f : put fields in_struct own e e' -> f <> LStar -> put fields in_struct own (EField e f) (EField e' f)
| pu_cast e e' t : put fields in_struct own e e' -> ~ a_reference own e' ->
    put fields in_struct own (ECast e t) (ECast e' t)
| pu_op o a a' b b' : put fields in_struct own a a' -> put fields in_struct own b b' ->
    computes o \/ (~ a_reference own a' /\ ~ a_reference own b') \/
      (a_comparison o /\ a_reference own a' /\ a_reference own b') ->
    put fields in_struct own (EOp o a b) (EOp o a' b').
(** What is to be written for a field with the value [v]. *)
Definition to_write (A : arithmetic val) (others : bytes -> option val) (fields : list (bytes * val)) (in_struct : bool)
                    (own : bytes -> Prop) (value_encode : option bytes) (v w : val) : Prop :=
  match value_encode with
  | None => w = v
  | Some text => exists e e', reads_as Disjunction text e' /\ put (map fst fields) in_struct own e e' /\
                   eval A (decoder_scope fields others) e = Some w
  end.
(** The fields of a variant before the one with the number [i] that have a [value_encode]. *)
Definition rewritten_before (fs : list (bytes * option bytes)) (i : nat) (k : bytes) : Prop :=
  exists text, In (k, Some text) (firstn i fs).
(** The variables of an expression. *)
Fixpoint mentions (e : rexpr) (x : bytes) : Prop :=
  match e with
  | ENum _ => False
  | EName y => x = y
  | EField e _ | ECast e _ => mentions e x
  | EOp _ a b => mentions a x \/ mentions b x
  end.

(** Unsigned numbers of so many bits, as overflow checks are off. [&&] and [||] for truth
    values. *)
Definition machine (bits : N) : arithmetic val :=
  let z := Z.of_N (2 ^ bits) in
  let shift (k : Z) := ((0 <=? k) && (k <? Z.of_N bits))%Z in
  mkarithmetic val (fun n => if n <? 2 ^ bits then Some (VInt (Z.of_N n)) else None)
    (fun o a b =>
       match o, a, b with
       | Plus, VInt a, VInt b => Some (VInt ((a + b) mod z))
       | Minus, VInt a, VInt b => Some (VInt ((a - b) mod z))
       | Times, VInt a, VInt b => Some (VInt ((a * b) mod z))
       | Divide, VInt a, VInt b => if b =? 0 then None else Some (VInt (a / b))
       | Remainder, VInt a, VInt b => if b =? 0 then None else Some (VInt (a mod b))
       | ShiftLeft, VInt a, VInt b => if shift b then Some (VInt (Z.shiftl a b mod z)) else None
       | ShiftRight, VInt a, VInt b => if shift b then Some (VInt (Z.shiftr a b)) else None
       | AndBits, VInt a, VInt b => Some (VInt (Z.land a b))
       | XorBits, VInt a, VInt b => Some (VInt (Z.lxor a b))
       | OrBits, VInt a, VInt b => Some (VInt (Z.lor a b))
       | IsEqual, VInt a, VInt b => Some (VBool (a =? b))
       | Differs, VInt a, VInt b => Some (VBool (negb (a =? b)))
       | Less, VInt a, VInt b => Some (VBool (a <? b))
       | Greater, VInt a, VInt b => Some (VBool (b <? a))
       | AtMost, VInt a, VInt b => Some (VBool (a <=? b))
       | AtLeast, VInt a, VInt b => Some (VBool (b <=? a))
       | IsEqual, VBool a, VBool b => Some (VBool (Bool.eqb a b))
       | Differs, VBool a, VBool b => Some (VBool (negb (Bool.eqb a b)))
       | AndAlso, VBool a, VBool b => Some (VBool (a && b))
       | OrElse, VBool a, VBool b => Some (VBool (a || b))
       | _, _, _ => None
       end%Z)
    (fun _ _ => None)
    (fun v f => match f, v with LNot, VBool b => Some (VBool (negb b)) | _, _ => None end).
(** Numbers such a type has. *)
Definition ranges (bits : N) (z : Z) : Prop := (0 <= z < 2 ^ Z.of_N bits)%Z.

(** Which expressions of integers and truth values rustc accepts. *)
From Coq Require Import Ascii String.
From Verif Require Import Base Ints GenExpr MachineSpec.
Close Scope string_scope.

(** The types of the fields that hold numbers. *)
Definition types_in (scope : bytes -> option (ity * Z)) (x : bytes) : option ity := option_map fst (scope x).
(** A number, an expression that has a type, or a condition. *)
Definition accepted (types : bytes -> option ity) (is_flag : bytes -> Prop) (e : rexpr) : Prop :=
  numeral e \/ (exists t, has_type types e t) \/ is_condition types is_flag e.
(** There is an operator that may leave out its second operand. *)
Fixpoint short_cut (e : rexpr) : Prop :=
  match e with
  | ENum _ | EName _ => False
  | EField e _ | ECast e _ => short_cut e
  | EOp o a b => In o [AndAlso; OrElse] \/ short_cut a \/ short_cut b
  end.
(** Expressions the rules say nothing about, although rustc may accept them: operations on
    numbers alone ([4 * 4], [1 << n], [-1], [!1]), [as] after a condition, and [as] with
    another type than an integer's. *)
Inductive left_out (types : bytes -> option ity) (is_flag : bytes -> Prop) : rexpr -> Prop :=
| lo_numbers o a b : numeral a -> numeral b -> left_out types is_flag (EOp o a b)
| lo_shift o a b : In o [ShiftLeft; ShiftRight] -> numeral a -> left_out types is_flag (EOp o a b)
| lo_prefix f a : numeral a -> left_out types is_flag (EField a f)
| lo_truth a name : is_condition types is_flag a -> left_out types is_flag (ECast a name)
| lo_cast a name : (forall t, ~ type_name name t) -> left_out types is_flag (ECast a name)
| lo_first o a b : left_out types is_flag a -> left_out types is_flag (EOp o a b)
| lo_second o a b : left_out types is_flag b -> left_out types is_flag (EOp o a b)
| lo_field a f : left_out types is_flag a -> left_out types is_flag (EField a f)
| lo_as a name : left_out types is_flag a -> left_out types is_flag (ECast a name).

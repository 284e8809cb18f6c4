(** Conditions that are cast to numbers. *)
From Coq Require Import Ascii String.
From Verif Require Import Base Ints GenExpr MachineSpec.
Close Scope string_scope.

(** [counts e e']: [e'] is [e] with conditions that are cast, [c as T], replaced by fields of
    the type [T] that hold 1 if the condition is true and 0 if it is not. *)
Section Counts.
Context (scope : bytes -> option (ity * Z)) (flags : bytes -> option bool).
Inductive counts : rexpr -> rexpr -> Prop :=
| cn_cast c c' b name t y : counts c c' -> decides scope flags c' b -> type_name name t ->
    scope y = Some (t, if b then 1%Z else 0%Z) -> counts (ECast c name) (EName y)
| cn_same e : counts e e
| cn_as e e' name : counts e e' -> counts (ECast e name) (ECast e' name)
| cn_field e e' f : counts e e' -> counts (EField e f) (EField e' f)
| cn_op o a a' b b' : counts a a' -> counts b b' -> counts (EOp o a b) (EOp o a' b').
End Counts.
(** The names in an expression. *)
Fixpoint mentions (x : bytes) (e : rexpr) : Prop :=
  match e with
  | ENum _ => False
  | EName y => x = y
  | EField e _ | ECast e _ => mentions x e
  | EOp _ a b => mentions x a \/ mentions x b
  end.

(** What the theorems about [with_args] talk about. *)
From Coq Require Import Ascii String.
From Verif Require Import Base GenExpr GenExprSpec.
Close Scope string_scope.

Fixpoint comma_list (l : list bytes) : bytes :=
  match l with
  | [] => []
  | [x] => x
  | x :: r => x ++ ","%byte :: comma_list r
  end.
(** The text is these pieces with commas between them, or with one more at the end. *)
Definition listed (text : bytes) (l : list bytes) : Prop :=
  l <> [] /\ Forall (fun x => ~ In ","%byte x) l /\
  (text = comma_list l /\ (exists c, In c (last l []) /\ c <> " "%byte) \/
   exists spaces, Forall (eq " "%byte) spaces /\ text = comma_list l ++ ","%byte :: spaces).

(** The first argument begins with a field and mentions no other, and the rest mention
    none. *)
Definition first_is_field (fields : list bytes) (l : list bytes) : Prop :=
  match l with
  | [] => False
  | x :: r => one_field_first fields x /\ Forall (no_field fields) r
  end.

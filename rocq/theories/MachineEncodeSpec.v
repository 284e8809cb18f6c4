(** Structs whose attributes calculate. *)
From Coq Require Import String List ZArith NArith.
From Verif Require Import Base Ints AttrParse EnumTextSpec AttrSpec GenExpr GenExprSpec Source SourceSpec MachineSpec Schema.
Import ListNotations.

(** The fields hold integers and truth values as their types say. *)
Definition holds (t : ty) (v : val) : Prop :=
  match t with
  | TInt u => exists z, v = VInt z /\ in_range u z
  | TBool => exists b, v = VBool b
  | _ => True
  end.
Definition calculable (t : ty) : bool := match t with TInt _ | TBool => true | _ => false end.
Definition calculable_fields (s : source) : list bytes := map s_name (filter (fun f => calculable (s_type f)) (s_fields s)).
(** The integers before the [i]th field: their types, and their values. *)
Definition integer_type_of (fs : list source_field) (x : bytes) : option ity :=
  match find (fun f => if list_eq_dec Byte.byte_eq_dec x (s_name f) then true else false) fs with
  | Some f => match s_type f with TInt t => Some t | _ => None end
  | None => None
  end.
Definition integer_of (fs : list source_field) (vs : list val) (x : bytes) : option (ity * Z) :=
  match find (fun fv => if list_eq_dec Byte.byte_eq_dec x (s_name (fst fv)) then true else false) (combine fs vs) with
  | Some (f, VInt z) => match s_type f with TInt t => Some (t, z) | _ => None end
  | _ => None
  end.
(** An expression over the fields before the [i]th that compiles in both directions: it
    begins with a field and mentions no other (C66), and has a type. If it divides, it is
    an expression that has a value. *)
Definition calculation (level : strength) (s : source) (vs : list val) (i : nat) (text : bytes) : Prop :=
  one_field_first (calculable_fields s) text /\
  exists e t, reads_as level text e /\ has_type (integer_type_of (firstn i (s_fields s))) e t /\
    (~ has_division e \/ exists z, value (integer_of (firstn i (s_fields s)) (firstn i vs)) e t z).
Definition calculates (s : source) (vs : list val) (i : nat) (e : entry) : Prop :=
  match e with
  | Tag _ => True
  | Property k lit => forall text, string_literal lit text ->
      (called k number_keys -> expression text -> calculation Disjunction s vs i text) /\
      (called k ["byteorder"%string] -> ~ called text ["BE"; ">"; "0"; "LE"; "<"; "1"]%string -> calculation Cast s vs i text)
  end.
Definition all_calculate (s : source) (vs : list val) : Prop :=
  forall i f l, nth_error (s_fields s) i = Some f -> first_line ["jbytes"%string] (s_lines f) l -> Forall (calculates s vs i) l.

(** [with_args]: the further arguments of the functions named by [with], [with_decode] and
    [with_encode], as text (derive/src/jbytes/decode.rs:20-31, encode.rs:24-34). *)
From Coq Require Import Ascii String.
From Verif Require Import Base Ints Text AttrParse GenExpr.
Close Scope string_scope.

(** ** rustc *)

(** Commas separate arguments, and one may follow the last. (The expressions of GenExpr.v
    have none.) *)
Definition blank (s : bytes) : bool := forallb (Byte.eqb " "%byte) s.
Definition pieces (code : bytes) : list bytes :=
  let l := split_on ","%byte code in if blank (last l []) then removelast l else l.
Fixpoint all_some {A} (l : list (option A)) : option (list A) :=
  match l with
  | [] => Some []
  | x :: r => match x, all_some r with Some a, Some m => Some (a :: m) | _, _ => None end
  end.
(** What is handed over; [None]: it does not compile. *)
Definition arguments {V} (A : arithmetic V) (scope : bytes -> option V) (code : bytes) : option (list V) :=
  all_some (map (code_value A scope) (pieces code)).

(** ** The macros *)

(** decode.rs:20-21: behind [fattr_new, ] in the call *)
Definition decoder_args (with_args : option bytes) : bytes :=
  match with_args with Some text => text | None => [] end.
(** encode.rs:24-26: behind the field in the call *)
Definition encoder_args (is_self : bool) (with_args : option bytes) : bytes :=
  match with_args with Some text => (if is_self then txt "self." else []) ++ text | None => [] end.

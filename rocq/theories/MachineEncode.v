(** The encoder of a struct whose attributes calculate, as the user's crate executes it
    (MachineExpr.v). *)
From Coq Require Import Ascii String.
From Verif Require Import Base Ints AttrParse GenExpr GenDecode Source MachineExpr Schema.
Close Scope string_scope.

(** derive/src/jbytes/derive_struct.rs:207-261: the fields are members of [self]. Those that
    are neither integers nor truth values are left out. *)
Definition members (types : bytes -> option ty) (names : list bytes) (vs : list val) : list (bytes * machine) :=
  flat_map (fun xv =>
    match snd xv, types (fst xv) with
    | VInt z, Some (TInt t) => [(fst xv, Whole t z)]
    | VBool b, Some TBool => [(fst xv, Truth b)]
    | _, _ => []
    end) (combine names vs).
(** parse.rs:101-151: the number in an attribute of the encoder, without overflow checks.
    (Where it panics, this is 0.) *)
Definition machine_encoder_number (types : bytes -> option ty) (code : bool -> bytes -> bytes) (names : list bytes) (vs : list val)
                                  (text : bytes) : expr :=
  fun _ =>
    match code_value (machine_arithmetic false) (encoder_scope (Members (members types names vs)) (fun _ => None)) (code true text) with
    | Some (Whole _ z) => z
    | _ => 0%Z
    end.
(** The encoder derived for a struct, as in Source.v, for a value with the fields [vs]. *)
Definition machine_encoder (s : source) (vs : list val) : option decl :=
  derived (fun code _ => machine_encoder_number (types_of s) code (map s_name (s_fields s)) vs) s.

(** Encoders derived in a crate that is built with overflow checks or without, as
    MachineBuild.v has the decoders. *)
From Coq Require Import Ascii String.
From Verif Require Import Base Ints Writer AttrParse GenExpr GenDecode GenEncode Source MachineExpr MachineEncode MachineBuild Schema.
Close Scope string_scope.

(** ** Expressions, as in MachineEncode.v *)
Definition encoder_code (checks : bool) (types : bytes -> option ty) (code : bool -> bytes -> bytes) (names : list bytes) (vs : list val)
                        (text : bytes) : option machine :=
  code_value (machine_arithmetic checks) (encoder_scope (Members (members types names vs)) (fun _ => None)) (code true text).
Definition encoder_panics (checks : bool) (types : bytes -> option ty) (code : bool -> bytes -> bytes) (names : list bytes) (vs : list val)
                          (text : bytes) : bool :=
  match encoder_code checks types code names vs text with Some Panicked => true | _ => false end.
(** The number where it does not panic. *)
Definition build_encoder_number (checks : bool) (types : bytes -> option ty) (code : bool -> bytes -> bytes) (names : list bytes) (vs : list val)
                                (text : bytes) : expr :=
  fun _ => match encoder_code checks types code names vs text with Some (Whole _ z) => z | _ => 0%Z end.

(** ** Statements *)

(** derive/src/jbytes/attribute.rs:184-224 ([to_code]), encode.rs:7-18: where a statement of a
    field holds expressions. There are no conditions in encoders; the expressions of
    [value_encode] and [with_args] are taken not to panic. *)
Definition estmt_panics (checks : bool) (types : bytes -> option ty) (names : list bytes) (vs : list val) (fa : field_attributes) (c : estmt) : bool :=
  let p code := encoder_panics checks types code names vs in
  match c with
  | SetFattr _ =>
      existsb (p GenExpr.order_code) (texts fa [SByteorder]) ||
      existsb (p var_code) (texts fa [SBranch; SLength; SCount; STryCount; SBits; SByteCount; SByteCountOutside])
  | WritePadding _ _ => existsb (p var_code) (texts fa [SOffset])
  | _ => false
  end.
Fixpoint run_eguarded (ety : ty -> cattr -> fattr -> val -> wr N) (l : list (bool * estmt)) (s : estore) : wr estore :=
  match l with
  | [] => wret s
  | (p, c) :: r => if p then fun _ => Panic else (s' <~ run_estmt ety c s ;; run_eguarded ety r s')
  end.
(** derive_struct.rs:246-253: the statements of the fields. *)
Fixpoint build_estmts (checks : bool) (types : bytes -> option ty) (names : list bytes) (vs : list val) (vars : list (nat * N)) (i : nat)
                      (ss : list source_field) (fs : list field) : list (bool * estmt) :=
  match ss, fs with
  | s :: ss', f :: fs' =>
      (match attributes_of (s_lines s) with
       | Some fa => map (fun c => (estmt_panics checks types names vs fa c, c)) (gen_struct vars i [f])
       | None => []
       end) ++ build_estmts checks types names vs vars (S i) ss' fs'
  | _, _ => []
  end.

(** ** Structs *)

(** derive_struct.rs:207-261: the encoder that is derived, for a value with the fields [vs]. *)
Definition build_encoder (checks : bool) (s : source) (vs : list val) : option decl :=
  derived (fun code _ => build_encoder_number checks (types_of s) code (map s_name (s_fields s)) vs) s.
(** What it does. *)
Definition run_build_encoder (checks : bool) (ety : ty -> cattr -> fattr -> val -> wr N) (s : source) (d : decl) (ca : cattr) (fa : fattr)
                             (vs : list val) : wr N :=
  st <~ run_eguarded ety (build_estmts checks (types_of s) (map s_name (s_fields s)) vs (k_vars ca) 0 (s_fields s)
                            (match d_fields d with Some fs => fs | None => [] end))
          (encode_store (d_container d) ca fa (ESelf vs)) ;;
  wret (count_of st).

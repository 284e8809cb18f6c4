(** Decoders derived in a crate that is built with overflow checks or without: a statement
    in which an expression panics ends the decoder. *)
From Coq Require Import Ascii String.
From Verif Require Import Base Ints Reader AttrParse GenExpr GenDecode Source MachineExpr Schema.
Close Scope string_scope.

(** ** Expressions, as in MachineExpr.v *)
Definition panics (checks : bool) (types : bytes -> option ty) (names : list bytes) (vs : list val) (code : bytes) : bool :=
  match code_value (machine_arithmetic checks) (variables types names vs) code with
  | Some Panicked => true
  | _ => false
  end.
(** The number and the condition where it does not panic. *)
Definition build_number (checks : bool) (types : bytes -> option ty) (code : bool -> bytes -> bytes) (names : list bytes) (text : bytes) : expr :=
  fun en =>
    match code_value (machine_arithmetic checks) (variables types names (ev_fields en)) (code false text) with
    | Some (Whole _ z) => z
    | _ => 0%Z
    end.
Definition build_condition (checks : bool) (types : bytes -> option ty) (names : list bytes) (text : bytes) : env -> bool :=
  fun en =>
    match code_value (machine_arithmetic checks) (variables types names (ev_fields en)) text with
    | Some (Truth b) => b
    | _ => false
    end.

(** ** Statements *)

(** The expressions among these members. *)
Definition texts (fa : field_attributes) (l : list slot) : list bytes :=
  flat_map (fun s => match member fa s with Some (AttrParse.Value (AVar t)) => [t] | _ => [] end) l.
(** derive/src/jbytes/attribute.rs:184-224 ([to_code]), decode.rs:8-15, 57-61: where a
    statement of a field holds expressions. Those of [value_decode], [check_value] and
    [with_args] are taken not to panic. *)
Definition stmt_panics (checks : bool) (types : bytes -> option ty) (before : list bytes) (fa : field_attributes) (c : stmt) (vs : list val) : bool :=
  let p := panics checks types before vs in
  match c with
  | LetFattr _ =>
      existsb (fun t => p (GenExpr.order_code false t)) (texts fa [SByteorder]) ||
      existsb (fun t => p (var_code false t)) (texts fa [SBranch; SLength; SCount; STryCount; SBits; SByteCount; SByteCountOutside])
  | Advance _ => existsb (fun t => p (var_code false t)) (texts fa [SOffset])
  | LetDecoded _ (Some _) => match member fa SIfExpr with Some (Raw t) => p t | _ => false end
  | _ => false
  end.
Fixpoint run_guarded (dty : ty -> cattr -> fattr -> rd val) (l : list ((store -> bool) * stmt)) (st : store) : rd store :=
  match l with
  | [] => ret st
  | (p, c) :: r => if p st then panic else (st' <- run_stmt dty c st ;; run_guarded dty r st')
  end.
(** derive_struct.rs:80-103: the statements of the fields. A struct with named fields. *)
Fixpoint build_stmts (checks : bool) (types : bytes -> option ty) (vars : list (nat * N)) (before : list bytes) (i : nat)
                     (ss : list source_field) (fs : list field) : list ((store -> bool) * stmt) :=
  match ss, fs with
  | s :: ss', f :: fs' =>
      (match attributes_of (s_lines s) with
       | Some fa =>
           map (fun c => (fun st => stmt_panics checks types before fa c (ev_fields (sees before vars st)), c)) (gen_fields true vars before i [f])
       | None => []
       end) ++ build_stmts checks types vars (before ++ [s_name s]) (S i) ss' fs'
  | _, _ => []
  end.

(** ** Structs *)

(** The fields with the meaning [cond] gives to their conditions. *)
Fixpoint with_conditions (cond : list bytes -> bytes -> env -> bool) (before : list bytes) (fs : list source_field) : list source_field :=
  match fs with
  | [] => []
  | f :: r =>
      let m := s_meaning f in
      mksource_field (s_name f) (s_lines f)
        (mkmeaning (m_number m) (m_order m) (cond before) (m_function m) (m_value m) (m_literal m) (m_name m) (m_default m)
                   (m_from_str m) (m_decoder m) (m_encoder m)) (s_type f) :: with_conditions cond (before ++ [s_name f]) r
  end.
(** derive_struct.rs:164-195: the decoder that is derived, with the numbers and the
    conditions of such a build. *)
Definition build_decoder (checks : bool) (s : source) : option decl :=
  derived (build_number checks (types_of s))
          (mksource (s_container s) (with_conditions (build_condition checks (types_of s)) [] (s_fields s))).
(** What it does. *)
Definition run_build (checks : bool) (dty : ty -> cattr -> fattr -> rd val) (s : source) (d : decl) (ca : cattr) : rd val :=
  match d_fields d with
  | None => panic
  | Some fs =>
      st <- run_guarded dty (build_stmts checks (types_of s) (k_vars ca) [] 0 (s_fields s) fs) (struct_store d) ;;
      ret (VList (run_return (binders 0 fs) st))
  end.

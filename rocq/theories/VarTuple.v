(** Tuple structs with [variable_name] and [get_variable_name], as they are written: as in
    VarSource.v and VarEncode.v, with the fields called as in TupleSource.v. *)
From Coq Require Import Ascii String.
From Verif Require Import Base Ints Sugar AttrParse GenExpr GenDecode Source TupleSource EnumSource VarSource VarEncode Schema.
Close Scope string_scope.

(** derive/src/jbytes/derive_struct.rs:164-193 with 87-150: the variables are declared before
    [v0], [v1], ... and the fields are published under these names. *)
Definition handing_tuple_decoder (A : arithmetic val) (others : bytes -> option val) (key : bytes -> nat) (s : tuple_source) : option decl :=
  match container_attributes_of (u_container s), asked_names (u_container s) with
  | Some ca, Some gets =>
      if container_codec (u_container s) || negb (forallb (usable taken_names) gets) then None
      else
        match read_handing A others key gets [] (called_by tuple_name 0 (u_fields s)) with
        | Some fs => Some (mkdecl false (if container_used (u_container s) then Some (container_spec ca) else None) (Some fs))
        | None => None
        end
  | _, _ => None
  end.
(** derive_struct.rs:227-253: the variables stand next to [self]. *)
Definition asking_tuple_number (A : arithmetic val) (others : bytes -> option val) (key : bytes -> nat) (gets : list bytes)
                               (code : bool -> bytes -> bytes) (vs : list val) (text : bytes) : expr :=
  fun en => tuple_number A (asked key gets (ev_vars en) others) code vs text en.
Definition asking_tuple_encoder (A : arithmetic val) (others : bytes -> option val) (key : bytes -> nat) (s : tuple_source) (vs : list val) : option decl :=
  match container_attributes_of (u_container s), asked_names (u_container s) with
  | Some ca, Some gets =>
      if container_codec (u_container s) || negb (forallb (usable encoder_taken) gets) then None
      else
        match read_asking (fun code => asking_tuple_number A others key gets code vs) gets (called_by index_name 0 (u_fields s)) with
        | Some fs => Some (mkdecl false (if container_used (u_container s) then Some (container_spec ca) else None) (Some fs))
        | None => None
        end
  | _, _ => None
  end.

(** Structs and enums with codecs of their own: [with], [with_decode] and [with_encode] on the
    container. The functions are whatever their authors make of them. *)
From Coq Require Import Ascii String.
From Verif Require Import Base Ints Reader Writer Sugar AttrParse GenExpr GenDecode GenEncode Source EnumSource VarSource VarEncode Decode Encode Schema.
Close Scope string_scope.

(** The line of attributes that is read (derive/src/lib.rs:61-65, virtue's [get_attribute]). *)
Definition container_line (l : list attribute) : list entry :=
  match find (fun a => bytes_eqb (t_name a) (txt "jbytes") || bytes_eqb (t_name a) (txt "repr")) l with
  | Some a => t_entries a
  | None => []
  end.
(** derive/src/jbytes/attribute.rs:109-111: the last entry under one of these names counts. *)
Definition last_text (keys : list string) (l : list entry) : option bytes :=
  fold_left (fun found e =>
    match e with
    | Property k lit => if existsb (bytes_eqb k) (map txt keys) then Some (parse_value_string lit) else found
    | Tag _ => found
    end) l None.
(** derive_struct.rs:165-170, derive_enum.rs:86-91: the function that is called to decode;
    [None]: none, the decoder is derived. *)
Definition own_decoder (l : list attribute) : option bytes :=
  match last_text ["with_decode"; "decode_with"]%string (container_line l) with
  | Some f => Some f
  | None => option_map (fun m => m ++ txt "::decode") (last_text ["with"]%string (container_line l))
  end.
(** derive_struct.rs:220-225, derive_enum.rs:380-387. *)
Definition own_encoder (l : list attribute) : option bytes :=
  match last_text ["with_encode"; "encode_with"]%string (container_line l) with
  | Some f => Some f
  | None => option_map (fun m => m ++ txt "::encode") (last_text ["with"]%string (container_line l))
  end.

(** ** Decoders

    The body of [decode_inner] is one expression. [functions] is what is in scope, [derived]
    what the fields give ([None]: it does not compile). An entry that does not exist is
    refused. *)
Definition whole_decoder (functions : bytes -> option (cattr -> fattr -> rd val)) (derived : option (cattr -> fattr -> rd val))
                         (l : list attribute) : option (cattr -> fattr -> rd val) :=
  match container_attributes_of l with
  | None => None
  | Some _ => match own_decoder l with Some f => functions f | None => derived end
  end.

(** ** Encoders

    The body of [encode_inner], statement by statement. *)
Inductive encode_step :=
| Start                    (* [let mut r_nbytes = 0;] *)
| Call (path : bytes)      (* [r_nbytes += path(buffer, cattr, fattr, self)?;] *)
| Fields                   (* the code for the fields or the variants *)
| Return.                  (* [Ok(r_nbytes)] *)
(** derive_struct.rs:218-257 *)
Definition struct_steps (l : list attribute) : list encode_step :=
  Start :: match own_encoder l with Some f => [Call f] | None => [Fields] end ++ [Return].
(** derive_enum.rs:378-387, 429-562: with a codec of its own the body ends with the call. *)
Definition enum_steps (l : list attribute) : list encode_step :=
  Start :: match own_encoder l with Some f => [Call f] | None => [Fields; Return] end.
(** rustc: the functions exist, and the block has the type of the function, as only
    [Return] does, which stands at its end. *)
Fixpoint steps_compile (functions : bytes -> option (cattr -> fattr -> val -> wr N)) (derived : option (cattr -> fattr -> val -> wr N))
                       (ss : list encode_step) : bool :=
  match ss with
  | [] => false
  | [Return] => true
  | Return :: _ => false
  | Start :: r => steps_compile functions derived r
  | Call f :: r => match functions f with Some _ => steps_compile functions derived r | None => false end
  | Fields :: r => match derived with Some _ => steps_compile functions derived r | None => false end
  end.
(** Running it; [n] is [r_nbytes]. *)
Fixpoint run_steps (functions : bytes -> option (cattr -> fattr -> val -> wr N)) (derived : option (cattr -> fattr -> val -> wr N))
                   (ss : list encode_step) (n : N) (ca : cattr) (fa : fattr) (v : val) : wr N :=
  match ss with
  | [] => fun b => Ok n b
  | Return :: _ => fun b => Ok n b
  | Start :: r => run_steps functions derived r 0 ca fa v
  | Call f :: r =>
      match functions f with
      | Some x => k <~ x ca fa v;; run_steps functions derived r (n + k) ca fa v
      | None => fun b => Ok n b
      end
  | Fields :: r =>
      match derived with
      | Some x => k <~ x ca fa v;; run_steps functions derived r (n + k) ca fa v
      | None => fun b => Ok n b
      end
  end.
Definition whole_encoder (functions : bytes -> option (cattr -> fattr -> val -> wr N)) (derived : option (cattr -> fattr -> val -> wr N))
                         (steps : list attribute -> list encode_step) (l : list attribute) : option (cattr -> fattr -> val -> wr N) :=
  match container_attributes_of l with
  | None => None
  | Some _ => if steps_compile functions derived (steps l) then Some (run_steps functions derived (steps l) 0) else None
  end.

(** What the fields of a struct give (VarSource.v, VarEncode.v). *)
Definition fields_decoder (A : arithmetic val) (others : bytes -> option val) (key : bytes -> nat) (s : source) : option (cattr -> fattr -> rd val) :=
  match handing_fields_decoder A others key s with
  | Some d => if struct_compiles d [] then Some (fun ca _ => run_struct dec d ca) else None
  | None => None
  end.
Definition fields_encoder (A : arithmetic val) (others : bytes -> option val) (key : bytes -> nat) (s : source) (vs : list val) :
  option (cattr -> fattr -> val -> wr N) :=
  match asking_fields_encoder A others key s vs with
  | Some e => if encoder_compiles e [] then Some (fun ca fa _ => run_encoder enc e ca fa vs) else None
  | None => None
  end.

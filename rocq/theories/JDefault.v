(** [#[derive(Jdefault)]]: crates/jdefault-rs/src.

    The derive emits the body of [fn default() -> Self]. Pieces of Rust code written
    in attributes are given a meaning by a parameter. *)
From Coq Require Import Ascii String.
From Verif Require Import Base Ints Reader Writer Schema AttrParse.
Close Scope string_scope.

(** ** Declarations *)

(** [struct A;], [struct A { .. }], [struct A(..);], and the same for variants *)
Inductive shape := Unit | Named | Tuple.
(** How the type of a field is written: a path without arguments; with a parenthesis
    somewhere in it; anything else ([Vec<u8>], [&'a str], [[u8; 4]]). *)
Inductive type_form := PlainPath | WithParenthesis | OtherForm.
(** Types with a [Default]: one implemented elsewhere, which returns [v], or derived
    here. A field is its attributes, the form of its type and the type. *)
Inductive dty :=
| DKnown (v : val)
| DStruct (attrs : list attribute) (s : shape) (fs : list (list attribute * type_form * dty))
| DEnum (attrs : list attribute) (vs : list (list attribute * shape * list (list attribute * type_form * dty))).

(** ** Attributes *)

(** jdefault/attribute.rs:17-33: [ContainerAttributes], only [default_value] matters *)
(** jdefault/attribute.rs:85-90: [FieldAttributes] *)
Record dattrs := mkdattrs { is_jbytes : bool; default_bool : bool; default_value : option bytes }.
(** jdefault/attribute.rs:120-126 *)
Definition default_tag (i : bytes) : bool :=
  existsb (bytes_eqb i) (map txt ["default_value"; "default"; "enum_default"; "branch_default"]%string).
(** jdefault/attribute.rs:66, 133 *)
Definition default_key (k : bytes) : bool :=
  existsb (bytes_eqb k) (map txt ["default_value"; "default"]%string).
(** jdefault/attribute.rs:108-143: the loop over the entries of a field's attribute;
    [None]: "Unknown field attribute" *)
Fixpoint default_entries (r : dattrs) (l : list entry) : option dattrs :=
  match l with
  | [] => Some r
  | Tag i :: l' =>
      if default_tag i then default_entries (mkdattrs (is_jbytes r) true (default_value r)) l'
      else if is_jbytes r then default_entries r l' else None
  | Property k lit :: l' =>
      if default_key k then default_entries (mkdattrs (is_jbytes r) (default_bool r) (Some (parse_value_string lit))) l'
      else if is_jbytes r then default_entries r l' else None
  end.
Definition as_outcome {A} (o : option A) : outcome A :=
  match o with Some x => Parses (Some x) | None => Refused end.
(** jdefault/attribute.rs:93-106 *)
Definition parse_default_field (a : attribute) : outcome dattrs :=
  if bytes_eqb (t_name a) (txt "jbytes") then as_outcome (default_entries (mkdattrs true false None) (t_entries a))
  else if bytes_eqb (t_name a) (txt "jppe") then as_outcome (default_entries (mkdattrs true false None) (t_entries a))
  else if bytes_eqb (t_name a) (txt "jd") then as_outcome (default_entries (mkdattrs false false None) (t_entries a))
  else Parses None.
(** jdefault/attribute.rs:48-78: no tag is known *)
Fixpoint default_container_entries (r : dattrs) (l : list entry) : option dattrs :=
  match l with
  | [] => Some r
  | Tag i :: l' => if is_jbytes r then default_container_entries r l' else None
  | Property k lit :: l' =>
      if default_key k
      then default_container_entries (mkdattrs (is_jbytes r) (default_bool r) (Some (parse_value_string lit))) l'
      else if is_jbytes r then default_container_entries r l' else None
  end.
(** jdefault/attribute.rs:36-46 *)
Definition parse_default_container (a : attribute) : outcome dattrs :=
  if bytes_eqb (t_name a) (txt "jbytes") then as_outcome (default_container_entries (mkdattrs true false None) (t_entries a))
  else if bytes_eqb (t_name a) (txt "jd") then as_outcome (default_container_entries (mkdattrs false false None) (t_entries a))
  else Parses None.
(** [get_attribute::<..>()?.unwrap_or_default()] *)
Definition or_default (o : outcome dattrs) : option dattrs :=
  match o with
  | Refused => None
  | Parses (Some r) => Some r
  | Parses None => Some (mkdattrs false false None)
  end.
Definition default_attributes (l : list attribute) : option dattrs := or_default (get_attribute parse_default_field l).
Definition default_container_attributes (l : list attribute) : option dattrs :=
  or_default (get_attribute parse_default_container l).

(** ** Generated code *)

(** [Self], [Self::V], with arguments. [Default v]: [T::default()], which returns
    [v] ([None]: this does not compile); [Verbatim s]: text from an attribute, which
    may be several expressions separated by commas. *)
Inductive argument := Verbatim (s : bytes) | DefaultOf (v : option val).
Record expression := mkexpression { x_variant : option nat; x_shape : shape; x_args : list argument }.

(** derive_struct.rs:32-42, 57-69: [T::default()] is an expression if [T] is a plain
    path, and inside tuples [<T>::default()] is written if the type contains a
    parenthesis. *)
Definition default_call (s : shape) (form : type_form) (v : option val) : option val :=
  match form, s with
  | PlainPath, _ => v
  | WithParenthesis, Tuple => v
  | _, _ => None
  end.
(** One field; [None]: its attributes are refused. *)
Definition field_argument (s : shape) (f : list attribute * type_form * option val) : option argument :=
  let '(attrs, form, v) := f in
  match default_attributes attrs with
  | None => None
  | Some r => Some (match default_value r with
                    | Some t => Verbatim t
                    | None => DefaultOf (default_call s form v)
                    end)
  end.
Fixpoint all_some {A} (l : list (option A)) : option (list A) :=
  match l with
  | [] => Some []
  | Some x :: r => option_map (cons x) (all_some r)
  | None :: _ => None
  end.
(** derive_struct.rs:15-82 *)
Definition generate_struct_body (variant : option nat) (s : shape) (fs : list (list attribute * type_form * option val))
  : option expression :=
  option_map (mkexpression variant s) (all_some (map (field_argument s) fs)).
(** derive_struct.rs:86-106: the expressions of the body *)
Definition generate_struct (attrs : list attribute) (s : shape) (fs : list (list attribute * type_form * option val))
  : option (list expression) :=
  match default_container_attributes attrs with
  | None => None
  | Some r =>
      match default_value r with
      | Some t => Some [mkexpression None Tuple [Verbatim t]]
      | None => option_map (fun e => [e]) (generate_struct_body None s fs)
      end
  end.
(** derive_enum.rs:46-58: one variant *)
Definition generate_variant (i : nat) (v : list attribute * shape * list (list attribute * type_form * option val))
  : option (list expression) :=
  let '(attrs, s, fs) := v in
  match default_attributes attrs with
  | None => None
  | Some r =>
      if default_bool r then option_map (fun e => [e]) (generate_struct_body (Some i) s fs)
      else match default_value r with
           | Some t => Some [mkexpression (Some i) Tuple [Verbatim t]]
           | None => Some []
           end
  end.
Fixpoint generate_variants (i : nat) (vs : list (list attribute * shape * list (list attribute * type_form * option val)))
  : option (list expression) :=
  match vs with
  | [] => Some []
  | v :: r =>
      match generate_variant i v, generate_variants (S i) r with
      | Some a, Some b => Some (a ++ b)
      | _, _ => None
      end
  end.
(** derive_enum.rs:44-66; the attributes of the enum itself are parsed (lib.rs:57-61)
    but not used. Not modelled: an explicit discriminant that is neither decimal nor
    hexadecimal, such as [0b1] or [1_000], makes the macro panic (derive_enum.rs:85-94). *)
Definition generate_enum (attrs : list attribute) (vs : list (list attribute * shape * list (list attribute * type_form * option val)))
  : option (list expression) :=
  match default_container_attributes attrs, generate_variants 0 vs with
  | None, _ => None
  | Some _, Some [] => None
  | Some _, o => o
  end.

(** ** What rustc makes of it *)

(** The values of a comma separated list of expressions; [None]: does not compile. *)
Definition texts := bytes -> option (list val).
Definition argument_values (m : texts) (a : argument) : option (list val) :=
  match a with
  | Verbatim s => m s
  | DefaultOf v => option_map (fun x => [x]) v
  end.
(** The fields of [Self { a: .., b: .. }], one expression each, or the arguments of
    [Self(.., ..)]; their number must be the declared one. *)
Definition arguments_values (m : texts) (e : expression) (declared : nat) : option (list val) :=
  match all_some (map (argument_values m) (x_args e)) with
  | None => None
  | Some ls =>
      if (match x_shape e with Named => forallb (fun l => Nat.eqb (length l) 1) ls | _ => true end)
         && Nat.eqb (length (concat ls)) declared
      then Some (concat ls) else None
  end.
Definition same_shape (s t : shape) : bool :=
  match s, t with Unit, Unit | Named, Named | Tuple, Tuple => true | _, _ => false end.
(** A body of two expressions in a row is a syntax error. *)
Definition run_struct (m : texts) (s : shape) (declared : nat) (body : list expression) : option val :=
  match body with
  | [e] => if same_shape (x_shape e) s then option_map VList (arguments_values m e declared) else None
  | _ => None
  end.
Definition run_enum (m : texts) (vs : list (shape * nat)) (body : list expression) : option val :=
  match body with
  | [e] =>
      match x_variant e with
      | Some i =>
          match nth_error vs i with
          | Some (s, declared) =>
              if same_shape (x_shape e) s then option_map (VVariant i) (arguments_values m e declared) else None
          | None => None
          end
      | None => None
      end
  | _ => None
  end.
(** [T::default()]; [None]: the program does not compile. (A field with a default of
    its own hides here that the [Default] of its type does not compile.) *)
Fixpoint jdefault (m : texts) (t : dty) : option val :=
  match t with
  | DKnown v => Some v
  | DStruct attrs s fs =>
      match generate_struct attrs s (map (fun f => (fst f, jdefault m (snd f))) fs) with
      | Some body => run_struct m s (length fs) body
      | None => None
      end
  | DEnum attrs vs =>
      match generate_enum attrs (map (fun v => (fst v, map (fun f => (fst f, jdefault m (snd f))) (snd v))) vs) with
      | Some body => run_enum m (map (fun v => (snd (fst v), length (snd v))) vs) body
      | None => None
      end
  end.

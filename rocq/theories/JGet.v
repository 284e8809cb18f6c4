(** [#[derive(Jget)]]: crates/jget-rs/derive/src.

    The derive works on text: the names and types of the fields and the literals in
    the attributes. What it decides from them is modelled on the text; of the code it
    emits, what the functions return is. Borrowing, and whether the emitted code
    passes the type checker, is not modelled. *)
From Coq Require Import Ascii String.
From Verif Require Import Base Ints Text Schema AttrParse JDefault.
Close Scope string_scope.

(** ** Text functions of the standard library *)

(** [s.replace(p, "")] for a nonempty [p]: every occurrence goes, from the left;
    [skip] counts the bytes of the present occurrence still to drop. *)
Fixpoint remove_from (p s : bytes) (skip : nat) : bytes :=
  match s with
  | [] => []
  | c :: r =>
      match skip with
      | S k => remove_from p r k
      | O => if starts_with p s then remove_from p r (List.length p - 1)%nat else c :: remove_from p r 0%nat
      end
  end.
Definition remove_all (p : string) (s : bytes) : bytes := remove_from (txt p) s 0%nat.
(** [s.contains(c)] *)
Definition has (c : byte) (s : bytes) : bool := existsb (Byte.eqb c) s.
Definition begins (p : string) (s : bytes) : bool := starts_with (txt p) s.
(** [char::is_whitespace] on ASCII *)
Definition is_white (c : byte) : bool := let n := b2n c in (n =? 32)%N || ((9 <=? n) && (n <=? 13))%N.
Fixpoint trim_start (s : bytes) : bytes :=
  match s with
  | [] => []
  | c :: r => if is_white c then trim_start r else s
  end.
(** [s.trim()] *)
Definition trim (s : bytes) : bytes := rev (trim_start (rev (trim_start s))).
(** [s.split_once(c)] *)
Fixpoint split_once (c : byte) (s : bytes) : option (bytes * bytes) :=
  match s with
  | [] => None
  | d :: r =>
      if Byte.eqb d c then Some ([], r)
      else match split_once c r with Some (a, b) => Some (d :: a, b) | None => None end
  end.

(** ** Attributes (jget/attribute.rs) *)

(** attribute.rs:13-21 *)
Definition get_value_string (lit : bytes) : bytes :=
  match lit with
  | c :: (_ :: _) as r =>
      if Byte.eqb c QUOTE && Byte.eqb (last r x00) QUOTE then removelast (tl lit) else lit
  | _ => lit
  end.
(** attribute.rs:27-36: one element of the list *)
Definition name_and_type (v : bytes) : bytes * bytes :=
  match split_once ":"%byte v with
  | Some (v1, v2) => (trim v1, trim v2)
  | None => (trim v, [])
  end.
(** attribute.rs:24-39 *)
Definition get_value_string_list (lit : bytes) : list (bytes * bytes) :=
  map name_and_type (split_on ","%byte (get_value_string lit)).

(** attribute.rs:94-105, without [name], which is never read, and [to_expr] and
    [to_func], which are never set. *)
Record gattrs := mkgattrs { a_get : bool; a_get_string : list (bytes * bytes);
  a_get_option : bool; a_get_string_option : list (bytes * bytes); a_clone : bool; a_option : bool }.
Definition no_gattrs : gattrs := mkgattrs false [] false [] false false.
(** attribute.rs:117-141; [None]: "Unknown field attribute" *)
Fixpoint get_entries (r : gattrs) (l : list entry) : option gattrs :=
  match l with
  | [] => Some r
  | e :: l' =>
      let '(mkgattrs g gs o os c p) := r in
      match e with
      | Tag i =>
          if bytes_eqb i (txt "get") then get_entries (mkgattrs true gs o os c p) l'
          else if bytes_eqb i (txt "get_option") then get_entries (mkgattrs g gs true os c p) l'
          else if bytes_eqb i (txt "clone") then get_entries (mkgattrs g gs o os true p) l'
          else if bytes_eqb i (txt "option") then get_entries (mkgattrs g gs o os c true) l'
          else None
      | Property k lit =>
          if bytes_eqb k (txt "name") then get_entries r l'
          else if bytes_eqb k (txt "get") then get_entries (mkgattrs g (gs ++ get_value_string_list lit) o os c p) l'
          else if bytes_eqb k (txt "get_option") then get_entries (mkgattrs g gs o (os ++ get_value_string_list lit) c p) l'
          else None
      end
  end.
(** attribute.rs:109-115 *)
Definition parse_get_field (a : attribute) : outcome gattrs :=
  if bytes_eqb (t_name a) (txt "jget") then as_outcome (get_entries no_gattrs (t_entries a)) else Parses None.
(** attribute.rs:60-89: the names and types of [get_default] *)
Fixpoint get_default_entries (r : list (bytes * bytes)) (l : list entry) : option (list (bytes * bytes)) :=
  match l with
  | [] => Some r
  | Tag _ :: _ => None
  | Property k lit :: l' =>
      if bytes_eqb k (txt "get_default") then get_default_entries (r ++ get_value_string_list lit) l' else None
  end.
Definition parse_get_container (a : attribute) : outcome (list (bytes * bytes)) :=
  if bytes_eqb (t_name a) (txt "jget") then as_outcome (get_default_entries [] (t_entries a)) else Parses None.
Definition or_empty {A} (d : A) (o : outcome A) : option A :=
  match o with
  | Refused => None
  | Parses (Some r) => Some r
  | Parses None => Some d
  end.
(** [get_attribute::<..>()?.unwrap_or_default()] (derive_struct.rs:135, derive_enum.rs:49, lib.rs:24-26) *)
Definition get_attributes (l : list attribute) : option gattrs := or_empty no_gattrs (get_attribute parse_get_field l).
Definition get_container_attributes (l : list attribute) : option (list (bytes * bytes)) :=
  or_empty [] (get_attribute parse_get_container l).

(** ** Declarations *)

(** A named field: its name, the tokens of its type, its attributes. *)
Record gfield := mkgfield { gf_name : bytes; gf_type : list bytes; gf_attrs : list attribute }.
(** The fields of a struct or variant: none, named, or by position. *)
Inductive gfields := NoFields | NamedFields (l : list gfield) | TupleFields (n : nat).
Record gvariant := mkgvariant { gv_attrs : list attribute; gv_fields : gfields }.

(** ** Generated code (jget/derive_struct.rs) *)

(** derive_struct.rs:131-133: the text of a type; every token but a lifetime's quote
    is followed by a space *)
Definition type_text (tokens : list bytes) : bytes :=
  concat (map (fun t => if bytes_eqb t ["'"%byte] then t else t ++ [" "%byte]) tokens).
Definition no_spaces (s : bytes) : bytes := remove_all " " s.
(** derive_struct.rs:15-17 *)
Definition get_field_name (s : bytes) : bytes := remove_all "r#" s.
(** derive_struct.rs:20-27 *)
Definition get_function_name (s : bytes) : bytes :=
  last (split_on "."%byte (remove_all "()" (remove_all "get_" (remove_all "r#" s)))) [].
(** derive_struct.rs:30-43 *)
Definition get_return_type (given : option bytes) (field_type : bytes) (is_option : bool) : bytes :=
  let t := match given with Some r => r | None => field_type end in
  if negb (begins "Option<" t) && (is_option || begins "Option<" field_type)
  then txt "Option<" ++ t ++ txt ">" else t.

(** The statement that computes [value] (derive_struct.rs:63-108). *)
Inductive step :=
| Elementwise (as_type : bytes)         (** [value.iter().map(|v| *v as T).collect()] *)
| ElementwiseInto (as_type : bytes)     (** the same, then [.into()] *)
| ElementwiseOption (as_type : bytes)   (** the same inside an [Option] *)
| OneElement (as_type : bytes)          (** [vec![*value as T]] *)
| IntoOption                            (** [if let Some(value) = value { Some(value.into()) } else { None }] *)
| Into.                                 (** [value.into()] *)
(** The first [>] goes: [replacen(">", "", 1)] is only used on the type named in
    [collect], which does not change the result. *)
Definition code_step (ret field_type : bytes) : step :=
  if (begins "Vec<u" ret || begins "Vec<i" ret) && negb (bytes_eqb ret field_type) then
    let as_type := remove_all ">" (remove_all "Vec<" ret) in
    if begins "Option<Vec<" field_type then ElementwiseOption as_type
    else if begins "Vec<" field_type then Elementwise as_type
    else OneElement as_type
  else if (begins "Option<Vec<u" ret || begins "Option<Vec<i" ret)
          && (if begins "Option<" field_type then negb (bytes_eqb ret field_type)
              else negb (bytes_eqb ret (txt "Option<" ++ field_type ++ txt ">"))) then
    let as_type := remove_all ">>" (remove_all "Option<Vec<" ret) in
    if begins "Option<Vec<" field_type then ElementwiseOption as_type
    else if begins "Vec<" field_type then ElementwiseInto as_type
    else OneElement as_type
  else if begins "Option<" field_type then IntoOption
  else Into.
(** One generated function: its name after [get_], its return type, the expression it
    starts from, the statement, and whether it ends in [Some(value)]. *)
Record getter := mkgetter { g_name : bytes; g_ret : bytes; g_path : bytes; g_step : step; g_some : bool }.
(** derive_struct.rs:46-121. How [value] is first bound (by clone, by copy of a
    reference, by borrow: lines 53-61) does not change what it stands for. *)
Definition code (a : gattrs) (name ret path field_type : bytes) (is_option : bool) : getter :=
  let ft := no_spaces field_type in
  mkgetter name ret (get_field_name path) (code_step ret ft)
    (if begins "Option<" ft then false else a_option a || is_option).
(** derive_struct.rs:137-151: the tags [get] and [get_option] *)
Definition plain_getter (f : gfield) (a : gattrs) (is_option : bool) : getter :=
  let ft := type_text (gf_type f) in
  code a (get_function_name (gf_name f)) (get_return_type None ft is_option) (gf_name f) ft is_option.
(** derive_struct.rs:153-173: one entry of [get = ".."] or [get_option = ".."] *)
Definition named_getter (f : gfield) (a : gattrs) (is_option : bool) (r : bytes * bytes) : getter :=
  let ft := type_text (gf_type f) in
  code a (get_function_name (fst r)) (get_return_type (Some (snd r)) ft is_option)
    (if has "."%byte (fst r) then fst r else gf_name f) ft is_option.
(** derive_struct.rs:130-174 *)
Definition field_getters (f : gfield) : option (list getter) :=
  option_map (fun a =>
    (if a_get a then [plain_getter f a false] else []) ++
    (if a_get_option a then [plain_getter f a true] else []) ++
    map (named_getter f a false) (a_get_string a) ++
    map (named_getter f a true) (a_get_string_option a))
    (get_attributes (gf_attrs f)).
(** derive_struct.rs:124-220: fields by position are passed over *)
Definition body_getters (fs : gfields) : option (list (getter * bytes)) :=
  match fs with
  | NamedFields l =>
      option_map (@concat _)
        (all_some (map (fun f => option_map (map (fun g => (g, gf_name f))) (field_getters f)) l))
  | _ => Some []
  end.
(** derive_struct.rs:224-255: the functions of [get_default], which return [None] *)
Definition default_names (l : list (bytes * bytes)) : list bytes := map (fun r => get_field_name (fst r)) l.

(** ** Running the functions *)

(** What an expression stands for: the text of its type, without spaces, and its value.
    For a struct the text [p] means the expression [self.p]; for a tuple variant [v.p];
    for a variant with named fields the expression [p] itself. *)
Definition places := bytes -> option (bytes * val).
(** [From]/[Into] between two types given by their text. *)
Definition conversions := bytes -> bytes -> val -> val.

Definition int_of_text (s : bytes) : option ity :=
  assoc s [("u8", U8); ("u16", U16); ("u32", U32); ("u64", U64); ("usize", Usize); ("u128", U128);
           ("i8", I8); ("i16", I16); ("i32", I32); ("i64", I64); ("isize", Isize); ("i128", I128)]%string.
(** [*v as T] between integer types; other casts are not modelled *)
Definition as_int (as_type : bytes) (v : val) : option val :=
  match int_of_text (no_spaces as_type), v with
  | Some t, VInt z => Some (VInt (cast t z))
  | _, _ => None
  end.
Definition elementwise (as_type : bytes) (v : val) : option val :=
  match v with
  | VList l => option_map VList (all_some (map (as_int as_type) l))
  | _ => None
  end.
(** [X] for the text [Option<X>] *)
Definition inside (t : bytes) : bytes :=
  if begins "Option<" t then removelast (skipn 7 t) else t.
(** The body of a generated function whose return type is [ret]. *)
Definition run_getter (into : conversions) (ret : bytes) (env : places) (g : getter) : option val :=
  match env (g_path g) with
  | None => None
  | Some (t, v) =>
      let target := no_spaces ret in
      option_map (fun w => if g_some g then VOpt (Some w) else w)
        match g_step g with
        | Elementwise a => elementwise a v
        | ElementwiseInto a => option_map (fun w => if g_some g then w else VOpt (Some w)) (elementwise a v)
        | ElementwiseOption a =>
            match v with
            | VOpt None => Some (VOpt None)
            | VOpt (Some w) => option_map (fun w' => VOpt (Some w')) (elementwise a w)
            | _ => None
            end
        | OneElement a => option_map (fun w => VList [w]) (as_int a v)
        | IntoOption =>
            match v with
            | VOpt None => Some (VOpt None)
            | VOpt (Some w) => Some (VOpt (Some (into (inside t) (inside target) w)))
            | _ => None
            end
        | Into => Some (into t (if g_some g then inside target else target) v)
        end
  end.
(** A call needs the name to be defined once. *)
Definition the_one {A} (l : list A) : option A := match l with [x] => Some x | _ => None end.
(** derive_struct.rs:258-290: [value.get_<n>()] on a struct; [None]: the derive fails,
    or the function is not defined or defined twice. *)
Definition struct_functions (attrs : list attribute) (fs : gfields) : option (list (bytes * option getter)) :=
  match get_container_attributes attrs, body_getters fs with
  | Some ds, Some gs =>
      Some (map (fun n => (n, None)) (default_names ds) ++ map (fun gi => (g_name (fst gi), Some (fst gi))) gs)
  | _, _ => None
  end.
Definition struct_call (into : conversions) (attrs : list attribute) (fs : gfields) (n : bytes) (env : places) : option val :=
  match struct_functions attrs fs with
  | None => None
  | Some l =>
      match the_one (filter (fun x => bytes_eqb (fst x) n) l) with
      | None => None
      | Some (_, None) => Some (VOpt None)
      | Some (_, Some g) => run_getter into (g_ret g) env g
      end
  end.

(** ** Enums (jget/derive_enum.rs) *)

(** An arm of a generated [match]: [Self::V(v) => v.path], the same inside [Some], or
    [Self::V { ident, .. } => body]. *)
Inductive arm_body := OfTuple (path : bytes) (some : bool) | OfNamed (g : getter).
Record arm := mkarm { arm_name : bytes; arm_ret : bytes; arm_variant : nat; arm_else : bool; arm_body_of : arm_body }.
(** derive_enum.rs:51-83: [get = ".."] and [get_option = ".."] on a variant. The branch
    of line 72 that leaves out [Some] is never taken: the return type always contains
    [Option<] there. *)
Definition variant_arm (i : nat) (is_option : bool) (r : bytes * bytes) : arm :=
  mkarm (get_function_name (fst r)) (get_return_type (Some (snd r)) (snd r) is_option) i is_option
    (OfTuple (fst r) is_option).
(** derive_enum.rs:48-95 for one variant *)
Definition variant_arms (i : nat) (v : gvariant) : option (list arm) :=
  match get_attributes (gv_attrs v), body_getters (gv_fields v) with
  | Some a, Some gs =>
      Some (map (variant_arm i false) (a_get_string a) ++ map (variant_arm i true) (a_get_string_option a) ++
            map (fun gi => mkarm (g_name (fst gi)) (g_ret (fst gi)) i true (OfNamed (fst gi))) gs)
  | _, _ => None
  end.
(** derive_enum.rs:48-95: all the entries in the order in which they are inserted in
    the two hash maps. Not modelled: discriminants that make the macro panic, as in JDefault.v. *)
Fixpoint enum_arms (i : nat) (vs : list gvariant) : option (list arm) :=
  match vs with
  | [] => Some []
  | v :: r =>
      match variant_arms i v, enum_arms (S i) r with
      | Some a, Some b => Some (a ++ b)
      | _, _ => None
      end
  end.
(** derive_enum.rs:110-133: the arms in order, then [_ => None] if the entry inserted
    last for the name asks for it; a [match] that leaves out the variant does not
    compile ([None]). The return type is that of the entry inserted last. *)
Definition run_arms (into : conversions) (l : list arm) (i : nat) (env : places) : option val :=
  match rev l with
  | [] => None
  | z :: _ =>
      match find (fun a => Nat.eqb (arm_variant a) i) l with
      | Some a =>
          match arm_body_of a with
          | OfTuple p some => option_map (fun tv => if some then VOpt (Some (snd tv)) else snd tv) (env p)
          | OfNamed g => run_getter into (arm_ret z) env g
          end
      | None => if arm_else z then Some (VOpt None) else None
      end
  end.
(** [value.get_<n>()] on an enum value of variant [i] *)
Definition enum_call (into : conversions) (attrs : list attribute) (vs : list gvariant) (n : bytes) (i : nat) (env : places) : option val :=
  match get_container_attributes attrs, enum_arms 0 vs with
  | Some ds, Some l =>
      let here := filter (fun a => bytes_eqb (arm_name a) n) l in
      match filter (fun d => bytes_eqb d n) (default_names ds), here with
      | [_], [] => Some (VOpt None)
      | [], _ :: _ => run_arms into here i env
      | _, _ => None
      end
  | _, _ => None
  end.

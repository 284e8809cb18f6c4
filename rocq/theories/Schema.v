(** The schema language: the Rust types that have [ByteDecode]/[ByteEncode]
    implementations, the values they hold, and the [#[jbytes(...)]] modifiers the
    derive macros accept. *)
From Verif Require Import Base Ints Reader Writer.

(** ** Values

    One inductive for the values of all modelled types; which values belong to
    which type is said in TypeSpec.v ([value_of]).
    - a float is its bit pattern;
    - [&[u8]], [String], [&str], [HexString], [HexBytes], [Ipv4Addr], [Ipv6Addr]
      and [MacAddress] are byte strings (the octets for addresses);
    - [VList]: the elements of a [Vec], array, tuple or the fields of a struct;
    - a [HashMap]/[HashSet] is the list of its entries, in the order in which the
      hasher enumerates them;
    - [VVariant i fs]: the [i]-th variant (counted from 0) of an enum. [IpAddr]
      and [NetAddress] are enums: variants V4, V6 and V4, V6, Mac, Usize. *)
Inductive val :=
| VInt (z : Z)
| VBool (b : bool)
| VChar (c : N)
| VFloat (bits : N)
| VBytes (l : bytes)
| VUnit
| VList (l : list val)
| VOpt (o : option val)
| VMap (l : list (val * val))
| VSet (l : list val)
| VVariant (i : nat) (fs : list val).

(** [PartialEq] of the values (floats are compared by bit pattern, which differs
    from Rust's [==] on NaNs and zeros). *)
Fixpoint val_eqb (a b : val) {struct a} : bool :=
  let fix list_eqb (l m : list val) {struct l} : bool :=
    match l, m with
    | [], [] => true
    | x :: l', y :: m' => val_eqb x y && list_eqb l' m'
    | _, _ => false
    end in
  match a, b with
  | VInt x, VInt y => Z.eqb x y
  | VBool x, VBool y => Bool.eqb x y
  | VChar x, VChar y => N.eqb x y
  | VFloat x, VFloat y => N.eqb x y
  | VBytes x, VBytes y => bytes_eqb x y
  | VUnit, VUnit => true
  | VList l, VList m => list_eqb l m
  | VOpt None, VOpt None => true
  | VOpt (Some x), VOpt (Some y) => val_eqb x y
  | VMap l, VMap m =>
      (fix pairs_eqb (l m : list (val * val)) {struct l} : bool :=
         match l, m with
         | [], [] => true
         | (x, x') :: l', (y, y') :: m' => val_eqb x y && val_eqb x' y' && pairs_eqb l' m'
         | _, _ => false
         end) l m
  | VSet l, VSet m => list_eqb l m
  | VVariant i l, VVariant j m => Nat.eqb i j && list_eqb l m
  | _, _ => false
  end.

(** [HashMap::insert]: the value of a key already present is replaced. *)
Fixpoint map_insert (k v : val) (l : list (val * val)) : list (val * val) :=
  match l with
  | [] => [(k, v)]
  | (k', v') :: r => if val_eqb k k' then (k', v) :: r else (k', v') :: map_insert k v r
  end.
(** [HashSet::insert] *)
Fixpoint set_insert (v : val) (l : list val) : list val :=
  match l with
  | [] => [v]
  | w :: r => if val_eqb v w then w :: r else w :: set_insert v r
  end.

(** ** Modifiers as the runtime sees them *)

(** src/modifiers.rs:25-61, [FieldAttrModifiers]. [offset], [untake] and [expr]
    are never read by the codecs and are left out. [None] instead of a record is
    the same as the record with nothing set ([no_fattr]): no codec distinguishes
    them. *)
Record fattr := mkfattr {
  a_length : option N;
  a_order : option byteorder;
  a_linend : bool;
  a_linend_value : option bytes;
  a_bits : option N;
  a_bits_start : bool;
  a_byte_count : option N;
  a_remaining : bool;
  a_count : option N;
  a_try_count : option N;
  a_byte_count_outside : option N;
  a_key : option bytes;
  a_split : option bytes;
  a_branch : option N;
  a_loop : option bytes
}.
Definition no_fattr : fattr :=
  mkfattr None None false None None false None false None None None None None None None.

(** src/modifiers.rs:14-22, [ContainerAttrModifiers]. Names of variables are
    numbers; [expr] is never read and left out. *)
Record cattr := mkcattr {
  k_order : option byteorder;
  k_byte_count : option N;
  k_vars : list (nat * N)
}.
Definition no_cattr : cattr := mkcattr None None [].

(** src/modifiers.rs:64-79 *)
Definition get_byteorder (ca : cattr) (fa : fattr) : byteorder :=
  match a_order fa with
  | Some bo => bo
  | None => match k_order ca with Some bo => bo | None => Be end
  end.

(** ** Modifiers as they are written *)

(** What an expression in a modifier can mention: the fields that come before,
    in declaration order, and the variables obtained with [get_variable_name].
    Rust would also allow later fields when encoding, but then the decoding half
    does not compile. *)
Record env := mkenv { ev_fields : list val; ev_vars : list (nat * N) }.
Definition expr := env -> Z.
(** [(expr) as usize] (derive/src/jbytes/parse.rs:93) *)
Definition as_usize (z : Z) : N := raw_of_int Usize z.

(** [byteorder="BE"] or [byteorder="<expression>"]
    (derive/src/jbytes/parse.rs:76-83, 126-136). *)
Inductive order_attr := OConst (bo : byteorder) | OVar (e : expr).

(** ** Hand-written codecs

    A type with hand-written [ByteDecode]/[ByteEncode] implementations
    (src/decode/mod.rs:30-106, src/encode/mod.rs:30-73), or a struct with [with],
    [with_decode], [with_encode] in its own attributes
    (derive/src/jbytes/derive_struct.rs:164-170, 219-226): any two functions. *)
Record codec := mkcodec {
  x_decode : cattr -> fattr -> rd val;
  x_encode : cattr -> fattr -> val -> wr N
}.
(** What the author of such functions says about them: the bytes of a value, when
    they can be read back in front of other bytes, whether decoding needs at least
    one byte, and which values there are. The code does not use this; WireSpec.v
    says when it is true ([keeps_format]). *)
Record format := mkformat {
  d_wire : cattr -> fattr -> val -> option bytes;
  d_fits : cattr -> fattr -> val -> bytes -> bool;
  d_hungry : cattr -> fattr -> bool;
  d_value : val -> bool
}.

(** derive/src/jbytes/attribute.rs:124-180, [FieldAttributes]. Left out:
    [default_value], [default_bool] (no effect on encode/decode), and the
    [branch_*] entries, which are used on enum variants only ([vspec]). [f_format]
    is not code: it documents what the functions given by [with] do. *)
Record fspec := mkfspec {
  f_use : bool;                      (* carries a non-empty #[jbytes(...)] *)
  f_order : option order_attr;
  f_length : option expr;
  f_count : option expr;
  f_try_count : option expr;
  f_branch : option expr;
  f_bits : option expr;
  f_bits_start : bool;
  f_byte_count : option expr;
  f_byte_count_outside : option expr;
  f_remaining : bool;
  f_key : option bytes;
  f_split : option bytes;
  f_linend : option bytes;
  f_loop : option bytes;
  f_offset : option expr;
  f_full : N;                        (* padding byte, 0 when absent *)
  f_untake : bool;
  f_skip_decode : option val;        (* the [Default] value of the skipped field *)
  f_skip_encode : bool;
  f_from_str : option ((bytes -> option val) * (val -> bytes));  (* from_str, to_string *)
  f_if : option (env -> bool);
  f_value_decode : option (env -> val -> val);
  f_value_encode : option (env -> val -> val);
  f_check : option (env -> val);
  f_vars : list (nat * expr);        (* variable_name: published after this field *)
  (* [with_decode=f], or [with=m] for [m::decode]; [with_args] is an expression *)
  f_with_decode : option (env -> cattr -> fattr -> rd val);
  f_with_encode : option (env -> cattr -> fattr -> val -> wr N);
  f_format : option (env -> format)
}.
(** A field without attributes. *)
Definition plain : fspec :=
  mkfspec false None None None None None None false None None false
          None None None None None 0 false None false None None None None None [] None None None.

Definition eval_opt (e : option expr) (en : env) : option N :=
  option_map (fun x => as_usize (x en)) e.

(** derive/src/jbytes/attribute.rs:184-224, [to_code]: the [FieldAttrModifiers]
    built for a field. [None]: [ByteOrder::parse_int(..).unwrap()] panics
    (parse.rs:131, src/byteorder.rs:27-29). *)
Definition modifiers (f : fspec) (en : env) : option fattr :=
  if f_use f then
    let bo := match f_order f with
              | None => Some None
              | Some (OConst b) => Some (Some b)
              | Some (OVar e) =>
                  if Z.eqb (cast Isize (e en)) 0 then Some (Some Be)
                  else if Z.eqb (cast Isize (e en)) 1 then Some (Some Le)
                  else None
              end in
    match bo with
    | None => None
    | Some b =>
        Some (mkfattr (eval_opt (f_length f) en) b false (f_linend f)
                      (eval_opt (f_bits f) en) (f_bits_start f)
                      (eval_opt (f_byte_count f) en) (f_remaining f)
                      (eval_opt (f_count f) en) (eval_opt (f_try_count f) en)
                      (eval_opt (f_byte_count_outside f) en)
                      (f_key f) (f_split f) (eval_opt (f_branch f) en) (f_loop f))
    end
  else Some no_fattr.

(** derive/src/jbytes/attribute.rs:6-32, 36-49. The byte order of a container is a
    constant: an expression cannot refer to anything when decoding. A struct with
    [with*] is a [TUser]; [default*] is left out; [get_variable_name] needs no entry because a container
    is given all variables its parent has published. *)
Record cspec := mkcspec { c_order : option byteorder; c_byte_count : option N }.
Definition no_cspec : cspec := mkcspec None None.

(** How a derived enum finds its variant (derive/src/jbytes/derive_enum.rs:112-117,
    263-298): by an integer tag, [branch_starts_with],
    [branch_starts_with_untake], [branch_take_bytes=n]. *)
Inductive branching := ByTag | ByPrefix | ByPrefixUntake | ByBytes (n : N).

(** Enum level: the container's attributes, its branching, [byte_count_disable]. *)
Record espec := mkespec { e_c : cspec; e_branching : branching; e_no_tag : bool }.

(** Variant level (derive/src/jbytes/attribute.rs:156-161 and the discriminant of
    the variant). A number literal in [branch_value] is [v_value], a byte string
    literal is [v_bytes]; a range is (from, to, inclusive). *)
Record vspec := mkvspec {
  v_named : bool;                     (* Variant { .. } as opposed to Variant(..) *)
  v_attr : fspec;                     (* the other modifiers written on the variant *)
  v_name : bytes;                     (* lower-case name *)
  v_disc : option N;                  (* Variant = 5 *)
  v_default : bool;
  v_bits : option (N * N);            (* branch_bits, branch_bits_value *)
  v_value : option N;
  v_bytes : option bytes;
  v_range : option (N * N * bool)
}.

(** ** Types *)
Inductive ty :=
| TInt (t : ity)
| TBool
| TChar
| TF32
| TF64
| TBytes                              (* &[u8], HexString, HexBytes *)
| TString                             (* String, &str *)
| TMac
| TIpv4
| TIpv6
| TIpAddr
| TNetAddr
| TUnit                               (* PhantomData, Mark *)
| TUser (x : codec) (doc : format)    (* hand-written *)
| TArray (n : nat) (t : ty)
| TTuple (ts : list ty)
| TVec (t : ty)
| TSet (t : ty)                       (* HashSet: decode only *)
| TMap (k v : ty)
| TOption (t : ty)
| TStruct (named : bool) (c : cspec) (fs : list (fspec * ty))
| TEnum (e : espec) (vs : list (vspec * list (fspec * ty))).

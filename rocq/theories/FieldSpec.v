(** Specification vocabulary: what the modifiers written on a field tell the codec
    of its type. From the model only the types of modifiers are used. *)
From Verif Require Import Base Ints Reader Writer Spec SpecOps Schema.

(** The value of a modifier: its expression, converted to [usize]. *)
Definition amount (o : option expr) (en : env) : option N :=
  match o with Some e => Some (unsigned Usize (e en)) | None => None end.

(** The byte order said by [byteorder=..]: 0 is big-endian, 1 little-endian, and no
    other number is an order. *)
Definition says_order (o : option order_attr) (en : env) (b : option byteorder) : Prop :=
  match o with
  | None => b = None
  | Some (OConst bo) => b = Some bo
  | Some (OVar e) => (unsigned Usize (e en) = 0 /\ b = Some Be) \/ (unsigned Usize (e en) = 1 /\ b = Some Le)
  end.

(** [fa] is what the modifiers of [f] say. *)
Record conveys (f : fspec) (en : env) (fa : fattr) : Prop := {
  conveys_length : a_length fa = amount (f_length f) en;
  conveys_order : says_order (f_order f) en (a_order fa);
  conveys_linend : a_linend fa = false /\ a_linend_value fa = f_linend f;
  conveys_bits : a_bits fa = amount (f_bits f) en;
  conveys_bits_start : a_bits_start fa = f_bits_start f;
  conveys_byte_count : a_byte_count fa = amount (f_byte_count f) en;
  conveys_remaining : a_remaining fa = f_remaining f;
  conveys_count : a_count fa = amount (f_count f) en;
  conveys_try_count : a_try_count fa = amount (f_try_count f) en;
  conveys_byte_count_outside : a_byte_count_outside fa = amount (f_byte_count_outside f) en;
  conveys_key : a_key fa = f_key f;
  conveys_split : a_split fa = f_split f;
  conveys_branch : a_branch fa = amount (f_branch f) en;
  conveys_loop : a_loop fa = f_loop f
}.

(** No modifier that is executed by the container instead of the field's codec. *)
Definition for_the_codec (f : fspec) : Prop :=
  f_offset f = None /\ f_untake f = false /\ f_skip_decode f = None /\ f_skip_encode f = false /\
  f_from_str f = None /\ f_if f = None /\ f_value_decode f = None /\ f_value_encode f = None /\
  f_check f = None /\ f_with_decode f = None /\ f_with_encode f = None.

(** Written with [#[jbytes(..)]], or without any modifier for the codec. *)
Definition written (f : fspec) : Prop := f_use f = true \/ f = plain.

(** What a container gives to its fields when it encodes. *)
Definition container_of (c : cspec) : cattr := mkcattr (c_order c) (c_byte_count c) [].

(** What the fields [fs], with values [vs], publish with [variable_name], in order. The expression
    of a name is evaluated on the fields up to the one it is written on. *)
Fixpoint published (vars : list (nat * N)) (fs : list fspec) (before vs : list val) : list (nat * N) :=
  match fs, vs with
  | f :: fs', v :: vs' =>
      map (fun nx => (fst nx, unsigned Usize (snd nx (mkenv (before ++ [v]) vars)))) (f_vars f)
      ++ published vars fs' (before ++ [v]) vs'
  | _, _ => []
  end.
(** What a container gives to a field when it decodes: as well the variables, the latest first. *)
Definition container_with (c : cspec) (variables : list (nat * N)) : cattr :=
  mkcattr (c_order c) (c_byte_count c) (rev variables).

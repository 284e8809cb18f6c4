(** Writing schemas: one function per modifier of [#[jbytes(...)]]
    (derive/src/jbytes/attribute.rs:255-307), e.g.
    [at_length (const 3) plain] for [#[jbytes(length=3)]]. *)
From Verif Require Import Base Ints Reader Writer Schema.

(** A number written in an attribute. *)
Definition const (n : Z) : expr := fun _ => n.
(** An earlier field, by position, used as a number. *)
Definition field_ref (i : nat) : expr :=
  fun en => match nth_error (ev_fields en) i with
            | Some (VInt z) => z
            | Some (VBool true) => 1%Z
            | _ => 0%Z
            end.
(** A variable obtained with [get_variable_name]; 0 when it has not been published
    (derive/src/jbytes/derive_struct.rs:179-186). *)
Definition var_ref (x : nat) : expr :=
  fun en => match find (fun nv => Nat.eqb (fst nv) x) (ev_vars en) with
            | Some (_, n) => Z.of_N n
            | None => 0%Z
            end.

(** byteorder=.. *)
Definition at_order (o : order_attr) (f : fspec) : fspec :=
  mkfspec (true) (Some o) (f_length f) (f_count f) (f_try_count f) (f_branch f) (f_bits f) (f_bits_start f) (f_byte_count f) (f_byte_count_outside f) (f_remaining f) (f_key f) (f_split f) (f_linend f) (f_loop f) (f_offset f) (f_full f) (f_untake f) (f_skip_decode f) (f_skip_encode f) (f_from_str f) (f_if f) (f_value_decode f) (f_value_encode f) (f_check f) (f_vars f) (f_with_decode f) (f_with_encode f) (f_format f).

(** length=.. *)
Definition at_length (e : expr) (f : fspec) : fspec :=
  mkfspec (true) (f_order f) (Some e) (f_count f) (f_try_count f) (f_branch f) (f_bits f) (f_bits_start f) (f_byte_count f) (f_byte_count_outside f) (f_remaining f) (f_key f) (f_split f) (f_linend f) (f_loop f) (f_offset f) (f_full f) (f_untake f) (f_skip_decode f) (f_skip_encode f) (f_from_str f) (f_if f) (f_value_decode f) (f_value_encode f) (f_check f) (f_vars f) (f_with_decode f) (f_with_encode f) (f_format f).

(** count=.. *)
Definition at_count (e : expr) (f : fspec) : fspec :=
  mkfspec (true) (f_order f) (f_length f) (Some e) (f_try_count f) (f_branch f) (f_bits f) (f_bits_start f) (f_byte_count f) (f_byte_count_outside f) (f_remaining f) (f_key f) (f_split f) (f_linend f) (f_loop f) (f_offset f) (f_full f) (f_untake f) (f_skip_decode f) (f_skip_encode f) (f_from_str f) (f_if f) (f_value_decode f) (f_value_encode f) (f_check f) (f_vars f) (f_with_decode f) (f_with_encode f) (f_format f).

(** try_count=.. *)
Definition at_try_count (e : expr) (f : fspec) : fspec :=
  mkfspec (true) (f_order f) (f_length f) (f_count f) (Some e) (f_branch f) (f_bits f) (f_bits_start f) (f_byte_count f) (f_byte_count_outside f) (f_remaining f) (f_key f) (f_split f) (f_linend f) (f_loop f) (f_offset f) (f_full f) (f_untake f) (f_skip_decode f) (f_skip_encode f) (f_from_str f) (f_if f) (f_value_decode f) (f_value_encode f) (f_check f) (f_vars f) (f_with_decode f) (f_with_encode f) (f_format f).

(** branch=.. *)
Definition at_branch (e : expr) (f : fspec) : fspec :=
  mkfspec (true) (f_order f) (f_length f) (f_count f) (f_try_count f) (Some e) (f_bits f) (f_bits_start f) (f_byte_count f) (f_byte_count_outside f) (f_remaining f) (f_key f) (f_split f) (f_linend f) (f_loop f) (f_offset f) (f_full f) (f_untake f) (f_skip_decode f) (f_skip_encode f) (f_from_str f) (f_if f) (f_value_decode f) (f_value_encode f) (f_check f) (f_vars f) (f_with_decode f) (f_with_encode f) (f_format f).

(** bits=.. *)
Definition at_bits (e : expr) (f : fspec) : fspec :=
  mkfspec (true) (f_order f) (f_length f) (f_count f) (f_try_count f) (f_branch f) (Some e) (f_bits_start f) (f_byte_count f) (f_byte_count_outside f) (f_remaining f) (f_key f) (f_split f) (f_linend f) (f_loop f) (f_offset f) (f_full f) (f_untake f) (f_skip_decode f) (f_skip_encode f) (f_from_str f) (f_if f) (f_value_decode f) (f_value_encode f) (f_check f) (f_vars f) (f_with_decode f) (f_with_encode f) (f_format f).

(** bits_start=.. *)
Definition at_bits_start (e : expr) (f : fspec) : fspec :=
  mkfspec (true) (f_order f) (f_length f) (f_count f) (f_try_count f) (f_branch f) (Some e) (true) (f_byte_count f) (f_byte_count_outside f) (f_remaining f) (f_key f) (f_split f) (f_linend f) (f_loop f) (f_offset f) (f_full f) (f_untake f) (f_skip_decode f) (f_skip_encode f) (f_from_str f) (f_if f) (f_value_decode f) (f_value_encode f) (f_check f) (f_vars f) (f_with_decode f) (f_with_encode f) (f_format f).

(** byte_count=.. *)
Definition at_byte_count (e : expr) (f : fspec) : fspec :=
  mkfspec (true) (f_order f) (f_length f) (f_count f) (f_try_count f) (f_branch f) (f_bits f) (f_bits_start f) (Some e) (f_byte_count_outside f) (f_remaining f) (f_key f) (f_split f) (f_linend f) (f_loop f) (f_offset f) (f_full f) (f_untake f) (f_skip_decode f) (f_skip_encode f) (f_from_str f) (f_if f) (f_value_decode f) (f_value_encode f) (f_check f) (f_vars f) (f_with_decode f) (f_with_encode f) (f_format f).

(** byte_count_outside=.. *)
Definition at_byte_count_outside (e : expr) (f : fspec) : fspec :=
  mkfspec (true) (f_order f) (f_length f) (f_count f) (f_try_count f) (f_branch f) (f_bits f) (f_bits_start f) (f_byte_count f) (Some e) (f_remaining f) (f_key f) (f_split f) (f_linend f) (f_loop f) (f_offset f) (f_full f) (f_untake f) (f_skip_decode f) (f_skip_encode f) (f_from_str f) (f_if f) (f_value_decode f) (f_value_encode f) (f_check f) (f_vars f) (f_with_decode f) (f_with_encode f) (f_format f).

(** remaining *)
Definition at_remaining  (f : fspec) : fspec :=
  mkfspec (true) (f_order f) (f_length f) (f_count f) (f_try_count f) (f_branch f) (f_bits f) (f_bits_start f) (f_byte_count f) (f_byte_count_outside f) (true) (f_key f) (f_split f) (f_linend f) (f_loop f) (f_offset f) (f_full f) (f_untake f) (f_skip_decode f) (f_skip_encode f) (f_from_str f) (f_if f) (f_value_decode f) (f_value_encode f) (f_check f) (f_vars f) (f_with_decode f) (f_with_encode f) (f_format f).

(** key=.. *)
Definition at_key (s : bytes) (f : fspec) : fspec :=
  mkfspec (true) (f_order f) (f_length f) (f_count f) (f_try_count f) (f_branch f) (f_bits f) (f_bits_start f) (f_byte_count f) (f_byte_count_outside f) (f_remaining f) (Some s) (f_split f) (f_linend f) (f_loop f) (f_offset f) (f_full f) (f_untake f) (f_skip_decode f) (f_skip_encode f) (f_from_str f) (f_if f) (f_value_decode f) (f_value_encode f) (f_check f) (f_vars f) (f_with_decode f) (f_with_encode f) (f_format f).

(** split=.. *)
Definition at_split (s : bytes) (f : fspec) : fspec :=
  mkfspec (true) (f_order f) (f_length f) (f_count f) (f_try_count f) (f_branch f) (f_bits f) (f_bits_start f) (f_byte_count f) (f_byte_count_outside f) (f_remaining f) (f_key f) (Some s) (f_linend f) (f_loop f) (f_offset f) (f_full f) (f_untake f) (f_skip_decode f) (f_skip_encode f) (f_from_str f) (f_if f) (f_value_decode f) (f_value_encode f) (f_check f) (f_vars f) (f_with_decode f) (f_with_encode f) (f_format f).

(** linend=.. *)
Definition at_linend (s : bytes) (f : fspec) : fspec :=
  mkfspec (true) (f_order f) (f_length f) (f_count f) (f_try_count f) (f_branch f) (f_bits f) (f_bits_start f) (f_byte_count f) (f_byte_count_outside f) (f_remaining f) (f_key f) (f_split f) (Some s) (f_loop f) (f_offset f) (f_full f) (f_untake f) (f_skip_decode f) (f_skip_encode f) (f_from_str f) (f_if f) (f_value_decode f) (f_value_encode f) (f_check f) (f_vars f) (f_with_decode f) (f_with_encode f) (f_format f).

(** loop_skip_starts=.. *)
Definition at_loop (s : bytes) (f : fspec) : fspec :=
  mkfspec (true) (f_order f) (f_length f) (f_count f) (f_try_count f) (f_branch f) (f_bits f) (f_bits_start f) (f_byte_count f) (f_byte_count_outside f) (f_remaining f) (f_key f) (f_split f) (f_linend f) (Some s) (f_offset f) (f_full f) (f_untake f) (f_skip_decode f) (f_skip_encode f) (f_from_str f) (f_if f) (f_value_decode f) (f_value_encode f) (f_check f) (f_vars f) (f_with_decode f) (f_with_encode f) (f_format f).

(** offset=.. *)
Definition at_offset (e : expr) (f : fspec) : fspec :=
  mkfspec (true) (f_order f) (f_length f) (f_count f) (f_try_count f) (f_branch f) (f_bits f) (f_bits_start f) (f_byte_count f) (f_byte_count_outside f) (f_remaining f) (f_key f) (f_split f) (f_linend f) (f_loop f) (Some e) (f_full f) (f_untake f) (f_skip_decode f) (f_skip_encode f) (f_from_str f) (f_if f) (f_value_decode f) (f_value_encode f) (f_check f) (f_vars f) (f_with_decode f) (f_with_encode f) (f_format f).

(** full=.. *)
Definition at_full (n : N) (f : fspec) : fspec :=
  mkfspec (true) (f_order f) (f_length f) (f_count f) (f_try_count f) (f_branch f) (f_bits f) (f_bits_start f) (f_byte_count f) (f_byte_count_outside f) (f_remaining f) (f_key f) (f_split f) (f_linend f) (f_loop f) (f_offset f) (n) (f_untake f) (f_skip_decode f) (f_skip_encode f) (f_from_str f) (f_if f) (f_value_decode f) (f_value_encode f) (f_check f) (f_vars f) (f_with_decode f) (f_with_encode f) (f_format f).

(** untake *)
Definition at_untake  (f : fspec) : fspec :=
  mkfspec (true) (f_order f) (f_length f) (f_count f) (f_try_count f) (f_branch f) (f_bits f) (f_bits_start f) (f_byte_count f) (f_byte_count_outside f) (f_remaining f) (f_key f) (f_split f) (f_linend f) (f_loop f) (f_offset f) (f_full f) (true) (f_skip_decode f) (f_skip_encode f) (f_from_str f) (f_if f) (f_value_decode f) (f_value_encode f) (f_check f) (f_vars f) (f_with_decode f) (f_with_encode f) (f_format f).

(** skip, on a field whose default is [v] *)
Definition at_skip (v : val) (f : fspec) : fspec :=
  mkfspec (true) (f_order f) (f_length f) (f_count f) (f_try_count f) (f_branch f) (f_bits f) (f_bits_start f) (f_byte_count f) (f_byte_count_outside f) (f_remaining f) (f_key f) (f_split f) (f_linend f) (f_loop f) (f_offset f) (f_full f) (f_untake f) (Some v) (true) (f_from_str f) (f_if f) (f_value_decode f) (f_value_encode f) (f_check f) (f_vars f) (f_with_decode f) (f_with_encode f) (f_format f).

(** skip_encode *)
Definition at_skip_encode  (f : fspec) : fspec :=
  mkfspec (true) (f_order f) (f_length f) (f_count f) (f_try_count f) (f_branch f) (f_bits f) (f_bits_start f) (f_byte_count f) (f_byte_count_outside f) (f_remaining f) (f_key f) (f_split f) (f_linend f) (f_loop f) (f_offset f) (f_full f) (f_untake f) (f_skip_decode f) (true) (f_from_str f) (f_if f) (f_value_decode f) (f_value_encode f) (f_check f) (f_vars f) (f_with_decode f) (f_with_encode f) (f_format f).

(** skip_decode *)
Definition at_skip_decode (v : val) (f : fspec) : fspec :=
  mkfspec (true) (f_order f) (f_length f) (f_count f) (f_try_count f) (f_branch f) (f_bits f) (f_bits_start f) (f_byte_count f) (f_byte_count_outside f) (f_remaining f) (f_key f) (f_split f) (f_linend f) (f_loop f) (f_offset f) (f_full f) (f_untake f) (Some v) (f_skip_encode f) (f_from_str f) (f_if f) (f_value_decode f) (f_value_encode f) (f_check f) (f_vars f) (f_with_decode f) (f_with_encode f) (f_format f).

(** from_str *)
Definition at_from_str (p : bytes -> option val) (s : val -> bytes) (f : fspec) : fspec :=
  mkfspec (true) (f_order f) (f_length f) (f_count f) (f_try_count f) (f_branch f) (f_bits f) (f_bits_start f) (f_byte_count f) (f_byte_count_outside f) (f_remaining f) (f_key f) (f_split f) (f_linend f) (f_loop f) (f_offset f) (f_full f) (f_untake f) (f_skip_decode f) (f_skip_encode f) (Some (p, s)) (f_if f) (f_value_decode f) (f_value_encode f) (f_check f) (f_vars f) (f_with_decode f) (f_with_encode f) (f_format f).

(** if_expr=.. *)
Definition at_if (c : env -> bool) (f : fspec) : fspec :=
  mkfspec (true) (f_order f) (f_length f) (f_count f) (f_try_count f) (f_branch f) (f_bits f) (f_bits_start f) (f_byte_count f) (f_byte_count_outside f) (f_remaining f) (f_key f) (f_split f) (f_linend f) (f_loop f) (f_offset f) (f_full f) (f_untake f) (f_skip_decode f) (f_skip_encode f) (f_from_str f) (Some c) (f_value_decode f) (f_value_encode f) (f_check f) (f_vars f) (f_with_decode f) (f_with_encode f) (f_format f).

(** value_decode=.. *)
Definition at_value_decode (g : env -> val -> val) (f : fspec) : fspec :=
  mkfspec (true) (f_order f) (f_length f) (f_count f) (f_try_count f) (f_branch f) (f_bits f) (f_bits_start f) (f_byte_count f) (f_byte_count_outside f) (f_remaining f) (f_key f) (f_split f) (f_linend f) (f_loop f) (f_offset f) (f_full f) (f_untake f) (f_skip_decode f) (f_skip_encode f) (f_from_str f) (f_if f) (Some g) (f_value_encode f) (f_check f) (f_vars f) (f_with_decode f) (f_with_encode f) (f_format f).

(** value_encode=.. *)
Definition at_value_encode (g : env -> val -> val) (f : fspec) : fspec :=
  mkfspec (true) (f_order f) (f_length f) (f_count f) (f_try_count f) (f_branch f) (f_bits f) (f_bits_start f) (f_byte_count f) (f_byte_count_outside f) (f_remaining f) (f_key f) (f_split f) (f_linend f) (f_loop f) (f_offset f) (f_full f) (f_untake f) (f_skip_decode f) (f_skip_encode f) (f_from_str f) (f_if f) (f_value_decode f) (Some g) (f_check f) (f_vars f) (f_with_decode f) (f_with_encode f) (f_format f).

(** check_value=.. *)
Definition at_check (v : env -> val) (f : fspec) : fspec :=
  mkfspec (true) (f_order f) (f_length f) (f_count f) (f_try_count f) (f_branch f) (f_bits f) (f_bits_start f) (f_byte_count f) (f_byte_count_outside f) (f_remaining f) (f_key f) (f_split f) (f_linend f) (f_loop f) (f_offset f) (f_full f) (f_untake f) (f_skip_decode f) (f_skip_encode f) (f_from_str f) (f_if f) (f_value_decode f) (f_value_encode f) (Some v) (f_vars f) (f_with_decode f) (f_with_encode f) (f_format f).

(** variable_name=.. *)
Definition at_variable (x : nat) (e : expr) (f : fspec) : fspec :=
  mkfspec (true) (f_order f) (f_length f) (f_count f) (f_try_count f) (f_branch f) (f_bits f) (f_bits_start f) (f_byte_count f) (f_byte_count_outside f) (f_remaining f) (f_key f) (f_split f) (f_linend f) (f_loop f) (f_offset f) (f_full f) (f_untake f) (f_skip_decode f) (f_skip_encode f) (f_from_str f) (f_if f) (f_value_decode f) (f_value_encode f) (f_check f) (f_vars f ++ [(x, e)]) (f_with_decode f) (f_with_encode f) (f_format f).

(** with_decode=.., with_encode=.., and what they are meant to do *)
Definition at_with (d : env -> cattr -> fattr -> rd val) (e : env -> cattr -> fattr -> val -> wr N) (doc : env -> format)
                   (f : fspec) : fspec :=
  mkfspec (true) (f_order f) (f_length f) (f_count f) (f_try_count f) (f_branch f) (f_bits f) (f_bits_start f) (f_byte_count f) (f_byte_count_outside f) (f_remaining f) (f_key f) (f_split f) (f_linend f) (f_loop f) (f_offset f) (f_full f) (f_untake f) (f_skip_decode f) (f_skip_encode f) (f_from_str f) (f_if f) (f_value_decode f) (f_value_encode f) (f_check f) (f_vars f) (Some d) (Some e) (Some doc).

(** Enum variants: a numbered one and the [branch_*] forms. *)
Definition variant (named : bool) : vspec := mkvspec named plain [] None false None None None None.
Definition variant_value (named : bool) (n : N) : vspec := mkvspec named plain [] None false None (Some n) None None.
Definition variant_default (named : bool) : vspec := mkvspec named plain [] None true None None None None.
Definition variant_range (named : bool) (lo hi : N) (incl : bool) : vspec :=
  mkvspec named plain [] None false None None None (Some (lo, hi, incl)).
Definition variant_bits (named : bool) (mask want : N) : vspec :=
  mkvspec named plain [] None false (Some (mask, want)) None None None.
Definition variant_lit (named : bool) (s : bytes) : vspec :=
  mkvspec named plain [] None false None None (Some s) None.
Definition tagged : espec := mkespec no_cspec ByTag false.

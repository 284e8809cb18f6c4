(** What the comparison of 32-bit and 64-bit targets asks of a schema and of functions
    given by the user. *)
From Verif Require Import Base Ints Spec SpecOps Reader Writer BufIo Schema WireSpec SafetySpec TypeSpec.

(** Data that can exist on a 32-bit target. *)
Definition allocatable32 (d : bytes) : Prop := size d < 2147483648.
(** A reading function leaves a position that is a [usize] of 32 bits. *)
Definition stays_usize32 {A} (m : rd A) : Prop := forall d p, allocatable32 d -> p < 4294967296 ->
  match m d p with Ok _ q | Err _ q => q < 4294967296 | _ => True end.
(** A writing function does not make the data shorter and leaves the position in them. *)
Definition grows {A} (m : wr A) : Prop := forall d p, p <= size d -> allocatable d ->
  match m (mkbuf d p) with
  | Ok _ b => size d <= size (b_data b) /\ b_pos b <= size (b_data b) /\ allocatable (b_data b)
  | Err _ b => size d <= size (b_data b)
  | _ => True
  end.

(** ** Modifiers whose values do not depend on the width of [usize] *)
Definition fixed_width (it : ity) : Prop := it <> Usize /\ it <> Isize.
(** A [NetAddress] that would take its [length] from the modifiers of this field. *)
Fixpoint has_address (t : ty) : bool :=
  match t with
  | TNetAddr => true
  | TArray _ t1 | TVec t1 | TSet t1 | TOption t1 => has_address t1
  | TTuple ts => existsb has_address ts
  | TMap tk tv => has_address tk || has_address tv
  | _ => false
  end.
(** The numbers are less than 2^32, prefixes have at most four bytes, and the length of
    a [NetAddress], which has no [bits], is not one that only a [usize] of eight bytes has. *)
Definition below (bound : N) (o : option N) : Prop := match o with Some n => n < bound | None => True end.
Definition no_wide_address (t : ty) (fa : fattr) : Prop :=
  has_address t = true -> ~ In (a_length fa) [Some 5; Some 7; Some 8] /\ a_bits fa = None.
Definition narrow_modifiers (t : ty) (fa : fattr) : Prop :=
  Forall (below 4294967296) [a_length fa; a_bits fa; a_count fa; a_try_count fa; a_branch fa] /\
  Forall (below 5) [a_byte_count fa; a_byte_count_outside fa] /\
  no_wide_address t fa.

(** The values of the fields before, and variables: a [usize] each. *)
Definition env_of (before : list ty) (en : env) : Prop :=
  each (map value_of before) (ev_fields en) /\ Forall (fun kv => snd kv < 4294967296) (ev_vars en).
Definition in_usize32 (z : Z) : Prop := (0 <= z < 4294967296)%Z.
(** A field of type [t] after fields of the types [before]: whatever values these have,
    the expressions in its attributes evaluate to such numbers. *)
Definition narrow_field (before : list ty) (f : fspec) (t : ty) : Prop :=
  (forall en, env_of before en ->
     (forall e, In (Some e) [f_length f; f_bits f; f_count f; f_try_count f; f_branch f; f_offset f] -> in_usize32 (e en)) /\
     (forall e, In (Some e) [f_byte_count f; f_byte_count_outside f] -> (0 <= e en <= 4)%Z) /\
     (forall e, f_order f = Some (OVar e) -> (- 2147483648 <= e en < 2147483648)%Z) /\
     (has_address t = true -> f_use f = true /\ f_bits f = None /\
        forall e, f_length f = Some e -> ~ In (e en) [5; 7; 8]%Z)) /\
  (forall en, env_of (before ++ [t]) en -> forall k e, In (k, e) (f_vars f) -> in_usize32 (e en)).
Definition narrow_fields (ok : ty -> Prop) :=
  fix go (before : list ty) (fs : list (fspec * ty)) : Prop :=
    match fs with
    | [] => True
    | (f, t) :: r => narrow_field before f t /\ ok t /\ go (before ++ [t]) r
    end.
(** A schema without [usize] and [isize], all of whose fields are like that. *)
Fixpoint portable (t : ty) : Prop :=
  match t with
  | TInt it => fixed_width it
  | TArray _ t1 | TVec t1 | TSet t1 | TOption t1 => portable t1
  | TTuple ts => every (fun p : Prop => p) (map portable ts)
  | TMap tk tv => portable tk /\ portable tv
  | TStruct _ _ fs => narrow_fields portable [] fs
  | TEnum e vs =>
      below 5 (c_byte_count (e_c e)) /\
      match e_branching e with ByBytes n => n < 4294967296 | _ => True end /\
      every (fun vf : vspec * list (fspec * ty) =>
               narrow_field [] (v_attr (fst vf)) TUnit /\ narrow_fields portable [] (snd vf)) vs
  | _ => True
  end.
(** No address at all: the number in a [NetAddress] is a [usize]. *)
Fixpoint address_free (t : ty) : bool :=
  let field := fun ft : fspec * ty => address_free (snd ft) in
  match t with
  | TNetAddr => false
  | TArray _ t1 | TVec t1 | TSet t1 | TOption t1 => address_free t1
  | TTuple ts => forallb address_free ts
  | TMap tk tv => address_free tk && address_free tv
  | TStruct _ _ fs => forallb field fs
  | TEnum _ vs => forallb (fun vf : vspec * list (fspec * ty) => forallb field (snd vf)) vs
  | _ => true
  end.

(** A call that does not read or write a [usize] or [isize]. *)
Definition fixed_read (o : rop) : Prop :=
  match o with RTakeInt _ it | RUntakeInt _ it => fixed_width it | _ => True end.
Definition fixed_write (o : wop) : Prop :=
  match o with WPushInt _ it _ => fixed_width it | _ => True end.
(** A seek whose offset is a number of 32 bits. *)
Definition near_seek (o : io_op) : Prop :=
  match o with
  | OpSeek (SStart off) => off < 2147483648
  | OpSeek (SEnd off) | OpSeek (SCurrent off) => (- 2147483648 <= off < 2147483648)%Z
  | _ => True
  end.

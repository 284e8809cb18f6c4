(** Notions used to state the properties of encoders and decoders. *)
From Coq Require Import Permutation.
From Verif Require Import Base Ints Reader Writer Spec SpecOps RunSpec Schema Utf8 Sugar WireSpec.

(** Returns an error and stays where it is. *)
Definition refuses {A} (m : rd A) (d : bytes) (p : N) : Prop :=
  exists e, m d p = Err e p.

(** [m] run once for each element of [l], each time from where the last run
    stopped. *)
Fixpoint runs {A} (m : rd A) (d : bytes) (p : N) (l : list A) (q : N) : Prop :=
  match l with
  | [] => p = q
  | x :: r => exists p', m d p = Ok x p' /\ runs m d p' r q
  end.
(** The same for different decoders. *)
Fixpoint runs_each {A} (ms : list (rd A)) (d : bytes) (p : N) (l : list A) (q : N) : Prop :=
  match ms, l with
  | [], [] => p = q
  | m :: ms', x :: r => exists p', m d p = Ok x p' /\ runs_each ms' d p' r q
  | _, _ => False
  end.

(** Where a collection has a count that is not [try_count]: it is given by
    [count], or stored at [p] in [byte_count_outside] bytes, or in one byte. The
    elements begin at [q]. *)
Definition announced (ca : cattr) (fa : fattr) (d : bytes) (p c q : N) : Prop :=
  match a_count fa, a_byte_count_outside fa with
  | Some n, _ => c = n /\ q = p
  | None, Some k => p + k <= size d /\ c = number (order_for ca fa) (window d p k) /\ q = p + k
  | None, None => exists b, nth_error d (N.to_nat p) = Some b /\ c = b2n b /\ q = p + 1
  end.

(** Finite maps. *)
Fixpoint lookup (k : val) (l : list (val * val)) : option val :=
  match l with
  | [] => None
  | (k', v) :: r => if val_eqb k k' then Some v else lookup k r
  end.
Definition same_map (l m : list (val * val)) : Prop := forall k, lookup k l = lookup k m.

(** Bits of a number. *)
Definition bit (n i : N) : bool := N.testbit n i.
Definition disjoint (a b : N) : Prop := forall i, bit a i && bit b i = false.
(** The ones of a mask are next to each other: k zeros below m ones. *)
Definition contiguous (mask : N) : Prop := exists k m, 0 < m /\ mask = (2 ^ m - 1) * 2 ^ k.

(** A group of bit fields of the integer type [it] over one word: the first says
    [bits_start], all but the last [untake]. *)
Fixpoint more_bits (it : ity) (masks : list N) : list (fspec * ty) :=
  match masks with
  | [] => []
  | [m] => [(at_bits (const (Z.of_N m)) plain, TInt it)]
  | m :: r => (at_untake (at_bits (const (Z.of_N m)) plain), TInt it) :: more_bits it r
  end.
Definition bit_group (it : ity) (m : N) (masks : list N) : list (fspec * ty) :=
  match masks with
  | [] => [(at_bits_start (const (Z.of_N m)) plain, TInt it)]
  | _ => (at_untake (at_bits_start (const (Z.of_N m)) plain), TInt it) :: more_bits it masks
  end.
(** The value fits the ones of a contiguous mask. *)
Definition fits_mask (mask v : N) : Prop := exists k m, 0 < m /\ mask = (2 ^ m - 1) * 2 ^ k /\ v < 2 ^ m.
Fixpoint pairwise_disjoint (l : list N) : Prop :=
  match l with [] => True | m :: r => Forall (disjoint m) r /\ pairwise_disjoint r end.
(** The byte order of fields that do not name one, in a container. *)
Definition order_in (c : cspec) : byteorder := match c_order c with Some bo => bo | None => Be end.
Definition numbers (l : list N) : list val := map (fun v => VInt (Z.of_N v)) l.

(** Enums with integer tags: where the tag of a value at [p] comes from; the
    contents begin at [q]. *)
Definition tag_at (e : espec) (ca : cattr) (fa : fattr) (d : bytes) (p tag q : N) : Prop :=
  match a_branch fa, a_byte_count fa, c_byte_count (e_c e) with
  | Some b, _, _ => tag = b /\ q = p
  | None, Some k, _ | None, None, Some k =>
      p + k <= size d /\ tag = number (order_for ca fa) (window d p k) /\ q = p + k
  | None, None, None => exists b, nth_error d (N.to_nat p) = Some b /\ tag = b2n b /\ q = p + 1
  end.
(** The [i]-th variant's arm accepts the tag. *)
Definition arm_accepts (vs : list (vspec * list (fspec * ty))) (i : nat) (tag : N) : Prop :=
  exists v n, nth_error (map fst vs) i = Some v /\ nth_error (numbering 0 (map fst vs)) i = Some n
              /\ accepts v n tag = true.
Definition arms_disjoint (vs : list (vspec * list (fspec * ty))) : Prop :=
  forall tag i j, arm_accepts vs i tag -> arm_accepts vs j tag -> i = j.
(** Literals that announce variants: none is the beginning of another. *)
Definition prefix_free (vs : list (vspec * list (fspec * ty))) : Prop :=
  forall i j v w, nth_error (map fst vs) i = Some v -> nth_error (map fst vs) j = Some w ->
  starts_with (literal v) (literal w) = true -> i = j.

(** The field publishes a variable with this name. *)
Definition publishes (x : nat) (ft : fspec * ty) : Prop := In x (map fst (f_vars (fst ft))).

(** The same modifiers with another byte order. *)
Definition set_order (o : option byteorder) (fa : fattr) : fattr :=
  mkfattr (a_length fa) o (a_linend fa) (a_linend_value fa) (a_bits fa) (a_bits_start fa)
          (a_byte_count fa) (a_remaining fa) (a_count fa) (a_try_count fa) (a_byte_count_outside fa)
          (a_key fa) (a_split fa) (a_branch fa) (a_loop fa).
Definition in_order (o : option byteorder) (ca : cattr) : cattr := mkcattr o (k_byte_count ca) (k_vars ca).
(** No map that would replace the modifiers of its keys or values. *)
Definition no_terminators (fa : fattr) : bool :=
  match a_split fa, a_linend_value fa, a_linend fa with None, None, false => true | _, _, _ => false end.
(** Hand-written codecs outside of structs and variants depend on byte orders only
    through the one in force. *)
Fixpoint only_order_in_force (t : ty) : Prop :=
  match t with
  | TUser x _ => forall ca fa o1 o2 k1 k2,
      order_for (in_order k1 ca) (set_order o1 fa) = order_for (in_order k2 ca) (set_order o2 fa) ->
      (forall d p, x_decode x (in_order k1 ca) (set_order o1 fa) d p = x_decode x (in_order k2 ca) (set_order o2 fa) d p)
      /\ (forall v b, x_encode x (in_order k1 ca) (set_order o1 fa) v b = x_encode x (in_order k2 ca) (set_order o2 fa) v b)
  | TArray _ t1 | TVec t1 | TSet t1 | TOption t1 => only_order_in_force t1
  | TTuple ts => every (fun p : Prop => p) (map only_order_in_force ts)
  | TMap tk tv => only_order_in_force tk /\ only_order_in_force tv
  | _ => True
  end.
Fixpoint no_map (t : ty) : bool :=
  match t with
  | TMap _ _ => false
  | TArray _ t1 | TVec t1 | TSet t1 | TOption t1 => no_map t1
  | TTuple ts => forallb (fun b => b) (map no_map ts)
  | _ => true
  end.

(** A field without its [check_value]; without its [untake]. *)
Definition unchecked (f : fspec) : fspec :=
  mkfspec (f_use f) (f_order f) (f_length f) (f_count f) (f_try_count f) (f_branch f) (f_bits f)
          (f_bits_start f) (f_byte_count f) (f_byte_count_outside f) (f_remaining f) (f_key f) (f_split f)
          (f_linend f) (f_loop f) (f_offset f) (f_full f) (f_untake f) (f_skip_decode f) (f_skip_encode f)
          (f_from_str f) (f_if f) (f_value_decode f) (f_value_encode f) None (f_vars f) (f_with_decode f) (f_with_encode f) (f_format f).
Definition taken (f : fspec) : fspec :=
  mkfspec (f_use f) (f_order f) (f_length f) (f_count f) (f_try_count f) (f_branch f) (f_bits f)
          (f_bits_start f) (f_byte_count f) (f_byte_count_outside f) (f_remaining f) (f_key f) (f_split f)
          (f_linend f) (f_loop f) (f_offset f) (f_full f) false (f_skip_decode f) (f_skip_encode f)
          (f_from_str f) (f_if f) (f_value_decode f) (f_value_encode f) (f_check f) (f_vars f) (f_with_decode f) (f_with_encode f) (f_format f).

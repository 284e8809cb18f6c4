(** Trait [BufWriteMut] in a program for a big-endian target: the functions of WriteMut.v
    that depend on the order of bytes in memory, with the text they have there; see
    BigReader.v. *)
From Verif Require Import Base Ints Reader Writer ReadMut WriteMut BigReader.

Section Trait.
  Context {S : Type}.
  Variable W : wimpl S.
  Local Notation mw_push := (WriteMut.mw_push W).
  Local Notation mw_push_byteorder_array := (WriteMut.mw_push_byteorder_array W).
  Local Notation mw_push_char := (WriteMut.mw_push_char W).
  Local Notation mw_push_bool := (WriteMut.mw_push_bool W).
  Local Notation mw_push_be_uint := (WriteMut.mw_push_be_uint W).
  Local Notation mw_push_le_uint := (WriteMut.mw_push_le_uint W).

  (** src/buf_mut_traits.rs:1468-1897: push_{,be_,le_,ne_,byteorder_}{u8..isize} *)
  Definition mw_push_int (k : endian) (t : ity) (z : Z) : S -> res S N :=
    match t with
    | U8 | I8 => mw_push [n2b (raw_of_int t z)]
    | _ => mw_push (to_bytes (order_of k) (isize_of t) (raw_of_int t z))
    end.
  (** src/buf_mut_traits.rs:1600-1633 *)
  Definition mw_push_u24 (k : endian) (v : N) : S -> res S N :=
    match order_of k with
    | Be => mw_push (skipn 1 (to_be 4 v))
    | Le => mw_push (firstn 3 (to_le 4 v))
    end.
  (** src/buf_mut_traits.rs:1901-1945 *)
  Definition mw_push_uint (k : endian) (v n : N) : S -> res S N :=
    match order_of k with Be => mw_push_be_uint v n | Le => mw_push_le_uint v n end.
  (** src/buf_mut_traits.rs:1949-1982: [value as u64] *)
  Definition mw_push_sint (k : endian) (z : Z) (n : N) : S -> res S N := mw_push_uint k (raw_of_int I64 z) n.
  (** src/buf_mut_traits.rs:1986-2047, on bit patterns *)
  Definition mw_push_f32 (k : endian) (v : N) : S -> res S N := mw_push (to_bytes (order_of k) 4 v).
  Definition mw_push_f64 (k : endian) (v : N) : S -> res S N := mw_push (to_bytes (order_of k) 8 v).
  Definition run_mwop (o : wop) : S -> res S N :=
    match o with
    | WPush v => mw_push v
    | WPushOrderArray v bo => mw_push_byteorder_array v bo
    | WPushChar c => mw_push_char c
    | WPushBool b => mw_push_bool b
    | WPushInt k t z => mw_push_int k t z
    | WPushU24 k v => mw_push_u24 k v
    | WPushUint k v n => mw_push_uint k v n
    | WPushSint k z n => mw_push_sint k z n
    | WPushF32 k v => mw_push_f32 k v
    | WPushF64 k v => mw_push_f64 k v
    end.
  (** A caller that goes on after errors; [None] if a call panics. *)
  Fixpoint run_mwops (ops : list wop) (s : S) : option (list (N + error) * S) :=
    match ops with
    | [] => Some ([], s)
    | o :: os =>
        match run_mwop o s with
        | Ok v s' => match run_mwops os s' with Some (vs, q) => Some (inl v :: vs, q) | None => None end
        | Err e s' => match run_mwops os s' with Some (vs, q) => Some (inr e :: vs, q) | None => None end
        | _ => None
        end
    end.
End Trait.

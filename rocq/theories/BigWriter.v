(** The writing side in a program for a big-endian target; see BigReader.v. *)
From Verif Require Import Base Ints Reader Writer BigReader.

(** src/buf_traits.rs:1413-1842: push_{,be_,le_,ne_,byteorder_}{u8..isize} *)
Definition push_int (k : endian) (t : ity) (z : Z) : wr N :=
  match t with
  | U8 | I8 => push_u8 (raw_of_int t z)
  | _ => push (to_bytes (order_of k) (isize_of t) (raw_of_int t z))
  end.

(** src/buf_traits.rs:1545-1578 *)
Definition push_u24 (k : endian) (v : N) : wr N :=
  match order_of k with
  | Be => push (skipn 1 (to_be 4 v))
  | Le => push (firstn 3 (to_le 4 v))
  end.

(** src/buf_traits.rs:1846-1890 *)
Definition push_uint (k : endian) (v n : N) : wr N :=
  match order_of k with Be => push_be_uint v n | Le => push_le_uint v n end.

(** src/buf_traits.rs:1894-1927: [value as u64] *)
Definition push_sint (k : endian) (z : Z) (n : N) : wr N := push_uint k (raw_of_int I64 z) n.

(** src/buf_traits.rs:1931-1993, on bit patterns *)
Definition push_f32 (k : endian) (v : N) : wr N := push (to_bytes (order_of k) 4 v).

Definition push_f64 (k : endian) (v : N) : wr N := push (to_bytes (order_of k) 8 v).

Definition run_wop (o : wop) : wr N :=
  match o with
  | WPush v => push v
  | WPushOrderArray v bo => push_byteorder_array v bo
  | WPushChar c => push_char c
  | WPushBool b => push_bool b
  | WPushInt k t z => push_int k t z
  | WPushU24 k v => push_u24 k v
  | WPushUint k v n => push_uint k v n
  | WPushSint k z n => push_sint k z n
  | WPushF32 k v => push_f32 k v
  | WPushF64 k v => push_f64 k v
  end.

(** A caller that issues the pushes one after the other and goes on after
    errors; [None] if one of them panics. *)
Fixpoint run_wops (ops : list wop) (b : buf) : option (list (N + error) * buf) :=
  match ops with
  | [] => Some ([], b)
  | o :: os =>
      match run_wop o b with
      | Ok v b' => match run_wops os b' with Some (vs, q) => Some (inl v :: vs, q) | None => None end
      | Err e b' => match run_wops os b' with Some (vs, q) => Some (inr e :: vs, q) | None => None end
      | _ => None
      end
  end.

(** The writing side: trait [BufWrite] (src/buf_traits.rs:1352-1994) as implemented
    by [Buffer] (src/buffer.rs:38-138). *)
From Verif Require Import Base Ints Reader.

(** src/buffer.rs:39-42 *)
Record buf := mkbuf { b_data : bytes; b_pos : N }.

(** src/buffer.rs:48-53 *)
Definition buf_new : buf := mkbuf [] 0.
(** src/buffer.rs:74-76 *)
Definition buf_from (l : bytes) : buf := mkbuf l 0.

Definition wr (A : Type) := buf -> res buf A.
Definition wret {A} (a : A) : wr A := fun b => Ok a b.
Definition wbind {A B} (m : wr A) (f : A -> wr B) : wr B :=
  fun b => match m b with
           | Ok a b' => f a b'
           | Err e b' => Err e b'
           | Panic => Panic
           | Hang => Hang
           end.
Definition wfail {A} (k : ekind) : wr A := fun b => Err (mkerr (b_pos b) k) b.
Notation "x <~ m ;; k" := (wbind m (fun x => k)) (at level 61, m at next level, right associativity).

(** [Buffer] is also a reader (src/buffer.rs:96-121). *)
Definition on_reader {A} (m : rd A) : wr A := fun b =>
  match m (b_data b) (b_pos b) with
  | Ok a p => Ok a (mkbuf (b_data b) p)
  | Err e p => Err e (mkbuf (b_data b) p)
  | Panic => Panic
  | Hang => Hang
  end.

(** [Vec::resize(n, 0)]; a length above [isize::MAX] panics (capacity overflow).
    Running out of memory below that limit is not modelled. *)
Definition vec_resize (d : bytes) (n : N) : option bytes :=
  if n <? W63 then
    Some (if n <=? lenN d then firstn (N.to_nat n) d else d ++ zeros (n - lenN d))
  else None.

(** [data[pos..][..len].clone_from_slice(v)] (src/buffer.rs:126-128 and
    src/buf_traits.rs:1368); panics when out of range *)
Definition write_at (d : bytes) (pos : N) (v : bytes) : option bytes :=
  match slice_get_from d pos with
  | None => None
  | Some tail =>
      match slice_get_to tail (lenN v) with
      | None => None
      | Some _ => Some (firstn (N.to_nat pos) d ++ v ++ skipn (length v) tail)
      end
  end.

(** src/buf_traits.rs:1360-1372 with [resize] of src/buffer.rs:131-137 *)
Definition push (v : bytes) : wr N := fun b =>
  let n := lenN v in
  let finish (d : bytes) :=
    match write_at d (b_pos b) v with
    | Some d' => Ok n (mkbuf d' (wadd (b_pos b) n))
    | None => Panic
    end in
  if remaining_len (b_data b) (b_pos b) <? n then
    let nbytes := wadd (b_pos b) n in
    match vec_resize (b_data b) nbytes with
    | None => Panic
    | Some d =>
        if nbytes =? 0 then Err (mkerr (b_pos b) PushFail) (mkbuf d (b_pos b))
        else finish d
    end
  else finish (b_data b).

(** src/buf_traits.rs:1376-1384: push_bytes, push_array *)
Definition push_bytes (v : bytes) : wr N := push v.
(** src/buf_traits.rs:1388-1397 *)
Definition push_byteorder_array (v : bytes) (bo : byteorder) : wr N :=
  match bo with Be => push v | Le => push (rev v) end.
(** src/buf_traits.rs:1401-1403: [value as u8] keeps the low byte of the code point *)
Definition push_char (c : N) : wr N := push [n2b c].
(** src/buf_traits.rs:1407-1409 *)
Definition push_bool (v : bool) : wr N := push [n2b (if v then 1 else 0)].
(** src/buf_traits.rs:1413-1415; the argument of the model is reduced to a [u8] *)
Definition push_u8 (v : N) : wr N := push [n2b v].
(** src/buf_traits.rs:1413-1842: push_{,be_,le_,ne_,byteorder_}{u8..isize} *)
Definition push_int (k : endian) (t : ity) (z : Z) : wr N :=
  match t with
  | U8 | I8 => push_u8 (raw_of_int t z)
  | _ => push (to_bytes (order_of k) (isize_of t) (raw_of_int t z))
  end.
(** src/buf_traits.rs:1545-1578 *)
Definition push_u24 (k : endian) (v : N) : wr N :=
  match order_of k with
  | Be => push (skipn 1 (to_be 4 v))
  | Le => push (firstn 3 (to_le 4 v))
  end.
(** src/buf_traits.rs:1852-1859 *)
Definition push_be_uint (v : N) (n : N) : wr N :=
  if 8 <? n then wfail InvalidByteLength
  else push (skipn (N.to_nat (8 - n)) (to_be 8 v)).
(** src/buf_traits.rs:1863-1871 *)
Definition push_le_uint (v : N) (n : N) : wr N :=
  match slice_get_to (to_le 8 v) n with
  | Some s => push s
  | None => wfail InvalidByteLength
  end.
(** src/buf_traits.rs:1846-1890 *)
Definition push_uint (k : endian) (v n : N) : wr N :=
  match order_of k with Be => push_be_uint v n | Le => push_le_uint v n end.
(** src/buf_traits.rs:1894-1927: [value as u64] *)
Definition push_sint (k : endian) (z : Z) (n : N) : wr N := push_uint k (raw_of_int I64 z) n.
(** src/buf_traits.rs:1931-1993, on bit patterns *)
Definition push_f32 (k : endian) (v : N) : wr N := push (to_bytes (order_of k) 4 v).
Definition push_f64 (k : endian) (v : N) : wr N := push (to_bytes (order_of k) 8 v).

(** ** Histories of pushes *)
Inductive wop :=
| WPush (v : bytes)
| WPushOrderArray (v : bytes) (bo : byteorder)
| WPushChar (c : N) | WPushBool (b : bool)
| WPushInt (k : endian) (t : ity) (z : Z)
| WPushU24 (k : endian) (v : N)
| WPushUint (k : endian) (v n : N)
| WPushSint (k : endian) (z : Z) (n : N)
| WPushF32 (k : endian) (v : N) | WPushF64 (k : endian) (v : N).

Definition run_wop (o : wop) : wr N :=
  match o with
  | WPush v => push v
  | WPushOrderArray v bo => push_byteorder_array v bo
  | WPushChar c => push_char c
  | WPushBool b => push_bool b
  | WPushInt k t z => push_int k t z
  | WPushU24 k v => push_u24 k v
  | WPushUint k v n => push_uint k v n
  | WPushSint k z n => push_sint k z n
  | WPushF32 k v => push_f32 k v
  | WPushF64 k v => push_f64 k v
  end.

(** A caller that issues the pushes one after the other and goes on after
    errors; [None] if one of them panics. *)
Fixpoint run_wops (ops : list wop) (b : buf) : option (list (N + error) * buf) :=
  match ops with
  | [] => Some ([], b)
  | o :: os =>
      match run_wop o b with
      | Ok v b' => match run_wops os b' with Some (vs, q) => Some (inl v :: vs, q) | None => None end
      | Err e b' => match run_wops os b' with Some (vs, q) => Some (inr e :: vs, q) | None => None end
      | _ => None
      end
  end.

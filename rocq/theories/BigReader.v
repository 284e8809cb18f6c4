(** The reading side in a program for a big-endian target: the functions of Reader.v that
    depend on the order of bytes in memory, with the text they have there. What the
    target decides is [order_of] alone. Same names as in Reader.v. *)
From Verif Require Import Base Ints Reader.

(** As in Ints.v, but [ne] is big-endian: [from_ne_bytes], and
    [cfg!(target_endian = "big")] (src/buf_traits.rs:205, 271, 572, ...). *)
Definition order_of (k : endian) : byteorder :=
  match k with KDefault | KBe | KNe => Be | KLe => Le | KOrder bo => bo end.

(** src/buf_traits.rs:126-549: take_{,be_,le_,ne_,byteorder_}{u8..isize} *)
Definition take_int (k : endian) (t : ity) : rd Z :=
  match t with
  | U8 | I8 => v <- take_u8 ;; ret (int_of_raw t v)
  | _ => v <- take_fixed (order_of k) (sizeN t) ;; ret (int_of_raw t v)
  end.

(** src/buf_traits.rs:252-285 *)
Definition take_u24 (k : endian) : rd N := take_n (order_of k) 4 3.

(** src/buf_traits.rs:553-586 (u64) *)
Definition take_uint (k : endian) (n : N) : rd N := take_n (order_of k) 8 n.

(** src/buf_traits.rs:590-623 (i64) *)
Definition take_sint (k : endian) (n : N) : rd Z :=
  v <- take_n (order_of k) 8 n ;; ret (int_of_raw I64 v).

(** src/buf_traits.rs:627-689; a float is modelled by its bit pattern *)
Definition take_f32 (k : endian) : rd N := take_fixed (order_of k) 4.

Definition take_f64 (k : endian) : rd N := take_fixed (order_of k) 8.

(** src/buf_traits.rs:785-1208 *)
Definition untake_int (k : endian) (t : ity) : rd Z :=
  match t with
  | U8 | I8 => v <- untake_u8 ;; ret (int_of_raw t v)
  | _ => v <- untake_fixed (order_of k) (sizeN t) ;; ret (int_of_raw t v)
  end.

(** src/buf_traits.rs:911-944 *)
Definition untake_u24 (k : endian) : rd N := untake_n (order_of k) 4 3.

(** src/buf_traits.rs:1212-1245 *)
Definition untake_uint (k : endian) (n : N) : rd N := untake_n (order_of k) 8 n.

(** src/buf_traits.rs:1249-1282 *)
Definition untake_sint (k : endian) (n : N) : rd Z :=
  v <- untake_n (order_of k) 8 n ;; ret (int_of_raw I64 v).

(** src/buf_traits.rs:1286-1348 *)
Definition untake_f32 (k : endian) : rd N := untake_fixed (order_of k) 4.

Definition untake_f64 (k : endian) : rd N := untake_fixed (order_of k) 8.

Definition run_rop (o : rop) : rd rval :=
  match o with
  | RTakeArray n => rmap RvBytes (take_array n)
  | RTakeOrderArray n bo => rmap RvBytes (take_byteorder_array n bo)
  | RTakeBytes n => rmap RvBytes (take_bytes n)
  | RTakeStarts m => rmap (fun _ => RvUnit) (take_bytes_starts m)
  | RTakeBool => rmap RvBool take_bool
  | RTakeChar => rmap RvN take_char
  | RTakeInt k t => rmap RvZ (take_int k t)
  | RTakeU24 k => rmap RvN (take_u24 k)
  | RTakeUint k n => rmap RvN (take_uint k n)
  | RTakeSint k n => rmap RvZ (take_sint k n)
  | RTakeF32 k => rmap RvN (take_f32 k)
  | RTakeF64 k => rmap RvN (take_f64 k)
  | RFind s => rmap RvBytes (find_subsequence s)
  | RFindNeedle s i => rmap RvBytes (find_subsequence_needle s i)
  | RFinds ss => rmap RvBytes (find_subsequences ss)
  | RFindsNeedle ss i => rmap RvBytes (find_subsequences_needle ss i)
  | RUntakeBytes n => rmap RvBytes (untake_bytes n)
  | RUntakeBool => rmap RvBool untake_bool
  | RUntakeChar => rmap RvN untake_char
  | RUntakeInt k t => rmap RvZ (untake_int k t)
  | RUntakeU24 k => rmap RvN (untake_u24 k)
  | RUntakeUint k n => rmap RvN (untake_uint k n)
  | RUntakeSint k n => rmap RvZ (untake_sint k n)
  | RUntakeF32 k => rmap RvN (untake_f32 k)
  | RUntakeF64 k => rmap RvN (untake_f64 k)
  end.

(** A caller that issues the calls one after the other and goes on after errors.
    Result: what each call returned and the final position; [None] if a call
    panicked. *)
Fixpoint run_rops (ops : list rop) (d : bytes) (p : N) : option (list (rval + error) * N) :=
  match ops with
  | [] => Some ([], p)
  | o :: os =>
      match run_rop o d p with
      | Ok v p' => match run_rops os d p' with
                   | Some (vs, q) => Some (inl v :: vs, q) | None => None end
      | Err e p' => match run_rops os d p' with
                    | Some (vs, q) => Some (inr e :: vs, q) | None => None end
      | _ => None
      end
  end.

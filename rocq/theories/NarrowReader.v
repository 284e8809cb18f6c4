(** The reading side in a program for a 32-bit target: what Reader.v models, with [usize]
    arithmetic modulo 2^32 and [usize]/[isize] of four bytes. Same names as in Reader.v;
    apart from [wadd], [wsub] and [on32] the functions have the same text. *)
From Verif Require Import Base Ints Reader.

Notation W32 := 4294967296%N.
(** [+] and [-] on a [usize] of 32 bits. *)
Definition wadd (a b : N) : N := (a + b) mod W32.
Definition wsub (a b : N) : N := (a + W32 - b mod W32) mod W32.
(** The width of [usize] and [isize]. *)
Definition on32 (t : ity) : ity := match t with Usize => U32 | Isize => I32 | _ => t end.
(** [v as usize] for a [u64]. *)
Definition narrow (v : N) : N := v mod W32.

(** src/bytes.rs:72-74, src/buffer.rs:118-120 *)
Definition advance (n : N) : rd unit := fun _ p => Ok tt (wadd p n).

(** src/buf_traits.rs:55-61 with copy_to_slice 41-51: an array of [n] bytes *)
Definition take_array (n : N) : rd bytes := fun d p =>
  match slice_get_to (remaining d p) n with
  | Some v => Ok v (wadd p n)
  | None => Err (mkerr p InvalidByteLength) p
  end.

(** src/buf_traits.rs:65-75 *)
Definition take_byteorder_array (n : N) (bo : byteorder) : rd bytes :=
  v <- take_array n ;;
  ret (match bo with Le => rev v | Be => v end).

(** src/buf_traits.rs:79-89 *)
Definition take_bytes (n : N) : rd bytes := fun d p =>
  if remaining_len d p <? n then Err (mkerr p InvalidByteLength) p
  else
    let p' := wadd p n in
    match slice_get d (wsub p' n) p' with
    | Some v => Ok v p'
    | None => Panic
    end.

(** src/buf_traits.rs:93-107 *)
Definition take_bytes_starts (m : bytes) : rd unit := fun d p =>
  if remaining_len d p <? lenN m then Err (mkerr p InvalidByteLength) p
  else if starts_with m (remaining d p) then Ok tt (wadd p (lenN m))
  else Err (mkerr p Fail) p.

(** src/buf_traits.rs:111-113 *)
Definition take_bool : rd bool :=
  l <- take_bytes 1 ;; b <- idx0 l ;; ret (negb (b2n b =? 0)).

(** src/buf_traits.rs:117-122; [char::from_u32] succeeds on every value below 256 *)
Definition take_char : rd N :=
  l <- take_bytes 1 ;; b <- idx0 l ;; ret (b2n b).

(** src/buf_traits.rs:126-128 *)
Definition take_u8 : rd N :=
  l <- take_bytes 1 ;; b <- idx0 l ;; ret (b2n b).

(** src/buf_mut_traits.rs:12-16, [macro_take_bytes!] for a whole type *)
Definition take_fixed (bo : byteorder) (size : N) : rd N :=
  l <- take_bytes size ;; ret (from_bytes bo l).

(** src/buf_mut_traits.rs:17-28, [macro_take_bytes!(_, T::from_be_bytes, n)] *)
Definition take_n_be (size n : N) : rd N :=
  if size <? n then fail InvalidByteLength
  else l <- take_bytes n ;; ret (be_val (zeros (size - n) ++ l)).

(** src/buf_mut_traits.rs:29-37, [macro_take_bytes!(_, T::from_le_bytes, n)];
    the receiver [buf[..n]] is evaluated first and panics when n > size *)
Definition take_n_le (size n : N) : rd N :=
  if size <? n then panic
  else l <- take_bytes n ;; ret (le_val (l ++ zeros (size - n))).

Definition take_n (bo : byteorder) (size n : N) : rd N :=
  match bo with Be => take_n_be size n | Le => take_n_le size n end.

(** src/buf_traits.rs:126-549: take_{,be_,le_,ne_,byteorder_}{u8..isize} *)
Definition take_int (k : endian) (t : ity) : rd Z :=
  match on32 t with
  | U8 | I8 => v <- take_u8 ;; ret (int_of_raw (on32 t) v)
  | _ => v <- take_fixed (order_of k) (sizeN (on32 t)) ;; ret (int_of_raw (on32 t) v)
  end.

(** src/buf_traits.rs:252-285 *)
Definition take_u24 (k : endian) : rd N := take_n (order_of k) 4 3.

(** src/buf_traits.rs:553-586 (u64) *)
Definition take_uint (k : endian) (n : N) : rd N := take_n (order_of k) 8 n.

(** src/buf_traits.rs:590-623 (i64) *)
Definition take_sint (k : endian) (n : N) : rd Z :=
  v <- take_n (order_of k) 8 n ;; ret (int_of_raw I64 v).

(** src/buf_traits.rs:627-689; a float is modelled by its bit pattern *)
Definition take_f32 (k : endian) : rd N := take_fixed (order_of k) 4.

Definition take_f64 (k : endian) : rd N := take_fixed (order_of k) 8.

(** src/buf_traits.rs:693-702 *)
Definition find_subsequence (needle : bytes) : rd bytes := fun d p =>
  match memmem_find needle (remaining d p) with
  | Some i => slice_ok d p (wadd p (N.of_nat i)) (wadd p (wadd (N.of_nat i) (lenN needle)))
  | None => Err (mkerr p Fail) p
  end.

(** src/buf_traits.rs:706-716 *)
Definition find_subsequence_needle (needle : bytes) (include : bool) : rd bytes := fun d p =>
  match memmem_find needle (remaining d p) with
  | Some i =>
      let sub := if include then wadd (N.of_nat i) (lenN needle) else N.of_nat i in
      slice_ok d p (wadd p sub) (wadd p sub)
  | None => Err (mkerr p Fail) p
  end.

(** src/buf_traits.rs:720-735 *)
Definition find_subsequences (needles : list bytes) : rd bytes := fun d p =>
  match ac_find needles (remaining d p) with
  | Some (s, e) => slice_ok d p (wadd p (N.of_nat s)) (wadd p (N.of_nat e))
  | None => Err (mkerr p Fail) p
  end.

(** src/buf_traits.rs:739-755 *)
Definition find_subsequences_needle (needles : list bytes) (include : bool) : rd bytes := fun d p =>
  match ac_find needles (remaining d p) with
  | Some (s, e) =>
      let sub := if include then N.of_nat e else N.of_nat s in
      slice_ok d p (wadd p sub) (wadd p sub)
  | None => Err (mkerr p Fail) p
  end.

(** src/buf_traits.rs:758-766 *)
Definition untake_bytes (n : N) : rd bytes := fun d p =>
  if remaining_len d p <? n then Err (mkerr p InvalidByteLength) p
  else slice_ok d p (wadd p n) p.

(** src/buf_traits.rs:770-772 *)
Definition untake_bool : rd bool :=
  l <- untake_bytes 1 ;; b <- idx0 l ;; ret (negb (b2n b =? 0)).

(** src/buf_traits.rs:776-781 *)
Definition untake_char : rd N :=
  l <- untake_bytes 1 ;; b <- idx0 l ;; ret (b2n b).

(** src/buf_traits.rs:785-787 *)
Definition untake_u8 : rd N :=
  l <- untake_bytes 1 ;; b <- idx0 l ;; ret (b2n b).

(** src/buf_mut_traits.rs:43-47 *)
Definition untake_fixed (bo : byteorder) (size : N) : rd N :=
  l <- untake_bytes size ;; ret (from_bytes bo l).

(** src/buf_mut_traits.rs:48-59 *)
Definition untake_n_be (size n : N) : rd N :=
  if size <? n then fail InvalidByteLength
  else l <- untake_bytes n ;; ret (be_val (zeros (size - n) ++ l)).

(** src/buf_mut_traits.rs:60-68 *)
Definition untake_n_le (size n : N) : rd N :=
  if size <? n then panic
  else l <- untake_bytes n ;; ret (le_val (l ++ zeros (size - n))).

Definition untake_n (bo : byteorder) (size n : N) : rd N :=
  match bo with Be => untake_n_be size n | Le => untake_n_le size n end.

(** src/buf_traits.rs:785-1208 *)
Definition untake_int (k : endian) (t : ity) : rd Z :=
  match on32 t with
  | U8 | I8 => v <- untake_u8 ;; ret (int_of_raw (on32 t) v)
  | _ => v <- untake_fixed (order_of k) (sizeN (on32 t)) ;; ret (int_of_raw (on32 t) v)
  end.

(** src/buf_traits.rs:911-944 *)
Definition untake_u24 (k : endian) : rd N := untake_n (order_of k) 4 3.

(** src/buf_traits.rs:1212-1245 *)
Definition untake_uint (k : endian) (n : N) : rd N := untake_n (order_of k) 8 n.

(** src/buf_traits.rs:1249-1282 *)
Definition untake_sint (k : endian) (n : N) : rd Z :=
  v <- untake_n (order_of k) 8 n ;; ret (int_of_raw I64 v).

(** src/buf_traits.rs:1286-1348 *)
Definition untake_f32 (k : endian) : rd N := untake_fixed (order_of k) 4.

Definition untake_f64 (k : endian) : rd N := untake_fixed (order_of k) 8.

(** ** Histories of reading calls, as in Reader.v *)
Definition run_rop (o : rop) : rd rval :=
  match o with
  | RTakeArray n => rmap RvBytes (take_array n)
  | RTakeOrderArray n bo => rmap RvBytes (take_byteorder_array n bo)
  | RTakeBytes n => rmap RvBytes (take_bytes n)
  | RTakeStarts m => rmap (fun _ => RvUnit) (take_bytes_starts m)
  | RTakeBool => rmap RvBool take_bool
  | RTakeChar => rmap RvN take_char
  | RTakeInt k t => rmap RvZ (take_int k t)
  | RTakeU24 k => rmap RvN (take_u24 k)
  | RTakeUint k n => rmap RvN (take_uint k n)
  | RTakeSint k n => rmap RvZ (take_sint k n)
  | RTakeF32 k => rmap RvN (take_f32 k)
  | RTakeF64 k => rmap RvN (take_f64 k)
  | RFind s => rmap RvBytes (find_subsequence s)
  | RFindNeedle s i => rmap RvBytes (find_subsequence_needle s i)
  | RFinds ss => rmap RvBytes (find_subsequences ss)
  | RFindsNeedle ss i => rmap RvBytes (find_subsequences_needle ss i)
  | RUntakeBytes n => rmap RvBytes (untake_bytes n)
  | RUntakeBool => rmap RvBool untake_bool
  | RUntakeChar => rmap RvN untake_char
  | RUntakeInt k t => rmap RvZ (untake_int k t)
  | RUntakeU24 k => rmap RvN (untake_u24 k)
  | RUntakeUint k n => rmap RvN (untake_uint k n)
  | RUntakeSint k n => rmap RvZ (untake_sint k n)
  | RUntakeF32 k => rmap RvN (untake_f32 k)
  | RUntakeF64 k => rmap RvN (untake_f64 k)
  end.

(** A caller that issues the calls one after the other and goes on after errors.
    Result: what each call returned and the final position; [None] if a call
    panicked. *)
Fixpoint run_rops (ops : list rop) (d : bytes) (p : N) : option (list (rval + error) * N) :=
  match ops with
  | [] => Some ([], p)
  | o :: os =>
      match run_rop o d p with
      | Ok v p' => match run_rops os d p' with
                   | Some (vs, q) => Some (inl v :: vs, q) | None => None end
      | Err e p' => match run_rops os d p' with
                    | Some (vs, q) => Some (inr e :: vs, q) | None => None end
      | _ => None
      end
  end.

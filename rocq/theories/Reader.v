(** The reading side: trait [BufRead] (src/buf_traits.rs:11-1349) as implemented
    by [Bytes] (src/bytes.rs:47-75) and [Buffer] (src/buffer.rs:96-121).

    All reading methods take [&self]; the data is immutable for them and only the
    [Cell<usize>] position changes.  A reading call is therefore a function of
    the data and the position that returns the new position. *)
From Verif Require Import Base Ints.

Definition rd (A : Type) := bytes -> N -> res N A.

Definition ret {A} (a : A) : rd A := fun _ p => Ok a p.
(** Rust's [?] operator / sequencing. *)
Definition bind {A B} (m : rd A) (f : A -> rd B) : rd B :=
  fun d p => match m d p with
             | Ok a p' => f a d p'
             | Err e p' => Err e p'
             | Panic => Panic
             | Hang => Hang
             end.
(** [return Err(make_error(self.get_position(), k))] *)
Definition fail {A} (k : ekind) : rd A := fun _ p => Err (mkerr p k) p.
Definition panic {A} : rd A := fun _ _ => Panic.
Notation "x <- m ;; k" := (bind m (fun x => k)) (at level 61, m at next level, right associativity).

(** src/buf_traits.rs:13, 19, 22, 25; src/bytes.rs:52-74 *)
Definition get_position : rd N := fun _ p => Ok p p.
Definition set_position (n : N) : rd unit := fun _ _ => Ok tt n.
Definition reset_position : rd unit := fun _ _ => Ok tt 0.
Definition advance (n : N) : rd unit := fun _ p => Ok tt (wadd p n).

(** src/buf_traits.rs:29-31 *)
Definition remaining (d : bytes) (p : N) : bytes :=
  match slice_get_from d p with Some l => l | None => [] end.
(** src/buf_traits.rs:35-37 *)
Definition remaining_len (d : bytes) (p : N) : N := lenN (remaining d p).

(** src/buf_traits.rs:55-61 with copy_to_slice 41-51: an array of [n] bytes *)
Definition take_array (n : N) : rd bytes := fun d p =>
  match slice_get_to (remaining d p) n with
  | Some v => Ok v (wadd p n)
  | None => Err (mkerr p InvalidByteLength) p
  end.

(** src/buf_traits.rs:65-75 *)
Definition take_byteorder_array (n : N) (bo : byteorder) : rd bytes :=
  v <- take_array n ;;
  ret (match bo with Le => rev v | Be => v end).

(** src/buf_traits.rs:79-89 *)
Definition take_bytes (n : N) : rd bytes := fun d p =>
  if remaining_len d p <? n then Err (mkerr p InvalidByteLength) p
  else
    let p' := wadd p n in
    match slice_get d (wsub p' n) p' with
    | Some v => Ok v p'
    | None => Panic
    end.

(** src/buf_traits.rs:93-107 *)
Definition take_bytes_starts (m : bytes) : rd unit := fun d p =>
  if remaining_len d p <? lenN m then Err (mkerr p InvalidByteLength) p
  else if starts_with m (remaining d p) then Ok tt (wadd p (lenN m))
  else Err (mkerr p Fail) p.

(** [bytes[0]] *)
Definition idx0 (l : bytes) : rd byte := fun _ p => match l with b :: _ => Ok b p | [] => Panic end.

(** src/buf_traits.rs:111-113 *)
Definition take_bool : rd bool :=
  l <- take_bytes 1 ;; b <- idx0 l ;; ret (negb (b2n b =? 0)).
(** src/buf_traits.rs:117-122; [char::from_u32] succeeds on every value below 256 *)
Definition take_char : rd N :=
  l <- take_bytes 1 ;; b <- idx0 l ;; ret (b2n b).
(** src/buf_traits.rs:126-128 *)
Definition take_u8 : rd N :=
  l <- take_bytes 1 ;; b <- idx0 l ;; ret (b2n b).

(** src/buf_mut_traits.rs:12-16, [macro_take_bytes!] for a whole type *)
Definition take_fixed (bo : byteorder) (size : N) : rd N :=
  l <- take_bytes size ;; ret (from_bytes bo l).

(** src/buf_mut_traits.rs:17-28, [macro_take_bytes!(_, T::from_be_bytes, n)] *)
Definition take_n_be (size n : N) : rd N :=
  if size <? n then fail InvalidByteLength
  else l <- take_bytes n ;; ret (be_val (zeros (size - n) ++ l)).
(** src/buf_mut_traits.rs:29-37, [macro_take_bytes!(_, T::from_le_bytes, n)];
    the receiver [buf[..n]] is evaluated first and panics when n > size *)
Definition take_n_le (size n : N) : rd N :=
  if size <? n then panic
  else l <- take_bytes n ;; ret (le_val (l ++ zeros (size - n))).
Definition take_n (bo : byteorder) (size n : N) : rd N :=
  match bo with Be => take_n_be size n | Le => take_n_le size n end.

(** src/buf_traits.rs:126-549: take_{,be_,le_,ne_,byteorder_}{u8..isize} *)
Definition take_int (k : endian) (t : ity) : rd Z :=
  match t with
  | U8 | I8 => v <- take_u8 ;; ret (int_of_raw t v)
  | _ => v <- take_fixed (order_of k) (sizeN t) ;; ret (int_of_raw t v)
  end.

(** src/buf_traits.rs:252-285 *)
Definition take_u24 (k : endian) : rd N := take_n (order_of k) 4 3.
(** src/buf_traits.rs:553-586 (u64) *)
Definition take_uint (k : endian) (n : N) : rd N := take_n (order_of k) 8 n.
(** src/buf_traits.rs:590-623 (i64) *)
Definition take_sint (k : endian) (n : N) : rd Z :=
  v <- take_n (order_of k) 8 n ;; ret (int_of_raw I64 v).
(** src/buf_traits.rs:627-689; a float is modelled by its bit pattern *)
Definition take_f32 (k : endian) : rd N := take_fixed (order_of k) 4.
Definition take_f64 (k : endian) : rd N := take_fixed (order_of k) 8.

(** [memchr::memmem::find]: offset of the leftmost occurrence (external crate,
    modelled by its documented result). *)
Fixpoint memmem_find (needle hay : bytes) : option nat :=
  if starts_with needle hay then Some O
  else match hay with
       | [] => None
       | _ :: t => option_map S (memmem_find needle t)
       end.

(** [AhoCorasick::new(pats)?.find(hay)] with the default [MatchKind::Standard]
    (external crate, modelled by its documented result): the haystack is scanned
    from the left and a match is reported as soon as it is seen; of several
    patterns ending at the same place the longest one is reported.
    Result: (start, end). *)
Definition ends_with (p l : bytes) : bool :=
  (Nat.leb (length p) (length l)) && bytes_eqb p (skipn (length l - length p) l).
Fixpoint longest_ending (pats : list bytes) (seen : bytes) : option nat :=
  match pats with
  | [] => None
  | p :: ps =>
      let r := longest_ending ps seen in
      if ends_with p seen
      then Some (match r with Some k => Nat.max (length p) k | None => length p end)
      else r
  end.
Fixpoint ac_scan (pats : list bytes) (seen rest : bytes) : option (nat * nat) :=
  match longest_ending pats seen with
  | Some k => Some ((length seen - k)%nat, length seen)
  | None => match rest with
            | [] => None
            | b :: r => ac_scan pats (seen ++ [b]) r
            end
  end.
Definition ac_find (pats : list bytes) (hay : bytes) : option (nat * nat) := ac_scan pats [] hay.

(** [Ok(&self.get_data()[a..b])] after an [advance] *)
Definition slice_ok (d : bytes) (a b p' : N) : res N bytes :=
  match slice_get d a b with Some v => Ok v p' | None => Panic end.

(** src/buf_traits.rs:693-702 *)
Definition find_subsequence (needle : bytes) : rd bytes := fun d p =>
  match memmem_find needle (remaining d p) with
  | Some i => slice_ok d p (wadd p (N.of_nat i)) (wadd p (wadd (N.of_nat i) (lenN needle)))
  | None => Err (mkerr p Fail) p
  end.
(** src/buf_traits.rs:706-716 *)
Definition find_subsequence_needle (needle : bytes) (include : bool) : rd bytes := fun d p =>
  match memmem_find needle (remaining d p) with
  | Some i =>
      let sub := if include then wadd (N.of_nat i) (lenN needle) else N.of_nat i in
      slice_ok d p (wadd p sub) (wadd p sub)
  | None => Err (mkerr p Fail) p
  end.
(** src/buf_traits.rs:720-735 *)
Definition find_subsequences (needles : list bytes) : rd bytes := fun d p =>
  match ac_find needles (remaining d p) with
  | Some (s, e) => slice_ok d p (wadd p (N.of_nat s)) (wadd p (N.of_nat e))
  | None => Err (mkerr p Fail) p
  end.
(** src/buf_traits.rs:739-755 *)
Definition find_subsequences_needle (needles : list bytes) (include : bool) : rd bytes := fun d p =>
  match ac_find needles (remaining d p) with
  | Some (s, e) =>
      let sub := if include then N.of_nat e else N.of_nat s in
      slice_ok d p (wadd p sub) (wadd p sub)
  | None => Err (mkerr p Fail) p
  end.

(** src/buf_traits.rs:758-766 *)
Definition untake_bytes (n : N) : rd bytes := fun d p =>
  if remaining_len d p <? n then Err (mkerr p InvalidByteLength) p
  else slice_ok d p (wadd p n) p.
(** src/buf_traits.rs:770-772 *)
Definition untake_bool : rd bool :=
  l <- untake_bytes 1 ;; b <- idx0 l ;; ret (negb (b2n b =? 0)).
(** src/buf_traits.rs:776-781 *)
Definition untake_char : rd N :=
  l <- untake_bytes 1 ;; b <- idx0 l ;; ret (b2n b).
(** src/buf_traits.rs:785-787 *)
Definition untake_u8 : rd N :=
  l <- untake_bytes 1 ;; b <- idx0 l ;; ret (b2n b).
(** src/buf_mut_traits.rs:43-47 *)
Definition untake_fixed (bo : byteorder) (size : N) : rd N :=
  l <- untake_bytes size ;; ret (from_bytes bo l).
(** src/buf_mut_traits.rs:48-59 *)
Definition untake_n_be (size n : N) : rd N :=
  if size <? n then fail InvalidByteLength
  else l <- untake_bytes n ;; ret (be_val (zeros (size - n) ++ l)).
(** src/buf_mut_traits.rs:60-68 *)
Definition untake_n_le (size n : N) : rd N :=
  if size <? n then panic
  else l <- untake_bytes n ;; ret (le_val (l ++ zeros (size - n))).
Definition untake_n (bo : byteorder) (size n : N) : rd N :=
  match bo with Be => untake_n_be size n | Le => untake_n_le size n end.
(** src/buf_traits.rs:785-1208 *)
Definition untake_int (k : endian) (t : ity) : rd Z :=
  match t with
  | U8 | I8 => v <- untake_u8 ;; ret (int_of_raw t v)
  | _ => v <- untake_fixed (order_of k) (sizeN t) ;; ret (int_of_raw t v)
  end.
(** src/buf_traits.rs:911-944 *)
Definition untake_u24 (k : endian) : rd N := untake_n (order_of k) 4 3.
(** src/buf_traits.rs:1212-1245 *)
Definition untake_uint (k : endian) (n : N) : rd N := untake_n (order_of k) 8 n.
(** src/buf_traits.rs:1249-1282 *)
Definition untake_sint (k : endian) (n : N) : rd Z :=
  v <- untake_n (order_of k) 8 n ;; ret (int_of_raw I64 v).
(** src/buf_traits.rs:1286-1348 *)
Definition untake_f32 (k : endian) : rd N := untake_fixed (order_of k) 4.
Definition untake_f64 (k : endian) : rd N := untake_fixed (order_of k) 8.

(** ** Histories of reading calls *)

(** One call of a reading method, with its arguments. *)
Inductive rop :=
| RTakeArray (n : N)
| RTakeOrderArray (n : N) (bo : byteorder)
| RTakeBytes (n : N)
| RTakeStarts (m : bytes)
| RTakeBool | RTakeChar
| RTakeInt (k : endian) (t : ity)
| RTakeU24 (k : endian)
| RTakeUint (k : endian) (n : N)
| RTakeSint (k : endian) (n : N)
| RTakeF32 (k : endian) | RTakeF64 (k : endian)
| RFind (s : bytes) | RFindNeedle (s : bytes) (incl : bool)
| RFinds (ss : list bytes) | RFindsNeedle (ss : list bytes) (incl : bool)
| RUntakeBytes (n : N) | RUntakeBool | RUntakeChar
| RUntakeInt (k : endian) (t : ity)
| RUntakeU24 (k : endian)
| RUntakeUint (k : endian) (n : N)
| RUntakeSint (k : endian) (n : N)
| RUntakeF32 (k : endian) | RUntakeF64 (k : endian).

(** What a call returns. *)
Inductive rval :=
| RvUnit | RvBytes (b : bytes) | RvBool (b : bool) | RvN (n : N) | RvZ (z : Z).

Definition rmap {A B} (f : A -> B) (m : rd A) : rd B := x <- m ;; ret (f x).

Definition run_rop (o : rop) : rd rval :=
  match o with
  | RTakeArray n => rmap RvBytes (take_array n)
  | RTakeOrderArray n bo => rmap RvBytes (take_byteorder_array n bo)
  | RTakeBytes n => rmap RvBytes (take_bytes n)
  | RTakeStarts m => rmap (fun _ => RvUnit) (take_bytes_starts m)
  | RTakeBool => rmap RvBool take_bool
  | RTakeChar => rmap RvN take_char
  | RTakeInt k t => rmap RvZ (take_int k t)
  | RTakeU24 k => rmap RvN (take_u24 k)
  | RTakeUint k n => rmap RvN (take_uint k n)
  | RTakeSint k n => rmap RvZ (take_sint k n)
  | RTakeF32 k => rmap RvN (take_f32 k)
  | RTakeF64 k => rmap RvN (take_f64 k)
  | RFind s => rmap RvBytes (find_subsequence s)
  | RFindNeedle s i => rmap RvBytes (find_subsequence_needle s i)
  | RFinds ss => rmap RvBytes (find_subsequences ss)
  | RFindsNeedle ss i => rmap RvBytes (find_subsequences_needle ss i)
  | RUntakeBytes n => rmap RvBytes (untake_bytes n)
  | RUntakeBool => rmap RvBool untake_bool
  | RUntakeChar => rmap RvN untake_char
  | RUntakeInt k t => rmap RvZ (untake_int k t)
  | RUntakeU24 k => rmap RvN (untake_u24 k)
  | RUntakeUint k n => rmap RvN (untake_uint k n)
  | RUntakeSint k n => rmap RvZ (untake_sint k n)
  | RUntakeF32 k => rmap RvN (untake_f32 k)
  | RUntakeF64 k => rmap RvN (untake_f64 k)
  end.

(** A caller that issues the calls one after the other and goes on after errors.
    Result: what each call returned and the final position; [None] if a call
    panicked. *)
Fixpoint run_rops (ops : list rop) (d : bytes) (p : N) : option (list (rval + error) * N) :=
  match ops with
  | [] => Some ([], p)
  | o :: os =>
      match run_rop o d p with
      | Ok v p' => match run_rops os d p' with
                   | Some (vs, q) => Some (inl v :: vs, q) | None => None end
      | Err e p' => match run_rops os d p' with
                    | Some (vs, q) => Some (inr e :: vs, q) | None => None end
      | _ => None
      end
  end.

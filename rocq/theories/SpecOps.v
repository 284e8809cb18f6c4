(** Specification vocabulary about calls: for each kind of call, what it is
    supposed to do, in terms of [Spec] only.  From the model only the types of
    calls are used. *)
From Verif Require Import Base Ints Reader Writer BufIo Spec.

(** ** Reading calls *)

(** The [untake_] call that corresponds to a [take_] call. *)
Definition untake_of (o : rop) : option rop :=
  match o with
  | RTakeBytes n => Some (RUntakeBytes n)
  | RTakeBool => Some RUntakeBool
  | RTakeChar => Some RUntakeChar
  | RTakeInt k t => Some (RUntakeInt k t)
  | RTakeU24 k => Some (RUntakeU24 k)
  | RTakeUint k n => Some (RUntakeUint k n)
  | RTakeSint k n => Some (RUntakeSint k n)
  | RTakeF32 k => Some (RUntakeF32 k)
  | RTakeF64 k => Some (RUntakeF64 k)
  | _ => None
  end.

(** Little-endian variable-width reads of more than 8 bytes. *)
Definition wide_le (o : rop) : bool :=
  match o with
  | RTakeUint k n | RTakeSint k n | RUntakeUint k n | RUntakeSint k n =>
      (8 <? n) && match named_order k with Le => true | Be => false end
  | _ => false
  end.

(** Calls that search. *)
Definition is_find (o : rop) : bool :=
  match o with RFind _ | RFindNeedle _ _ | RFinds _ | RFindsNeedle _ _ => true | _ => false end.

(** [take_byteorder_uint] and [take_byteorder_int], whose [BufReadMut] versions
    have no width argument. *)
Definition is_byteorder_uint (o : rop) : bool :=
  match o with RTakeUint (KOrder _) _ | RTakeSint (KOrder _) _ => true | _ => false end.

(** Equal values; errors of the same kind. *)
Definition same_answer (x y : rval + error) : Prop :=
  match x, y with
  | inl v, inl w => v = w
  | inr e, inr f => e_kind e = e_kind f
  | _, _ => False
  end.

(** ** Positional digits *)

Definition byte_of (v : N) : byte := match Byte.of_N (v mod 256) with Some b => b | None => x00 end.
(** The [n] low base-256 digits of [v], most or least significant first. *)
Definition digits (bo : byteorder) (n : nat) (v : N) : bytes :=
  map (fun i => byte_of (v / 256 ^ N.of_nat (match bo with Be => n - 1 - i | Le => i end))) (seq 0 n).
(** Unsigned image of an integer of type [t]. *)
Definition unsigned (t : ity) (z : Z) : N := Z.to_N (z mod 2 ^ (8 * Z.of_N (width_bytes t))).

(** ** Pushing calls *)

(** The bytes a push is to add; [None] if it is to be refused. *)
Definition image (o : wop) : option bytes :=
  match o with
  | WPush v => Some v
  | WPushOrderArray v Be => Some v
  | WPushOrderArray v Le => Some (rev v)
  | WPushChar c => Some [byte_of c]
  | WPushBool b => Some [if b then x01 else x00]
  | WPushInt k t z => Some (digits (named_order k) (N.to_nat (width_bytes t)) (unsigned t z))
  | WPushU24 k v => Some (digits (named_order k) 3 v)
  | WPushUint k v n => if n <=? 8 then Some (digits (named_order k) (N.to_nat n) v) else None
  | WPushSint k z n => if n <=? 8 then Some (digits (named_order k) (N.to_nat n) (unsigned I64 z)) else None
  | WPushF32 k v => Some (digits (named_order k) 4 v)
  | WPushF64 k v => Some (digits (named_order k) 8 v)
  end.
Definition image_or_nothing (o : wop) : bytes := match image o with Some l => l | None => [] end.

(** ** In-memory file calls *)

(** Where a seek wants to go. *)
Definition seek_target (w : seek_from) (f : file) : Z :=
  match w with
  | SStart off => Z.of_N off
  | SEnd off => Z.of_N (size (f_contents f)) + off
  | SCurrent off => Z.of_N (f_offset f) + off
  end%Z.
(** [SeekFrom::End] and [Current] carry an [i64]. *)
Definition seek_arg_ok (w : seek_from) : Prop :=
  match w with
  | SStart off => off < 18446744073709551616
  | SEnd off | SCurrent off => (- 9223372036854775808 <= off < 9223372036854775808)%Z
  end.

(** What a caller can see, except the offset returned by a successful seek. *)
Inductive io_seen :=
| SawRead (v : bytes) | SawWritten (n : N) | SawSought | SawFlushed | SawInvalid.

(** [None]: the offset would leave the address space of 2^63 bytes. *)
Definition file_step (o : io_op) (f : file) : option (io_seen * file) :=
  match o with
  | OpRead n => let (v, f') := file_read n f in Some (SawRead v, f')
  | OpWrite v =>
      if f_offset f + size v <? 9223372036854775808
      then Some (SawWritten (size v), file_write v f) else None
  | OpFlush => Some (SawFlushed, f)
  | OpSeek w =>
      if (seek_target w f <? 9223372036854775808)%Z
      then match file_seek (seek_target w f) f with
           | Some f' => Some (SawSought, f')
           | None => Some (SawInvalid, f)
           end
      else None
  end.
Fixpoint file_steps (ops : list io_op) (f : file) : option (list io_seen * file) :=
  match ops with
  | [] => Some ([], f)
  | o :: os =>
      match file_step o f with
      | Some (s, f') =>
          match file_steps os f' with Some (ss, f'') => Some (s :: ss, f'') | None => None end
      | None => None
      end
  end.
(** How the caller sees the model's results: the count reported by a read must be
    the number of bytes copied. *)
Definition seen (r : io_out) : option io_seen :=
  match r with
  | IoRead n v => if n =? size v then Some (SawRead v) else None
  | IoWritten n => Some (SawWritten n)
  | IoSought _ => Some SawSought
  | IoFlushed => Some SawFlushed
  | IoInvalidInput => Some SawInvalid
  end.

(** ** Single reading calls *)

(** How many bytes a call reads, and what it makes of them. [None]: the call
    searches, compares, or asks for more bytes than its type has. *)
Definition reading (o : rop) : option (N * (bytes -> rval)) :=
  match o with
  | RTakeArray n | RTakeBytes n | RUntakeBytes n => Some (n, RvBytes)
  | RTakeOrderArray n Be => Some (n, RvBytes)
  | RTakeOrderArray n Le => Some (n, fun l => RvBytes (rev l))
  | RTakeBool | RUntakeBool => Some (1, fun l => RvBool (negb (number Be l =? 0)))
  | RTakeChar | RUntakeChar => Some (1, fun l => RvN (number Be l))
  | RTakeInt k t | RUntakeInt k t => Some (width_bytes t, fun l => RvZ (int_number (named_order k) t l))
  | RTakeU24 k | RUntakeU24 k => Some (3, fun l => RvN (number (named_order k) l))
  | RTakeUint k n | RUntakeUint k n =>
      if n <=? 8 then Some (n, fun l => RvN (number (named_order k) l)) else None
  | RTakeSint k n | RUntakeSint k n =>
      if n <=? 8 then Some (n, fun l => RvZ (int_number (named_order k) I64 l)) else None
  | RTakeF32 k | RUntakeF32 k => Some (4, fun l => RvN (number (named_order k) l))
  | RTakeF64 k | RUntakeF64 k => Some (8, fun l => RvN (number (named_order k) l))
  | RTakeStarts _ | RFind _ | RFindNeedle _ _ | RFinds _ | RFindsNeedle _ _ => None
  end.
(** Does the position stay where it is? *)
Definition peeks (o : rop) : bool :=
  match o with
  | RUntakeBytes _ | RUntakeBool | RUntakeChar | RUntakeInt _ _ | RUntakeU24 _ | RUntakeUint _ _
  | RUntakeSint _ _ | RUntakeF32 _ | RUntakeF64 _ => true
  | _ => false
  end.

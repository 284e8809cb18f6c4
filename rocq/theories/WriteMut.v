(** Trait [BufWriteMut] (src/buf_mut_traits.rs:1407-2048) over an arbitrary implementor.
    The text of [BufWrite] (src/buf_traits.rs:1352-1993) is the same, so this is also
    [BufWrite] over an arbitrary implementor; Writer.v has it for [Buffer] alone. *)
From Verif Require Import Base Ints Reader Writer ReadMut.

(** What an implementor supplies: the reader, the contents of the slice returned by
    [remaining_mut] ([None] where it panics), the effect of storing into that slice, and
    [resize] with its return value ([None] where it panics). *)
Record wimpl (S : Type) := mkwimpl {
  wi_reader : impl S;
  wi_remaining_mut : S -> option bytes;
  wi_store : S -> bytes -> S;
  wi_resize : S -> N -> option (N * S)
}.
Arguments mkwimpl {S}.
Arguments wi_reader {S}.
Arguments wi_remaining_mut {S}.
Arguments wi_store {S}.
Arguments wi_resize {S}.

Section Trait.
  Context {S : Type}.
  Variable W : wimpl S.

  (** src/buf_mut_traits.rs:1423-1424 *)
  Definition mw_finish (v : bytes) : S -> res S N := fun s =>
    match wi_remaining_mut W s with
    | None => Panic
    | Some r =>
        match slice_get_to r (lenN v) with
        | None => Panic
        | Some _ =>
            match im_advance (wi_reader W) (wi_store W s (v ++ skipn (length v) r)) (lenN v) with
            | Some s' => Ok (lenN v) s'
            | None => Panic
            end
        end
    end.
  (** src/buf_mut_traits.rs:1415-1427; [remaining_len] is src/buf_mut_traits.rs:90-92 *)
  Definition mw_push (v : bytes) : S -> res S N := fun s =>
    if lenN (im_remaining (wi_reader W) s) <? lenN v then
      match wi_resize W s (lenN v) with
      | None => Panic
      | Some (k, s') =>
          if k =? 0 then Err (mkerr (im_position (wi_reader W) s') PushFail) s' else mw_finish v s'
      end
    else mw_finish v s.
  Definition mw_fail (k : ekind) : S -> res S N := fun s => Err (mkerr (im_position (wi_reader W) s) k) s.

  (** src/buf_mut_traits.rs:1443-1452 *)
  Definition mw_push_byteorder_array (v : bytes) (bo : byteorder) : S -> res S N :=
    match bo with Be => mw_push v | Le => mw_push (rev v) end.
  (** src/buf_mut_traits.rs:1456-1464: push_char, push_bool *)
  Definition mw_push_char (c : N) : S -> res S N := mw_push [n2b c].
  Definition mw_push_bool (v : bool) : S -> res S N := mw_push [n2b (if v then 1 else 0)].
  (** src/buf_mut_traits.rs:1468-1897: push_{,be_,le_,ne_,byteorder_}{u8..isize} *)
  Definition mw_push_int (k : endian) (t : ity) (z : Z) : S -> res S N :=
    match t with
    | U8 | I8 => mw_push [n2b (raw_of_int t z)]
    | _ => mw_push (to_bytes (order_of k) (isize_of t) (raw_of_int t z))
    end.
  (** src/buf_mut_traits.rs:1600-1633 *)
  Definition mw_push_u24 (k : endian) (v : N) : S -> res S N :=
    match order_of k with
    | Be => mw_push (skipn 1 (to_be 4 v))
    | Le => mw_push (firstn 3 (to_le 4 v))
    end.
  (** src/buf_mut_traits.rs:1907-1914 *)
  Definition mw_push_be_uint (v n : N) : S -> res S N :=
    if 8 <? n then mw_fail InvalidByteLength else mw_push (skipn (N.to_nat (8 - n)) (to_be 8 v)).
  (** src/buf_mut_traits.rs:1918-1926 *)
  Definition mw_push_le_uint (v n : N) : S -> res S N :=
    match slice_get_to (to_le 8 v) n with
    | Some l => mw_push l
    | None => mw_fail InvalidByteLength
    end.
  (** src/buf_mut_traits.rs:1901-1945 *)
  Definition mw_push_uint (k : endian) (v n : N) : S -> res S N :=
    match order_of k with Be => mw_push_be_uint v n | Le => mw_push_le_uint v n end.
  (** src/buf_mut_traits.rs:1949-1982: [value as u64] *)
  Definition mw_push_sint (k : endian) (z : Z) (n : N) : S -> res S N := mw_push_uint k (raw_of_int I64 z) n.
  (** src/buf_mut_traits.rs:1986-2047, on bit patterns *)
  Definition mw_push_f32 (k : endian) (v : N) : S -> res S N := mw_push (to_bytes (order_of k) 4 v).
  Definition mw_push_f64 (k : endian) (v : N) : S -> res S N := mw_push (to_bytes (order_of k) 8 v).

  Definition run_mwop (o : wop) : S -> res S N :=
    match o with
    | WPush v => mw_push v
    | WPushOrderArray v bo => mw_push_byteorder_array v bo
    | WPushChar c => mw_push_char c
    | WPushBool b => mw_push_bool b
    | WPushInt k t z => mw_push_int k t z
    | WPushU24 k v => mw_push_u24 k v
    | WPushUint k v n => mw_push_uint k v n
    | WPushSint k z n => mw_push_sint k z n
    | WPushF32 k v => mw_push_f32 k v
    | WPushF64 k v => mw_push_f64 k v
    end.

  (** A caller that goes on after errors; [None] if a call panics. *)
  Fixpoint run_mwops (ops : list wop) (s : S) : option (list (N + error) * S) :=
    match ops with
    | [] => Some ([], s)
    | o :: os =>
        match run_mwop o s with
        | Ok v s' => match run_mwops os s' with Some (vs, q) => Some (inl v :: vs, q) | None => None end
        | Err e s' => match run_mwops os s' with Some (vs, q) => Some (inr e :: vs, q) | None => None end
        | _ => None
        end
    end.
End Trait.

(** [Buffer] (src/buffer.rs:96-138) *)
Definition bf_remaining (b : buf) : bytes := default_remaining b_pos b_data b.
Definition bf_advance (b : buf) (n : N) : option buf := Some (mkbuf (b_data b) (wadd (b_pos b) n)).
Definition buffer_writer : wimpl buf :=
  mkwimpl
    (mkimpl b_pos b_data bf_advance bf_remaining (default_take_bytes b_pos b_data bf_advance bf_remaining))
    (fun b => slice_get_from (b_data b) (b_pos b))
    (fun b l => mkbuf (firstn (N.to_nat (b_pos b)) (b_data b) ++ l) (b_pos b))
    (fun b n => let nbytes := wadd (b_pos b) n in
                match vec_resize (b_data b) nbytes with
                | Some d => Some (nbytes, mkbuf d (b_pos b))
                | None => None
                end).

(** Trait [BufReadMut] in a program for a big-endian target: the functions of ReadMut.v that
    depend on the order of bytes in memory, with the text they have there; see
    BigReader.v. *)
From Verif Require Import Base Ints Reader ReadMut BigReader.

Section Trait.
  Context {S : Type}.
  Variable I : impl S.
  Local Notation mrd := (@ReadMut.mrd S).
  Local Notation m_take_bytes := (ReadMut.m_take_bytes I).
  Local Notation m_take_array := (ReadMut.m_take_array I).
  Local Notation m_take_byteorder_array := (ReadMut.m_take_byteorder_array I).
  Local Notation m_take_bytes_starts := (ReadMut.m_take_bytes_starts I).
  Local Notation m_take_bool := (ReadMut.m_take_bool I).
  Local Notation m_take_u8 := (ReadMut.m_take_u8 I).
  Local Notation m_take_fixed := (ReadMut.m_take_fixed I).
  Local Notation m_take_n := (ReadMut.m_take_n I).
  Local Notation m_untake_bytes := (ReadMut.m_untake_bytes I).
  Local Notation m_untake_bool := (ReadMut.m_untake_bool I).
  Local Notation m_untake_u8 := (ReadMut.m_untake_u8 I).
  Local Notation m_untake_fixed := (ReadMut.m_untake_fixed I).
  Local Notation m_untake_n := (ReadMut.m_untake_n I).
  Local Notation m_find_subsequence := (ReadMut.m_find_subsequence I).
  Local Notation m_find_subsequence_needle := (ReadMut.m_find_subsequence_needle I).
  Local Notation m_find_subsequences := (ReadMut.m_find_subsequences I).
  Local Notation m_find_subsequences_needle := (ReadMut.m_find_subsequences_needle I).

  (** src/buf_mut_traits.rs:180-604 *)
  Definition m_take_int (k : endian) (t : ity) : mrd Z :=
    match t with
    | U8 | I8 => mbind m_take_u8 (fun v => mret (int_of_raw t v))
    | _ => mbind (m_take_fixed (order_of k) (sizeN t)) (fun v => mret (int_of_raw t v))
    end.
  (** src/buf_mut_traits.rs:608-641 (usize); [take_byteorder_uint] takes no width
      and reads a whole usize: for [KOrder] the argument [n] does not exist *)
  Definition m_take_uint (k : endian) (n : N) : mrd N :=
    match k with
    | KOrder bo => m_take_fixed bo 8
    | _ => m_take_n (order_of k) 8 n
    end.
  (** src/buf_mut_traits.rs:645-678 (isize) *)
  Definition m_take_sint (k : endian) (n : N) : mrd Z :=
    mbind (m_take_uint k n) (fun v => mret (int_of_raw Isize v)).
  (** src/buf_mut_traits.rs:759-1197 *)
  Definition m_untake_int (k : endian) (t : ity) : mrd Z :=
    match t with
    | U8 | I8 => mbind m_untake_u8 (fun v => mret (int_of_raw t v))
    | _ => mbind (m_untake_fixed (order_of k) (sizeN t)) (fun v => mret (int_of_raw t v))
    end.
  (** src/buf_mut_traits.rs:1201-1271 *)
  Definition m_untake_uint (k : endian) (n : N) : mrd N := m_untake_n (order_of k) 8 n.
  Definition m_untake_sint (k : endian) (n : N) : mrd Z :=
    mbind (m_untake_n (order_of k) 8 n) (fun v => mret (int_of_raw I64 v)).
  (** One call through [BufReadMut]. *)
  Definition run_mop (o : rop) : mrd rval :=
    match o with
    | RTakeArray n => mmap RvBytes (m_take_array n)
    | RTakeOrderArray n bo => mmap RvBytes (m_take_byteorder_array n bo)
    | RTakeBytes n => mmap RvBytes (m_take_bytes n)
    | RTakeStarts m => mmap (fun _ => RvUnit) (m_take_bytes_starts m)
    | RTakeBool => mmap RvBool m_take_bool
    | RTakeChar => mmap RvN m_take_u8
    | RTakeInt k t => mmap RvZ (m_take_int k t)
    | RTakeU24 k => mmap RvN (m_take_n (order_of k) 4 3)
    | RTakeUint k n => mmap RvN (m_take_uint k n)
    | RTakeSint k n => mmap RvZ (m_take_sint k n)
    | RTakeF32 k => mmap RvN (m_take_fixed (order_of k) 4)
    | RTakeF64 k => mmap RvN (m_take_fixed (order_of k) 8)
    | RFind s => mmap RvBytes (m_find_subsequence s)
    | RFindNeedle s i => mmap RvBytes (m_find_subsequence_needle s i)
    | RFinds ss => mmap RvBytes (m_find_subsequences ss)
    | RFindsNeedle ss i => mmap RvBytes (m_find_subsequences_needle ss i)
    | RUntakeBytes n => mmap RvBytes (m_untake_bytes n)
    | RUntakeBool => mmap RvBool m_untake_bool
    | RUntakeChar => mmap RvN m_untake_u8
    | RUntakeInt k t => mmap RvZ (m_untake_int k t)
    | RUntakeU24 k => mmap RvN (m_untake_n (order_of k) 4 3)
    | RUntakeUint k n => mmap RvN (m_untake_uint k n)
    | RUntakeSint k n => mmap RvZ (m_untake_sint k n)
    | RUntakeF32 k => mmap RvN (m_untake_fixed (order_of k) 4)
    | RUntakeF64 k => mmap RvN (m_untake_fixed (order_of k) 8)
    end.
  (** A history of calls; the caller goes on after errors. *)
  Fixpoint run_mops (ops : list rop) (s : S) : option (list (rval + error) * S) :=
    match ops with
    | [] => Some ([], s)
    | o :: os =>
        match run_mop o s with
        | Ok v s' => match run_mops os s' with Some (vs, q) => Some (inl v :: vs, q) | None => None end
        | Err e s' => match run_mops os s' with Some (vs, q) => Some (inr e :: vs, q) | None => None end
        | _ => None
        end
    end.
End Trait.

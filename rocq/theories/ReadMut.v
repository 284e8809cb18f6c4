(** Trait [BufReadMut] (src/buf_mut_traits.rs:72-1404) and its two implementors
    (src/impls.rs): [&[u8]] and [std::io::Cursor]. *)
From Verif Require Import Base Ints Reader.

(** What an implementor supplies. [im_advance] is [None] where it panics. *)
Record impl (S : Type) := mkimpl {
  im_position : S -> N;
  im_data : S -> bytes;
  im_advance : S -> N -> option S;
  im_remaining : S -> bytes;
  im_take_bytes : S -> N -> res S bytes
}.
Arguments mkimpl {S}.
Arguments im_position {S}.
Arguments im_data {S}.
Arguments im_advance {S}.
Arguments im_remaining {S}.
Arguments im_take_bytes {S}.

Section Trait.
  Context {S : Type}.

  (** src/buf_mut_traits.rs:84-86 (default method) *)
  Definition default_remaining (pos : S -> N) (data : S -> bytes) (s : S) : bytes :=
    match slice_get_from (data s) (pos s) with Some l => l | None => [] end.

  (** src/buf_mut_traits.rs:134-144 (default method) *)
  Definition default_take_bytes (pos : S -> N) (data : S -> bytes) (adv : S -> N -> option S)
      (rem : S -> bytes) (s : S) (n : N) : res S bytes :=
    if lenN (rem s) <? n then Err (mkerr (pos s) InvalidByteLength) s
    else match adv s n with
         | None => Panic
         | Some s' =>
             let position := pos s' in
             match slice_get (data s') (wsub position n) position with
             | Some v => Ok v s'
             | None => Panic
             end
         end.

  Variable I : impl S.

  Definition mrd (A : Type) := S -> res S A.
  Definition mret {A} (a : A) : mrd A := fun s => Ok a s.
  Definition mbind {A B} (m : mrd A) (f : A -> mrd B) : mrd B :=
    fun s => match m s with
             | Ok a s' => f a s'
             | Err e s' => Err e s'
             | Panic => Panic
             | Hang => Hang
             end.
  Definition mfail {A} (k : ekind) : mrd A := fun s => Err (mkerr (im_position I s) k) s.
  Definition mpanic {A} : mrd A := fun _ => Panic.
  Definition midx0 (l : bytes) : mrd byte := fun s => match l with b :: _ => Ok b s | [] => Panic end.

  Definition m_take_bytes (n : N) : mrd bytes := fun s => im_take_bytes I s n.

  (** src/buf_mut_traits.rs:96-116 *)
  Definition m_take_array (n : N) : mrd bytes := fun s =>
    match slice_get_to (im_remaining I s) n with
    | None => Err (mkerr (im_position I s) InvalidByteLength) s
    | Some v => match im_advance I s n with Some s' => Ok v s' | None => Panic end
    end.
  (** src/buf_mut_traits.rs:120-130 *)
  Definition m_take_byteorder_array (n : N) (bo : byteorder) : mrd bytes :=
    mbind (m_take_array n) (fun v => mret (match bo with Le => rev v | Be => v end)).
  (** src/buf_mut_traits.rs:148-162 *)
  Definition m_take_bytes_starts (m : bytes) : mrd unit := fun s =>
    if lenN (im_remaining I s) <? lenN m then Err (mkerr (im_position I s) InvalidByteLength) s
    else if starts_with m (im_remaining I s)
         then match im_advance I s (lenN m) with Some s' => Ok tt s' | None => Panic end
         else Err (mkerr (im_position I s) Fail) s.
  (** src/buf_mut_traits.rs:166-168 *)
  Definition m_take_bool : mrd bool :=
    mbind (m_take_bytes 1) (fun l => mbind (midx0 l) (fun b => mret (negb (b2n b =? 0)))).
  (** src/buf_mut_traits.rs:172-184: take_char, take_u8 *)
  Definition m_take_u8 : mrd N :=
    mbind (m_take_bytes 1) (fun l => mbind (midx0 l) (fun b => mret (b2n b))).
  (** src/buf_mut_traits.rs:12-37 *)
  Definition m_take_fixed (bo : byteorder) (size : N) : mrd N :=
    mbind (m_take_bytes size) (fun l => mret (from_bytes bo l)).
  Definition m_take_n (bo : byteorder) (size n : N) : mrd N :=
    match bo with
    | Be => if size <? n then mfail InvalidByteLength
            else mbind (m_take_bytes n) (fun l => mret (be_val (zeros (size - n) ++ l)))
    | Le => if size <? n then mpanic
            else mbind (m_take_bytes n) (fun l => mret (le_val (l ++ zeros (size - n))))
    end.
  (** src/buf_mut_traits.rs:180-604 *)
  Definition m_take_int (k : endian) (t : ity) : mrd Z :=
    match t with
    | U8 | I8 => mbind m_take_u8 (fun v => mret (int_of_raw t v))
    | _ => mbind (m_take_fixed (order_of k) (sizeN t)) (fun v => mret (int_of_raw t v))
    end.
  (** src/buf_mut_traits.rs:608-641 (usize); [take_byteorder_uint] takes no width
      and reads a whole usize: for [KOrder] the argument [n] does not exist *)
  Definition m_take_uint (k : endian) (n : N) : mrd N :=
    match k with
    | KOrder bo => m_take_fixed bo 8
    | _ => m_take_n (order_of k) 8 n
    end.
  (** src/buf_mut_traits.rs:645-678 (isize) *)
  Definition m_take_sint (k : endian) (n : N) : mrd Z :=
    mbind (m_take_uint k n) (fun v => mret (int_of_raw Isize v)).

  (** src/buf_mut_traits.rs:747-755 *)
  Definition m_untake_bytes (n : N) : mrd bytes := fun s =>
    if lenN (im_remaining I s) <? n then Err (mkerr (im_position I s) InvalidByteLength) s
    else match slice_get (im_data I s) (im_position I s) (wadd (im_position I s) n) with
         | Some v => Ok v s | None => Panic end.
  Definition m_untake_bool : mrd bool :=
    mbind (m_untake_bytes 1) (fun l => mbind (midx0 l) (fun b => mret (negb (b2n b =? 0)))).
  Definition m_untake_u8 : mrd N :=
    mbind (m_untake_bytes 1) (fun l => mbind (midx0 l) (fun b => mret (b2n b))).
  Definition m_untake_fixed (bo : byteorder) (size : N) : mrd N :=
    mbind (m_untake_bytes size) (fun l => mret (from_bytes bo l)).
  Definition m_untake_n (bo : byteorder) (size n : N) : mrd N :=
    match bo with
    | Be => if size <? n then mfail InvalidByteLength
            else mbind (m_untake_bytes n) (fun l => mret (be_val (zeros (size - n) ++ l)))
    | Le => if size <? n then mpanic
            else mbind (m_untake_bytes n) (fun l => mret (le_val (l ++ zeros (size - n))))
    end.
  (** src/buf_mut_traits.rs:759-1197 *)
  Definition m_untake_int (k : endian) (t : ity) : mrd Z :=
    match t with
    | U8 | I8 => mbind m_untake_u8 (fun v => mret (int_of_raw t v))
    | _ => mbind (m_untake_fixed (order_of k) (sizeN t)) (fun v => mret (int_of_raw t v))
    end.
  (** src/buf_mut_traits.rs:1201-1271 *)
  Definition m_untake_uint (k : endian) (n : N) : mrd N := m_untake_n (order_of k) 8 n.
  Definition m_untake_sint (k : endian) (n : N) : mrd Z :=
    mbind (m_untake_n (order_of k) 8 n) (fun v => mret (int_of_raw I64 v)).

  (** the slice [&self.get_data()[a..b]] taken after [advance] *)
  Definition m_after (s : S) (adv a b : N) : res S bytes :=
    match im_advance I s adv with
    | None => Panic
    | Some s' => match slice_get (im_data I s') a b with Some v => Ok v s' | None => Panic end
    end.
  (** src/buf_mut_traits.rs:1341-1350 *)
  Definition m_find_subsequence (needle : bytes) : mrd bytes := fun s =>
    let position := im_position I s in
    match memmem_find needle (im_remaining I s) with
    | Some i => m_after s (wadd (N.of_nat i) (lenN needle)) position (wadd position (N.of_nat i))
    | None => Err (mkerr position Fail) s
    end.
  (** src/buf_mut_traits.rs:1354-1364 *)
  Definition m_find_subsequence_needle (needle : bytes) (include : bool) : mrd bytes := fun s =>
    let position := im_position I s in
    match memmem_find needle (im_remaining I s) with
    | Some i =>
        let sub := if include then wadd (N.of_nat i) (lenN needle) else N.of_nat i in
        m_after s sub position (wadd position sub)
    | None => Err (mkerr position Fail) s
    end.
  (** src/buf_mut_traits.rs:1368-1383 *)
  Definition m_find_subsequences (needles : list bytes) : mrd bytes := fun s =>
    let position := im_position I s in
    match ac_find needles (im_remaining I s) with
    | Some (st, en) => m_after s (N.of_nat en) position (wadd position (N.of_nat st))
    | None => Err (mkerr position Fail) s
    end.
  (** src/buf_mut_traits.rs:1387-1403 *)
  Definition m_find_subsequences_needle (needles : list bytes) (include : bool) : mrd bytes := fun s =>
    let position := im_position I s in
    match ac_find needles (im_remaining I s) with
    | Some (st, en) =>
        let sub := if include then N.of_nat en else N.of_nat st in
        m_after s sub position (wadd position sub)
    | None => Err (mkerr position Fail) s
    end.

  Definition mmap {A B} (f : A -> B) (m : mrd A) : mrd B := mbind m (fun x => mret (f x)).

  (** One call through [BufReadMut]. *)
  Definition run_mop (o : rop) : mrd rval :=
    match o with
    | RTakeArray n => mmap RvBytes (m_take_array n)
    | RTakeOrderArray n bo => mmap RvBytes (m_take_byteorder_array n bo)
    | RTakeBytes n => mmap RvBytes (m_take_bytes n)
    | RTakeStarts m => mmap (fun _ => RvUnit) (m_take_bytes_starts m)
    | RTakeBool => mmap RvBool m_take_bool
    | RTakeChar => mmap RvN m_take_u8
    | RTakeInt k t => mmap RvZ (m_take_int k t)
    | RTakeU24 k => mmap RvN (m_take_n (order_of k) 4 3)
    | RTakeUint k n => mmap RvN (m_take_uint k n)
    | RTakeSint k n => mmap RvZ (m_take_sint k n)
    | RTakeF32 k => mmap RvN (m_take_fixed (order_of k) 4)
    | RTakeF64 k => mmap RvN (m_take_fixed (order_of k) 8)
    | RFind s => mmap RvBytes (m_find_subsequence s)
    | RFindNeedle s i => mmap RvBytes (m_find_subsequence_needle s i)
    | RFinds ss => mmap RvBytes (m_find_subsequences ss)
    | RFindsNeedle ss i => mmap RvBytes (m_find_subsequences_needle ss i)
    | RUntakeBytes n => mmap RvBytes (m_untake_bytes n)
    | RUntakeBool => mmap RvBool m_untake_bool
    | RUntakeChar => mmap RvN m_untake_u8
    | RUntakeInt k t => mmap RvZ (m_untake_int k t)
    | RUntakeU24 k => mmap RvN (m_untake_n (order_of k) 4 3)
    | RUntakeUint k n => mmap RvN (m_untake_uint k n)
    | RUntakeSint k n => mmap RvZ (m_untake_sint k n)
    | RUntakeF32 k => mmap RvN (m_untake_fixed (order_of k) 4)
    | RUntakeF64 k => mmap RvN (m_untake_fixed (order_of k) 8)
    end.

  (** A history of calls; the caller goes on after errors. *)
  Fixpoint run_mops (ops : list rop) (s : S) : option (list (rval + error) * S) :=
    match ops with
    | [] => Some ([], s)
    | o :: os =>
        match run_mop o s with
        | Ok v s' => match run_mops os s' with Some (vs, q) => Some (inl v :: vs, q) | None => None end
        | Err e s' => match run_mops os s' with Some (vs, q) => Some (inr e :: vs, q) | None => None end
        | _ => None
        end
    end.
End Trait.

(** [impl BufReadMut for &[u8]] (src/impls.rs:7-39): the state is the slice itself. *)
Definition slice_impl : impl bytes :=
  mkimpl
    (fun _ => 0)                                   (* 9-11 *)
    (fun s => s)                                   (* 14-16 *)
    (fun s n => slice_get_from s n)                (* 19-21: [&self[n..]] panics past the end *)
    (fun s => s)                                   (* 24-26 *)
    (fun s n =>                                    (* 29-38 *)
       match slice_get_to s n with
       | None => Err (mkerr 0 InvalidByteLength) s
       | Some v => match slice_get_from s n with Some s' => Ok v s' | None => Panic end
       end).

(** [impl BufReadMut for io::Cursor<T>] (src/impls.rs:43-58): data and position. *)
Definition cur_pos (s : bytes * N) : N := snd s.
Definition cur_data (s : bytes * N) : bytes := fst s.
Definition cur_advance (s : bytes * N) (n : N) : option (bytes * N) := Some (fst s, wadd (snd s) n).
Definition cur_remaining (s : bytes * N) : bytes := default_remaining cur_pos cur_data s.
Definition cursor_impl : impl (bytes * N) :=
  mkimpl cur_pos cur_data cur_advance cur_remaining
         (default_take_bytes cur_pos cur_data cur_advance cur_remaining).

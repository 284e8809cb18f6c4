(** Trait [BufRead] (src/buf_traits.rs:11-1349) for any type that implements it. The
    provided methods have the bodies they have in [BufReadMut] (src/buf_mut_traits.rs),
    word for word, except [take_uint] and its relatives; so the model uses the
    functions of ReadMut.v, whose comments give the lines there. *)
From Verif Require Import Base Ints Reader ReadMut.

(** What an implementor of [BufRead] supplies (src/buf_traits.rs:13-25). [None] where it
    panics. The methods take [&self]: [S] is everything behind it, cells included.
    Implementors that replace a provided method are not modelled here. *)
Record source (S : Type) := mksource {
  src_position : S -> N;
  src_data : S -> bytes;
  src_set_position : S -> N -> option S;
  src_reset_position : S -> option S;
  src_advance : S -> N -> option S
}.
Arguments mksource {S}.
Arguments src_position {S}.
Arguments src_data {S}.
Arguments src_set_position {S}.
Arguments src_reset_position {S}.
Arguments src_advance {S}.

(** The provided [remaining] (src/buf_traits.rs:29-31) and [take_bytes] (79-89). *)
Definition src_remaining {S} (X : source S) : S -> bytes := default_remaining (src_position X) (src_data X).
Definition impl_of {S} (X : source S) : impl S :=
  mkimpl (src_position X) (src_data X) (src_advance X) (src_remaining X)
         (default_take_bytes (src_position X) (src_data X) (src_advance X) (src_remaining X)).

Section Source.
  Context {S : Type}.
  Variable X : source S.

  Definition effect (r : option S) : res S unit := match r with Some s' => Ok tt s' | None => Panic end.
  Definition s_get_position : mrd N := fun s => Ok (src_position X s) s.
  Definition s_set_position (n : N) : mrd unit := fun s => effect (src_set_position X s n).
  Definition s_reset_position : mrd unit := fun s => effect (src_reset_position X s).
  Definition s_advance (n : N) : mrd unit := fun s => effect (src_advance X s n).

  (** src/buf_traits.rs:551-591 (u64; all forms have a width) *)
  Definition s_take_uint (k : endian) (n : N) : mrd N := m_take_n (impl_of X) (order_of k) 8 n.
  (** src/buf_traits.rs:595-629 (i64) *)
  Definition s_take_sint (k : endian) (n : N) : mrd Z :=
    mbind (s_take_uint k n) (fun v => mret (int_of_raw I64 v)).

  (** One reading call through [BufRead]. *)
  Definition run_sop (o : rop) : mrd rval :=
    match o with
    | RTakeUint k n => mmap RvN (s_take_uint k n)
    | RTakeSint k n => mmap RvZ (s_take_sint k n)
    | o => run_mop (impl_of X) o
    end.
End Source.

(** [Bytes] as such a type (src/bytes.rs:47-75): data and position. *)
Definition bytes_source : source (bytes * N) :=
  mksource snd fst (fun s n => Some (fst s, n)) (fun s => Some (fst s, 0))
           (fun s n => Some (fst s, wadd (snd s) n)).

(** ** Clients: any program that makes calls and decides what to do next by the answers *)
Inductive call :=
| CRead (o : rop)
| CPosition | CData | CRemaining | CRemainingLen
| CAdvance (n : N) | CSetPosition (n : N) | CReset.
Inductive answer :=
| ARead (r : rval + error)
| ANumber (n : N) | ABytes (b : bytes) | ANothing.
Inductive program (A : Type) :=
| Done (a : A)
| Call (c : call) (next : answer -> program A).
Arguments Done {A}.
Arguments Call {A}.

Definition attempt {S A} (r : res S A) : option ((A + error) * S) :=
  match r with Ok a s => Some (inl a, s) | Err e s => Some (inr e, s) | _ => None end.

(** One call on any source; [None] if it panics. *)
Definition on_source {S} (X : source S) (c : call) (s : S) : option (answer * S) :=
  let after (r : res S unit) := match r with Ok _ s' => Some (ANothing, s') | _ => None end in
  match c with
  | CRead o => match attempt (run_sop X o s) with Some (r, s') => Some (ARead r, s') | None => None end
  | CPosition => Some (ANumber (src_position X s), s)
  | CData => Some (ABytes (src_data X s), s)
  | CRemaining => Some (ABytes (src_remaining X s), s)
  | CRemainingLen => Some (ANumber (lenN (src_remaining X s)), s)
  | CAdvance n => after (s_advance X n s)
  | CSetPosition n => after (s_set_position X n s)
  | CReset => after (s_reset_position X s)
  end.
(** The same call on [Bytes]. *)
Definition on_bytes (c : call) (d : bytes) (p : N) : option (answer * N) :=
  let after (r : res N unit) := match r with Ok _ q => Some (ANothing, q) | _ => None end in
  match c with
  | CRead o => match attempt (run_rop o d p) with Some (r, q) => Some (ARead r, q) | None => None end
  | CPosition => Some (ANumber p, p)
  | CData => Some (ABytes d, p)
  | CRemaining => Some (ABytes (remaining d p), p)
  | CRemainingLen => Some (ANumber (remaining_len d p), p)
  | CAdvance n => after (advance n d p)
  | CSetPosition n => after (set_position n d p)
  | CReset => after (reset_position d p)
  end.

Fixpoint run_on_source {S A} (X : source S) (pr : program A) (s : S) : option (A * S) :=
  match pr with
  | Done a => Some (a, s)
  | Call c k => match on_source X c s with Some (a, s') => run_on_source X (k a) s' | None => None end
  end.
Fixpoint run_on_bytes {A} (pr : program A) (d : bytes) (p : N) : option (A * N) :=
  match pr with
  | Done a => Some (a, p)
  | Call c k => match on_bytes c d p with Some (a, q) => run_on_bytes (k a) d q | None => None end
  end.

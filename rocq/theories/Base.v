(** Base vocabulary of the model: 64-bit [usize], byte slices, [JResult].

    Simplifications made once for the whole model:
    - [usize] is 64 bits wide (the target of the model is a 64-bit machine);
      a [usize] is an [N]; additions that Rust performs without a check are
      written with [wadd]/[wsub], which wrap modulo 2^64 (release profile and
      [overflow-checks = false], /repo/Cargo.toml).
    - a [&[u8]] or [Vec<u8>] is a [list byte]. *)

From Coq Require Export List NArith ZArith Bool Lia.
From Coq Require Export Strings.Byte.
Export ListNotations.

Set Implicit Arguments.
Open Scope N_scope.

Definition bytes := list byte.

(** 2^64 and 2^63 written out, so that [lia] sees constants. *)
Notation W64 := 18446744073709551616%N.
Notation W63 := 9223372036854775808%N.

(** [a + b] on [usize] without overflow check (e.g. src/bytes.rs:73). *)
Definition wadd (a b : N) : N := (a + b) mod W64.
(** [a - b] on [usize] without overflow check (e.g. src/buf_traits.rs:88). *)
Definition wsub (a b : N) : N := (a + W64 - b mod W64) mod W64.

(** [slice.len()] *)
Definition lenN {A} (l : list A) : N := N.of_nat (length l).

(** [slice.get(a..)] *)
Definition slice_get_from {A} (l : list A) (a : N) : option (list A) :=
  if a <=? lenN l then Some (skipn (N.to_nat a) l) else None.

(** [slice.get(..b)] *)
Definition slice_get_to {A} (l : list A) (b : N) : option (list A) :=
  if b <=? lenN l then Some (firstn (N.to_nat b) l) else None.

(** [slice.get(a..b)]; indexing [slice[a..b]] panics where this is [None]. *)
Definition slice_get {A} (l : list A) (a b : N) : option (list A) :=
  if (a <=? b) && (b <=? lenN l)
  then Some (firstn (N.to_nat (b - a)) (skipn (N.to_nat a) l))
  else None.

(** [vec![0; n]] / [[0; n]] *)
Definition zeros (n : N) : bytes := repeat x00 (N.to_nat n).

(** src/errors.rs: [ErrorKind] and [Error]. The text carried by
    [InvalidValue] is not modelled. *)
Inductive ekind :=
| InvalidByteLength
| SubSequence
| Fail
| InvalidPosition (p : N)
| PushFail
| InvalidValue.

Record error := mkerr { e_pos : N; e_kind : ekind }.

(** Outcome of a call on a mutable object whose state is [S]:
    [Ok]/[Err] are Rust's [Ok]/[Err] together with the state the object is
    left in; [Panic] is a Rust panic; [Hang] is used only for loops that do not
    terminate within the fuel the model gives them. *)
Inductive res (S A : Type) :=
| Ok (a : A) (s : S)
| Err (e : error) (s : S)
| Panic
| Hang.
Arguments Ok {S A} _ _.
Arguments Err {S A} _ _.
Arguments Panic {S A}.
Arguments Hang {S A}.

(** Byte equality and equality of slices. *)
Definition byte_eqb (a b : byte) : bool := Byte.eqb a b.
Fixpoint bytes_eqb (a b : bytes) : bool :=
  match a, b with
  | [], [] => true
  | x :: a', y :: b' => byte_eqb x y && bytes_eqb a' b'
  | _, _ => false
  end.

(** [slice.starts_with(p)] / [slice.strip_prefix(p).is_some()] *)
Fixpoint starts_with (p l : bytes) : bool :=
  match p, l with
  | [], _ => true
  | x :: p', y :: l' => byte_eqb x y && starts_with p' l'
  | _ :: _, [] => false
  end.

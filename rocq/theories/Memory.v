(** The [unsafe] blocks of the crate, with the memory they touch:
    src/decode/impls_array.rs:10-26 and 30-46 (an array built in a [MaybeUninit]) and
    src/buf_mut_traits.rs:15 and 46 (a slice read through a pointer to an array).

    [Undefined] stands for undefined behaviour: using memory that holds no value. *)
From Verif Require Import Base Reader ReadMut.

Inductive mem (S A : Type) :=
| Fine (r : res S A)
| Undefined.
Arguments Fine {S A} _.
Arguments Undefined {S A}.

(** ** Arrays *)

(** The slots of a [MaybeUninit<[T; N]>]: [None] is uninitialised memory. *)
Definition slots (A : Type) := list (option A).
(** [MaybeUninit::uninit()] (impls_array.rs:16, 36). *)
Definition uninit (A : Type) (n : nat) : slots A := repeat None n.
(** [*value = v] for the slot after those [written] (impls_array.rs:21, 41). In Rust an assignment drops
    the old value of the place, if the type has something to drop ([needs_drop]), and
    then writes. The result is the new content of the slot and the old value, dropped. *)
Definition assign {A} (needs_drop : bool) (slot : option A) (v : A) : option (option A * list A) :=
  match slot with
  | Some old => Some (Some v, [old])
  | None => if needs_drop then None else Some (Some v, [])
  end.
(** The loop [for value in ptr { *value = T::decode_inner(..)?; }] (impls_array.rs:20-22,
    40-42): [todo] are the slots not yet visited. On [Err] the function returns and the
    [MaybeUninit] is not dropped. *)
Fixpoint fill {A} (needs_drop : bool) (d : rd A) (written todo : slots A) (data : bytes) (p : N)
  : mem N (slots A) :=
  match todo with
  | [] => Fine (Ok written p)
  | slot :: rest =>
      match d data p with
      | Ok v q =>
          match assign needs_drop slot v with
          | Some (slot', _) => fill needs_drop d (written ++ [slot']) rest data q
          | None => Undefined
          end
      | Err e q => Fine (Err e q)
      | Panic => Fine Panic
      | Hang => Fine Hang
      end
  end.
(** [array.assume_init()] (impls_array.rs:24, 44): undefined unless every slot holds a value. *)
Fixpoint assume_init {A} (l : slots A) : option (list A) :=
  match l with
  | [] => Some []
  | Some v :: r => match assume_init r with Some vs => Some (v :: vs) | None => None end
  | None :: _ => None
  end.
(** impls_array.rs:10-26, 30-46. *)
Definition decode_array {A} (needs_drop : bool) (n : nat) (d : rd A) (data : bytes) (p : N) : mem N (list A) :=
  match fill needs_drop d [] (uninit A n) data p with
  | Fine (Ok l q) => match assume_init l with Some vs => Fine (Ok vs q) | None => Undefined end
  | Fine (Err e q) => Fine (Err e q)
  | Fine Panic => Fine Panic
  | Fine Hang => Fine Hang
  | Undefined => Undefined
  end.

(** ** Slices read as arrays *)

(** [*(s as *const _ as *const [u8; n])] (buf_mut_traits.rs:15, 46): reads [n] bytes
    from where the slice starts, whatever its length. *)
Definition cast_read {S} (n : N) (r : res S bytes) : mem S bytes :=
  match r with
  | Ok l s => if lenN l <? n then Undefined else Fine (Ok (firstn (N.to_nat n) l) s)
  | x => Fine x
  end.
(** The bytes of a number of [n] bytes, in the traits [BufRead] (buf_traits.rs) and
    [BufReadMut] (buf_mut_traits.rs) as used by macro_take_bytes! and macro_untake_bytes!. *)
Definition read_number (n : N) (data : bytes) (p : N) : mem N bytes := cast_read n (take_bytes n data p).
Definition peek_number (n : N) (data : bytes) (p : N) : mem N bytes := cast_read n (untake_bytes n data p).
Definition m_read_number {S} (I : impl S) (n : N) (s : S) : mem S bytes := cast_read n (m_take_bytes I n s).
Definition m_peek_number {S} (I : impl S) (n : N) (s : S) : mem S bytes := cast_read n (m_untake_bytes I n s).

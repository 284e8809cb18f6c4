(** What a type that implements the reading traits has to promise. *)
From Verif Require Import Base Ints Spec SpecOps Reader ReadMut ReadAny Schema.

(** [r], a move of a source from [s], ends at position [p] of the same data. *)
Definition arrives {S} (good : S -> Prop) (position : S -> N) (data : S -> bytes) (s : S) (r : option S) (p : N) : Prop :=
  exists s', r = Some s' /\ good s' /\ data s' = data s /\ position s' = p.

(** [BufRead], positions in the data: [good] are the states the source can be in. The
    position is in the data, and the three methods that move it move it to where they
    say, if that is in the data. Nothing is said of other moves. *)
Definition reads_inside {S} (X : source S) (good : S -> Prop) : Prop := forall s, good s ->
  let at_ := arrives good (src_position X) (src_data X) s in
  let d := src_data X s in let p := src_position X s in
  allocatable d /\ p <= size d /\
  (forall n, p + n <= size d -> at_ (src_advance X s n) (p + n)) /\
  (forall n, n <= size d -> at_ (src_set_position X s n) n) /\
  at_ (src_reset_position X s) 0.
(** The same for all positions a [usize] can hold. *)
Definition reads_anywhere {S} (X : source S) (good : S -> Prop) : Prop := forall s, good s ->
  let at_ := arrives good (src_position X) (src_data X) s in
  let d := src_data X s in let p := src_position X s in
  allocatable d /\ p < 18446744073709551616 /\
  (forall n, at_ (src_advance X s n) ((p + n) mod 18446744073709551616)) /\
  (forall n, n < 18446744073709551616 -> at_ (src_set_position X s n) n) /\
  at_ (src_reset_position X s) 0.

(** [BufReadMut], which has no [set_position], and whose [remaining] and [take_bytes] the
    implementor may replace. *)
Definition reads_forward {S} (I : impl S) (good : S -> Prop) : Prop := forall s, good s ->
  let at_ := arrives good (im_position I) (im_data I) s in
  let d := im_data I s in let p := im_position I s in
  allocatable d /\ p <= size d /\
  im_remaining I s = skipn (N.to_nat p) d /\
  (forall n, p + n <= size d -> at_ (im_advance I s n) (p + n)) /\
  (forall n, p + n <= size d -> exists s',
     im_take_bytes I s n = Ok (firstn (N.to_nat n) (skipn (N.to_nat p) d)) s' /\ at_ (Some s') (p + n)) /\
  (forall n, size d < p + n -> exists s',
     im_take_bytes I s n = Err (mkerr p InvalidByteLength) s' /\ at_ (Some s') p).

(** [BufReadMut] for implementors that give up what has been read, as slices do: [get_data]
    and [get_position] may change at will as long as what remains is right. *)
Definition reads_off {S} (I : impl S) (good : S -> Prop) : Prop := forall s, good s ->
  let d := im_data I s in let p := im_position I s in let rest := im_remaining I s in
  let leaves (s' : S) (left : bytes) := good s' /\ im_remaining I s' = left in
  allocatable d /\ p <= size d /\ rest = skipn (N.to_nat p) d /\
  (forall n, n <= size rest -> exists s', im_advance I s n = Some s' /\ leaves s' (skipn (N.to_nat n) rest)) /\
  (forall n, n <= size rest -> exists s',
     im_take_bytes I s n = Ok (firstn (N.to_nat n) rest) s' /\ leaves s' (skipn (N.to_nat n) rest)) /\
  (forall n, size rest < n -> exists q s',
     im_take_bytes I s n = Err (mkerr q InvalidByteLength) s' /\ leaves s' rest).

(** What a call on a source did, against what it did on [Bytes] with the same data. *)
Definition same_outcome {S A} (good : S -> Prop) (position : S -> N) (data : S -> bytes)
    (d : bytes) (x : res S A) (y : res N A) : Prop :=
  match x, y with
  | Ok a s, Ok b q => a = b /\ good s /\ data s = d /\ position s = q
  | Err e s, Err f q => e = f /\ good s /\ data s = d /\ position s = q
  | Panic, Panic | Hang, Hang => True
  | _, _ => False
  end.

(** Programs that do not place the position themselves, other than at the start. *)
Inductive only_reads {A} : program A -> Prop :=
| or_done a : only_reads (Done a)
| or_call c k : match c with CAdvance _ | CSetPosition _ => False | _ => True end ->
                (forall a, only_reads (k a)) -> only_reads (Call c k).
(** Programs that place it at a [usize]. *)
Inductive places_usize {A} : program A -> Prop :=
| pu_done a : places_usize (Done a)
| pu_call c k : match c with CSetPosition n => n < 18446744073709551616 | _ => True end ->
                (forall a, places_usize (k a)) -> places_usize (Call c k).

(** What a program did on a source, against what it did on [Bytes]. *)
Definition same_run {S A} (good : S -> Prop) (position : S -> N) (data : S -> bytes)
    (d : bytes) (x : option (A * S)) (y : option (A * N)) : Prop :=
  match x, y with
  | Some (a, s), Some (b, q) => a = b /\ good s /\ data s = d /\ position s = q
  | None, None => True
  | _, _ => False
  end.

(** A function that decodes by calls of the trait, on [Bytes] and on a source. *)
Definition by_calls (pr : program (val + error)) : rd val := fun d p =>
  match run_on_bytes pr d p with Some (inl v, q) => Ok v q | Some (inr e, q) => Err e q | None => Panic end.
Definition by_calls_on {S} (X : source S) (pr : program (val + error)) : @mrd S val := fun s =>
  match run_on_source X pr s with Some (inl v, s') => Ok v s' | Some (inr e, s') => Err e s' | None => Panic end.

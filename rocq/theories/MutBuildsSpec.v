(** What the comparison of builds and targets asks of a type that implements [BufReadMut]. *)
From Verif Require Import Base Ints Spec SpecOps Reader ReadMut NarrowSpec.

(** In the states [good] the end of what remains is at a number below [bound], and no method
    leaves them, [advance] if it does not go past that end; [take_bytes] returns as many bytes
    as it is asked for. *)
Definition ends_below (bound : N) {S} (I : impl S) (good : S -> Prop) : Prop := forall s, good s ->
  im_position I s + size (im_remaining I s) < bound /\
  (forall n s', n <= size (im_remaining I s) -> im_advance I s n = Some s' -> good s') /\
  (forall n, match im_take_bytes I s n with Ok v s' => good s' /\ size v = n | Err _ s' => good s' | _ => True end).

(** Two implementors that cannot be told apart in those states. *)
Definition alike_in {S} (good : S -> Prop) (J I : impl S) : Prop := forall s, good s ->
  im_position J s = im_position I s /\ im_data J s = im_data I s /\ im_remaining J s = im_remaining I s /\
  (forall n, n <= size (im_remaining I s) -> im_advance J s n = im_advance I s n) /\
  (forall n, im_take_bytes J s n = im_take_bytes I s n).

(** A call of [BufReadMut] that does not read a [usize] or [isize], except from so few bytes
    that both widths hold it. *)
Definition fixed_take (o : rop) : Prop :=
  match o with
  | RTakeInt _ it | RUntakeInt _ it => fixed_width it
  | RTakeUint k n => (forall bo, k <> KOrder bo) /\ n <= 4
  | RTakeSint k n => (forall bo, k <> KOrder bo) /\ n <= 3
  | _ => True
  end.

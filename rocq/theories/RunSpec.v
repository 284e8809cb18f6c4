(** What it means to run an encoder or a decoder: the notions in which the
    properties are stated, and in which the contracts of hand-written codecs are. *)
From Verif Require Import Base Reader Writer Spec SpecOps.

(** Run on any buffer with room, the encoder succeeds, puts [w] at the position and
    stands behind it; everything else in the buffer stays. *)
Definition writes_as (e : wr N) (w : bytes) : Prop :=
  forall d p, p <= size d -> allocatable d -> p + size w < 9223372036854775808 ->
  exists n, e (mkbuf d p) = Ok n (mkbuf (overwrite d p w) (p + size w)).

(** Standing in front of [w], which is followed by [rest], the decoder returns
    [a] and consumes exactly [w]. What comes before does not matter. *)
Definition reads_as {A} (m : rd A) (w rest : bytes) (a : A) : Prop :=
  forall pre, allocatable (pre ++ w ++ rest) ->
  m (pre ++ w ++ rest) (size pre) = Ok a (size pre + size w).

(** At the end of the data the decoder fails and stays where it is. *)
Definition fails_at_end {A} (m : rd A) : Prop :=
  forall d, allocatable d -> exists e, m d (size d) = Err e (size d).

(** The decoder moves forward and not past the end of the data. *)
Definition stays_inside {A} (m : rd A) : Prop :=
  forall d p, allocatable d -> p <= size d ->
  match m d p with Ok _ q | Err _ q => p <= q <= size d | Panic | Hang => True end.
(** It also never panics and always returns. *)
Definition total_inside {A} (m : rd A) : Prop :=
  forall d p, allocatable d -> p <= size d ->
  match m d p with Ok _ q | Err _ q => p <= q <= size d | Panic | Hang => False end.
(** What it consumed does not depend on what follows. *)
Definition self_delimiting {A} (m : rd A) : Prop :=
  stays_inside m /\
  forall pre w rest a, allocatable (pre ++ w ++ rest) ->
  m (pre ++ w ++ rest) (size pre) = Ok a (size pre + size w) -> forall rest', reads_as m w rest' a.
(** It consumes at least one byte when it succeeds. *)
Definition consumes_a_byte {A} (m : rd A) : Prop :=
  forall d p a q, allocatable d -> p <= size d -> m d p = Ok a q -> p < q.
(** The number an encoder returns is the number of bytes it has written. *)
Definition counts_bytes (m : wr N) : Prop :=
  forall d p n b, p <= size d -> allocatable d -> n < 9223372036854775808 -> m (mkbuf d p) = Ok n b ->
  exists w, size w = n /\ p + n < 9223372036854775808 /\ b = mkbuf (overwrite d p w) (p + n).
(** With enough room the encoder does not panic, and it writes at its position only. *)
Definition writes_at_position {A} (m : wr A) : Prop :=
  exists most, forall d p, p <= size d -> allocatable d -> p + most < 9223372036854775808 ->
  exists w, size w <= most /\
    ((exists n, m (mkbuf d p) = Ok n (mkbuf (overwrite d p w) (p + size w))) \/
     (exists e, m (mkbuf d p) = Err e (mkbuf (overwrite d p w) (p + size w)))).
(** A writer that succeeds or returns an error when there is room for [most] bytes:
    the buffer does not get shorter, and after success the position is inside it. *)
Definition answers_writing {A} (m : wr A) : Prop :=
  exists most, forall d p, p <= size d -> allocatable d -> p + most < 9223372036854775808 ->
  match m (mkbuf d p) with
  | Ok _ b => b_pos b <= size (b_data b) /\ allocatable (b_data b) /\ b_pos b <= p + most /\ size d <= size (b_data b)
  | Err _ b => size d <= size (b_data b)
  | Panic | Hang => False
  end.

(** What a type that implements [BufWrite] has to promise for values to be encoded into
    it, and what encoding does to it. *)
From Verif Require Import Base Ints Spec SpecOps Reader Writer ReadMut ReadAny WriteMut WriteMutSpec Schema AnyEncode.

Section Any.
  Context {S : Type}.
  Variables (K : sink S) (limit : N).
  Local Notation contents := (src_data (sk_source K)).
  Local Notation position := (src_position (sk_source K)).

  (** The promises of WriteMutSpec.v, and that [set_position] goes to the place it is
      told, if that is in the contents. [limit] is the size up to which this holds. *)
  Definition writes : Prop :=
    limit <= 18446744073709551616 /\
    writer (wimpl_of K) contents position limit /\
    forall s n, n <= size (contents s) ->
      exists s', src_set_position (sk_source K) s n = Some s' /\ position s' = n /\ contents s' = contents s.

  (** [resize] makes just the room it is asked for. *)
  Definition grows_exactly : Prop := forall s n k s', size (contents s) < position s + n ->
    sk_resize K s n = Some (k, s') -> size (contents s') <= position s + n.
  (** [resize] makes no room. *)
  Definition never_grows : Prop := forall s n k s', sk_resize K s n = Some (k, s') -> size (contents s') = size (contents s).

  (** The type held [c0] and was at [p0] when [b] was a new [Buffer]; since then the same
      has been written to both: what [b] holds lies over [c0] from [p0] on. [added] is what
      the type grew by; it has not grown as long as there was room, and no more than its
      [resize] grows it. *)
  Definition mirrors (c0 : bytes) (p0 : N) (b : buf) (s : S) : Prop :=
    p0 <= size c0 /\ allocatable (b_data b) /\ b_pos b <= size (b_data b) /\
    position s = p0 + b_pos b /\
    exists added, contents s = overwrite (c0 ++ added) p0 (b_data b) /\
      p0 + size (b_data b) <= size (c0 ++ added) /\
      (p0 + size (b_data b) <= size c0 -> added = []) /\
      (grows_exactly -> size (c0 ++ added) <= N.max (size c0) (p0 + size (b_data b))) /\
      (never_grows -> added = []).

  (** [resize] was asked for more room, within the limit, and returned 0. *)
  Definition resize_refuses : Prop := exists s n s',
    position s + n < limit /\ size (contents s) < position s + n /\ sk_resize K s n = Some (0, s').

  (** The type had no room for what [b] holds and did not grow: the push that did not fit
      was refused. What lies before [p0] is as it was, and nothing is lost. *)
  Definition refused {A} (c0 : bytes) (p0 : N) (b : buf) (x : res S A) : Prop :=
    size c0 < p0 + size (b_data b) /\ resize_refuses /\
    exists s, x = Err (mkerr (position s) PushFail) s /\ p0 <= position s /\
      position s <= size (contents s) /\ size c0 <= size (contents s) /\
      (never_grows -> size (contents s) = size c0) /\
      firstn (N.to_nat p0) (contents s) = firstn (N.to_nat p0) c0.

  (** What happened to the type, [x], against what happened to the [Buffer], [y]. Nothing
      is said where the [Buffer] panics, or itself refuses, which it does for a push that
      takes the position to exactly 2^64. *)
  Definition as_on_buffer {A} (c0 : bytes) (p0 : N) (y : res buf A) (x : res S A) : Prop :=
    match y with
    | Ok a b => p0 + size (b_data b) < limit ->
        (exists s, x = Ok a s /\ mirrors c0 p0 b s) \/ refused c0 p0 b x
    | Err e b => e_kind e <> PushFail -> p0 + size (b_data b) < limit ->
        (exists s, x = Err (mkerr (p0 + e_pos e) (e_kind e)) s /\ mirrors c0 p0 b s) \/ refused c0 p0 b x
    | _ => True
    end.

  (** A function written by hand leaves a [Buffer] no shorter, and the position in it or
      at its end, where it was; and does to the type what it does to the [Buffer]. *)
  Definition only_adds {A} (m : wr A) : Prop := forall b, allocatable (b_data b) -> b_pos b <= size (b_data b) ->
    match m b with
    | Ok _ b' => allocatable (b_data b') /\ b_pos b' <= size (b_data b') /\ size (b_data b) <= size (b_data b')
        /\ (b_pos b = size (b_data b) -> b_pos b' = size (b_data b'))
    | Err e b' => e_kind e <> PushFail -> size (b_data b) <= size (b_data b')
    | _ => True
    end.
  Definition follows {A} (m : wr A) (c : S -> res S A) : Prop :=
    only_adds m /\ forall c0 p0 b s, mirrors c0 p0 b s -> as_on_buffer c0 p0 (m b) (c s).
End Any.

(** An encoder written with pushes and [?], which may look at what they return. *)
Inductive pushes :=
| Pushed (n : N)
| Push (o : wop) (next : N -> pushes).
Fixpoint by_pushes (p : pushes) : wr N :=
  match p with
  | Pushed n => wret n
  | Push o next => wbind (run_wop o) (fun n => by_pushes (next n))
  end.
Fixpoint by_pushes_on {S} (K : sink S) (p : pushes) : S -> res S N :=
  match p with
  | Pushed n => mret n
  | Push o next => mbind (run_mwop (wimpl_of K) o) (fun n => by_pushes_on K (next n))
  end.

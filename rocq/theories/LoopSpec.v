(** The loop [while let Ok(_) = take_bytes_starts(marker) { push(element()?) }] that reads a
    vector with a marker before each element (src/decode/impls_vec.rs:22-28), as a relation
    between positions: nothing here bounds the number of rounds. *)
From Verif Require Import Base Ints Spec Reader.

Section Loop.
  Context {A : Type}.
  Variables (marker : bytes) (element : rd A) (data : bytes).

  (** The loop, begun at a position, ends with this outcome. *)
  Inductive loop_ends : N -> res N (list A) -> Prop :=
  | no_marker p : ~ occurs_at marker data (N.to_nat p) -> loop_ends p (Ok [] p)
  | element_fails p e q : occurs_at marker data (N.to_nat p) -> element data (p + size marker) = Err e q ->
      loop_ends p (Err e q)
  | element_panics p : occurs_at marker data (N.to_nat p) -> element data (p + size marker) = Panic ->
      loop_ends p Panic
  | element_read p x q l z : occurs_at marker data (N.to_nat p) -> element data (p + size marker) = Ok x q ->
      loop_ends q (Ok l z) -> loop_ends p (Ok (x :: l) z)
  | later_fails p x q e z : occurs_at marker data (N.to_nat p) -> element data (p + size marker) = Ok x q ->
      loop_ends q (Err e z) -> loop_ends p (Err e z)
  | later_panics p x q : occurs_at marker data (N.to_nat p) -> element data (p + size marker) = Ok x q ->
      loop_ends q Panic -> loop_ends p Panic.

  (** [n] markers, each with its element, take the loop from one position to another. *)
  Inductive rounds : nat -> N -> N -> Prop :=
  | no_round p : rounds 0 p p
  | one_more n p x q z : occurs_at marker data (N.to_nat p) -> element data (p + size marker) = Ok x q ->
      rounds n q z -> rounds (S n) p z.
End Loop.

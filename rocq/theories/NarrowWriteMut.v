(** Trait [BufWriteMut], over an arbitrary implementor, in a program for a 32-bit target (see
    NarrowReader.v): as in WriteMut.v except for [usize] and [isize] of four bytes. *)
From Verif Require Import Base Ints Reader Writer ReadMut WriteMut NarrowReader.

Section Trait.
  Context {S : Type}.
  Variable W : wimpl S.

  (** src/buf_mut_traits.rs:1468-1897 *)
  Definition mw_push_int (k : endian) (t : ity) (z : Z) : S -> res S N := WriteMut.mw_push_int W k (on32 t) z.

  Definition run_mwop (o : wop) : S -> res S N :=
    match o with
    | WPushInt k t z => mw_push_int k t z
    | _ => WriteMut.run_mwop W o
    end.

  (** A caller that goes on after errors; [None] if a call panics. *)
  Fixpoint run_mwops (ops : list wop) (s : S) : option (list (N + error) * S) :=
    match ops with
    | [] => Some ([], s)
    | o :: os =>
        match run_mwop o s with
        | Ok v s' => match run_mwops os s' with Some (vs, q) => Some (inl v :: vs, q) | None => None end
        | Err e s' => match run_mwops os s' with Some (vs, q) => Some (inr e :: vs, q) | None => None end
        | _ => None
        end
    end.
End Trait.

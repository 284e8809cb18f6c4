(** Receiving a message piece by piece: what a caller does that decodes what has
    arrived so far, and for which schemas that is sound. *)
From Verif Require Import Base Reader Spec SpecOps RunSpec Decode Schema WireSpec SafetySpec.

(** More bytes behind the data change nothing, except that they may help where
    bytes were missing. *)
Definition settled {A} (m : rd A) : Prop :=
  forall d p more,
  match m d p with
  | Ok a q => m (d ++ more) p = Ok a q
  | Err e q => e_kind e = InvalidByteLength \/ m (d ++ more) p = Err e q
  | Panic | Hang => True
  end.

(** No modifier that looks for something further on or takes the end of the data
    for the end of the value. *)
Definition streams (f : fspec) : bool :=
  absent (f_key f) && absent (f_split f) && absent (f_linend f) && negb (f_remaining f)
  && absent (f_loop f) && absent (f_try_count f).
(** No [Option], whose decoder takes an error for an absent value, and no enum that
    is told by what its text begins with. *)
Fixpoint streamed (t : ty) : bool :=
  let field := fun ft : fspec * ty => let (f, t1) := ft in streams f && streamed t1 in
  match t with
  | TArray _ t1 | TVec t1 | TSet t1 => streamed t1
  | TTuple ts => forallb streamed ts
  | TMap tk tv => streamed tk && streamed tv
  | TOption _ => false
  | TStruct _ _ fs => forallb field fs
  | TEnum e vs =>
      match e_branching e with ByTag | ByBytes _ => true | ByPrefix | ByPrefixUntake => false end
      && forallb (fun vf : vspec * list (fspec * ty) => streams (v_attr (fst vf)) && forallb field (snd vf)) vs
  | _ => true
  end.
Definition streams_under (fa : fattr) : bool :=
  absent (a_key fa) && absent (a_split fa) && absent (a_linend_value fa) && negb (a_linend fa)
  && negb (a_remaining fa) && absent (a_loop fa) && absent (a_try_count fa).

(** ** The receiver *)
Inductive verdict := Accepted (v : val) (used : N) | Rejected (e : error) | Waiting | Crashed.
(** Decodes what it has; on an error that [wait]s, it asks for the next piece. *)
Fixpoint receive (t : ty) (wait : ekind -> bool) (have : bytes) (pieces : list bytes) : verdict :=
  match decode t have 0 with
  | Ok v q => Accepted v q
  | Err e _ => if wait (e_kind e) then
                 match pieces with [] => Waiting | c :: r => receive t wait (have ++ c) r end
               else Rejected e
  | Panic | Hang => Crashed
  end.
(** Wait when bytes are missing. *)
Definition on_length (k : ekind) : bool := match k with InvalidByteLength => true | _ => false end.
(** Wait after every error. *)
Definition on_any (k : ekind) : bool := true.

(** What an error of a decoder or an encoder is supposed to tell. *)
From Verif Require Import Base Reader Writer Schema SafetySpec.

(** An error names the position at which the reader is left, and is one of [kinds]. *)
Definition reports {A} (kinds : list ekind) (m : rd A) : Prop :=
  forall d p e q, m d p = Err e q -> e_pos e = q /\ In (e_kind e) kinds.
(** The same for a writer. *)
Definition reports_writing {A} (kinds : list ekind) (m : wr A) : Prop :=
  forall b e b', m b = Err e b' -> e_pos e = b_pos b' /\ In (e_kind e) kinds.

(** Some field has a [check_value]. *)
Fixpoint checks (t : ty) : bool :=
  let field := fun ft : fspec * ty => let (f, t1) := ft in negb (absent (f_check f)) || checks t1 in
  match t with
  | TArray _ t1 | TVec t1 | TSet t1 | TOption t1 => checks t1
  | TTuple ts => existsb checks ts
  | TMap tk tv => checks tk || checks tv
  | TStruct _ _ fs => existsb field fs
  | TEnum _ vs => existsb (fun vf : vspec * list (fspec * ty) => existsb field (snd vf)) vs
  | _ => false
  end.
(** Too few bytes or a number that does not fit; anything else that does not parse. *)
Definition data_errors : list ekind := [InvalidByteLength; Fail].
(** And a value that a [check_value] does not allow. *)
Definition decoding_errors : list ekind := [InvalidByteLength; Fail; InvalidValue].
(** A number that does not fit its field; a buffer that cannot grow. *)
Definition encoding_errors : list ekind := [InvalidByteLength; PushFail].

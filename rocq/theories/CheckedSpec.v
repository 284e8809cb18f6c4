(** What the comparison of builds with and without overflow checks asks of a schema and
    of functions given by the user. *)
From Verif Require Import Base Ints Spec SpecOps Reader Writer Schema WireSpec SafetySpec.

(** A reading function leaves a position that is a [usize]. *)
Definition stays_usize {A} (m : rd A) : Prop := forall d p, allocatable d -> p < 18446744073709551616 ->
  match m d p with Ok _ q | Err _ q => q < 18446744073709551616 | _ => True end.
(** A buffer that can exist. *)
Definition possible (b : buf) : Prop := allocatable (b_data b) /\ b_pos b < 18446744073709551616.
(** A writing function turns such a buffer into such a buffer. *)
Definition stays_possible {A} (m : wr A) : Prop := forall b, possible b ->
  match m b with Ok _ b' | Err _ b' => possible b' | _ => True end.
(** With room for [most] bytes a writing function that succeeds leaves the position in
    the data. *)
Definition stays_inside {A} (m : wr A) : Prop :=
  exists most, forall d p, p <= size d -> allocatable d -> p + most < 9223372036854775808 ->
  match m (mkbuf d p) with
  | Ok _ b => b_pos b <= size (b_data b) /\ allocatable (b_data b) /\ b_pos b <= p + most
  | _ => True
  end.

(** ** Bit fields that follow the word they belong to
    A bit field without [bits_start] comes right after other bit fields of its word: an
    integer no wider than the one that starts the word, with nothing in between.
    [word]: the width of the word begun, 0 if there is none. *)
Definition word_begun (f : fspec) (t : ty) : N :=
  match t, f_bits f with
  | TInt it, Some _ => if bits_only f then width_bytes it else 0
  | _, _ => 0
  end.
Fixpoint words_follow (word : N) (fs : list (fspec * ty)) : bool :=
  match fs with
  | [] => true
  | (f, t) :: r =>
      if own_word f then words_follow (word_begun f t) r
      else match t with
           | TInt it => bits_only f && (width_bytes it <=? word) && words_follow word r
           | _ => false
           end
  end.
(** The fields of an enum's variant that have no modifiers see those of the field
    before them; next to bit fields that share a word all fields must have some. *)
Fixpoint grouped (t : ty) : bool :=
  let inner := fun fs : list (fspec * ty) => forallb (fun ft : fspec * ty => grouped (snd ft)) fs in
  match t with
  | TArray _ t1 | TVec t1 | TSet t1 | TOption t1 => grouped t1
  | TTuple ts => forallb grouped ts
  | TMap tk tv => grouped tk && grouped tv
  | TStruct _ _ fs => words_follow 0 fs && inner fs
  | TEnum _ vs =>
      forallb (fun vf : vspec * list (fspec * ty) =>
        (forallb own_word (v_attr (fst vf) :: map fst (snd vf))
         || forallb f_use (map fst (snd vf)) && words_follow 0 (snd vf)) && inner (snd vf)) vs
  | _ => true
  end.

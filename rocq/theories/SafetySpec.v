(** Classes of schemas for the properties about hostile, truncated and extended
    input. Conditions on a schema alone; nothing here mentions the decoder, except
    for the conditions on hand-written ones. *)
From Verif Require Import Base Ints Reader Writer Spec SpecOps RunSpec Schema Utf8 WireSpec.

(** ** Hand-written decoders: all of them, in types and in [with] *)
Fixpoint each_decoder (ok : rd val -> Prop) (t : ty) : Prop :=
  let field := fun ft : fspec * ty => let (f, t1) := ft in
    (forall d, f_with_decode f = Some d -> forall en ca fa, ok (d en ca fa)) /\ each_decoder ok t1 in
  match t with
  | TUser x _ => forall ca fa, ok (x_decode x ca fa)
  | TArray _ t1 | TVec t1 | TSet t1 | TOption t1 => each_decoder ok t1
  | TTuple ts => every (fun p : Prop => p) (map (each_decoder ok) ts)
  | TMap tk tv => each_decoder ok tk /\ each_decoder ok tv
  | TStruct _ _ fs => every field fs
  | TEnum _ vs => every (fun vf : vspec * list (fspec * ty) => every field (snd vf)) vs
  | _ => True
  end.
(** The same for encoders; [of_type t v]: the value has the type. *)
Fixpoint each_encoder (of_type : ty -> val -> Prop) (ok : wr N -> Prop) (t : ty) : Prop :=
  let field := fun ft : fspec * ty => let (f, t1) := ft in
    (forall e, f_with_encode f = Some e -> forall en ca fa v, of_type t1 v -> ok (e en ca fa v))
    /\ each_encoder of_type ok t1 in
  match t with
  | TUser x _ => forall ca fa v, of_type t v -> ok (x_encode x ca fa v)
  | TArray _ t1 | TVec t1 | TSet t1 | TOption t1 => each_encoder of_type ok t1
  | TTuple ts => every (fun p : Prop => p) (map (each_encoder of_type ok) ts)
  | TMap tk tv => each_encoder of_type ok tk /\ each_encoder of_type ok tv
  | TStruct _ _ fs => every field fs
  | TEnum _ vs => every (fun vf : vspec * list (fspec * ty) => every field (snd vf)) vs
  | _ => True
  end.

(** No hand-written code at all. *)
Fixpoint no_code (t : ty) : bool :=
  let field := fun ft : fspec * ty => let (f, t1) := ft in
    match f_with_decode f, f_with_encode f with None, None => no_code t1 | _, _ => false end in
  match t with
  | TUser _ _ => false
  | TArray _ t1 | TVec t1 | TSet t1 | TOption t1 => no_code t1
  | TTuple ts => forallb no_code ts
  | TMap tk tv => no_code tk && no_code tv
  | TStruct _ _ fs => forallb field fs
  | TEnum _ vs => forallb (fun vf : vspec * list (fspec * ty) => forallb field (snd vf)) vs
  | _ => true
  end.

(** ** No offsets: the position never jumps over bytes *)
Definition offset_free_fields (ok : ty -> bool) (fs : list (fspec * ty)) : bool :=
  forallb (fun ft : fspec * ty => no_offset (fst ft) && ok (snd ft)) fs.
Fixpoint offset_free (t : ty) : bool :=
  match t with
  | TArray _ t1 | TVec t1 | TSet t1 | TOption t1 => offset_free t1
  | TTuple ts => forallb offset_free ts
  | TMap tk tv => offset_free tk && offset_free tv
  | TStruct _ _ fs => offset_free_fields offset_free fs
  | TEnum _ vs =>
      forallb (fun vf : vspec * list (fspec * ty) =>
                 no_offset (v_attr (fst vf)) && offset_free_fields offset_free (snd vf)) vs
  | _ => true
  end.

(** ** Schemas that cannot make the decoder panic *)

Definition at_most_8 (o : option N) : Prop := match o with Some n => n <= 8 | None => True end.
(** A [length] on this field would apply to a 128-bit integer. *)
Fixpoint wide_ints (t : ty) : bool :=
  match t with
  | TInt U128 | TInt I128 => true
  | TArray _ t1 | TVec t1 | TSet t1 | TOption t1 => wide_ints t1
  | TTuple ts => existsb wide_ints ts
  | TMap tk tv => wide_ints tk || wide_ints tv
  | _ => false
  end.
(** Loop markers are not empty, and little-endian numbers of a written size have
    at most eight bytes. *)
Definition moderate (t : ty) (ca : cattr) (fa : fattr) : Prop :=
  a_loop fa <> Some [] /\
  (order_for ca fa = Be \/
   (at_most_8 (a_byte_count fa) /\ at_most_8 (a_byte_count_outside fa) /\
    (wide_ints t = true -> at_most_8 (a_length fa)))).
(** Every field in every environment: its byte order evaluates, its modifiers are
    [moderate]; and if it has no attributes in a tuple, so are those of the
    fields before it, whose modifiers it sees. *)
Definition moderate_fields (ok : ty -> Prop) (tuple : bool) (ca : cattr) :=
  fix go (earlier : list fspec) (fs : list (fspec * ty)) : Prop :=
    match fs with
    | [] => True
    | (f, t) :: r =>
        ok t /\ (forall en, modifiers f en <> None) /\
        (forall g en fa, g = f \/ (tuple = true /\ f_use f = false /\ In g earlier) ->
           modifiers g en = Some fa -> moderate t ca fa) /\
        go (f :: earlier) r
    end.
Fixpoint safe (t : ty) : Prop :=
  match t with
  | TArray _ t1 | TVec t1 | TSet t1 | TOption t1 => safe t1
  | TTuple ts => every (fun p : Prop => p) (map safe ts)
  | TMap tk tv => safe tk /\ safe tv
  | TStruct named c fs => moderate_fields safe (negb named) (inner c) [] fs
  | TEnum e vs =>
      at_most_8 (c_byte_count (e_c e)) /\
      every (fun vf : vspec * list (fspec * ty) => let (v, fs) := vf in
               (forall en, modifiers (v_attr v) en <> None) /\
               moderate_fields safe (negb (v_named v)) (inner (e_c e)) [v_attr v] fs) vs
  | _ => True
  end.

(** ** Schemas whose values say where they end

    Not in the class: [remaining], [loop_skip_starts], [try_count], [Option],
    [branch_starts_with_untake] and literals that are prefixes of each other: there
    the bytes that follow decide. [untake] is allowed on integers if the fields
    that come after consume what has been looked at, as in a group of bit
    fields. *)
Definition absent {A} (o : option A) : bool := match o with None => true | Some _ => false end.
Definition no_lookahead (f : fspec) : bool :=
  negb (f_remaining f) && absent (f_loop f) && absent (f_try_count f) && absent (f_offset f).
(** The field reads all bytes of its integer type, always. *)
Definition whole_word (f : fspec) : bool :=
  f_use f && absent (f_length f) && absent (f_skip_decode f) && absent (f_from_str f) && absent (f_if f)
  && absent (f_with_decode f).
(** [seen]: how many bytes from here on have been looked at already. *)
Definition delimited_fields (ok : ty -> bool) :=
  fix go (seen : N) (fs : list (fspec * ty)) : bool :=
    match fs with
    | [] => seen =? 0
    | (f, t) :: r =>
        no_lookahead f &&
        match t, whole_word f with
        | TInt it, true =>
            if f_untake f then go (N.max seen (width_bytes it)) r else go (seen - width_bytes it) r
        | _, _ => negb (f_untake f) && ok t && (seen =? 0) && go 0 r
        end
    end.
Fixpoint apart (l : list bytes) : bool :=
  match l with
  | [] => true
  | x :: r => forallb (fun y => negb (starts_with x y) && negb (starts_with y x)) r && apart r
  end.
Fixpoint delimited (t : ty) : bool :=
  match t with
  | TArray _ t1 | TVec t1 | TSet t1 => delimited t1
  | TTuple ts => forallb delimited ts
  | TMap tk tv => delimited tk && delimited tv
  | TOption _ => false
  | TStruct _ _ fs => delimited_fields delimited 0 fs
  | TEnum e vs =>
      match e_branching e with
      | ByTag | ByBytes _ => true
      | ByPrefix => forallb (fun vf => negb (v_default (fst vf))) vs && apart (map (fun vf => literal (fst vf)) vs)
      | ByPrefixUntake => false
      end &&
      forallb (fun vf : vspec * list (fspec * ty) =>
                 no_lookahead (v_attr (fst vf)) && delimited_fields delimited 0 (snd vf)) vs
  | _ => true
  end.
Definition delimits (fa : fattr) : bool :=
  negb (a_remaining fa) && absent (a_loop fa) && absent (a_try_count fa).

(** ** Encodings in which every byte written is counted: no padding for offsets and
    no second member of a bit-field group *)
Definition own_word (f : fspec) : bool := absent (f_bits f) || f_bits_start f.
Definition counted_fields (ok : ty -> bool) (fs : list (fspec * ty)) : bool :=
  forallb (fun ft : fspec * ty => no_offset (fst ft) && own_word (fst ft) && ok (snd ft)) fs.
Fixpoint counted (t : ty) : bool :=
  match t with
  | TArray _ t1 | TVec t1 | TSet t1 | TOption t1 => counted t1
  | TTuple ts => forallb counted ts
  | TMap tk tv => counted tk && counted tv
  | TStruct _ _ fs => counted_fields counted fs
  | TEnum _ vs =>
      forallb (fun vf : vspec * list (fspec * ty) =>
                 no_offset (v_attr (fst vf)) && own_word (v_attr (fst vf)) && counted_fields counted (snd vf)) vs
  | _ => true
  end.
Definition counts_all (fa : fattr) : bool := absent (a_bits fa) || a_bits_start fa.

(** ** Schemas whose encoders cannot panic: byte orders evaluate, there is no
    [HashSet] (which has no encoder) and no bit field that reads back a word *)
Fixpoint encodable (t : ty) : Prop :=
  let field := fun ft : fspec * ty => let (f, t1) := ft in
    (forall en, modifiers f en <> None) /\ own_word f = true /\ encodable t1 in
  match t with
  | TArray _ t1 | TVec t1 | TOption t1 => encodable t1
  | TSet _ => False
  | TTuple ts => every (fun p : Prop => p) (map encodable ts)
  | TMap tk tv => encodable tk /\ encodable tv
  | TStruct _ _ fs => every field fs
  | TEnum _ vs =>
      every (fun vf : vspec * list (fspec * ty) => let (v, fs) := vf in
               (forall en, modifiers (v_attr v) en <> None) /\ own_word (v_attr v) = true /\ every field fs) vs
  | _ => True
  end.

(** ** The same with bit fields that read back the word before them: allowed in
    containers without 128-bit integers *)
Definition narrow_words (attrs : list fspec) (ts : list ty) : Prop :=
  forallb own_word attrs = true \/ existsb wide_ints ts = false.
Fixpoint encodable_bits (t : ty) : Prop :=
  let field := fun ft : fspec * ty => let (f, t1) := ft in (forall en, modifiers f en <> None) /\ encodable_bits t1 in
  match t with
  | TArray _ t1 | TVec t1 | TOption t1 => encodable_bits t1
  | TSet _ => False
  | TTuple ts => every (fun p : Prop => p) (map encodable_bits ts)
  | TMap tk tv => encodable_bits tk /\ encodable_bits tv
  | TStruct _ _ fs => narrow_words (map fst fs) (map snd fs) /\ every field fs
  | TEnum _ vs =>
      every (fun vf : vspec * list (fspec * ty) => let (v, fs) := vf in
               (forall en, modifiers (v_attr v) en <> None)
               /\ narrow_words (v_attr v :: map fst fs) (map snd fs) /\ every field fs) vs
  | _ => True
  end.

(** What the theorems about generated encoders talk about. *)
From Coq Require Import Ascii String.
From Verif Require Import Base Ints Reader Writer Decode Schema GenDecode.

(** The names every generated encoder needs for itself. *)
Definition encoder_names : list bytes :=
  map list_byte_of_string ["buffer"; "r_nbytes"; "cattr_new"; "fattr_new"]%string.
(** And those the code for the tag of a variant needs. *)
Definition tag_names : list bytes :=
  map list_byte_of_string ["cattr"; "fattr"; "cr_byte_count"]%string.

(** The encoder does nothing with the field: it is skipped, or [untake]n and not a bit
    field. *)
Definition unwritten (f : fspec) : Prop :=
  f_with_encode f = None /\
  (f_skip_encode f = true \/ f_from_str f = None /\ f_bits f = None /\ f_untake f = true).
(** The field is written as something else. *)
Definition rewritten (f : fspec) : Prop :=
  f_with_encode f = None /\ f_skip_encode f = false /\ f_value_encode f <> None /\ ~ (f_bits f = None /\ f_untake f = true).

(** Two views of the fields that differ at most in the places [T]. *)
Definition differ_at (T : nat -> Prop) (en en' : env) : Prop :=
  ev_vars en = ev_vars en' /\ length (ev_fields en) = length (ev_fields en') /\
  forall i, ~ T i -> nth_error (ev_fields en) i = nth_error (ev_fields en') i.
(** The expressions of a field that the encoder evaluates do not look at the places [T]. *)
Definition indifferent (T : nat -> Prop) (f : fspec) : Prop := forall en en', differ_at T en en' ->
  modifiers f en = modifiers f en' /\ eval_opt (f_offset f) en = eval_opt (f_offset f) en' /\
  (forall g, f_with_encode f = Some g -> forall ca fa v b, g en ca fa v b = g en' ca fa v b) /\
  (forall g, f_value_encode f = Some g -> forall v, g en v = g en' v).
(** No expression mentions an earlier field that is written as something else. *)
Definition rewritten_unused (fs : list field) : Prop := forall j f, nth_error fs j = Some f ->
  indifferent (fun i => (i < j)%nat /\ exists h, nth_error fs i = Some h /\ rewritten (n_spec h)) (n_spec f).

(** What the theorems about generated decoders talk about. *)
From Coq Require Import Ascii String.
From Verif Require Import Base Ints Reader Decode Schema GenDecode.

(** The field is called [position] and is a [usize]. *)
Definition usize_position (f : field) : Prop :=
  n_name f = list_byte_of_string "position" /\ n_type f = TInt Usize.
(** A [position: usize] with an [untake] on it or on a later field. *)
Definition position_taken (fs : list field) : Prop :=
  exists i j f g, (i <= j)%nat /\ nth_error fs i = Some f /\ nth_error fs j = Some g /\
    usize_position f /\ f_untake (n_spec g) = true.

(** The fields without their names, as [Schema.v] has them. *)
Definition nameless (fs : list field) : list (fspec * ty) := map (fun f => (n_spec f, n_type f)) fs.

(** The names the generated decoder needs for itself. *)
Definition reserved : list bytes :=
  map list_byte_of_string ["input"; "cattr_new"; "cattr_new2"; "fattr_new"; "position"]%string.
(** The fields are called [v0], [v1], ..., as in tuple structs. *)
Definition numbered (fs : list field) : Prop :=
  forall i f, nth_error fs i = Some f -> n_name f = tuple_name i.

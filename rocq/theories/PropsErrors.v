(** Property C67: errors tell where and what. *)
From Coq Require Import String.
From Verif Require Import Base Ints Reader Writer Spec SpecOps RunSpec.
From Verif Require Import Sugar Decode Encode WireSpec SafetySpec CodecBase Bounds Robust ErrorText ErrorSpec ErrorLemmas.
From Verif Require Import Examples PropsContainers PropsRobust Schema.
Close Scope string_scope.

(** ** Where: the position in the error is the position at which the reader stands

    For all schemas and modifiers, whatever position decoding starts from. *)
Theorem C67_where : forall t, each_decoder (reports decoding_errors) t ->
  forall ca fa d p e q, dec t ca fa d p = Err e q -> e_pos e = q.
Proof.
  intros t H ca fa d p e q E.
  exact (proj1 (dec_nice decoding_errors (or_introl eq_refl) (or_intror (or_introl eq_refl)) t H
                 (or_intror (or_intror (or_intror (or_introl eq_refl)))) ca fa d p e q E)).
Qed.
(** On the schemas of C34 that place is between the start and the end of the data. *)
Theorem C67_inside : forall t d p e q, each_decoder (reports decoding_errors) t ->
  offset_free t = true -> each_decoder total_inside t -> safe t -> allocatable d -> p <= size d ->
  decode t d p = Err e q -> p <= e_pos e <= size d.
Proof.
  intros t d p e q HR HO HT HS Hd Hp E. rewrite (C67_where t HR _ _ _ _ _ _ E).
  destruct (decode_safely t d p HO HT HS Hd Hp) as [(v & q' & E' & B)|(e' & q' & E' & B)]; rewrite E in E'; [discriminate|].
  injection E' as -> ->. exact B.
Qed.
(** ** What *)
Theorem C67_what : forall t, each_decoder (reports decoding_errors) t ->
  forall ca fa d p e q, dec t ca fa d p = Err e q -> In (e_kind e) decoding_errors.
Proof.
  intros t H ca fa d p e q E.
  exact (proj2 (dec_nice decoding_errors (or_introl eq_refl) (or_intror (or_introl eq_refl)) t H
                 (or_intror (or_intror (or_intror (or_introl eq_refl)))) ca fa d p e q E)).
Qed.
(** An invalid value is reported only where a [check_value] asks for one. *)
Theorem C67_unchecked : forall t, checks t = false -> each_decoder (reports data_errors) t ->
  forall ca fa d p e q, dec t ca fa d p = Err e q -> In (e_kind e) data_errors.
Proof.
  intros t HC H ca fa d p e q E.
  exact (proj2 (dec_nice data_errors (or_introl eq_refl) (or_intror (or_introl eq_refl)) t H (or_introl HC) ca fa d p e q E)).
Qed.
(** The same for single calls of the reader. *)
Theorem C67_calls : forall o d p e q, run_rop o d p = Err e q -> e_pos e = q /\ In (e_kind e) data_errors.
Proof. intros o. exact (rep_call data_errors (or_introl eq_refl) (or_intror (or_introl eq_refl)) o). Qed.

(** ** Encoding: the position is the one at which the buffer is left; the number
    of the wrong size is the only error of the crate's own. *)
Theorem C67_encoding : forall t, each_encoder (fun _ _ => True) (reports_writing encoding_errors) t ->
  forall ca fa v b e b', enc t ca fa v b = Err e b' -> e_pos e = b_pos b' /\ In (e_kind e) encoding_errors.
Proof. intros t H. exact (enc_nice encoding_errors (or_introl eq_refl) (or_intror (or_introl eq_refl)) t H). Qed.
Theorem C67_pushes : forall o b e b', run_wop o b = Err e b' -> e_pos e = b_pos b' /\ In (e_kind e) encoding_errors.
Proof. exact (wrep_call encoding_errors (or_introl eq_refl) (or_intror (or_introl eq_refl))). Qed.

(** ** The text: no two errors look the same *)
Theorem C67_text : forall p p' k k', p < 2 ^ 64 -> p' < 2 ^ 64 ->
  (forall n, k = KindPosition n -> n < 2 ^ 64) -> (forall n, k' = KindPosition n -> n < 2 ^ 64) ->
  show_error p k = show_error p' k' -> p = p' /\ k = k'.
Proof.
  intros p p' k k' Hp Hp' F F' E. apply error_inj; auto.
  - destruct k; cbn; auto.
  - destruct k'; cbn; auto.
Qed.

(** A frame whose second string is not UTF-8, one that is cut off, one with a value
    that is not allowed, a number too large for its field. *)
Definition Checked : ty := struct [(plain, u16); (at_check (fun _ => vi 7) plain, u16); (plain, TString)].
Example C67_case :
  each_decoder (reports decoding_errors) Frame /\ checks Frame = false /\ checks Checked = true
  /\ (exists e, decode Frame (firstn 20 frame_bytes) 0 = Err e 18 /\ e = mkerr 18 InvalidByteLength)
  /\ decode Checked (hex [0; 1; 0; 7; 1; 0xff]) 0 = Err (mkerr 6 Fail) 6
  /\ decode Checked (hex [0; 1; 0; 8; 1; 65]) 0 = Err (mkerr 4 InvalidValue) 4
  /\ decode Checked (hex [0; 1; 0; 7; 9; 65]) 0 = Err (mkerr 5 InvalidByteLength) 5
  /\ (exists b, enc (struct [(plain, u16); (at_length (const 3) plain, u16)]) no_cattr no_fattr (VList [vi 1; vi 2]) buf_new
                = Err (mkerr 2 InvalidByteLength) b /\ b_pos b = 2)
  /\ show_error 4 (KindValue (str "8")) = str "[ERROR]: invalid value (8), position: 4".
Proof.
  split; [apply no_code_decoders; reflexivity|]. split; [reflexivity|]. split; [reflexivity|].
  split; [eexists; split; [vm_compute; reflexivity|reflexivity]|].
  split; [vm_compute; reflexivity|]. split; [vm_compute; reflexivity|]. split; [vm_compute; reflexivity|].
  split; [eexists; split; [vm_compute; reflexivity|reflexivity]|]. vm_compute; reflexivity.
Qed.

Print Assumptions C67_where.
Print Assumptions C67_inside.
Print Assumptions C67_what.
Print Assumptions C67_unchecked.
Print Assumptions C67_calls.
Print Assumptions C67_encoding.
Print Assumptions C67_pushes.
Print Assumptions C67_text.

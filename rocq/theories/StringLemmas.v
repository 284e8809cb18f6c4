(** Strings: the statements of C21. *)
From Verif Require Import Base Ints Spec SpecOps Reader Writer BaseLemmas ReaderLemmas.
From Verif Require Import Schema RunSpec Utf8 Utf8Spec Utf8Lemmas TypeSpec SafetySpec Decode Encode CodecBase Collections Containers Typing EncSafe.

Lemma string_text ca fa d p v q : dec TString ca fa d p = Ok v q <->
  exists l, dec TBytes ca fa d p = Ok (VBytes l) q /\ text l /\ v = VBytes l.
Proof.
  cbn [dec]. unfold dec_string, bind. destruct (dec_raw ca fa d p) as [l q'|? ?| |].
  - destruct (utf8_ok l) eqn:E.
    + split.
      * intros H. injection H as <- <-. exists l. repeat split. apply utf8_ok_text, E.
      * intros (l' & H & _ & ->). injection H as <- <-. reflexivity.
    + split; [discriminate|]. intros (l' & H & T & _). injection H as <- _. apply utf8_ok_text in T. congruence.
  - split; [discriminate|intros (? & ? & _); discriminate].
  - split; [discriminate|intros (? & ? & _); discriminate].
  - split; [discriminate|intros (? & ? & _); discriminate].
Qed.
Lemma string_ill_formed ca fa d p l q : dec TBytes ca fa d p = Ok (VBytes l) q -> ~ text l ->
  dec TString ca fa d p = Err (mkerr q Fail) q.
Proof.
  cbn [dec]. unfold dec_string, bind. destruct (dec_raw ca fa d p) as [l' q'|? ?| |]; try discriminate.
  intros E T. injection E as <- <-. destruct (utf8_ok l') eqn:U; [apply utf8_ok_text in U; contradiction|reflexivity].
Qed.
Lemma string_framing ca fa d p e q : dec TBytes ca fa d p = Err e q -> dec TString ca fa d p = Err e q.
Proof.
  cbn [dec]. unfold dec_string, bind. destruct (dec_raw ca fa d p) as [l' q'|? ?| |]; try discriminate.
  intros E. exact E.
Qed.
Lemma decoder_typed t ca fa d p v q : typed t -> allocatable d -> dec t ca fa d p = Ok v q -> value_of t v.
Proof. intros HT Hd E. exact (dec_typed t HT ca fa d p v q Hd E). Qed.

Lemma reencoder_safe t ca fa d p v q : typed t -> encodable t -> each_encoder value_of writes_at_position t ->
  counts_all fa = true -> allocatable d ->
  dec t ca fa d p = Ok v q ->
  exists room, forall d' p', p' <= size d' -> allocatable d' -> p' + room < 9223372036854775808 ->
  enc t ca fa v (mkbuf d' p') <> Panic /\ enc t ca fa v (mkbuf d' p') <> Hang.
Proof.
  intros HT HC HU Hf Hd E. apply (dec_typed t HT ca fa d p v q Hd) in E.
  destruct (encoder_safe t ca fa v HT HC HU Hf E) as (room & H). exists room. intros d' p' A B C.
  destruct (H d' p' A B C) as (w & _ & [(n & X)|(e & X)]); rewrite X; split; discriminate.
Qed.

(** Property C68: messages that arrive in pieces. *)
From Coq Require Import String.
From Verif Require Import Base Ints Reader Spec SpecOps RunSpec.
From Verif Require Import Sugar Decode Encode WireSpec SafetySpec CodecSpec CodecBase Bounds Robust RoundTrip StreamSpec StreamLemmas.
From Verif Require Import Examples PropsContainers PropsRobust Schema.
Close Scope string_scope.

(** [streamed], [settled], [receive]: StreamSpec.v. [offset_free], [safe]: the
    schemas of C34, on which decoding always returns. *)

(** ** More bytes do not change an answer

    In any context, from any position, for any further bytes. *)
Theorem C68_accepted : forall t ca fa d p v q, streamed t = true -> each_decoder settled t -> streams_under fa = true ->
  dec t ca fa d p = Ok v q -> forall more, dec t ca fa (d ++ more) p = Ok v q.
Proof.
  intros t ca fa d p v q HS HU HF E more. pose proof (dec_settled t HS HU ca fa HF d p more) as H. rewrite E in H. exact H.
Qed.
(** Only [InvalidByteLength] can mean that bytes are missing: every other error stays. *)
Theorem C68_rejected : forall t ca fa d p e q, streamed t = true -> each_decoder settled t -> streams_under fa = true ->
  dec t ca fa d p = Err e q -> e_kind e <> InvalidByteLength -> forall more, dec t ca fa (d ++ more) p = Err e q.
Proof.
  intros t ca fa d p e q HS HU HF E K more. pose proof (dec_settled t HS HU ca fa HF d p more) as H. rewrite E in H.
  destruct H as [H|H]; [contradiction|exact H].
Qed.
(** A part of a message that will decode is answered with [InvalidByteLength]. *)
Theorem C68_short : forall t d more v q, streamed t = true -> each_decoder settled t ->
  offset_free t = true -> each_decoder total_inside t -> safe t -> allocatable (d ++ more) ->
  decode t (d ++ more) 0 = Ok v q -> size d < q ->
  exists e q', decode t d 0 = Err e q' /\ e_kind e = InvalidByteLength.
Proof. intros t d more v q HS HU HO HT HF. exact (short_waits t d more v q HS HU (conj HO (conj HT HF))). Qed.

(** ** How the bytes are cut up does not matter *)
Theorem C68_pieces : forall t pieces pieces', streamed t = true -> each_decoder settled t ->
  offset_free t = true -> each_decoder total_inside t -> safe t ->
  concat pieces = concat pieces' -> allocatable (concat pieces) ->
  receive t on_length [] pieces = receive t on_length [] pieces'.
Proof.
  intros t ps ps' HS HU HO HT HF E HA.
  rewrite !(receive_judged t HS HU (conj HO (conj HT HF))); cbn [app]; [rewrite E; reflexivity|rewrite <- E; exact HA|exact HA].
Qed.
(** What one side encodes, the other side receives, in whatever pieces it comes and
    whatever follows; before the last byte it waits. *)
Theorem C68_message : forall t v w, well_formed t -> streamed t = true -> each_decoder settled t ->
  offset_free t = true -> each_decoder total_inside t -> safe t -> wire t no_cattr no_fattr v = Some w ->
  (forall rest pieces, fits t no_cattr no_fattr v rest = true -> allocatable (w ++ rest) -> concat pieces = w ++ rest ->
     receive t on_length [] pieces = Accepted v (size w)) /\
  (forall cut pieces, fits t no_cattr no_fattr v [] = true -> allocatable w -> w = concat pieces ++ cut -> cut <> [] ->
     receive t on_length [] pieces = Waiting).
Proof.
  intros t v w HW HS HU HO HT HF Hw. split.
  - intros rest pieces Hf Ha E. destruct (round_trip t v w rest HW Hw Hf Ha) as [_ D].
    rewrite (receive_judged t HS HU (conj HO (conj HT HF))); cbn [app]; [|rewrite E; exact Ha].
    unfold judged. rewrite E, D. reflexivity.
  - intros cut pieces Hf Ha E Hc. assert (Ha' : allocatable (w ++ [])) by (rewrite app_nil_r; exact Ha).
    destruct (round_trip t v w [] HW Hw Hf Ha') as [_ D]. rewrite app_nil_r in D. rewrite E in D at 1.
    rewrite E in Ha. rewrite (receive_judged t HS HU (conj HO (conj HT HF))); cbn [app]; [|exact (allocatable_front _ _ Ha)].
    destruct (short_waits t (concat pieces) cut v _ HS HU (conj HO (conj HT HF)) Ha D) as (e & q & X & K).
    { rewrite E. unfold size. rewrite app_length. destruct cut; [congruence|cbn [length]; lia]. }
    unfold judged. rewrite X, K. reflexivity.
Qed.
(** A receiver that waits after every error also gets the message on the larger
    class of C35: lines, literals. *)
Theorem C68_patient : forall t v q pieces, delimited t = true -> each_decoder self_delimiting t ->
  each_decoder total_inside t -> safe t -> allocatable (concat pieces) -> decode t (concat pieces) 0 = Ok v q ->
  receive t on_any [] pieces = Accepted v q.
Proof. intros t v q pieces HD HU HT HF. exact (patient t v q HD HU HT HF pieces []). Qed.

(** A telegram with a nested enum, cut up in three ways. *)
Definition Telegram : ty := TStruct true (mkcspec (Some Le) None)
  [(at_untake (at_bits_start (const 0xf0) plain), u8);
   (at_bits (const 0x0f) plain, u8);
   (at_count (field_ref 1) plain, TVec u16);
   (at_byte_count (const 2) plain, TString);
   (plain, Message)].
Definition telegram : val := VList [vi 4; vi 2; VList [vi 258; vi 3]; vs "abc"; VVariant 1 [vs "hi"; vi 7]].
Example telegram_safe : safe Telegram.
Proof. unfold Telegram, Message. safe_by. Qed.
Example telegram_well_formed : well_formed Telegram.
Proof. unfold Telegram, Message. well. Qed.
Example C68_case : streamed Telegram = true /\ each_decoder settled Telegram /\ offset_free Telegram = true
  /\ each_decoder total_inside Telegram
  /\ exists w, wire Telegram no_cattr no_fattr telegram = Some w /\ fits Telegram no_cattr no_fattr telegram [] = true
     /\ receive Telegram on_length [] [w] = Accepted telegram (size w)
     /\ receive Telegram on_length [] (map (fun b => [b]) w) = Accepted telegram (size w)
     /\ receive Telegram on_length [] [firstn 7 w; []] = Waiting
     /\ (exists e, receive Telegram on_length [] [firstn 9 w; hex [0xff; 0xff]; skipn 5 w] = Rejected e /\ e_kind e = Fail).
Proof.
  split; [reflexivity|]. split; [apply no_code_decoders; reflexivity|]. split; [reflexivity|].
  split; [apply no_code_decoders; reflexivity|]. eexists. split; [vm_compute; reflexivity|].
  split; [vm_compute; reflexivity|]. split; [vm_compute; reflexivity|]. split; [vm_compute; reflexivity|].
  split; [vm_compute; reflexivity|]. eexists. split; [vm_compute; reflexivity|reflexivity].
Qed.
Example C68_patient_case : exists pieces, decode Frame (concat pieces) 0 = Ok frame (size frame_bytes)
  /\ receive Frame on_any [] pieces = Accepted frame (size frame_bytes)
  /\ exists e, receive Frame on_length [] pieces = Rejected e.
Proof.
  exists [firstn 30 frame_bytes; skipn 30 frame_bytes]. split; [vm_compute; reflexivity|].
  split; [vm_compute; reflexivity|]. eexists. vm_compute. reflexivity.
Qed.

(** ** Where it goes wrong *)

(** Outside the class the answer depends on how the bytes are cut up: a line, a
    literal, an optional value. *)
Theorem C68_lines_refuted : exists t v e a b, t = struct [(at_linend crlf plain, TString)]
  /\ receive t on_length (a ++ b) [] = Accepted v 4 /\ receive t on_length a [b] = Rejected e.
Proof.
  exists (struct [(at_linend crlf plain, TString)]), (VList [vs "ab"]).
  eexists. exists (str "ab"), crlf. split; [reflexivity|]. split; vm_compute; reflexivity.
Qed.
Theorem C68_optional_refuted : exists t v v' a b, t = struct [(plain, u8); (plain, TOption u16)]
  /\ receive t on_length [] [a ++ b] = Accepted v 3 /\ receive t on_length [] [a; b] = Accepted v' 1 /\ v <> v'.
Proof.
  exists (struct [(plain, u8); (plain, TOption u16)]), (VList [vi 1; VOpt (Some (vi 2))]), (VList [vi 1; VOpt None]), (hex [1]), (hex [0; 2]).
  split; [reflexivity|]. split; [vm_compute; reflexivity|]. split; [vm_compute; reflexivity|]. discriminate.
Qed.
(** And within it [InvalidByteLength] does not mean that more bytes would help: a tag
    that no variant has is reported that way, so the receiver waits for ever. *)
Theorem C68_unknown_tag_refuted : exists t d, streamed t = true /\ safe t /\ offset_free t = true
  /\ forall pieces, receive t on_length d pieces = Waiting.
Proof.
  exists (TEnum tagged [(variant true, [(plain, u8)])]), (hex [9]).
  split; [reflexivity|]. split; [safe_by|]. split; [reflexivity|]. intros pieces.
  assert (D : forall more, decode (TEnum tagged [(variant true, [(plain, u8)])]) (hex [9] ++ more) 0 = Err (mkerr 1 InvalidByteLength) 1).
  { intros more. pose proof (set_one b2n (hex [9]) 0 more) as T.
    change ((l <- take_bytes 1 ;; b <- idx0 l ;; ret (b2n b)) (hex [9]) 0) with (@Ok N N 9 1) in T. cbv beta iota in T.
    unfold decode. cbn [dec e_branching tagged]. unfold bind at 1. change (enum_tag tagged no_cattr no_fattr) with take_u8.
    unfold take_u8. rewrite T. reflexivity. }
  assert (W : forall have, (exists more, have = hex [9] ++ more) ->
    receive (TEnum tagged [(variant true, [(plain, u8)])]) on_length have pieces = Waiting).
  { induction pieces as [|c r IH]; intros have [more ->]; cbn [receive]; rewrite D; cbn [e_kind on_length]; [reflexivity|].
    apply IH. exists (more ++ c). rewrite <- app_assoc. reflexivity. }
  apply W. exists []. symmetry. apply app_nil_r.
Qed.

Print Assumptions C68_accepted.
Print Assumptions C68_rejected.
Print Assumptions C68_short.
Print Assumptions C68_pieces.
Print Assumptions C68_message.
Print Assumptions C68_patient.
Print Assumptions C68_lines_refuted.
Print Assumptions C68_optional_refuted.
Print Assumptions C68_unknown_tag_refuted.

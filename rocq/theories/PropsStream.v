(** Property C57: messages one after the other. *)
From Verif Require Import Base Ints Reader Writer Spec SpecOps.
From Verif Require Import BaseLemmas WriterLemmas CodecBase EncLemmas DecWire.
From Verif Require Import Schema Sugar Decode Encode WireSpec RunSpec CodecSpec RoundTrip Containers PropsContainers.

(** ** C57. Messages in a row

    A client that encodes values of any types into one buffer, and one that decodes
    them one after the other from the same input. *)
Fixpoint encode_each (l : list (ty * val)) : wr unit :=
  match l with
  | [] => wret tt
  | (t, v) :: r => _ <~ encode_into t v ;; encode_each r
  end.
Fixpoint decode_each (ts : list ty) : rd (list val) :=
  match ts with
  | [] => ret []
  | t :: r => v <- decode t ;; vs <- decode_each r ;; ret (v :: vs)
  end.
(** [messages rest l w]: [w] holds the wire forms of [l] in a row, and each can be told from
    what follows it, the last from [rest]. *)
Inductive messages (rest : bytes) : list (ty * val) -> bytes -> Prop :=
| no_message : messages rest [] []
| message : forall t v w l r, well_formed t -> wire t no_cattr no_fattr v = Some w -> fits t no_cattr no_fattr v (r ++ rest) = true ->
    messages rest l r -> messages rest ((t, v) :: l) (w ++ r).

Theorem C57_encode : forall rest l w, messages rest l w -> forall d, size d + size w < 9223372036854775808 ->
  encode_each l (mkbuf d (size d)) = Ok tt (mkbuf (d ++ w) (size (d ++ w))).
Proof.
  change size with (@lenN byte). induction 1 as [|t v w l r W E F M IH]; intros d A.
  - cbn [encode_each]. rewrite app_nil_r. reflexivity.
  - rewrite lenN_app in A. cbn [encode_each]. unfold wbind.
    destruct (encoder_writes t no_cattr no_fattr v w W E d (lenN d)) as (n & En);
      [reflexivity|unfold allocatable; change size with (@lenN byte); lia|change size with (@lenN byte); lia|].
    unfold encode_into. rewrite En. change size with (@lenN byte). rewrite overwrite_end, <- lenN_app.
    rewrite IH by (rewrite lenN_app; lia). rewrite <- app_assoc. reflexivity.
Qed.
Theorem C57_decode : forall rest l w, messages rest l w -> forall pre, allocatable (pre ++ w ++ rest) ->
  decode_each (map fst l) (pre ++ w ++ rest) (size pre) = Ok (map snd l) (size (pre ++ w)).
Proof.
  change size with (@lenN byte). induction 1 as [|t v w l r W E F M IH]; intros pre A.
  - cbn [map decode_each]. rewrite app_nil_r. reflexivity.
  - cbn [map fst snd decode_each]. unfold bind, decode.
    pose proof (decoder_reads t no_cattr no_fattr v w (r ++ rest) W E F pre) as D. change size with (@lenN byte) in D.
    rewrite <- app_assoc in A |- *. rewrite (D A), <- lenN_app.
    replace (pre ++ w ++ r ++ rest) with ((pre ++ w) ++ r ++ rest) in A |- * by apply app_assoc_reverse.
    rewrite (IH (pre ++ w) A), (app_assoc pre w r). reflexivity.
Qed.

(** Together: what one program encodes into a new buffer, another decodes from its bytes. *)
Theorem C57_stream : forall l w, messages [] l w -> allocatable w ->
  exists b, encode_each l buf_new = Ok tt b /\ b_data b = w /\ decode_each (map fst l) (b_data b) 0 = Ok (map snd l) (size w).
Proof.
  intros l w M A. exists (mkbuf w (size w)). pose proof (C57_encode [] l w M []) as E. cbn [app] in E. split; [|split; [reflexivity|]].
  - apply E. unfold allocatable in A. change (size []) with 0. lia.
  - pose proof (C57_decode [] l w M []) as D. cbn [app b_data] in D |- *. rewrite app_nil_r in D. exact (D A).
Qed.

(** No two values share their bytes, nor are the bytes of one the beginning of those of
    another. *)
Theorem C57_unambiguous : forall t v w r v' w' r', well_formed t ->
  wire t no_cattr no_fattr v = Some w -> fits t no_cattr no_fattr v r = true ->
  wire t no_cattr no_fattr v' = Some w' -> fits t no_cattr no_fattr v' r' = true ->
  allocatable (w ++ r) -> w ++ r = w' ++ r' -> v = v' /\ w = w' /\ r = r'.
Proof.
  change size with (@lenN byte). intros t v w r v' w' r' W E F E' F' A X.
  pose proof (decoder_reads t no_cattr no_fattr v w r W E F [] A) as D.
  pose proof (decoder_reads t no_cattr no_fattr v' w' r' W E' F' []) as D'. cbn [app] in D, D'. rewrite <- X in D'. specialize (D' A).
  rewrite D in D'. injection D' as -> L. split; [reflexivity|].
  assert (L' : length w = length w') by (change size with (@lenN byte) in L; unfold lenN in L; lia).
  clear - X L'. revert w' L' X. induction w as [|b w IH]; intros [|b' w'] L X; try discriminate; [split; [reflexivity|exact X]|].
  injection X as -> X. injection L as L. destruct (IH w' L X) as [-> ->]. split; reflexivity.
Qed.

(** A number, an address, an array and a packet in a row. *)
Example C57_case : let l := [(TInt U16, VInt 258); (TIpv4, VBytes [xc0; xa8; x00; x01]); (TArray 2 (TInt U8), VList [VInt 3; VInt 4]); (Packet, packet)] in
  let w := [x01; x02] ++ [xc0; xa8; x00; x01] ++ [x03; x04] ++ packet_bytes in
  messages [] l w /\ decode_each (map fst l) w 0 = Ok (map snd l) (size w).
Proof.
  cbn zeta. split; [|vm_compute; reflexivity].
  apply message; [well|vm_compute; reflexivity|vm_compute; reflexivity|].
  apply message; [well|vm_compute; reflexivity|vm_compute; reflexivity|].
  apply message; [well|vm_compute; reflexivity|vm_compute; reflexivity|].
  rewrite <- (app_nil_r packet_bytes).
  apply message; [exact C30_well_formed|vm_compute; reflexivity|vm_compute; reflexivity|]. apply no_message.
Qed.

Print Assumptions C57_encode.
Print Assumptions C57_decode.
Print Assumptions C57_stream.
Print Assumptions C57_unambiguous.

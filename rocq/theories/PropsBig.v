(** C78: little-endian and big-endian machines. [Big*.v] are the models for a big-endian
    target, the others are for a little-endian one. *)
From Verif Require Import Base Ints Spec SpecOps Reader Writer Schema Decode Encode ReadMut WriteMut WireSpec ReaderLemmas WriterLemmas
  BigReader BigWriter BigDecode BigEncode BigReadMut BigWriteMut BigSpec PropsContainers.

(** Every history of reading calls: a [*_ne_*] call is the call of the machine's order. *)
Theorem C78_read : forall ops d p,
  BigReader.run_rops ops d p = Reader.run_rops (map (read_in Be) ops) d p /\
  Reader.run_rops ops d p = Reader.run_rops (map (read_in Le) ops) d p.
Proof.
  assert (B : forall o, BigReader.run_rop o = Reader.run_rop (read_in Be o)) by (intros o; destruct o; try reflexivity; destruct k; reflexivity).
  assert (L : forall o, Reader.run_rop o = Reader.run_rop (read_in Le o)) by (intros o; destruct o; try reflexivity; destruct k; reflexivity).
  induction ops as [|o ops IH]; intros d p; [split; reflexivity|]. cbn [map BigReader.run_rops Reader.run_rops].
  rewrite B, <- L. split.
  - destruct (Reader.run_rop (read_in Be o) d p) as [v q|e q| |]; try reflexivity; rewrite (proj1 (IH d q)); reflexivity.
  - destruct (Reader.run_rop o d p) as [v q|e q| |]; try reflexivity; rewrite (proj2 (IH d q)); reflexivity.
Qed.
Print Assumptions C78_read.
Theorem C78_write : forall ops b,
  BigWriter.run_wops ops b = Writer.run_wops (map (write_in Be) ops) b /\
  Writer.run_wops ops b = Writer.run_wops (map (write_in Le) ops) b.
Proof.
  assert (B : forall o, BigWriter.run_wop o = Writer.run_wop (write_in Be o)) by (intros o; destruct o; try reflexivity; destruct k; reflexivity).
  assert (L : forall o, Writer.run_wop o = Writer.run_wop (write_in Le o)) by (intros o; destruct o; try reflexivity; destruct k; reflexivity).
  induction ops as [|o ops IH]; intros b; [split; reflexivity|]. cbn [map BigWriter.run_wops Writer.run_wops].
  rewrite B, <- L. split.
  - destruct (Writer.run_wop (write_in Be o) b) as [v q|e q| |]; try reflexivity; rewrite (proj1 (IH q)); reflexivity.
  - destruct (Writer.run_wop o b) as [v q|e q| |]; try reflexivity; rewrite (proj2 (IH q)); reflexivity.
Qed.
Print Assumptions C78_write.
(** So calls that do not ask for the machine's order do the same on both machines. *)
Theorem C78_portable : forall rs ws d p b, Forall portable_read rs -> Forall portable_write ws ->
  BigReader.run_rops rs d p = Reader.run_rops rs d p /\ BigWriter.run_wops ws b = Writer.run_wops ws b.
Proof.
  intros rs ws d p b R W.
  assert (map (read_in Be) rs = rs) as ER by (clear -R; induction R as [|o l H _ IH]; [reflexivity|]; cbn [map]; rewrite (H Be), IH; reflexivity).
  assert (map (write_in Be) ws = ws) as EW by (clear -W; induction W as [|o l H _ IH]; [reflexivity|]; cbn [map]; rewrite (H Be), IH; reflexivity).
  rewrite (proj1 (C78_read rs d p)), (proj1 (C78_write ws b)), ER, EW. split; reflexivity.
Qed.
Print Assumptions C78_portable.
(** The same of [&[u8]], [Cursor] and any other type with these traits. *)
Theorem C78_read_mut : forall S (I : impl S) ops s,
  BigReadMut.run_mops I ops s = ReadMut.run_mops I (map (read_in Be) ops) s /\
  ReadMut.run_mops I ops s = ReadMut.run_mops I (map (read_in Le) ops) s.
Proof.
  intros S I.
  assert (B : forall o, BigReadMut.run_mop I o = ReadMut.run_mop I (read_in Be o)) by (intros o; destruct o; try reflexivity; destruct k; reflexivity).
  assert (L : forall o, ReadMut.run_mop I o = ReadMut.run_mop I (read_in Le o)) by (intros o; destruct o; try reflexivity; destruct k; reflexivity).
  induction ops as [|o ops IH]; intros s; [split; reflexivity|]. cbn [map BigReadMut.run_mops ReadMut.run_mops].
  rewrite B, <- L. split.
  - destruct (ReadMut.run_mop I (read_in Be o) s) as [v q|e q| |]; try reflexivity; rewrite (proj1 (IH q)); reflexivity.
  - destruct (ReadMut.run_mop I o s) as [v q|e q| |]; try reflexivity; rewrite (proj2 (IH q)); reflexivity.
Qed.
Print Assumptions C78_read_mut.
Theorem C78_write_mut : forall S (W : wimpl S) ops s,
  BigWriteMut.run_mwops W ops s = WriteMut.run_mwops W (map (write_in Be) ops) s /\
  WriteMut.run_mwops W ops s = WriteMut.run_mwops W (map (write_in Le) ops) s.
Proof.
  intros S W.
  assert (B : forall o, BigWriteMut.run_mwop W o = WriteMut.run_mwop W (write_in Be o)) by (intros o; destruct o; try reflexivity; destruct k; reflexivity).
  assert (L : forall o, WriteMut.run_mwop W o = WriteMut.run_mwop W (write_in Le o)) by (intros o; destruct o; try reflexivity; destruct k; reflexivity).
  induction ops as [|o ops IH]; intros s; [split; reflexivity|]. cbn [map BigWriteMut.run_mwops WriteMut.run_mwops].
  rewrite B, <- L. split.
  - destruct (WriteMut.run_mwop W (write_in Be o) s) as [v q|e q| |]; try reflexivity; rewrite (proj1 (IH q)); reflexivity.
  - destruct (WriteMut.run_mwop W o s) as [v q|e q| |]; try reflexivity; rewrite (proj2 (IH q)); reflexivity.
Qed.
Print Assumptions C78_write_mut.

(** Decoders and encoders never depend on the machine: every schema, any data and any
    value, and the same error or panic where there is one. *)
Theorem C78_decode : forall t ca fa d p, BigDecode.dec t ca fa d p = Decode.dec t ca fa d p.
Proof. reflexivity. Qed.
Print Assumptions C78_decode.
Theorem C78_encode : forall t ca fa v b, BigEncode.enc t ca fa v b = Encode.enc t ca fa v b.
Proof. reflexivity. Qed.
Print Assumptions C78_encode.
(** What either machine writes, either machine reads. *)
Theorem C78_exchange : forall t v w rest, well_formed t ->
  wire t no_cattr no_fattr v = Some w -> fits t no_cattr no_fattr v rest = true -> allocatable (w ++ rest) ->
  (Encode.encode t v = Ok w tt /\ BigEncode.encode t v = Ok w tt) /\
  (Decode.decode t (w ++ rest) 0 = Ok v (size w) /\ BigDecode.decode t (w ++ rest) 0 = Ok v (size w)).
Proof.
  intros t v w rest WF E F A. destruct (C30_round_trip t v w rest WF E F A) as [X Y].
  repeat split; [exact X|exact X|exact Y|exact Y].
Qed.
Print Assumptions C78_exchange.
(** [push_ne_u16(1)] on a big-endian machine, [take_ne_u16] on a little-endian one: 256. *)
Theorem C78_native_refuted :
  ~ (forall z b, (0 <= z < 65536)%Z -> BigWriter.run_wops [WPushInt KNe U16 z] (mkbuf [] 0) = Some ([inl 2], b) ->
       Reader.run_rops [RTakeInt KNe U16] (b_data b) 0 = Some ([inl (RvZ z)], 2)).
Proof.
  intros H. specialize (H 1%Z (mkbuf [x00; x01] 2) ltac:(lia) ltac:(vm_compute; reflexivity)). vm_compute in H. discriminate.
Qed.
Print Assumptions C78_native_refuted.
(** One history that asks for the machine's order and one that does not; a struct. *)
Example C78_case :
  BigReader.run_rops [RTakeInt KNe U16; RUntakeUint KNe 3] [x01; x02; x03; x04; x05] 0 = Some ([inl (RvZ 258); inl (RvN 197637)], 2) /\
  Reader.run_rops [RTakeInt KNe U16; RUntakeUint KNe 3] [x01; x02; x03; x04; x05] 0 = Some ([inl (RvZ 513); inl (RvN 328707)], 2) /\
  portable_read (RTakeInt KLe U16) /\ ~ portable_read (RTakeInt KNe U16) /\ portable_write (WPushF32 KDefault 7) /\
  BigDecode.decode (TTuple [TInt U16; TInt U32]) [x01; x02; x03; x04; x05; x06] 0 = Ok (VList [VInt 258; VInt 50595078]) 6.
Proof.
  split; [vm_compute; reflexivity|]. split; [vm_compute; reflexivity|]. split; [intros bo; reflexivity|].
  split; [intros H; discriminate (H Be)|]. split; [intros bo; reflexivity|vm_compute; reflexivity].
Qed.

(** A [Buffer] as its users see it: one file, with contents and an offset, on which all
    calls act. From the model only the types of calls and answers are used. *)
From Verif Require Import Base Ints Reader Writer BufIo ReadAny Schema Spec SpecOps RunSpec WireSpec SafetySpec BufferCalls.

(** What lies at the offset and after it. *)
Definition ahead (f : file) : bytes := skipn (N.to_nat (f_offset f)) (f_contents f).
Definition moved (f : file) (n : N) : file := mkfile (f_contents f) (f_offset f + n).

(** [needle] in [rest], before which there is [before] ... *)
Definition cut (needle rest before after : bytes) : Prop := rest = before ++ needle ++ after.
(** ... and it is nowhere further to the left, *)
Definition leftmost (needle rest before : bytes) : Prop :=
  exists after, cut needle rest before after /\
  forall before' after', cut needle rest before' after' -> size before <= size before'.
(** or no needle ends further to the left, nor is there a longer one that ends there. *)
Definition first_to_end (needles : list bytes) (needle rest before : bytes) : Prop :=
  In needle needles /\ exists after, cut needle rest before after /\
  forall other before' after', In other needles -> cut other rest before' after' ->
    size before + size needle < size before' + size other \/
    size before + size needle = size before' + size other /\ size other <= size needle.

Definition too_wide (o : rop) : bool :=
  match o with
  | RTakeUint _ n | RTakeSint _ n | RUntakeUint _ n | RUntakeSint _ n => 8 <? n
  | _ => false
  end.

(** [reads o rest r n]: a reading call with [rest] ahead answers [r] and moves by [n]. *)
Inductive reads : rop -> bytes -> rval + ekind -> N -> Prop :=
| reads_bytes o n f rest : reading o = Some (n, f) -> n <= size rest ->
    reads o rest (inl (f (firstn (N.to_nat n) rest))) (if peeks o then 0 else n)
| reads_short o n f rest : reading o = Some (n, f) -> size rest < n -> reads o rest (inr InvalidByteLength) 0
| reads_wide o rest : too_wide o = true -> reads o rest (inr InvalidByteLength) 0
| reads_prefix m rest : reads (RTakeStarts m) (m ++ rest) (inl RvUnit) (size m)
| reads_no_room m rest : size rest < size m -> reads (RTakeStarts m) rest (inr InvalidByteLength) 0
| reads_other m rest : size m <= size rest -> (forall after, rest <> m ++ after) -> reads (RTakeStarts m) rest (inr Fail) 0
| reads_up_to needle rest before : leftmost needle rest before ->
    reads (RFind needle) rest (inl (RvBytes before)) (size before + size needle)
| reads_with needle rest before : leftmost needle rest before ->
    reads (RFindNeedle needle true) rest (inl (RvBytes (before ++ needle))) (size before + size needle)
| reads_without needle rest before : leftmost needle rest before ->
    reads (RFindNeedle needle false) rest (inl (RvBytes before)) (size before)
| reads_nowhere o needle rest : o = RFind needle \/ (exists i, o = RFindNeedle needle i) ->
    (forall before after, ~ cut needle rest before after) -> reads o rest (inr Fail) 0
| reads_up_to_any needles needle rest before : first_to_end needles needle rest before ->
    reads (RFinds needles) rest (inl (RvBytes before)) (size before + size needle)
| reads_with_any needles needle rest before : first_to_end needles needle rest before ->
    reads (RFindsNeedle needles true) rest (inl (RvBytes (before ++ needle))) (size before + size needle)
| reads_without_any needles needle rest before : first_to_end needles needle rest before ->
    reads (RFindsNeedle needles false) rest (inl (RvBytes before)) (size before)
| reads_none o needles rest : o = RFinds needles \/ (exists i, o = RFindsNeedle needles i) ->
    (forall needle before after, In needle needles -> ~ cut needle rest before after) -> reads o rest (inr Fail) 0.

(** The file begins, at its offset, with the encoding [w] of [v]. *)
Definition holds (f : file) (t : ty) (v : val) (w : bytes) : Prop :=
  well_formed t /\ wire t no_cattr no_fattr v = Some w /\
  exists after, ahead f = w ++ after /\ fits t no_cattr no_fattr v after = true.

(** [acts c f a f']: on the file [f] the call [c] may answer [a] and leave [f']. *)
Inductive acts : buffer_call -> file -> buffer_answer -> file -> Prop :=
| acts_read o f r n : reads o (ahead f) r n ->
    acts (BRead (CRead o)) f
         (BAnswer (ARead (match r with inl v => inl v | inr k => inr (mkerr (f_offset f) k) end))) (moved f n)
| acts_position f : acts (BRead CPosition) f (BAnswer (ANumber (f_offset f))) f
| acts_data f : acts (BRead CData) f (BAnswer (ABytes (f_contents f))) f
| acts_remaining f : acts (BRead CRemaining) f (BAnswer (ABytes (ahead f))) f
| acts_remaining_len f : acts (BRead CRemainingLen) f (BAnswer (ANumber (size (ahead f)))) f
| acts_advance f n : acts (BRead (CAdvance n)) f (BAnswer ANothing) (moved f n)
| acts_set f n : acts (BRead (CSetPosition n)) f (BAnswer ANothing) (mkfile (f_contents f) n)
| acts_reset f : acts (BRead CReset) f (BAnswer ANothing) (mkfile (f_contents f) 0)
| acts_push f o l : image o = Some l -> acts (BPush o) f (BWritten (inl (size l))) (file_write l f)
| acts_refused f o : image o = None ->
    acts (BPush o) f (BWritten (inr (mkerr (f_offset f) InvalidByteLength))) f
| acts_io f o s r f' : file_step o f = Some (s, f') -> seen r = Some s ->
    (forall n, r = IoSought n -> n = f_offset f) -> acts (BIo o) f (BIoDone r) f'
| acts_encode f t v w n : wire t no_cattr no_fattr v = Some w -> acts (BEncode t v) f (BWritten (inl n)) (file_write w f)
| acts_decode f t r n : f_offset f + n <= size (f_contents f) ->
    (forall v w, holds f t v w -> r = inl v /\ n = size w) -> acts (BDecode t) f (BDecoded r) (moved f n).

(** Calls that ask for at least a byte, or that are made at or before the end. A read of
    nothing after the end panics, and so does a push of nothing. *)
Definition asks_nothing (o : rop) : Prop :=
  match o with
  | RFind needle | RFindNeedle needle _ => needle = []
  | RFinds needles | RFindsNeedle needles _ => In [] needles
  | _ => exists f, reading o = Some (0, f)
  end.
(** What the user may ask: no offset of 2^63 or more; no little-endian reads of more than
    eight bytes; values that have an encoding; decoding what is encoded, or with a
    decoder that is safe on anything (C34). *)
Definition may_ask (c : buffer_call) (f : file) : Prop :=
  let inside := f_offset f <= size (f_contents f) in
  match c with
  | BRead (CRead o) => wide_le o = false /\ (inside \/ ~ asks_nothing o)
  | BRead (CAdvance n) => f_offset f + n < 9223372036854775808
  | BRead (CSetPosition n) => n < 9223372036854775808
  | BRead _ => True
  | BPush o => match image o with
               | Some l => f_offset f + size l < 9223372036854775808 /\ (inside \/ l <> [])
               | None => True
               end
  | BIo (OpSeek w) => seek_arg_ok w /\ (seek_target w f < 9223372036854775808)%Z
  | BIo (OpWrite v) => f_offset f + size v < 9223372036854775808
  | BIo _ => True
  | BEncode t v => inside /\ well_formed t /\
      exists w, wire t no_cattr no_fattr v = Some w /\ f_offset f + size w < 9223372036854775808
  | BDecode t => inside /\
      ((exists v w, holds f t v w) \/ (offset_free t = true /\ each_decoder total_inside t /\ safe t))
  end.

(** A run of the user's program on the file; and that it only asks what it may, whatever
    the answers are. *)
Inductive goes {A} : user A -> file -> A -> file -> Prop :=
| goes_finish a f : goes (Finish a) f a f
| goes_on c k f a f' x f'' : acts c f a f' -> goes (k a) f' x f'' -> goes (Use c k) f x f''.
Fixpoint polite {A} (u : user A) (f : file) : Prop :=
  match u with
  | Finish _ => True
  | Use c k => may_ask c f /\ forall a f', acts c f a f' -> polite (k a) f'
  end.

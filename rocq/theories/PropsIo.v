(** Properties C15, C16 (std::io traits on [Buffer]) and C38, C39 ([BufReadMut]). *)
From Verif Require Import Base Ints Reader Writer BufIo ReadMut Spec SpecOps WriterHist ReadMutLemmas.

(** C15. Every history of read/write/flush/seek gives what the in-memory file
    gives, as long as offsets stay below 2^63. *)
Theorem C15_buffer_is_a_file : forall ops d p rs f,
  allocatable d -> p < W63 -> (forall w, In (OpSeek w) ops -> seek_arg_ok w) ->
  file_steps ops (mkfile d p) = Some (rs, f) ->
  exists outs b', run_ios ops (mkbuf d p) = Some (outs, b') /\
    map seen outs = map Some rs /\ b_data b' = f_contents f /\ b_pos b' = f_offset f.
Proof. exact io_history. Qed.

Example C15_case :
  file_steps [OpWrite [x01; x02; x03]; OpSeek (SCurrent (-2)); OpRead 9; OpSeek (SEnd 2); OpWrite [x09];
              OpSeek (SCurrent (-100)); OpSeek (SStart 1); OpRead 2] (mkfile [] 0) =
  Some ([SawWritten 3; SawSought; SawRead [x02; x03]; SawSought; SawWritten 1; SawInvalid; SawSought;
         SawRead [x02; x03]],
        mkfile [x01; x02; x03; x00; x00; x09] 3).
Proof. reflexivity. Qed.

Print Assumptions C15_buffer_is_a_file.

(** C16. Moving is right ... (missing: the returned offset, refuted below) *)
Theorem C16_seek_moves_partial : forall w b,
  allocatable (b_data b) -> b_pos b < W63 -> seek_arg_ok w ->
  (seek_target w (mkfile (b_data b) (b_pos b)) < 9223372036854775808)%Z ->
  let target := seek_target w (mkfile (b_data b) (b_pos b)) in
  if (target <? 0)%Z then io_seek w b = Some (IoInvalidInput, b)
  else exists n, io_seek w b = Some (IoSought n, mkbuf (b_data b) (Z.to_N target)).
Proof. exact seek_moves. Qed.

(** ... but what is returned is the position before the move. *)
Theorem C16_seek_returns_old_position : forall w b n b',
  io_seek w b = Some (IoSought n, b') -> n = b_pos b.
Proof. exact seek_returns_old. Qed.
Theorem C16_returned_offset_refuted : exists w b n b',
  io_seek w b = Some (IoSought n, b') /\ b_pos b' <> n.
Proof. exists (SStart 2), (mkbuf [x01; x02; x03] 0), 0, (mkbuf [x01; x02; x03] 2). split; [reflexivity|discriminate]. Qed.

Example C16_case : io_seek (SEnd (-1)) (mkbuf [x01; x02; x03] 1) = Some (IoSought 1, mkbuf [x01; x02; x03] 2).
Proof. reflexivity. Qed.

Print Assumptions C16_seek_moves_partial.
Print Assumptions C16_seek_returns_old_position.
Print Assumptions C16_returned_offset_refuted.

(** C38. [&[u8]] as a reader, for calls other than the searching ones and the
    two that lack a width argument: same values, same error kinds, same panics,
    and the slice is always what remains. *)
Theorem C38_slice_agrees_partial : forall ops d p, allocatable d -> p <= size d ->
  (forall o, In o ops -> is_byteorder_uint o = false /\ is_find o = false) ->
  match run_mops slice_impl ops (skipn (N.to_nat p) d), run_rops ops d p with
  | Some (xs, s), Some (ys, q) => Forall2 same_answer xs ys /\ s = skipn (N.to_nat q) d
  | None, None => True
  | _, _ => False
  end.
Proof. exact slice_history. Qed.

(** Searching through a slice returns bytes from the wrong place, or panics. *)
Theorem C38_find_refuted : exists needle s v v' s' q,
  find_subsequence needle s 0 = Ok v q /\
  m_find_subsequence slice_impl needle s = Ok v' s' /\ v' <> v.
Proof.
  exists [x0a], [x61; x62; x0a; x63; x64; x65], [x61; x62], [x63; x64], [x63; x64; x65], 3.
  repeat split. discriminate.
Qed.
Theorem C38_find_panics_refuted : exists needle s v q,
  find_subsequence needle s 0 = Ok v q /\ m_find_subsequence slice_impl needle s = Panic.
Proof. exists [x0a], [x61; x62; x0a], [x61; x62], 3. split; reflexivity. Qed.
(** [take_byteorder_uint] of [BufReadMut] reads 8 bytes whatever width is meant. *)
Theorem C38_byteorder_uint_refuted : exists bo n s v q,
  take_uint (KOrder bo) n s 0 = Ok v q /\
  exists e s', m_take_uint slice_impl (KOrder bo) n s = Err e s'.
Proof. exists Be, 2, [x01; x02], 258, 2. split; [reflexivity|do 2 eexists; reflexivity]. Qed.

Example C38_case :
  run_mops slice_impl [RTakeInt KLe U16; RTakeBytes 9; RTakeBool] [x01; x02; x03] =
  Some ([inl (RvZ 513); inr (mkerr 0 InvalidByteLength); inl (RvBool true)], []).
Proof. reflexivity. Qed.

Print Assumptions C38_slice_agrees_partial.
Print Assumptions C38_find_refuted.
Print Assumptions C38_find_panics_refuted.
Print Assumptions C38_byteorder_uint_refuted.

(** C39. [io::Cursor]: identical results, errors, positions and panics. *)
Theorem C39_cursor_agrees : forall ops d p,
  (forall o, In o ops -> is_byteorder_uint o = false) ->
  run_mops cursor_impl ops (d, p) =
    match run_rops ops d p with
    | Some (outs, q) => Some (outs, (d, q))
    | None => None
    end.
Proof. exact cursor_history. Qed.

Example C39_case :
  run_mops cursor_impl [RFind [x0a]; RTakeInt KBe U16] ([x61; x0a; x01; x02], 0) =
  Some ([inl (RvBytes [x61]); inl (RvZ 258)], ([x61; x0a; x01; x02], 4)).
Proof. reflexivity. Qed.

Print Assumptions C39_cursor_agrees.

(** Property C56: [BufWriteMut] and [BufWrite] over any implementor. *)
From Verif Require Import Base Ints Reader Writer ReadMut WriteMut Spec SpecOps WriteMutSpec.
From Verif Require Import BaseLemmas WriterLemmas WriteMutLemmas.

(** C56. [writer] (WriteMutSpec.v) is what the implementor promises. A push then writes
    its bytes at the position, into contents grown by whatever [resize] added, or is
    refused without effect. *)
Theorem C56_push : forall S (W : wimpl S) contents position limit, writer W contents position limit ->
  forall o s, position s <= size (contents s) ->
  match image o with
  | None => run_mwop W o s = Err (mkerr (position s) InvalidByteLength) s
  | Some l => position s + size l < limit ->
      (exists s' added, run_mwop W o s = Ok (size l) s' /\ position s' = position s + size l
         /\ contents s' = overwrite (contents s ++ added) (position s) l
         /\ position s + size l <= size (contents s ++ added)
         /\ (position s + size l <= size (contents s) -> added = []))
      \/ (exists s', run_mwop W o s = Err (mkerr (position s) PushFail) s'
         /\ position s' = position s /\ contents s' = contents s /\ size (contents s) < position s + size l)
  end.
Proof.
  intros S W contents position limit L o s I. pose proof (mw_image W contents position limit L o s) as E.
  destruct (image o) as [l|]; [|exact E]. intros M. rewrite E. exact (mw_push_outcome W contents position limit L l s I M).
Qed.

(** Any history: what is written is what was accepted, one after the other. *)
Theorem C56_history : forall S (W : wimpl S) contents position limit, writer W contents position limit ->
  forall ops s, position s <= size (contents s) ->
  position s + size (concat (map image_or_nothing ops)) < limit ->
  exists outs s' added, run_mwops W ops s = Some (outs, s') /\ Forall2 answer ops outs
    /\ position s' = position s + size (taken ops outs)
    /\ contents s' = overwrite (contents s ++ added) (position s) (taken ops outs)
    /\ position s' <= size (contents s ++ added).
Proof.
  intros S W contents position limit L ops s I M.
  destruct (mw_history W contents position limit L ops s I M) as (outs & s' & added & A & B & C & D & E & _).
  exists outs, s', added. repeat split; assumption.
Qed.

(** [Buffer] keeps the promises. The trait's code on it is that of Writer.v. *)
Theorem C56_buffer : writer buffer_writer b_data b_pos W63 /\ forall o b, run_mwop buffer_writer o b = run_wop o b.
Proof. split; [exact buffer_promises|exact buffer_wop]. Qed.

(** So does a slice of fixed size with a position, the obvious implementation. *)
Definition fixed_advance (s : bytes * N) (n : N) : option (bytes * N) := Some (fst s, wadd (snd s) n).
Definition fixed_writer : wimpl (bytes * N) :=
  mkwimpl
    (mkimpl snd fst fixed_advance (default_remaining snd fst) (default_take_bytes snd fst fixed_advance (default_remaining snd fst)))
    (fun s => slice_get_from (fst s) (snd s))
    (fun s l => (firstn (N.to_nat (snd s)) (fst s) ++ l, snd s))
    (fun s _ => Some (0, s)).
Theorem C56_fixed : writer fixed_writer fst snd W64.
Proof.
  split; intros [d p]; cbn [fixed_writer wi_reader wi_resize wi_remaining_mut wi_store im_remaining im_advance im_position fst snd].
  - reflexivity.
  - apply (rest_of snd fst (d, p)).
  - change size with (@lenN byte). intros H. unfold slice_get_from. destruct (N.leb_spec p (lenN d)); [reflexivity|lia].
  - intros l _. split; reflexivity.
  - intros n _ H. exists (d, p + n). unfold fixed_advance. cbn [fst snd]. rewrite wadd_small by exact H. repeat split.
  - intros n _ _ _. exists 0, (d, p), []. rewrite app_nil_r. repeat split. intros H. contradiction.
Qed.
(** Refused in full or not at all: three bytes do not fit into the last two. *)
Example C56_case : run_mwops fixed_writer [WPushInt KDefault U16 258; WPushU24 KLe 5; WPushBool true] ([x09; x09; x09; x09], 0) =
  Some ([inl 2; inr (mkerr 2 PushFail); inl 1], ([x01; x02; x01; x09], 3)).
Proof. reflexivity. Qed.

Print Assumptions C56_push.
Print Assumptions C56_history.
Print Assumptions C56_buffer.
Print Assumptions C56_fixed.

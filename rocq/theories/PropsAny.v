(** Property C73: the reading traits and the decoders, over any type that implements the traits. *)
From Verif Require Import Base Ints Spec SpecOps Reader ReadMut ReadAny BaseLemmas ReaderLemmas.
From Verif Require Import Schema WireSpec SafetySpec Decode AnyDecode AnySpec AnyLemmas.
Set Implicit Arguments.

(** Every reading call. *)
Theorem C73_call : forall S (X : source S) (good : S -> Prop), reads_inside X good ->
  forall o s, good s ->
  same_outcome good (src_position X) (src_data X) (src_data X s)
    (run_sop X o s) (run_rop o (src_data X s) (src_position X s)).
Proof. intros S X good H o. exact (sim_sop X good _ _ (ready_inside X good H) o). Qed.

(** Every client, whatever it decides by the answers. *)
Theorem C73_program : forall S (X : source S) (good : S -> Prop), reads_inside X good ->
  forall A (pr : program A), only_reads pr -> forall s, good s ->
  same_run good (src_position X) (src_data X) (src_data X s)
    (run_on_source X pr s) (run_on_bytes pr (src_data X s) (src_position X s)).
Proof. intros S X good H A pr. exact (run_inside X good pr H). Qed.
Theorem C73_program_moving : forall S (X : source S) (good : S -> Prop), reads_anywhere X good ->
  forall A (pr : program A), places_usize pr -> forall s, good s ->
  same_run good (src_position X) (src_data X) (src_data X s)
    (run_on_source X pr s) (run_on_bytes pr (src_data X s) (src_position X s)).
Proof. intros S X good H A pr. exact (run_anywhere X good pr H). Qed.

(** Every decoder without [offset]; with [offset], if the source can be moved anywhere. *)
Theorem C73_decode : forall S (X : source S) (good : S -> Prop) U, reads_inside X good ->
  forall t, offset_free t = true ->
  each_decoder (fun m => forall s, good s ->
    same_outcome good (src_position X) (src_data X) (src_data X s) (U m s) (m (src_data X s) (src_position X s))) t ->
  forall ca fa s, good s ->
  same_outcome good (src_position X) (src_data X) (src_data X s)
    (any_dec X U t ca fa s) (dec t ca fa (src_data X s) (src_position X s)).
Proof.
  intros S X good U H t Ho Hu ca fa. exact (sim_dec X good U _ _ (ready_inside X good H) t (fun _ => Ho) Hu ca fa).
Qed.
Theorem C73_decode_offset : forall S (X : source S) (good : S -> Prop) U, reads_anywhere X good ->
  forall t,
  each_decoder (fun m => forall s, good s ->
    same_outcome good (src_position X) (src_data X) (src_data X s) (U m s) (m (src_data X s) (src_position X s))) t ->
  forall ca fa s, good s ->
  same_outcome good (src_position X) (src_data X) (src_data X s)
    (any_dec X U t ca fa s) (dec t ca fa (src_data X s) (src_position X s)).
Proof.
  intros S X good U H t Hu ca fa.
  apply (sim_dec X good U _ _ (ready_anywhere X good H) t); [discriminate|exact Hu].
Qed.
(** What is asked of hand-written decoders holds of those written as calls of the trait. *)
Theorem C73_hand_written : forall S (X : source S) (good : S -> Prop), reads_inside X good ->
  forall pr, only_reads pr -> forall s, good s ->
  same_outcome good (src_position X) (src_data X) (src_data X s)
    (by_calls_on X pr s) (by_calls pr (src_data X s) (src_position X s)).
Proof. intros S X good H pr O s G. apply same_by_calls, (C73_program H O s G). Qed.

(** [Bytes] keeps both promises. *)
Theorem C73_bytes :
  reads_inside bytes_source (fun s => allocatable (fst s) /\ snd s <= size (fst s)) /\
  reads_anywhere bytes_source (fun s => allocatable (fst s) /\ snd s < 18446744073709551616).
Proof.
  split; intros [d p] [A B]; cbn [bytes_source src_position src_data src_advance src_set_position src_reset_position fst snd] in *;
    (split; [exact A|split; [exact B|]]); unfold arrives; cbn [fst snd].
  - split; [|split].
    + intros n L. assert (M : wadd p n = p + n) by (apply wadd_small; unfold allocatable in A; lia). rewrite M. eexists. split; [reflexivity|]. cbn. auto.
    + intros n L. eexists. split; [reflexivity|]. cbn. auto.
    + eexists. split; [reflexivity|]. cbn. split; [split; [exact A|lia]|auto].
  - split; [|split].
    + intros n. eexists. split; [reflexivity|]. cbn [fst snd]. split; [split; [exact A|apply N.mod_lt; discriminate]|auto].
    + intros n L. eexists. split; [reflexivity|]. cbn. auto.
    + eexists. split; [reflexivity|]. cbn. split; [split; [exact A|lia]|auto].
Qed.

(** [BufReadMut]: implementors whose data stays. *)
Theorem C73_forward : forall S (I : impl S) (good : S -> Prop), reads_forward I good ->
  forall ops s, good s -> (forall o, In o ops -> is_byteorder_uint o = false) ->
  match run_mops I ops s, run_rops ops (im_data I s) (im_position I s) with
  | Some (xs, s'), Some (ys, q) => xs = ys /\ good s' /\ im_data I s' = im_data I s /\ im_position I s' = q
  | None, None => True
  | _, _ => False
  end.
Proof. intros S I good. exact (@mops_forward S I good). Qed.
(** ... and implementors that give up what has been read. *)
Theorem C73_off : forall S (I : impl S) (good : S -> Prop), reads_off I good ->
  forall ops d p s, allocatable d -> p <= size d -> good s -> im_remaining I s = skipn (N.to_nat p) d ->
  (forall o, In o ops -> is_byteorder_uint o = false /\ is_find o = false) ->
  match run_mops I ops s, run_rops ops d p with
  | Some (xs, s'), Some (ys, q) => Forall2 same_answer xs ys /\ good s' /\ im_remaining I s' = skipn (N.to_nat q) d
  | None, None => True
  | _, _ => False
  end.
Proof. intros S I good. exact (@mops_off S I good). Qed.
(** [io::Cursor] and [&[u8]] are such. *)
Theorem C73_cursor : reads_forward cursor_impl (fun s => allocatable (fst s) /\ snd s <= size (fst s)).
Proof.
  intros [d p] [A B]. cbn [cursor_impl im_position im_data im_advance im_remaining im_take_bytes cur_pos cur_data fst snd] in *.
  assert (R : cur_remaining (d, p) = skipn (N.to_nat p) d) by (exact (remaining_in d p B)).
  assert (M : forall n, p + n <= size d -> wadd p n = p + n) by (intros n L; apply wadd_small; unfold allocatable in A; lia).
  split; [exact A|]. split; [exact B|]. split; [exact R|]. unfold arrives, cur_advance. cbn [fst snd].
  split; [|split].
  - intros n L. rewrite (M n L). eexists. split; [reflexivity|]. cbn [fst snd]. auto.
  - intros n L. unfold default_take_bytes. rewrite R. cbn [fst snd]. rewrite (M n L).
    change (size d) with (lenN d) in *. rewrite lenN_skipn. destruct (N.ltb_spec (lenN d - p) n); [lia|].
    unfold allocatable in A. change (size d) with (lenN d) in A.
    cbn [cur_pos cur_data snd fst]. rewrite wsub_small by lia. rewrite slice_get_ok by lia.
    exists (d, p + n). split; [unfold sub; do 4 f_equal; lia|]. eexists. split; [reflexivity|]. auto.
  - intros n L. unfold default_take_bytes. rewrite R. change (size d) with (lenN d) in *. rewrite lenN_skipn.
    destruct (N.ltb_spec (lenN d - p) n); [|lia]. exists (d, p). split; [reflexivity|]. eexists. split; [reflexivity|]. auto.
Qed.
Theorem C73_slice : reads_off slice_impl allocatable.
Proof.
  intros s A. cbn [slice_impl im_position im_data im_advance im_remaining im_take_bytes].
  assert (K : forall n, allocatable (skipn n s)) by (intros n; unfold allocatable, size in *; rewrite skipn_length; lia).
  split; [exact A|]. split; [apply N.le_0_l|]. split; [reflexivity|]. cbv zeta. change (size s) with (lenN s). split; [|split].
  - intros n L. rewrite slice_get_from_ok by exact L. eexists. split; [reflexivity|]. auto.
  - intros n L. rewrite slice_get_to_ok, slice_get_from_ok by exact L. eexists. split; [reflexivity|]. auto.
  - intros n L. rewrite slice_get_to_none by exact L. do 2 eexists. split; [reflexivity|]. auto.
Qed.

(** A source that counts how often it was moved and stops at the end of its data. *)
Definition counting : source (bytes * N * N) :=
  let to := fun (s : bytes * N * N) n => Some (fst (fst s), N.min n (size (fst (fst s))), snd s + 1) in
  mksource (fun s => snd (fst s)) (fun s => fst (fst s)) to (fun s => to s 0) (fun s n => to s (snd (fst s) + n)).
Definition counting_good (s : bytes * N * N) : Prop := allocatable (fst (fst s)) /\ snd (fst s) <= size (fst (fst s)).
Example C73_counting : reads_inside counting counting_good.
Proof.
  intros [[d p] c] [A B]. cbn [counting src_position src_data src_advance src_set_position src_reset_position fst snd] in *.
  split; [exact A|]. split; [exact B|]. unfold arrives, counting_good. cbn [fst snd].
  split; [|split]; intros; eexists; (split; [reflexivity|]); cbn [fst snd]; (split; [split; [exact A|lia]|split; [reflexivity|lia]]).
Qed.
(** It is not one that can be moved anywhere. *)
Example C73_counting_inside_only : ~ reads_anywhere counting counting_good.
Proof.
  intros H. destruct (H ([], 0, 0)) as (_ & _ & K & _); [split; vm_compute; [reflexivity|discriminate]|].
  destruct (K 1) as (s' & [= <-] & _ & _ & E). vm_compute in E. discriminate.
Qed.
(** Reading a length and that many bytes, and on failure starting over and reading all. *)
Definition client : program (list answer) :=
  Call (CRead (RTakeInt KBe U8)) (fun a1 =>
  Call (CRead (RTakeBytes match a1 with ARead (inl (RvZ n)) => Z.to_N n | _ => 0 end)) (fun a2 =>
  match a2 with
  | ARead (inl _) => Call CPosition (fun a3 => Done [a1; a2; a3])
  | _ => Call CReset (fun _ => Call CRemaining (fun a3 => Done [a1; a2; a3]))
  end)).
Example C73_client_case : only_reads client /\
  run_on_source counting client ([x02; x61; x62; x63], 0, 7) =
    Some ([ARead (inl (RvZ 2)); ARead (inl (RvBytes [x61; x62])); ANumber 3], ([x02; x61; x62; x63], 3, 9)) /\
  run_on_source counting client ([x09; x61], 0, 0) =
    Some ([ARead (inl (RvZ 9)); ARead (inr (mkerr 1 InvalidByteLength)); ABytes [x09; x61]], ([x09; x61], 0, 2)).
Proof.
  split; [|split; reflexivity]. unfold client. repeat (constructor; [exact Logic.I|intros]).
  destruct a0 as [[]| | |]; repeat (constructor; try exact Logic.I; intros).
Qed.
Example C73_decode_case :
  any_decode counting (fun _ _ => Panic) (TVec (TInt U16)) ([x02; x00; x01; x00; x02; x09], 0, 0) =
    Ok (VList [VInt 1; VInt 2]) ([x02; x00; x01; x00; x02; x09], 5, 3).
Proof. reflexivity. Qed.

Print Assumptions C73_call.
Print Assumptions C73_program.
Print Assumptions C73_program_moving.
Print Assumptions C73_decode.
Print Assumptions C73_decode_offset.
Print Assumptions C73_hand_written.
Print Assumptions C73_bytes.
Print Assumptions C73_forward.
Print Assumptions C73_off.
Print Assumptions C73_cursor.
Print Assumptions C73_slice.

(** C62 and C71 for the traits [BufReadMut] and [BufWriteMut]: builds with and without overflow
    checks, 32-bit and 64-bit targets. *)
From Verif Require Import Base Ints Spec SpecOps Reader Writer ReadMut WriteMut BaseLemmas ReaderLemmas.
From Verif Require Import Examples CheckedLemmas NarrowSpec NarrowLemmas MutBuildsSpec MutBuildsLemmas.
From Verif Require CheckedReader CheckedReadMut NarrowReader NarrowReadMut NarrowWriteMut.

Lemma alike_self {S} (good : S -> Prop) I : alike_in good I I.
Proof. intros s G. repeat split; reflexivity. Qed.

(** *** Overflow checks *)
(** Any history of calls, on any implementor that does not count past 2^64. *)
Theorem C62_mut : forall S (I : impl S) good, ends_below 18446744073709551616 I good ->
  forall ops s, good s -> CheckedReadMut.run_mops I ops s = run_mops I ops s.
Proof. intros S I good H ops s G. exact (c_ops good I I _ H (alike_self good I) eq_refl ops s G). Qed.
(** [&[u8]] is one. *)
Lemma slice_ends bound (good : bytes -> Prop) : (forall s, good s -> size s < bound) -> (forall s n, good s -> good (skipn n s)) -> ends_below bound slice_impl good.
Proof.
  intros B K s G. cbn [slice_impl im_position im_remaining im_advance im_take_bytes]. split; [apply B, G|]. split.
  - intros n s' L E. unfold slice_get_from in E. destruct (n <=? lenN s); [|discriminate]. injection E as <-. apply K, G.
  - intros n. unfold slice_get_to, slice_get_from. destruct (N.leb_spec n (lenN s)) as [L|]; [|exact G].
    split; [apply K, G|]. unfold size, lenN in *. rewrite firstn_length. lia.
Qed.
Lemma skip_short {n} (s : bytes) B : size s < B -> size (skipn n s) < B.
Proof. unfold size. rewrite skipn_length. lia. Qed.
Theorem C62_slice : forall ops s, allocatable s -> CheckedReadMut.run_mops slice_impl ops s = run_mops slice_impl ops s.
Proof.
  intros ops s A. apply (C62_mut _ _ allocatable); [|exact A]. apply slice_ends; unfold allocatable; intros; [lia|apply skip_short; assumption].
Qed.
(** So is [io::Cursor], wherever its position is. *)
Definition cur_good (bound most : N) (s : bytes * N) : Prop := size (fst s) < most /\ snd s < bound.
Lemma cur_rem s : cur_remaining s = remaining (fst s) (snd s).
Proof. reflexivity. Qed.
Lemma cur_room s n : n <= size (cur_remaining s) -> n = 0 \/ snd s + n <= size (fst s).
Proof.
  change size with (@lenN byte). rewrite cur_rem. change (lenN (remaining (fst s) (snd s))) with (remaining_len (fst s) (snd s)).
  rewrite remaining_len_eq. lia.
Qed.
Lemma cur_moves bound most s n : most <= bound -> bound <= W64 -> cur_good bound most s -> n <= size (cur_remaining s) ->
  cur_advance s n = Some (fst s, snd s + n) /\ cur_good bound most (fst s, snd s + n).
Proof.
  intros M B [G1 G2] L. apply cur_room in L. unfold cur_advance, cur_good. cbn [fst snd]. rewrite wadd_small by lia. split; [reflexivity|lia].
Qed.
Lemma cur_takes bound most s n : most <= bound -> bound <= W64 -> cur_good bound most s ->
  default_take_bytes cur_pos cur_data cur_advance cur_remaining s n =
    (if lenN (cur_remaining s) <? n then Err (mkerr (snd s) InvalidByteLength) s
     else match slice_get (fst s) (snd s) (snd s + n) with Some v => Ok v (fst s, snd s + n) | None => Panic end).
Proof.
  intros M B G. unfold default_take_bytes. destruct (N.ltb_spec (lenN (cur_remaining s)) n) as [|L]; [reflexivity|].
  destruct (cur_moves bound most s n M B G L) as [-> [_ Q]]. cbn [cur_pos cur_data fst snd] in *. rewrite wsub_small by lia.
  replace (snd s + n - n) with (snd s) by lia. reflexivity.
Qed.
Lemma cur_ends bound most : most <= bound -> bound <= W64 -> ends_below bound cursor_impl (cur_good bound most).
Proof.
  intros M B s G. pose proof G as [G1 G2]. cbn [cursor_impl im_position im_remaining im_advance im_take_bytes]. unfold cur_pos at 1. split; [|split].
  - destruct (cur_room s (size (cur_remaining s)) ltac:(lia)); lia.
  - intros n s' L E. destruct (cur_moves bound most s n M B G L) as [E' Q]. rewrite E' in E. injection E as <-. exact Q.
  - intros n. rewrite (cur_takes bound most s n M B G). destruct (N.ltb_spec (lenN (cur_remaining s)) n) as [|L]; [exact G|].
    destruct (slice_get (fst s) (snd s) (snd s + n)) as [v|] eqn:E; [|exact I].
    split; [apply (cur_moves bound most s n M B G L)|]. unfold slice_get in E.
    destruct ((_ <=? _) && (_ <=? _)) eqn:X in E; [|discriminate]. injection E as <-. apply andb_prop in X as [_ X]. apply N.leb_le in X.
    unfold size, lenN in *. rewrite firstn_length, skipn_length. lia.
Qed.
Theorem C62_cursor : forall ops d p, allocatable d -> p < 18446744073709551616 ->
  CheckedReadMut.run_mops CheckedReadMut.cursor_impl ops (d, p) = run_mops cursor_impl ops (d, p).
Proof.
  intros ops d p A P. pose (good := cur_good W64 W63).
  assert (M : W63 <= W64) by (intros X; discriminate X). assert (B : W64 <= W64) by lia.
  apply (c_ops good _ _ W64); [apply cur_ends; assumption| |reflexivity|split; [exact A|exact P]].
  intros s G. cbn [cursor_impl CheckedReadMut.cursor_impl im_position im_data im_remaining im_advance im_take_bytes].
  assert (V : forall n, n <= size (cur_remaining s) -> CheckedReadMut.cur_advance s n = cur_advance s n).
  { intros n L. destruct (cur_moves _ _ s n M B G L) as [-> [_ Q]]. cbn [snd] in Q. unfold CheckedReadMut.cur_advance.
    destruct (N.ltb_spec (snd s + n) W64); [reflexivity|lia]. }
  repeat split; [exact V|]. intros n. unfold CheckedReadMut.default_take_bytes, default_take_bytes.
  destruct (N.ltb_spec (lenN (cur_remaining s)) n) as [|L]; [reflexivity|]. rewrite (V n L).
  destruct (cur_moves _ _ s n M B G L) as [-> [_ Q]]. cbn [snd cur_pos] in *. rewrite sub_ok, wsub_small by lia. reflexivity.
Qed.
Example C62_mut_case :
  CheckedReadMut.run_mops slice_impl [RFind (hex [3]); RTakeUint KLe 2; RUntakeBytes 9] (hex [1; 2; 3; 4; 5; 6]) =
    Some ([inl (RvBytes (hex [4; 5])); inl (RvN 1284); inr (mkerr 0 InvalidByteLength)], hex [6]) /\
  CheckedReadMut.run_mops CheckedReadMut.cursor_impl [RFind (hex [3]); RTakeUint KLe 2; RUntakeBytes 9] (hex [1; 2; 3; 4; 5; 6], 1) =
    Some ([inl (RvBytes (hex [2])); inl (RvN 1284); inr (mkerr 5 InvalidByteLength)], (hex [1; 2; 3; 4; 5; 6], 5)).
Proof. split; vm_compute; reflexivity. Qed.
(** [advance] itself is the exception. *)
Theorem C62_cursor_advance : forall d p n,
  (p + n < 18446744073709551616 -> CheckedReadMut.cur_advance (d, p) n = cur_advance (d, p) n) /\
  (18446744073709551616 <= p + n -> CheckedReadMut.cur_advance (d, p) n = None).
Proof.
  intros d p n. unfold CheckedReadMut.cur_advance, cur_advance. cbn [fst snd]. split; intros H; destruct (N.ltb_spec (p + n) W64); try lia; [|reflexivity].
  rewrite wadd_small by lia. reflexivity.
Qed.

(** *** 32-bit targets *)
Theorem C71_mut : forall S (I : impl S) good, ends_below 4294967296 I good ->
  forall ops s, Forall fixed_take ops -> good s -> NarrowReadMut.run_mops I ops s = run_mops I ops s.
Proof. intros S I good H ops s F G. exact (n_ops good I I _ H (alike_self good I) eq_refl ops F s G). Qed.
Theorem C71_slice : forall ops s, Forall fixed_take ops -> allocatable32 s ->
  NarrowReadMut.run_mops slice_impl ops s = run_mops slice_impl ops s.
Proof.
  intros ops s F A. apply (C71_mut _ _ allocatable32); [|exact F|exact A]. apply slice_ends; unfold allocatable32; intros; [lia|apply skip_short; assumption].
Qed.
Theorem C71_cursor : forall ops d p, Forall fixed_take ops -> allocatable32 d -> p < 4294967296 ->
  NarrowReadMut.run_mops NarrowReadMut.cursor_impl ops (d, p) = run_mops cursor_impl ops (d, p).
Proof.
  intros ops d p F A P. pose (good := cur_good 4294967296 2147483648).
  assert (M : 2147483648 <= 4294967296) by lia. assert (B : 4294967296 <= W64) by lia.
  apply (n_ops good _ _ 4294967296); [apply cur_ends; assumption| |reflexivity|exact F|split; [exact A|exact P]].
  intros s G. pose proof G as [_ G2]. cbn [cursor_impl NarrowReadMut.cursor_impl im_position im_data im_remaining im_advance im_take_bytes].
  assert (C : NarrowReadMut.cur_pos s = cur_pos s) by (apply N.mod_small; exact G2).
  assert (R : NarrowReadMut.cur_remaining s = cur_remaining s).
  { unfold NarrowReadMut.cur_remaining, cur_remaining, default_remaining. rewrite C. reflexivity. }
  split; [exact C|]. split; [reflexivity|]. split; [exact R|]. split; [reflexivity|].
  intros n. unfold NarrowReadMut.default_take_bytes, default_take_bytes. rewrite R, C.
  destruct (N.ltb_spec (lenN (cur_remaining s)) n) as [|L]; [reflexivity|].
  change (NarrowReadMut.cur_advance s n) with (cur_advance s n). destruct (cur_moves _ _ s n M B G L) as [-> [_ Q]]. cbn [snd] in Q.
  assert (C' : NarrowReadMut.cur_pos (fst s, snd s + n) = snd s + n) by (apply N.mod_small; exact Q). rewrite C'. cbn [cur_pos snd].
  assert (X : NarrowReader.wsub (snd s + n) n = wsub (snd s + n) n).
  { rewrite wsub_small by lia. unfold NarrowReader.wsub. rewrite (N.mod_small n) by lia.
    replace (snd s + n + 4294967296 - n) with (snd s + 1 * 4294967296) by lia. rewrite N.mod_add by discriminate. rewrite N.mod_small by lia. lia. }
  rewrite X. reflexivity.
Qed.
Theorem C71_mut_write : forall S (W : wimpl S) ops s, Forall fixed_write ops -> NarrowWriteMut.run_mwops W ops s = run_mwops W ops s.
Proof.
  intros S W ops. induction ops as [|o ops IH]; intros s HF; [reflexivity|]. inversion_clear HF as [|? ? F1 F2]. cbn [NarrowWriteMut.run_mwops run_mwops].
  assert (E : NarrowWriteMut.run_mwop W o = run_mwop W o).
  { destruct o; try reflexivity. cbn [NarrowWriteMut.run_mwop run_mwop]. unfold NarrowWriteMut.mw_push_int. rewrite (on32_fixed _ F1). reflexivity. }
  rewrite E. destruct (run_mwop W o s); try reflexivity; rewrite IH by exact F2; reflexivity.
Qed.
Example C71_mut_case : Forall fixed_take [RTakeInt KLe U16; RTakeUint KBe 4; RTakeSint KLe 3; RTakeBytes 2] /\
  NarrowReadMut.run_mops slice_impl [RTakeInt KLe U16; RTakeUint KBe 4; RTakeSint KLe 3; RTakeBytes 2] (hex [1; 2; 3; 4; 5; 6; 7; 8; 255; 9]) =
    Some ([inl (RvZ 513); inl (RvN 50595078); inl (RvZ 16713735); inr (mkerr 0 InvalidByteLength)], hex [9]).
Proof. split; [repeat constructor; try (intros bo; discriminate); discriminate|vm_compute; reflexivity]. Qed.
(** [take_uint] of [BufReadMut] makes a [usize]: with five to eight bytes an error, or little-endian a
    panic, on a 32-bit target. The [untake_uint] of the same trait makes a [u64]. *)
Theorem C71_take_uint_refuted :
  NarrowReadMut.run_mop slice_impl (RTakeUint KBe 8) (hex [0; 0; 0; 0; 0; 0; 0; 7]) =
    Err (mkerr 0 InvalidByteLength) (hex [0; 0; 0; 0; 0; 0; 0; 7]) /\
  NarrowReadMut.run_mop slice_impl (RTakeUint KLe 8) (hex [0; 0; 0; 0; 0; 0; 0; 7]) = Panic /\
  run_mop slice_impl (RTakeUint KBe 8) (hex [0; 0; 0; 0; 0; 0; 0; 7]) = Ok (RvN 7) [] /\
  NarrowReadMut.run_mop slice_impl (RUntakeUint KBe 8) (hex [0; 0; 0; 0; 0; 0; 0; 7]) = Ok (RvN 7) (hex [0; 0; 0; 0; 0; 0; 0; 7]).
Proof. repeat split; vm_compute; reflexivity. Qed.
(** A [usize] takes four bytes or eight through either trait. *)
Theorem C71_mut_usize_refuted :
  NarrowReadMut.run_mop slice_impl (RTakeInt KBe Usize) (hex [0; 0; 0; 1; 0; 0; 0; 2]) = Ok (RvZ 1) (hex [0; 0; 0; 2]) /\
  run_mop slice_impl (RTakeInt KBe Usize) (hex [0; 0; 0; 1; 0; 0; 0; 2]) = Ok (RvZ 4294967298) [].
Proof. split; vm_compute; reflexivity. Qed.
(** [take_int] of four bytes is negative on a 32-bit target only. *)
Theorem C71_take_int_refuted :
  NarrowReadMut.run_mop slice_impl (RTakeSint KBe 4) (hex [255; 255; 255; 255]) = Ok (RvZ (-1)) [] /\
  run_mop slice_impl (RTakeSint KBe 4) (hex [255; 255; 255; 255]) = Ok (RvZ 4294967295) [].
Proof. split; vm_compute; reflexivity. Qed.
(** A cursor moved to 2^32 or beyond reads from the beginning again: its position is a [u64], which
    [get_position] cuts to 32 bits. On a 64-bit target nothing is left to read. *)
Theorem C71_cursor_refuted : forall d p n, allocatable32 d -> p < 4294967296 -> p + n <= size d ->
  NarrowReadMut.run_mop NarrowReadMut.cursor_impl (RTakeBytes n) (d, p + 4294967296) =
    Ok (RvBytes (firstn (N.to_nat n) (skipn (N.to_nat p) d))) (d, p + n + 4294967296) /\
  (n <> 0 -> run_mop cursor_impl (RTakeBytes n) (d, p + 4294967296) = Err (mkerr (p + 4294967296) InvalidByteLength) (d, p + 4294967296)).
Proof.
  intros d p n A P L. unfold allocatable32 in A. change size with (@lenN byte) in *. split.
  - cbn [NarrowReadMut.run_mop]. unfold NarrowReadMut.mmap, mbind, NarrowReadMut.m_take_bytes. cbn [NarrowReadMut.cursor_impl im_take_bytes].
    unfold NarrowReadMut.default_take_bytes, NarrowReadMut.cur_remaining, default_remaining, NarrowReadMut.cur_advance. cbn [fst snd].
    assert (E : forall q, q < 4294967296 -> NarrowReadMut.cur_pos (d, q + 4294967296) = q).
    { intros q Q. unfold NarrowReadMut.cur_pos, NarrowReader.narrow. cbn [snd]. rewrite <- (N.mul_1_l 4294967296) at 1. rewrite N.mod_add by discriminate. apply N.mod_small, Q. }
    rewrite (E p P). cbn [cur_data fst].
    replace ((p + 4294967296 + n) mod W64) with (p + n + 4294967296) by (rewrite N.mod_small by lia; lia). rewrite E by lia.
    unfold slice_get_from. destruct (N.leb_spec p (lenN d)); [|lia]. rewrite lenN_skipn. destruct (N.ltb_spec (lenN d - p) n); [lia|].
    assert (X : NarrowReader.wsub (p + n) n = p).
    { unfold NarrowReader.wsub. rewrite (N.mod_small n) by lia. replace (p + n + 4294967296 - n) with (p + 1 * 4294967296) by lia. rewrite N.mod_add by discriminate. apply N.mod_small. lia. }
    rewrite X, slice_get_ok by lia. unfold mret, sub. do 4 f_equal. lia.
  - intros N0. cbn [run_mop]. unfold mmap, mbind, m_take_bytes. cbn [cursor_impl im_take_bytes]. unfold default_take_bytes. rewrite cur_rem.
    change (lenN (remaining (fst (d, p + 4294967296)) (snd (d, p + 4294967296)))) with (remaining_len d (p + 4294967296)). rewrite remaining_len_eq.
    destruct (N.ltb_spec (lenN d - (p + 4294967296)) n); [reflexivity|lia].
Qed.
Example C71_cursor_case :
  NarrowReadMut.run_mops NarrowReadMut.cursor_impl [RTakeInt KBe U16] (hex [1; 2; 3], 4294967297) = Some ([inl (RvZ 515)], (hex [1; 2; 3], 4294967299)).
Proof. vm_compute. reflexivity. Qed.

Print Assumptions C62_mut.
Print Assumptions C62_slice.
Print Assumptions C62_cursor.
Print Assumptions C62_cursor_advance.
Print Assumptions C71_mut.
Print Assumptions C71_slice.
Print Assumptions C71_cursor.
Print Assumptions C71_mut_write.
Print Assumptions C71_take_uint_refuted.
Print Assumptions C71_take_int_refuted.
Print Assumptions C71_mut_usize_refuted.
Print Assumptions C71_cursor_refuted.

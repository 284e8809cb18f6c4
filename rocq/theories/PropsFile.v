(** Property C75: one [Buffer] under any mixed history of calls. *)
From Verif Require Import Base Ints Reader Writer BufIo ReadAny Schema Decode Encode Spec SpecOps RunSpec WireSpec SafetySpec BufferCalls FileSpec.
From Verif Require Import BaseLemmas ReaderLemmas ReaderHist WriterLemmas WriterHist Bounds FileLemmas.
From Verif Require Import Sugar Examples PropsContainers PropsRobust.

(** C75. One call: the buffer answers as the file does, and is then that file. *)
Theorem C75_call : forall c b, allocatable (b_data b) -> b_pos b < 9223372036854775808 ->
  may_ask c (mkfile (b_data b) (b_pos b)) ->
  exists a b', on_buffer_call c b = Some (a, b') /\ allocatable (b_data b') /\ b_pos b' < 9223372036854775808 /\
    acts c (mkfile (b_data b) (b_pos b)) a (mkfile (b_data b') (b_pos b')).
Proof.
  intros c [d p] A P M. cbn [b_data b_pos] in *. unfold may_ask in M. cbn [f_offset f_contents] in M.
  assert (Q : forall n, n <= size (skipn (N.to_nat p) d) -> p + n < 9223372036854775808).
  { intros n. rewrite size_ahead. unfold allocatable in A. lia. }
  destruct c as [[o| | | | |n|n|]|o|o|t v|t]; cbn [on_buffer_call on_bytes b_data b_pos].
  - destruct M as [W I]. destruct (read_step o d p A P W I) as (r & n & E & R). rewrite E.
    exists (BAnswer (ARead (match r with inl v => inl v | inr k => inr (mkerr p k) end))), (mkbuf d (p + n)).
    split; [destruct r; reflexivity|]. split; [exact A|]. split; [apply Q; exact (reads_within _ _ _ _ R)|].
    exact (acts_read o (mkfile d p) r n R).
  - do 2 eexists. split; [reflexivity|]. split; [exact A|]. split; [exact P|]. exact (acts_position (mkfile d p)).
  - do 2 eexists. split; [reflexivity|]. split; [exact A|]. split; [exact P|]. exact (acts_data (mkfile d p)).
  - do 2 eexists. split; [reflexivity|]. split; [exact A|]. split; [exact P|].
    replace (remaining d p) with (ahead (mkfile d p)); [exact (acts_remaining (mkfile d p))|].
    destruct (N.le_gt_cases p (lenN d)) as [L|L]; [rewrite remaining_in by exact L; reflexivity|].
    rewrite remaining_out by exact L. apply ahead_past. exact L.
  - do 2 eexists. split; [reflexivity|]. split; [exact A|]. split; [exact P|].
    replace (remaining_len d p) with (size (ahead (mkfile d p))); [exact (acts_remaining_len (mkfile d p))|].
    rewrite remaining_len_eq. apply size_ahead.
  - unfold advance. do 2 eexists. split; [reflexivity|]. split; [exact A|]. cbn [b_data b_pos]. rewrite wadd_small by lia.
    split; [exact M|]. exact (acts_advance (mkfile d p) n).
  - do 2 eexists. split; [reflexivity|]. split; [exact A|]. split; [exact M|]. exact (acts_set (mkfile d p) n).
  - do 2 eexists. split; [reflexivity|]. split; [exact A|]. split; [reflexivity|]. exact (acts_reset (mkfile d p)).
  - pose proof (push_outcome o (mkbuf d p) A) as E. cbn [b_data b_pos] in E. destruct (image o) as [l|] eqn:I.
    + destruct M as [M1 M2]. rewrite (E M1 M2). do 2 eexists. split; [reflexivity|]. cbn [b_data b_pos].
      split; [|split; [exact M1|exact (acts_push (mkfile d p) o l I)]].
      unfold allocatable in *. change size with (@lenN byte) in *. rewrite overwrite_size. lia.
    + rewrite E. do 2 eexists. split; [reflexivity|]. split; [exact A|]. split; [exact P|]. exact (acts_refused (mkfile d p) o I).
  - assert (S : exists s f', file_step o (mkfile d p) = Some (s, f') /\ match o with OpSeek w => seek_arg_ok w | _ => True end).
    { destruct o as [n|v| |w]; cbn [file_step].
      - destruct (file_read n (mkfile d p)). eauto.
      - cbn [f_offset]. destruct (N.ltb_spec (p + size v) 9223372036854775808); [eauto|lia].
      - eauto.
      - destruct M as [M1 M2]. destruct (Z.ltb_spec (seek_target w (mkfile d p)) 9223372036854775808); [|lia].
        destruct (file_seek _ _); eauto. }
    destruct S as (s & f' & F & SA). destruct (io_step_file o (mkbuf d p) s f' (conj A P) SA F) as (r & b' & E & Sn & Fb & A' & P').
    rewrite E. do 2 eexists. split; [reflexivity|]. split; [exact A'|]. split; [exact P'|].
    apply (acts_io _ _ s); [rewrite F; f_equal; f_equal; rewrite <- Fb; reflexivity|exact Sn|].
    intros n ->. destruct o as [m|v| |w]; cbn [run_io] in E.
    + unfold io_read in E. repeat match type of E with context [match ?x with _ => _ end] => destruct x end; discriminate E.
    + unfold io_write in E. repeat match type of E with context [match ?x with _ => _ end] => destruct x; try discriminate E end.
    + discriminate E.
    + apply seek_returns_old in E. exact E.
  - destruct M as (I & W & w & E & L). destruct (C30_encode_anywhere t no_cattr no_fattr v w W E d p I A L) as (n & En).
    unfold encode_into. rewrite En. do 2 eexists. split; [reflexivity|]. cbn [b_data b_pos]. split; [|split; [exact L|exact (acts_encode (mkfile d p) t v w n E)]].
    unfold allocatable in *. change size with (@lenN byte) in *. rewrite overwrite_size. lia.
  - destruct M as (I & M). unfold decode.
    assert (H : forall v w, holds (mkfile d p) t v w -> dec t no_cattr no_fattr d p = Ok v (p + size w) /\ p + size w <= size d).
    { intros v w (W & E & after & Ea & Fi). unfold ahead in Ea. cbn [f_offset f_contents] in Ea.
      assert (Ed : d = firstn (N.to_nat p) d ++ w ++ after) by (rewrite <- Ea; symmetry; apply firstn_skipn).
      assert (Ep : size (firstn (N.to_nat p) d) = p) by (unfold size in *; rewrite firstn_length; lia).
      pose proof (C30_decode_anywhere t no_cattr no_fattr v w after W E Fi (firstn (N.to_nat p) d)) as D.
      rewrite <- Ed, Ep in D. split; [exact (D A)|]. apply (f_equal size) in Ed. change size with (@lenN byte) in *. rewrite !lenN_app in Ed. lia. }
    destruct M as [(v & w & Hv)|(O & D & Sf)].
    + destruct (H v w Hv) as [-> L]. do 2 eexists. split; [reflexivity|]. split; [exact A|]. cbn [b_data b_pos].
      split; [unfold allocatable in A; lia|]. apply (acts_decode (mkfile d p)); [exact L|].
      intros v' w' Hv'. destruct (H v' w' Hv') as [E' _]. destruct (H v w Hv) as [E _]. rewrite E in E'. injection E' as -> E'. split; [reflexivity|lia].
    + destruct (C34_total t d p O D Sf A I) as [(v & q & E & L)|(e & q & E & L)]; unfold decode in E; rewrite E.
      * exists (BDecoded (inl v)), (mkbuf d q). split; [reflexivity|]. split; [exact A|]. cbn [b_data b_pos]. split; [unfold allocatable in A; lia|].
        replace q with (p + (q - p)) by lia. apply (acts_decode (mkfile d p)); [cbn [f_offset f_contents]; lia|].
        intros v' w' Hv'. destruct (H v' w' Hv') as [E' _]. rewrite E in E'. injection E' as -> E'. split; [reflexivity|lia].
      * exists (BDecoded (inr e)), (mkbuf d q). split; [reflexivity|]. split; [exact A|]. cbn [b_data b_pos]. split; [unfold allocatable in A; lia|].
        replace q with (p + (q - p)) by lia. apply (acts_decode (mkfile d p)); [cbn [f_offset f_contents]; lia|].
        intros v' w' Hv'. destruct (H v' w' Hv') as [E' _]. rewrite E in E'. discriminate E'.
Qed.

(** Every history, and every user who decides by the answers what to do next. *)
Theorem C75_history : forall A (u : user A) b, allocatable (b_data b) -> b_pos b < 9223372036854775808 ->
  polite u (mkfile (b_data b) (b_pos b)) ->
  exists x b', run_user u b = Some (x, b') /\
    goes u (mkfile (b_data b) (b_pos b)) x (mkfile (b_data b') (b_pos b')).
Proof.
  intros A u. induction u as [x|c k IH]; intros b B P M; cbn [run_user].
  - exists x, b. split; [reflexivity|]. constructor.
  - destruct M as [M1 M2]. destruct (C75_call c b B P M1) as (a & b' & E & B' & P' & R). rewrite E.
    destruct (IH a b' B' P' (M2 a _ R)) as (x & b'' & E' & G). exists x, b''. split; [exact E'|]. exact (goes_on c k _ a _ x _ R G).
Qed.

(** The file leaves no choice: what is read, pushed or sought gives one answer and one
    file. So does encoding, up to the count that is returned (see C32), and decoding of
    what has been encoded. *)
Theorem C75_determined : forall c f a f1 a' f2, acts c f a f1 -> acts c f a' f2 ->
  match c with
  | BEncode _ _ => f1 = f2
  | BDecode t => (exists v w, holds f t v w) -> a = a' /\ f1 = f2
  | _ => a = a' /\ f1 = f2
  end.
Proof.
  intros c f a f1 a' f2 H H'. destruct H; inversion H'; subst; try (split; reflexivity); try congruence.
  - match goal with A : reads _ _ _ _, B : reads _ _ _ _ |- _ => destruct (reads_same _ _ _ _ _ _ A B) as [<- <-] end. split; reflexivity.
  - match goal with A : image o = Some _, B : image o = Some _ |- _ => rewrite A in B; injection B as <- end. split; reflexivity.
  - match goal with A : file_step o f = _, B : file_step o f = _ |- _ => rewrite A in B; injection B as <- <- end. split; [|reflexivity]. f_equal.
    destruct r, r0; cbn [seen] in *; try congruence;
      repeat match goal with A : (if ?b then _ else _) = _ |- _ => destruct b eqn:?; try discriminate A end; try congruence.
    + repeat match goal with E : (_ =? _) = true |- _ => apply N.eqb_eq in E end. congruence.
    + f_equal. rewrite (H1 _ eq_refl). symmetry. auto.
  - intros (v & w & Hw). match goal with A : forall v w, holds _ _ _ _ -> ?r = _ /\ _, B : forall v w, holds _ _ _ _ -> ?r' = _ /\ _ |- _ =>
      destruct (A v w Hw) as [-> ->]; destruct (B v w Hw) as [-> ->] end. split; reflexivity.
Qed.

(** A length that is not yet known, a packet, then the length, by going back; then the
    whole is read. *)
Definition send : user buffer_answer :=
  Use (BPush (WPushInt KBe U16 0)) (fun _ =>
  Use (BEncode Packet packet) (fun _ =>
  Use (BRead CPosition) (fun a =>
  match a with
  | BAnswer (ANumber n) =>
      Use (BIo (OpSeek (SStart 0))) (fun _ =>
      Use (BPush (WPushInt KBe U16 (Z.of_N (n - 2)))) (fun _ =>
      Use (BDecode Packet) (fun r => Finish r)))
  | _ => Finish a
  end))).
Example C75_case : polite send (mkfile [] 0) /\
  run_user send buf_new = Some (BDecoded (inl packet), mkbuf (hex [0; 30] ++ packet_bytes) 32) /\
  forall x f, goes send (mkfile [] 0) x f -> x = BDecoded (inl packet) /\ f = mkfile (hex [0; 30] ++ packet_bytes) 32.
Proof.
  assert (W : wire Packet no_cattr no_fattr packet = Some packet_bytes) by (vm_compute; reflexivity).
  assert (F : fits Packet no_cattr no_fattr packet [] = true) by (vm_compute; reflexivity).
  assert (P1 : forall a f, acts (BPush (WPushInt KBe U16 0)) (mkfile [] 0) a f -> f = mkfile (hex [0; 0]) 2).
  { intros a f H. inversion H; subst; [|discriminate]. cbn [image] in *. match goal with A : Some _ = Some _ |- _ => injection A as <- end. reflexivity. }
  assert (P2 : forall a f, acts (BEncode Packet packet) (mkfile (hex [0; 0]) 2) a f -> f = mkfile (hex [0; 0] ++ packet_bytes) 32).
  { intros a f H. inversion H; subst. match goal with A : wire _ _ _ _ = Some ?w |- _ => rewrite W in A; injection A as <- end. vm_compute. reflexivity. }
  assert (P3 : forall a f, acts (BRead CPosition) (mkfile (hex [0; 0] ++ packet_bytes) 32) a f ->
    a = BAnswer (ANumber 32) /\ f = mkfile (hex [0; 0] ++ packet_bytes) 32) by (intros a f H; inversion H; subst; split; reflexivity).
  assert (P4 : forall a f, acts (BIo (OpSeek (SStart 0))) (mkfile (hex [0; 0] ++ packet_bytes) 32) a f -> f = mkfile (hex [0; 0] ++ packet_bytes) 0).
  { intros a f H. inversion H; subst. match goal with A : file_step _ _ = _ |- _ => vm_compute in A; injection A as _ <- end. vm_compute. reflexivity. }
  assert (P5 : forall a f, acts (BPush (WPushInt KBe U16 (Z.of_N (32 - 2)))) (mkfile (hex [0; 0] ++ packet_bytes) 0) a f ->
    f = mkfile (hex [0; 30] ++ packet_bytes) 2).
  { intros a f H. inversion H; subst; [|discriminate]. match goal with A : image _ = Some _ |- _ => vm_compute in A; injection A as <- end. vm_compute. reflexivity. }
  assert (HH : holds (mkfile (hex [0; 30] ++ packet_bytes) 2) Packet packet packet_bytes).
  { split; [exact C30_well_formed|]. split; [exact W|]. exists []. split; [vm_compute; reflexivity|exact F]. }
  assert (P6 : forall a f, acts (BDecode Packet) (mkfile (hex [0; 30] ++ packet_bytes) 2) a f ->
    a = BDecoded (inl packet) /\ f = mkfile (hex [0; 30] ++ packet_bytes) 32).
  { intros a f H. inversion H; subst. match goal with A : forall v w, holds _ _ _ _ -> _ |- _ => destruct (A _ _ HH) as [-> ->] end. split; reflexivity. }
  split; [|split; [vm_compute; reflexivity|]].
  - split; [vm_compute; split; [reflexivity|left; discriminate]|]. intros a f H. rewrite (P1 a f H).
    split; [split; [vm_compute; discriminate|]; split; [exact C30_well_formed|]; exists packet_bytes; split; [exact W|reflexivity]|].
    intros a1 f1 H1. rewrite (P2 a1 f1 H1). split; [exact I|]. intros a2 f2 H2. destruct (P3 a2 f2 H2) as [-> ->].
    split; [split; [vm_compute; reflexivity|vm_compute; reflexivity]|]. intros a3 f3 H3. rewrite (P4 a3 f3 H3).
    split; [vm_compute; split; [reflexivity|left; discriminate]|]. intros a4 f4 H4. rewrite (P5 a4 f4 H4).
    split; [split; [vm_compute; discriminate|left; exists packet, packet_bytes; exact HH]|]. intros a5 f5 H5. exact I.
  - intros x f G. unfold send in G.
    inversion G; subst. match goal with A : acts _ _ _ _ |- _ => apply P1 in A; subst end.
    match goal with A : goes _ _ _ _ |- _ => clear G; rename A into G end. inversion G; subst. match goal with A : acts _ _ _ _ |- _ => apply P2 in A; subst end.
    match goal with A : goes (Use (BRead CPosition) _) _ _ _ |- _ => clear G; rename A into G end. inversion G; subst. match goal with A : acts _ _ _ _ |- _ => apply P3 in A; destruct A; subst end.
    match goal with A : goes (Use (BIo _) _) _ _ _ |- _ => clear G; rename A into G end. inversion G; subst. match goal with A : acts _ _ _ _ |- _ => apply P4 in A; subst end.
    match goal with A : goes (Use (BPush _) _) _ _ _ |- _ => clear G; rename A into G end. inversion G; subst. match goal with A : acts _ _ _ _ |- _ => apply P5 in A; subst end.
    match goal with A : goes (Use (BDecode _) _) _ _ _ |- _ => clear G; rename A into G end. inversion G; subst. match goal with A : acts _ _ _ _ |- _ => apply P6 in A; destruct A; subst end.
    match goal with A : goes (Finish _) _ _ _ |- _ => inversion A; subst end. split; reflexivity.
Qed.

Print Assumptions C75_call.
Print Assumptions C75_history.
Print Assumptions C75_determined.

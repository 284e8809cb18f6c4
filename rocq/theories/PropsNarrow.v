(** C71: programs for 32-bit targets and for 64-bit targets. *)
From Verif Require Import Base Ints Spec SpecOps Reader Writer BaseLemmas ReaderLemmas WriterLemmas WriterHist BufIo.
From Verif Require Import Schema Decode Encode WireSpec SafetySpec Bounds Sugar Examples PropsContainers PropsValues PropsChecked.
From Verif Require Import CheckedSpec CheckedEnc TypeSpec NarrowSpec NarrowLemmas NarrowEnc.
From Verif Require NarrowReader NarrowDecode NarrowWriter NarrowEncode NarrowIo.

(** *** Reading *)
(** Any history of reading calls that does not ask for a [usize] or [isize]. *)
Theorem C71_read : forall ops d p, Forall fixed_read ops -> allocatable32 d -> p < 4294967296 ->
  NarrowReader.run_rops ops d p = run_rops ops d p.
Proof. intros ops d p HF Hd Hp. apply narrow_rops; assumption. Qed.
Example C71_read_case : Forall fixed_read [RTakeInt KLe U16; RTakeBytes 2; RTakeUint KBe 8] /\
  NarrowReader.run_rops [RTakeInt KLe U16; RTakeBytes 2; RTakeUint KBe 8] (hex [1; 2; 3; 4; 5; 6]) 0 =
  Some ([inl (RvZ 513); inl (RvBytes (hex [3; 4])); inr (mkerr 4 InvalidByteLength)], 4).
Proof. split; [repeat constructor; discriminate|vm_compute; reflexivity]. Qed.
(** A [usize] is read from four bytes or from eight. *)
Theorem C71_usize_read_refuted : 
  NarrowReader.take_int KBe Usize (hex [0; 0; 0; 1; 0; 0; 0; 2]) 0 = Ok 1%Z 4 /\
  take_int KBe Usize (hex [0; 0; 0; 1; 0; 0; 0; 2]) 0 = Ok 4294967298%Z 8.
Proof. split; vm_compute; reflexivity. Qed.

(** *** Writing *)
Lemma push_no_error v d p : p <= size d -> allocatable d -> allocatable v -> forall e b, push v (mkbuf d p) <> Err e b.
Proof.
  unfold allocatable. change size with (@lenN byte). intros Hp Hd Hv e b. unfold push. cbn [b_data b_pos]. rewrite remaining_len_eq, wadd_small by lia.
  destruct (N.ltb_spec (lenN d - p) (lenN v)) as [L|L].
  - destruct (vec_resize _ _); [|discriminate]. destruct (N.eqb_spec (p + lenN v) 0); [lia|]. destruct (write_at _ _ _); discriminate.
  - destruct (write_at _ _ _); discriminate.
Qed.
(** Any history of pushes after which the data are still small. *)
Theorem C71_write : forall ops d p rs b, Forall fixed_write ops -> Forall pushable ops -> p <= size d -> allocatable d ->
  run_wops ops (mkbuf d p) = Some (rs, b) -> allocatable32 (b_data b) ->
  NarrowWriter.run_wops ops (mkbuf d p) = Some (rs, b).
Proof.
  assert (M : forall ops d p rs b, Forall fixed_write ops -> Forall pushable ops -> p <= size d -> allocatable d ->
    run_wops ops (mkbuf d p) = Some (rs, b) -> size d <= size (b_data b) /\
    (allocatable32 (b_data b) -> NarrowWriter.run_wops ops (mkbuf d p) = Some (rs, b))).
  2:{ intros. eapply M; eassumption. }
  induction ops as [|o ops IH]; intros d p rs b HF HV Hp Hd E.
  - injection E as <- <-. split; [cbn; lia|reflexivity].
  - inversion_clear HF as [|? ? F1 F2]. inversion_clear HV as [|? ? V1 V2]. cbn [run_wops] in E.
    pose proof (h_wop o F1 d p (N.le_0_l p) Hp Hd) as Q. cbn [NarrowWriter.run_wops].
    destruct (run_wop o (mkbuf d p)) as [n [d' p']|e [d' p']| |] eqn:R; try discriminate E.
    + cbn [b_data b_pos] in Q. destruct Q as (Q1 & Q2 & Q3 & _ & Q5).
      destruct (run_wops ops (mkbuf d' p')) as [[vs q]|] eqn:E'; [|discriminate E]. injection E as <- <-.
      destruct (IH d' p' vs q F2 V2 Q2 Q3 E') as [G1 G2]. change (@lenN byte) with size in *. split; [lia|]. intros S.
      rewrite Q5 by (unfold small32, allocatable32 in *; change (@lenN byte) with size in *; lia). rewrite (G2 S). reflexivity.
    + destruct (wop_push o) as [(v & Hv & _ & X)|[_ X]]; rewrite X in R.
      { exfalso. exact (push_no_error v d p Hp Hd (Hv V1) _ _ R). }
      injection R as <- <- <-. cbn [b_data b_pos e_kind] in Q. destruct Q as [Q|[Q1 Q2]]; [discriminate Q|].
      destruct (run_wops ops (mkbuf d p)) as [[vs q]|] eqn:E'; [|discriminate E]. injection E as <- <-.
      destruct (IH d p vs q F2 V2 Hp Hd E') as [G1 G2]. split; [exact G1|]. intros S.
      rewrite Q2 by (unfold small32, allocatable32 in *; change (@lenN byte) with size in *; lia). rewrite (G2 S). reflexivity.
Qed.
Example C71_write_case : Forall fixed_write [WPush (hex [1; 2]); WPushUint KLe 5 9; WPushInt KBe U64 300] /\
  Forall pushable [WPush (hex [1; 2]); WPushUint KLe 5 9; WPushInt KBe U64 300] /\
  NarrowWriter.run_wops [WPush (hex [1; 2]); WPushUint KLe 5 9; WPushInt KBe U64 300] (mkbuf (hex [9; 9; 9]) 1) =
  Some ([inl 2; inr (mkerr 3 InvalidByteLength); inl 8], mkbuf (hex [9; 1; 2; 0; 0; 0; 0; 0; 0; 1; 44]) 11).
Proof. split; [repeat constructor; discriminate|]. split; [repeat constructor|vm_compute; reflexivity]. Qed.
(** A [usize] is written as four bytes or as eight. *)
Theorem C71_usize_refuted : 
  NarrowEncode.encode (TInt Usize) (vi 7) = Ok (hex [0; 0; 0; 7]) tt /\
  encode (TInt Usize) (vi 7) = Ok (hex [0; 0; 0; 0; 0; 0; 0; 7]) tt.
Proof. split; vm_compute; reflexivity. Qed.

(** With [length] a [usize] takes up to four bytes, or up to eight. *)
Theorem C71_usize_length_refuted :
  NarrowEncode.encode (struct [(at_length (const 5) plain, TInt Usize)]) (VList [vi 7]) = Err (mkerr 0 InvalidByteLength) tt /\
  encode (struct [(at_length (const 5) plain, TInt Usize)]) (VList [vi 7]) = Ok (hex [0; 0; 0; 0; 7]) tt /\
  NarrowEncode.encode (struct [(at_length (const 4) plain, TInt Usize)]) (VList [vi 7]) = Ok (hex [0; 0; 0; 7]) tt.
Proof. repeat split; vm_compute; reflexivity. Qed.
(** Contents of 2^31 bytes or more: a panic on a 32-bit target only. *)
Theorem C71_push_refuted : forall v d p, v <> [] -> allocatable32 d -> 2147483648 <= p + size v < 4294967296 ->
  NarrowWriter.push v (mkbuf d p) = Panic /\ exists b, push v (mkbuf d p) = Ok (size v) b.
Proof.
  intros v d p V L B. unfold allocatable32 in L. split.
  - unfold NarrowWriter.push. cbn [b_data b_pos].
    assert (X : remaining_len d p < lenN v).
    { assert (0 < lenN v) by (destruct v; [congruence|rewrite lenN_cons; lia]). change size with (@lenN byte) in *.
      rewrite remaining_len_eq. lia. }
    apply N.ltb_lt in X. rewrite X. unfold NarrowWriter.vec_resize.
    replace (NarrowReader.wadd p (lenN v)) with (p + lenN v).
    + replace (p + lenN v <? 2147483648) with false; [reflexivity|]. symmetry. apply N.ltb_ge. exact (proj1 B).
    + unfold NarrowReader.wadd. rewrite N.mod_small; [reflexivity|]. exact (proj2 B).
  - destruct (push_frame v d p) as (d' & E & _); [unfold allocatable; lia|lia|now right|]. eexists. exact E.
Qed.
Example C71_push_case : exists v d p, v <> [] /\ allocatable32 d /\ 2147483648 <= p + size v < 4294967296.
Proof. exists [x00], [], 2147483647. split; [discriminate|]. split; [reflexivity|]. split; [discriminate|reflexivity]. Qed.

(** *** [std::io] *)
(** Any history of calls during which neither the position nor the data go beyond what
    an [isize] of 32 bits can hold. *)
Definition stays_near (ops : list io_op) (b : buf) : Prop := forall before rest outs b', ops = before ++ rest ->
  run_ios before b = Some (outs, b') -> allocatable32 (b_data b') /\ b_pos b' < 2147483648.
Lemma cast_i32 z : (- 2147483648 <= z < 2147483648)%Z -> cast I32 z = z.
Proof.
  intros L. apply cast_id. unfold in_range. change (imin I32) with (-2147483648)%Z. change (imax I32) with 2147483647%Z. lia.
Qed.
Lemma cast_i64 z : (- 9223372036854775808 <= z < 9223372036854775808)%Z -> cast Isize z = z.
Proof. apply cast_isize. Qed.
Lemma raw_near t z : t = U32 \/ t = Usize -> (0 <= z < 2147483648)%Z -> raw_of_int t z = Z.to_N z.
Proof.
  intros T L. unfold raw_of_int. destruct T as [-> | ->].
  - change (imod U32) with 4294967296%Z. rewrite Z.mod_small by lia. reflexivity.
  - change (imod Usize) with 18446744073709551616%Z. rewrite Z.mod_small by lia. reflexivity.
Qed.
Lemma seek_near z b : (- 2147483648 <= z < 4294967296)%Z ->
  (forall r b', (if (z <? 0)%Z then Some (IoInvalidInput, b) else Some (IoSought (b_pos b), mkbuf (b_data b) (raw_of_int Usize z))) = Some (r, b') -> b_pos b' < 2147483648) ->
  (if (cast I32 z <? 0)%Z then Some (IoInvalidInput, b) else Some (IoSought (b_pos b), mkbuf (b_data b) (raw_of_int U32 (cast I32 z)))) =
  (if (z <? 0)%Z then Some (IoInvalidInput, b) else Some (IoSought (b_pos b), mkbuf (b_data b) (raw_of_int Usize z))).
Proof.
  intros L N. destruct (Z.ltb_spec z 0) as [L0|L0].
  - rewrite cast_i32 by lia. destruct (Z.ltb_spec z 0); [reflexivity|lia].
  - specialize (N _ _ eq_refl). cbn [b_pos] in N. assert (z < 2147483648)%Z.
    { unfold raw_of_int in N. change (imod Usize) with 18446744073709551616%Z in N. rewrite Z.mod_small in N by lia. lia. }
    rewrite cast_i32 by lia. destruct (Z.ltb_spec z 0); [lia|]. rewrite !raw_near by (auto; lia). reflexivity.
Qed.
Lemma copy_into_end d a b v d' : copy_into d a b v = Some d' -> b = a + lenN v.
Proof.
  unfold copy_into, slice_get. destruct (N.leb_spec a b) as [L|]; [|discriminate]. destruct (N.leb_spec b (lenN d)) as [L'|]; [|discriminate]. cbn [andb].
  destruct (N.eqb_spec (lenN (firstn (N.to_nat (b - a)) (skipn (N.to_nat a) d))) (lenN v)) as [E|]; [|discriminate]. intros _.
  unfold lenN in *. rewrite firstn_length, skipn_length in E. lia.
Qed.
Lemma io_near o b : near_seek o -> allocatable32 (b_data b) -> b_pos b < 2147483648 ->
  (forall r b', run_io o b = Some (r, b') -> allocatable32 (b_data b') /\ b_pos b' < 2147483648) ->
  run_io o b <> None -> NarrowIo.run_io o b = run_io o b.
Proof.
  intros HS Hd Hp HN HX. unfold allocatable32 in *. change size with (@lenN byte) in *.
  destruct o as [n|v| |w]; cbn [NarrowIo.run_io run_io] in *; [| |reflexivity|].
  - unfold NarrowIo.io_read, io_read. destruct (N.leb_spec (lenN (b_data b)) (b_pos b)); [reflexivity|]. cbv zeta.
    rewrite !add32, !wadd_small by lia. reflexivity.
  - assert (L : b_pos b + lenN v < 2147483648 \/ 2147483648 <= b_pos b + lenN v) by lia. destruct L as [L|L].
    + unfold NarrowIo.io_write, io_write. cbv zeta. rewrite !add32, !wadd_small by lia.
      unfold NarrowWriter.vec_resize, vec_resize. destruct (N.ltb_spec (b_pos b + lenN v) 2147483648); [|lia].
      destruct (N.ltb_spec (b_pos b + lenN v) W63); [reflexivity|lia].
    + exfalso. destruct (io_write v b) as [[r b']|] eqn:E; [|exact (HX eq_refl)]. specialize (HN r b' eq_refl).
      unfold io_write in E. destruct (if lenN (b_data b) <? _ then _ else _) as [d|]; [|discriminate E].
      destruct (copy_into d (b_pos b) _ v) as [d'|] eqn:C; [|discriminate E]. apply copy_into_end in C. injection E as _ <-. cbn [b_pos] in HN. lia.
  - unfold NarrowIo.io_seek, io_seek in *. cbv zeta in *. destruct w as [off|off|off]; cbn [near_seek] in HS.
    + rewrite (cast_i64 (Z.of_N off)) in * by lia. apply seek_near; [lia|]. intros r b' E. exact (proj2 (HN r b' E)).
    + rewrite !(cast_i64 (Z.of_N _)), !(cast_i64 off), !(cast_i64 (_ + _)) in * by lia.
      rewrite (cast_i32 (Z.of_N _)), (cast_i32 off) by lia. apply seek_near; [lia|]. intros r b' E. exact (proj2 (HN r b' E)).
    + rewrite !(cast_i64 (Z.of_N _)), !(cast_i64 off), !(cast_i64 (_ + _)) in * by lia.
      rewrite (cast_i32 (Z.of_N _)), (cast_i32 off) by lia. apply seek_near; [lia|]. intros r b' E. exact (proj2 (HN r b' E)).
Qed.
Theorem C71_io : forall ops b outs b', Forall near_seek ops -> run_ios ops b = Some (outs, b') -> stays_near ops b ->
  NarrowIo.run_ios ops b = Some (outs, b').
Proof.
  induction ops as [|o ops IH]; intros b outs b' HS E HN; [exact E|]. inversion_clear HS as [|? ? S1 S2].
  destruct (HN [] (o :: ops) [] b eq_refl eq_refl) as [N1 N2]. cbn [run_ios] in E. cbn [NarrowIo.run_ios].
  destruct (run_io o b) as [[r b1]|] eqn:R; [|discriminate E].
  assert (X : NarrowIo.run_io o b = run_io o b).
  { apply io_near; auto; [|rewrite R; discriminate]. intros r' b2 E2. rewrite R in E2. injection E2 as <- <-.
    apply (HN [o] ops [r] b1 eq_refl). cbn [run_ios]. rewrite R. reflexivity. }
  rewrite X, R. destruct (run_ios ops b1) as [[rs b2]|] eqn:E1; [|discriminate E]. injection E as <- <-.
  rewrite (IH b1 rs b2 S2 E1); [reflexivity|]. intros before rest outs bx -> Ex.
  apply (HN (o :: before) rest (r :: outs) bx eq_refl). cbn [run_ios]. rewrite R, Ex. reflexivity.
Qed.
Example C71_io_case : let ops := [OpWrite (hex [1; 2; 3]); OpSeek (SEnd (-2)); OpRead 5; OpSeek (SCurrent (-9)); OpSeek (SStart 7)] in
  Forall near_seek ops /\ stays_near ops buf_new /\
  NarrowIo.run_ios ops buf_new = Some ([IoWritten 3; IoSought 3; IoRead 2 (hex [2; 3]); IoInvalidInput; IoSought 3], mkbuf (hex [1; 2; 3]) 7).
Proof.
  split; [repeat constructor; cbn; lia|]. split; [|vm_compute; reflexivity].
  intros before rest outs b' E. do 6 (destruct before as [|? before]; [intros X; vm_compute in X; injection X as _ <-; split; reflexivity|cbn [app] in E; first [discriminate E|injection E as <- E] ]).
Qed.
(** A seek to 2^31: a position or an error. *)
Theorem C71_seek_refuted : 
  NarrowIo.run_ios [OpSeek (SStart 2147483648)] buf_new = Some ([IoInvalidInput], buf_new) /\
  run_ios [OpSeek (SStart 2147483648)] buf_new = Some ([IoSought 0], mkbuf [] 2147483648).
Proof. split; reflexivity. Qed.

(** *** Decoding *)
(** Any schema without [usize] and [isize] and without [offset], whose attributes evaluate
    to numbers of 32 bits and whose prefixes have at most four bytes; any data that fit
    into the memory of a 32-bit target. *)
Theorem C71_decode : forall t ca fa d p, portable t -> typed t -> offset_free t = true -> each_decoder stays_usize32 t ->
  narrow_modifiers t fa -> Forall (fun kv => snd kv < 4294967296) (k_vars ca) -> allocatable32 d -> p < 4294967296 ->
  NarrowDecode.dec t ca fa d p = dec t ca fa d p.
Proof.
  intros t ca fa d p HP HT HO HU (H1 & H2 & H3) HV Hd Hp.
  exact (proj1 (sm_dec t HP HT HO HU ca fa HV (conj (conj H1 H2) H3) d p Hd Hp)).
Qed.
(** *** Encoding *)
Lemma grows_alike {A} (m : wr A) : grows m -> alike m.
Proof.
  intros G d p _ Hp Hd. specialize (G d p Hp Hd). destruct (m (mkbuf d p)) as [a b|e b| |]; auto.
  destruct G as (G1 & G2 & G3). repeat split; auto. lia.
Qed.
Lemma encode_alike t ca fa v : portable t -> typed t -> address_free t = true -> grouped t = true -> each_encoder value_of grows t ->
  value_of t v -> narrow_modifiers t fa -> counts_all fa = true -> Forall (fun kv => snd kv < 4294967296) (k_vars ca) ->
  H 0 0 (NarrowEncode.enc t ca fa v) (enc t ca fa v).
Proof.
  intros HP HT HA HG HU Hv (H1 & H2 & _) HC HV. apply h_enc; auto; [|split; assumption].
  revert HU. apply each_encoder_impl. intros m. apply grows_alike.
Qed.
(** What a 64-bit target encodes into less than 2^31 bytes, a 32-bit target encodes into
    the same bytes. *)
Theorem C71_encode : forall t ca fa v d p n b, portable t -> typed t -> address_free t = true -> grouped t = true ->
  each_encoder value_of grows t -> value_of t v -> narrow_modifiers t fa -> counts_all fa = true ->
  Forall (fun kv => snd kv < 4294967296) (k_vars ca) -> p <= size d -> allocatable d ->
  enc t ca fa v (mkbuf d p) = Ok n b -> allocatable32 (b_data b) -> NarrowEncode.enc t ca fa v (mkbuf d p) = Ok n b.
Proof.
  intros t ca fa v d p n b HP HT HA HG HU Hv Hf HC HV Hp Hd E S.
  pose proof (encode_alike t ca fa v HP HT HA HG HU Hv Hf HC HV d p (N.le_0_l p) Hp Hd) as Q. rewrite E in Q. apply Q, S.
Qed.
(** So for errors. ([PushFail] stands for a sum of lengths of 2^64.) *)
Theorem C71_encode_error : forall t ca fa v d p e b, portable t -> typed t -> address_free t = true -> grouped t = true ->
  each_encoder value_of grows t -> value_of t v -> narrow_modifiers t fa -> counts_all fa = true ->
  Forall (fun kv => snd kv < 4294967296) (k_vars ca) -> p <= size d -> allocatable d ->
  enc t ca fa v (mkbuf d p) = Err e b -> e_kind e <> PushFail -> allocatable32 (b_data b) ->
  NarrowEncode.enc t ca fa v (mkbuf d p) = Err e b.
Proof.
  intros t ca fa v d p e b HP HT HA HG HU Hv Hf HC HV Hp Hd E HE S.
  pose proof (encode_alike t ca fa v HP HT HA HG HU Hv Hf HC HV d p (N.le_0_l p) Hp Hd) as Q. rewrite E in Q.
  destruct Q as [Q|[_ Q]]; [contradiction|]. apply Q, S.
Qed.
(** A [NetAddress] that is an IP address or a MAC address, likewise: [size l] bytes are 4, 16 or 6. *)
Theorem C71_address : forall i t l ca fa d p n b, In (i, t) [(0, TIpv4); (1, TIpv6); (2, TMac)] -> value_of t (VBytes l) ->
  narrow_modifiers t fa -> counts_all fa = true -> Forall (fun kv => snd kv < 4294967296) (k_vars ca) -> p <= size d -> allocatable d ->
  let v := VVariant (N.to_nat i) [VBytes l] in
  enc TNetAddr ca fa v (mkbuf d p) = Ok n b -> allocatable32 (b_data b) -> NarrowEncode.enc TNetAddr ca fa v (mkbuf d p) = Ok n b.
Proof.
  intros i t l ca fa d p n b I V F C K P A v E S.
  assert (Q : enc t ca fa (VBytes l) (mkbuf d p) = Ok n b -> NarrowEncode.enc t ca fa (VBytes l) (mkbuf d p) = Ok n b).
  { intros E'. eapply C71_encode; try eassumption; destruct I as [[= <- <-]|[[= <- <-]|[[= <- <-]|[]]]]; (reflexivity || exact Logic.I || idtac). }
  destruct I as [[= <- <-]|[[= <- <-]|[[= <- <-]|[]]]]; exact (Q E).
Qed.
Example C71_address_case : value_of TMac (VBytes (hex [1; 2; 3; 4; 5; 6])) /\
  NarrowEncode.encode TNetAddr (VVariant 2 [VBytes (hex [1; 2; 3; 4; 5; 6])]) = Ok (hex [1; 2; 3; 4; 5; 6]) tt /\
  NarrowEncode.encode TNetAddr (VVariant 3 [vi 7]) = Ok (hex [0; 0; 0; 7]) tt.
Proof. repeat split; vm_compute; reflexivity. Qed.
(** Where a user's codec panics, it panics on both. *)
Example C71_panic_case : forall x t v, x_encode x no_cattr no_fattr v buf_new = Panic ->
  NarrowEncode.encode (TUser x t) v = Panic /\ encode (TUser x t) v = Panic.
Proof. intros x t v H. unfold NarrowEncode.encode, NarrowEncode.encode_into, encode, encode_into. cbn [NarrowEncode.enc enc]. now rewrite H. Qed.
(** *** Exchange *)
Lemma none_narrow t : narrow_modifiers t no_fattr.
Proof. split; [repeat constructor|]. split; [repeat constructor|]. intros _. cbn. intuition discriminate. Qed.
(** What either target encodes, either target decodes. *)
Theorem C71_exchange : forall t v w rest, well_formed t -> portable t -> typed t -> offset_free t = true -> address_free t = true ->
  grouped t = true -> each_decoder stays_usize32 t -> each_encoder value_of grows t ->
  value_of t v -> wire t no_cattr no_fattr v = Some w -> fits t no_cattr no_fattr v rest = true -> allocatable32 (w ++ rest) ->
  (encode t v = Ok w tt /\ NarrowEncode.encode t v = Ok w tt) /\
  (decode t (w ++ rest) 0 = Ok v (size w) /\ NarrowDecode.decode t (w ++ rest) 0 = Ok v (size w)).
Proof.
  intros t v w rest HW HP HT HO HA HG HD HE Hv Hw Hf Hs.
  assert (Ha : allocatable (w ++ rest)) by (unfold allocatable, allocatable32 in *; lia).
  destruct (C30_round_trip t v w rest HW Hw Hf Ha) as [E D]. split.
  - split; [exact E|]. unfold NarrowEncode.encode, NarrowEncode.encode_into, buf_new. unfold encode, encode_into in E.
    destruct (enc t no_cattr no_fattr v buf_new) as [n b|e b| |] eqn:X; try discriminate E. unfold buf_new in X. injection E as E.
    assert (S : allocatable32 (b_data b)).
    { rewrite E. unfold allocatable32, size in *. rewrite app_length in Hs. lia. }
    rewrite (C71_encode t no_cattr no_fattr v [] 0 n b HP HT HA HG HE Hv (none_narrow t) eq_refl ltac:(constructor) ltac:(cbn; lia) ltac:(reflexivity) X S).
    rewrite E. reflexivity.
  - split; [exact D|]. unfold NarrowDecode.decode. rewrite (C71_decode t); auto using none_narrow; [constructor|reflexivity].
Qed.
(** *** A schema that meets the conditions *)
Lemma field_ref_in before en i it : env_of before en -> nth_error before i = Some (TInt it) -> value_in it (field_ref i en).
Proof.
  intros [He _] E. unfold field_ref. revert before E He. generalize (ev_fields en). intros l. revert i.
  induction l as [|x l IH]; intros i [|t before] E He; try contradiction; [destruct i; discriminate E|].
  destruct He as [Hx He]. destruct i as [|i]; [|exact (IH i before E He)].
  injection E as ->. destruct x; try contradiction. exact Hx.
Qed.
Ltac narrow_by := repeat match goal with
  | |- _ /\ _ => split
  | |- True => exact I
  | |- fixed_width _ => split; discriminate
  | |- below _ _ => cbn; lia
  | |- narrow_field _ _ _ => unfold narrow_field
  | |- forall en, env_of _ en -> _ => let en := fresh "en" in let He := fresh "He" in intros en He
  | |- forall e, In _ _ -> _ => let e := fresh "e" in let Hi := fresh "Hi" in intros e Hi; cbn in Hi; repeat destruct Hi as [Hi|Hi]; try discriminate Hi; try contradiction; injection Hi as <-
  | |- forall e, f_order _ = _ -> _ => cbn; intros ? X; discriminate X
  | |- has_address _ = true -> _ => cbn; intros X; discriminate X
  | |- forall k e, In _ _ -> _ => cbn; contradiction
  | |- in_usize32 (const _ _) => unfold in_usize32, const; lia
  | |- (_ <= const _ _)%Z => unfold const; lia
  | |- (const _ _ <= _)%Z => unfold const; lia
  | |- portable (TInt _) => split; discriminate
  | |- portable ?t => unfold t
  | |- context [e_branching ?e] => unfold e
  | |- in_usize32 (field_ref ?i _) => let V := fresh "V" in
      match goal with He : env_of ?b ?en |- _ => pose proof (field_ref_in b en i _ He eq_refl) as V; unfold in_usize32; unfold value_in in V; cbn [is_signed] in V; vm_compute (2 ^ _)%Z in V; lia end
  | |- _ => progress cbn [portable narrow_fields every map app fst snd e_branching e_c c_byte_count]
  end.
Example packet_portable : portable Packet.
Proof. unfold Packet, Message. narrow_by. Qed.
Example C71_case : well_formed Packet /\ portable Packet /\ typed Packet /\ offset_free Packet = true /\ address_free Packet = true /\
  grouped Packet = true /\ each_decoder stays_usize32 Packet /\ each_encoder value_of grows Packet /\ value_of Packet packet /\
  wire Packet no_cattr no_fattr packet = Some packet_bytes /\ fits Packet no_cattr no_fattr packet [] = true /\
  NarrowEncode.encode Packet packet = Ok packet_bytes tt /\
  NarrowDecode.decode Packet packet_bytes 0 = Ok packet (size packet_bytes).
Proof.
  split; [exact C30_well_formed|]. split; [exact packet_portable|]. split; [exact packet_typed|]. split; [reflexivity|]. split; [reflexivity|].
  split; [reflexivity|]. split; [apply no_code_decoders; reflexivity|]. split; [apply no_code_encoders; reflexivity|].
  split; [exact packet_value|]. split; [vm_compute; reflexivity|]. split; [vm_compute; reflexivity|]. split; vm_compute; reflexivity.
Qed.
(** A [NetAddress] whose length is one that both targets have. *)
Example address_portable : portable (struct [(at_length (const 6) plain, TNetAddr); (at_length (const 3) plain, TNetAddr)]) /\
  NarrowDecode.decode (struct [(at_length (const 6) plain, TNetAddr); (at_length (const 3) plain, TNetAddr)]) (hex [1; 2; 3; 4; 5; 6; 7; 8; 9]) 0 =
  Ok (VList [VVariant 2 [VBytes (hex [1; 2; 3; 4; 5; 6])]; VVariant 3 [vi 460809]]) 9.
Proof.
  split; [|vm_compute; reflexivity]. unfold struct. narrow_by.
  all: intros _; split; [reflexivity|]; split; [reflexivity|]; intros e X; injection X as <-; unfold const; cbn; intuition discriminate.
Qed.

(** *** What differs *)
(** A prefix of eight bytes is cut to its low four: a length of 2^32 + 1 is one of 1. *)
Definition Prefixed : ty := struct [(at_byte_count (const 8) plain, TBytes)].
Theorem C71_prefix_refuted :
  NarrowDecode.decode Prefixed (hex [0; 0; 0; 1; 0; 0; 0; 1; 42]) 0 = Ok (VList [VBytes (hex [42])]) 9 /\
  decode Prefixed (hex [0; 0; 0; 1; 0; 0; 0; 1; 42]) 0 = Err (mkerr 8 InvalidByteLength) 8.
Proof. split; vm_compute; reflexivity. Qed.
(** So is a tag of an enum: the number 2^32 + 1 selects the variant 1. *)
Definition Wide : ty := TEnum (mkespec (mkcspec None (Some 8)) ByTag false) [(variant_value true 1, [(plain, u8)])].
Theorem C71_tag_refuted :
  NarrowDecode.decode Wide (hex [0; 0; 0; 1; 0; 0; 0; 1; 42]) 0 = Ok (VVariant 0 [vi 42]) 9 /\
  decode Wide (hex [0; 0; 0; 1; 0; 0; 0; 1; 42]) 0 = Err (mkerr 8 InvalidByteLength) 8.
Proof. split; vm_compute; reflexivity. Qed.
(** A mask is a [usize]: of a mask above 2^32 nothing is left. *)
Definition High : ty := struct [(at_bits_start (const 0xff00000000) plain, TInt U64)].
Theorem C71_bits_refuted :
  NarrowDecode.decode High (hex [0; 0; 0; 7; 0; 0; 0; 0]) 0 = Ok (VList [vi 0]) 8 /\
  decode High (hex [0; 0; 0; 7; 0; 0; 0; 0]) 0 = Ok (VList [vi 7]) 8.
Proof. split; vm_compute; reflexivity. Qed.
(** An [offset] that takes the position past 2^32 goes back to the first byte. *)
Definition Far : ty := struct [(plain, u8); (at_offset (const 4294967295) plain, u8)].
Theorem C71_offset_refuted : portable Far /\
  NarrowDecode.decode Far (hex [7; 8]) 0 = Ok (VList [vi 7; vi 7]) 1 /\
  decode Far (hex [7; 8]) 0 = Err (mkerr 4294967296 InvalidByteLength) 4294967296.
Proof. split; [unfold Far, struct; narrow_by|]. split; vm_compute; reflexivity. Qed.
(** A [NetAddress] of eight bytes is one on a 64-bit target only. *)
Theorem C71_address_refuted :
  NarrowDecode.decode (struct [(at_length (const 8) plain, TNetAddr)]) (hex [0; 0; 0; 0; 0; 0; 0; 5]) 0 = Err (mkerr 0 InvalidByteLength) 0 /\
  decode (struct [(at_length (const 8) plain, TNetAddr)]) (hex [0; 0; 0; 0; 0; 0; 0; 5]) 0 = Ok (VList [VVariant 3 [vi 5]]) 8.
Proof. split; vm_compute; reflexivity. Qed.

Print Assumptions C71_read.
Print Assumptions C71_usize_read_refuted.
Print Assumptions C71_write.
Print Assumptions C71_usize_refuted.
Print Assumptions C71_usize_length_refuted.
Print Assumptions C71_push_refuted.
Print Assumptions C71_io.
Print Assumptions C71_seek_refuted.
Print Assumptions C71_decode.
Print Assumptions C71_encode.
Print Assumptions C71_encode_error.
Print Assumptions C71_exchange.
Print Assumptions C71_address.
Print Assumptions C71_prefix_refuted.
Print Assumptions C71_tag_refuted.
Print Assumptions C71_bits_refuted.
Print Assumptions C71_offset_refuted.
Print Assumptions C71_address_refuted.

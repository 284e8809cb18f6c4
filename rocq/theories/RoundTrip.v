(** Round trips: consequences of [enc_writes_wire] and [dec_reads_wire]. *)
From Coq Require Import Permutation.
From Verif Require Import Base Ints Reader Writer Spec SpecOps.
From Verif Require Import BaseLemmas ReaderLemmas ReaderHist WriterLemmas WriterHist CodecBase BitsLemmas EncLemmas DecLemmas DecWire.
From Verif Require Import Schema Utf8 Sugar Decode Encode RunSpec WireSpec CodecSpec.

Lemma writes_writes_as (e : wr N) w : writes e w -> writes_as e w.
Proof. intros H d p Hp Hd Hw. apply H. unfold room, small. auto. Qed.
Lemma reads_reads_as {A} (m : rd A) w rest a : reads m w rest a -> reads_as m w rest a.
Proof. intros H pre Hs. apply H. exact Hs. Qed.

Lemma encoder_writes t ca fa v w : well_formed t -> wire t ca fa v = Some w -> writes_as (enc t ca fa v) w.
Proof. intros Hwf Hw. apply writes_writes_as. eapply enc_writes_wire; eauto. apply same_refl. Qed.
Lemma decoder_reads t ca fa v w rest : well_formed t -> wire t ca fa v = Some w -> fits t ca fa v rest = true ->
  reads_as (dec t ca fa) w rest v.
Proof. intros. apply reads_reads_as. eapply dec_reads_wire; eassumption. Qed.

Lemma encode_is_wire t v w : well_formed t -> wire t no_cattr no_fattr v = Some w -> allocatable w -> encode t v = Ok w tt.
Proof.
  intros Hwf Hw Hs. unfold encode, encode_into, buf_new.
  destruct (encoder_writes t no_cattr no_fattr v w Hwf Hw [] 0) as [n Hn].
  - cbn; lia.
  - unfold allocatable, size; cbn; lia.
  - unfold allocatable in Hs. lia.
  - rewrite Hn. cbn [b_data]. f_equal. unfold overwrite. cbn. rewrite skipn_nil, app_nil_r. reflexivity.
Qed.
Lemma round_trip t v w rest : well_formed t -> wire t no_cattr no_fattr v = Some w -> fits t no_cattr no_fattr v rest = true ->
  allocatable (w ++ rest) -> encode t v = Ok w tt /\ decode t (w ++ rest) 0 = Ok v (size w).
Proof.
  intros Hwf Hw Hf Hs. split.
  - apply encode_is_wire; auto. unfold allocatable, size in *. rewrite app_length in Hs. lia.
  - apply (decoder_reads t no_cattr no_fattr v w rest Hwf Hw Hf []). exact Hs.
Qed.

(** ** Addresses *)
Lemma address_short t ca fa n d p : In (t, n) [(TMac, 6); (TIpv4, 4); (TIpv6, 16)] -> allocatable d ->
  size d < p + n -> refuses (dec t ca fa) d p.
Proof.
  intros [E|[E|[E|[]]]] Hd Hs; injection E as <- <-; unfold refuses; cbn [dec]; unfold bind.
  - unfold dec_mac, take_uint, bind. eexists. rewrite take_n_out; [reflexivity|lia|exact Hs|left; lia].
  - unfold dec_ipv4, bind. eexists. rewrite take_int_out; [reflexivity|exact Hd|exact Hs].
  - unfold dec_ipv6, bind. eexists. rewrite take_int_out; [reflexivity|exact Hd|exact Hs].
Qed.

(** ** Key: what precedes the first occurrence of the key is skipped *)
Lemma key_skips ca fa k l w junk rest : a_key fa = Some k -> ends_first k junk = true ->
  frame ca fa l = Some w -> fits_frame fa l rest = true -> reads (dec_raw ca fa) (junk ++ w) rest l.
Proof.
  intros Hk Hj Hw Hf. pose proof (dec_raw_reads ca fa l w rest Hw Hf) as HR.
  unfold frame in Hw. rewrite Hk in Hw.
  match type of Hw with option_map _ ?x = _ => destruct x as [framed|]; [|discriminate] end.
  cbn [option_map optional] in Hw. injection Hw as <-.
  intros pre Hs. unfold dec_raw in *. rewrite Hk in *. cbn [skip_to] in *.
  set (tail := optional (a_split fa) ++ framed) in *.
  specialize (HR (pre ++ junk)). rewrite <- !app_assoc in *. specialize (HR Hs).
  unfold bind at 1 2, find_subsequence_needle in HR. unfold bind at 1 2, find_subsequence_needle.
  rewrite (app_assoc pre junk) in HR. rewrite remaining_app in HR. rewrite remaining_app.
  rewrite memmem_here in HR. rewrite ends_first_memmem by exact Hj.
  unfold small in Hs. rewrite !lenN_app in Hs.
  change (N.of_nat 0) with 0 in HR. change (N.of_nat (length junk)) with (lenN junk).
  rewrite (wadd_small 0) in HR by lia. rewrite N.add_0_l in HR.
  rewrite (wadd_small (lenN junk)) by lia. rewrite lenN_app in HR.
  rewrite wadd_small in HR by lia. rewrite wadd_small by lia.
  rewrite <- lenN_app in HR at 1. rewrite <- (lenN_app pre junk) in HR.
  rewrite slice_ok_app in HR by (rewrite !lenN_app; lia).
  replace (lenN pre + (lenN junk + lenN k)) with (lenN pre + lenN (junk ++ k)) by (rewrite lenN_app; reflexivity).
  replace (pre ++ junk ++ k ++ tail ++ rest) with (pre ++ (junk ++ k) ++ tail ++ rest) by (rewrite <- app_assoc; reflexivity).
  rewrite slice_ok_app by (rewrite !lenN_app; lia).
  replace ((pre ++ junk) ++ k ++ tail ++ rest) with (pre ++ (junk ++ k) ++ tail ++ rest) in HR by (rewrite <- !app_assoc; reflexivity).
  replace (lenN (pre ++ junk) + lenN k) with (lenN pre + lenN (junk ++ k)) in HR by (rewrite !lenN_app; lia).
  rewrite HR. f_equal. rewrite !lenN_app. lia.
Qed.

(** ** Integers with a length *)
Lemma cast_small t u : u < 256 ^ sizeN t -> cast t (Z.of_N u) = int_of_raw t u.
Proof.
  intros H. unfold cast. f_equal. unfold raw_of_int. rewrite <- imod_pow256, <- N2Z.inj_mod, N2Z.id.
  apply N.mod_small, H.
Qed.
Lemma length_decode it ca fa l d p : a_length fa = Some l -> a_bits fa = None -> l <= width_bytes it -> l <= 8 ->
  allocatable d -> p + l <= size d ->
  dec (TInt it) ca fa d p = Ok (VInt (int_number (order_for ca fa) it (window d p l))) (p + l).
Proof.
  intros Hl Hb Hw H8 Hd Hp. cbn [dec]. unfold dec_int, bind. rewrite Hl, Hb, <- width_sizeN.
  destruct (N.ltb_spec (width_bytes it) l); [lia|]. unfold take_uint, ko. cbn [order_of].
  rewrite take_n_in; [|exact Hd|exact H8|exact Hp]. unfold ret. do 2 f_equal.
  rewrite int_number_eq. replace (order_for ca fa) with (get_byteorder ca fa) by (symmetry; apply order_for_get1).
  apply cast_small. eapply N.lt_le_trans; [apply from_bytes_lt|]. rewrite <- width_sizeN.
  apply N.pow_le_mono_r; [lia|]. rewrite lenN_sub by exact Hp. exact Hw.
Qed.
Lemma length_decode_short it ca fa l d p : a_length fa = Some l -> l <= width_bytes it -> l <= 8 ->
  size d < p + l -> 0 < l \/ p <= size d -> refuses (dec (TInt it) ca fa) d p.
Proof.
  intros Hl Hw H8 Hp Hz. unfold refuses. cbn [dec]. unfold dec_int, bind. rewrite Hl, <- width_sizeN.
  destruct (N.ltb_spec (width_bytes it) l); [lia|]. unfold take_uint, ko. cbn [order_of].
  eexists. rewrite take_n_out; [reflexivity|exact H8|exact Hp|exact Hz].
Qed.
Lemma length_too_big_decode it ca fa l d p : a_length fa = Some l -> width_bytes it < l -> refuses (dec (TInt it) ca fa) d p.
Proof.
  intros Hl Hw. unfold refuses. cbn [dec]. unfold dec_int, bind. rewrite Hl, <- width_sizeN.
  destruct (N.ltb_spec (width_bytes it) l); [|lia]. eexists. reflexivity.
Qed.
Lemma length_too_big_encode it ca fa l z b : a_length fa = Some l -> a_bits fa = None -> width_bytes it < l ->
  exists e, enc (TInt it) ca fa (VInt z) b = Err e b.
Proof.
  intros Hl Hb Hw. cbn [enc]. unfold enc_int, wbind, wret. rewrite Hl, Hb, <- width_sizeN.
  destruct (N.ltb_spec (width_bytes it) l); [|lia]. eexists. reflexivity.
Qed.
Lemma digits_mod bo n v : digits bo n (v mod 256 ^ N.of_nat n) = digits bo n v.
Proof. rewrite !digits_to_bytes. apply to_bytes_mod. Qed.
Lemma mod_pow_le (z : Z) (a b : N) : a <= b ->
  ((z mod Z.of_N (256 ^ b)) mod Z.of_N (256 ^ a) = z mod Z.of_N (256 ^ a))%Z.
Proof.
  intros H. replace b with (a + (b - a)) by lia. rewrite N.pow_add_r, N2Z.inj_mul.
  pose proof (pow256_pos a). pose proof (pow256_pos (b - a)).
  rewrite Z.rem_mul_r by lia. rewrite Z.mul_comm, Z_mod_plus_full, Z.mod_mod by lia. reflexivity.
Qed.
Lemma length_encode it ca fa l z : a_length fa = Some l -> a_bits fa = None -> l <= width_bytes it -> l <= 8 ->
  writes_as (enc (TInt it) ca fa (VInt z)) (digits (order_for ca fa) (N.to_nat l) (Z.to_N (z mod Z.of_N (256 ^ l)))).
Proof.
  intros Hl Hb Hw H8. apply writes_writes_as.
  apply writes_ext with (push_uint (KOrder (get_byteorder ca fa)) (raw_of_int U64 z) l).
  - intros b. cbn [enc]. unfold enc_int, wbind, wret. rewrite Hl, Hb, <- width_sizeN.
    destruct (N.ltb_spec (width_bytes it) l); [lia|]. reflexivity.
  - replace (order_for ca fa) with (get_byteorder ca fa) by (symmetry; apply order_for_get1).
    apply writes_eq with (digits (get_byteorder ca fa) (N.to_nat l) (raw_of_int U64 z)); [|apply writes_digits_uint; exact H8].
    rewrite <- (digits_mod _ _ (raw_of_int U64 z)). f_equal. rewrite N2Nat.id.
    unfold raw_of_int. rewrite <- imod_pow256. change (sizeN U64) with 8.
    pose proof (pow256_pos l). pose proof (pow256_pos 8).
    apply N2Z.inj. rewrite N2Z.inj_mod, !Z2N.id; [|apply Z.mod_pos_bound; lia|apply Z.mod_pos_bound; lia].
    apply mod_pow_le, H8.
Qed.
Lemma length_round_trip it z l : value_in it z -> 0 < l -> l <= width_bytes it ->
  (int_of_raw it (Z.to_N (z mod Z.of_N (256 ^ l))) = z <-> (0 <= z < Z.of_N (256 ^ l))%Z \/ l = width_bytes it).
Proof.
  intros Hz H0 Hl. apply value_in_range in Hz. rewrite width_sizeN in *.
  destruct (N.eq_dec l (sizeN it)) as [->|Hne].
  - split; [auto|]. intros _. rewrite imod_pow256. apply (int_of_raw_of_int it z Hz).
  - pose proof (pow256_pos l).
    pose proof (Z.mod_pos_bound z (Z.of_N (256 ^ l)) ltac:(lia)) as Hm.
    assert (Hhalf : (Z.of_N (256 ^ l) <= imod it / 2)%Z).
    { assert (256 ^ l <= 256 ^ (sizeN it - 1)) by (apply N.pow_le_mono_r; lia).
      assert (Z.of_N (256 ^ (sizeN it - 1)) <= imod it / 2)%Z by (destruct it; vm_compute; discriminate). lia. }
    assert (Hu : int_of_raw it (Z.to_N (z mod Z.of_N (256 ^ l))) = (z mod Z.of_N (256 ^ l))%Z).
    { unfold int_of_raw. rewrite Z2N.id by lia.
      destruct (Z.leb_spec (imod it / 2) (z mod Z.of_N (256 ^ l))); [lia|]. rewrite andb_false_r. reflexivity. }
    rewrite Hu. split.
    + intros E. left. lia.
    + intros [Hr|]; [|congruence]. apply Z.mod_small, Hr.
Qed.

(** ** Bit fields *)
Lemma lowest_odd a : N.odd a = true -> lowest a = 0.
Proof. destruct a as [|[p|p|]]; try discriminate; reflexivity. Qed.
Lemma lowest_double a : a <> 0 -> lowest (2 * a) = 1 + lowest a.
Proof. destruct a as [|p]; [congruence|]. reflexivity. Qed.
Lemma lowest_shift a k : a <> 0 -> lowest (a * 2 ^ k) = k + lowest a.
Proof.
  intros Ha. revert k. apply N.peano_ind.
  - rewrite N.pow_0_r, N.mul_1_r. reflexivity.
  - intros k IH. rewrite N.pow_succ_r'. replace (a * (2 * 2 ^ k)) with (2 * (a * 2 ^ k)) by lia.
    rewrite lowest_double, IH; [lia|]. apply N.neq_mul_0. split; [exact Ha|apply N.pow_nonzero; lia].
Qed.
Lemma lowest_mask k m : 0 < m -> lowest ((2 ^ m - 1) * 2 ^ k) = k.
Proof.
  intros Hm. assert (H2 : 2 ^ m = 2 * 2 ^ (m - 1)) by (rewrite <- N.pow_succ_r'; f_equal; lia).
  assert (0 < 2 ^ (m - 1)) by (apply N.neq_0_lt_0, N.pow_nonzero; lia).
  rewrite lowest_shift by lia. rewrite lowest_odd; [lia|].
  replace (2 ^ m - 1) with (1 + 2 * (2 ^ (m - 1) - 1)) by lia. rewrite N.odd_add_mul_2. reflexivity.
Qed.
Lemma mask_bit k m i : N.testbit ((2 ^ m - 1) * 2 ^ k) i = (k <=? i) && (i <? k + m).
Proof.
  replace (2 ^ m - 1) with (N.ones m) by (rewrite N.ones_equiv, <- N.sub_1_r; reflexivity).
  rewrite <- N.shiftl_mul_pow2. destruct (N.leb_spec k i).
  - rewrite N.shiftl_spec_high' by assumption. destruct (N.ltb_spec i (k + m)).
    + rewrite N.ones_spec_low by lia. reflexivity.
    + rewrite N.ones_spec_high by lia. reflexivity.
  - rewrite N.shiftl_spec_low by assumption. reflexivity.
Qed.
Lemma value_bit k m v i : v < 2 ^ m -> N.testbit (v * 2 ^ k) i = true -> (k <=? i) && (i <? k + m) = true.
Proof.
  intros Hv Hb. rewrite <- N.shiftl_mul_pow2 in Hb. destruct (N.leb_spec k i).
  - rewrite N.shiftl_spec_high' in Hb by assumption. destruct (N.ltb_spec i (k + m)); [reflexivity|].
    exfalso. destruct (N.eq_dec v 0) as [->|Hv0]; [rewrite N.bits_0 in Hb; discriminate|].
    rewrite N.bits_above_log2 in Hb; [discriminate|]. apply N.log2_lt_pow2; [lia|].
    eapply N.lt_le_trans; [exact Hv|]. apply N.pow_le_mono_r; lia.
  - rewrite N.shiftl_spec_low in Hb by assumption. discriminate.
Qed.
(** A placed value lies inside its mask. *)
Lemma fits_mask_bits mask v i : fits_mask mask v -> N.testbit (v * 2 ^ lowest mask) i = true -> N.testbit mask i = true.
Proof.
  intros (k & m & Hm & -> & Hv) Hb. rewrite lowest_mask in Hb by exact Hm.
  rewrite mask_bit. eapply value_bit; eassumption.
Qed.
Lemma fits_mask_le mask v : fits_mask mask v -> v * 2 ^ lowest mask <= mask.
Proof.
  intros (k & m & Hm & -> & Hv). rewrite lowest_mask by exact Hm. apply N.mul_le_mono_r. lia.
Qed.
Lemma fits_mask_placed it mask v : fits_mask mask v -> mask < 256 ^ width_bytes it ->
  placed it mask (Z.of_N v) = v * 2 ^ lowest mask.
Proof.
  intros Hf Hm. unfold placed. rewrite N2Z.id. apply N.mod_small. pose proof (fits_mask_le _ _ Hf). lia.
Qed.
Lemma fits_mask_mask_ok it mask v : is_signed it = false -> fits_mask mask v -> mask < 256 ^ width_bytes it -> mask_ok it mask = true.
Proof.
  intros Hs Hf Hm. unfold mask_ok. rewrite Hs. cbn [negb andb]. apply andb_true_iff. rewrite !N.ltb_lt. split; [|exact Hm].
  destruct Hf as (k & m & Hm0 & -> & Hv). assert (0 < 2 ^ k) by (apply N.neq_0_lt_0, N.pow_nonzero; lia).
  assert (2 ^ 1 <= 2 ^ m) by (apply N.pow_le_mono_r; lia). change (2 ^ 1) with 2 in *.
  apply N.mul_pos_pos; lia.
Qed.

Definition word_of (mvs : list (N * N)) (x : N) : N :=
  fold_left (fun w mv => N.lor w (snd mv * 2 ^ lowest (fst mv))) mvs x.
Lemma word_of_bit mvs : forall x i, N.testbit (word_of mvs x) i =
  N.testbit x i || existsb (fun mv => N.testbit (snd mv * 2 ^ lowest (fst mv)) i) mvs.
Proof.
  induction mvs as [|mv mvs IH]; intros x i; cbn [word_of fold_left existsb]; [rewrite orb_false_r; reflexivity|].
  change (fold_left _ mvs ?y) with (word_of mvs y). rewrite IH, N.lor_spec, orb_assoc. reflexivity.
Qed.
Lemma word_of_under mvs m v : In (m, v) mvs -> (forall m' v', In (m', v') mvs -> fits_mask m' v') ->
  (forall m' v', In (m', v') mvs -> (m', v') = (m, v) \/ disjoint m' m) -> under m (word_of mvs 0) = v.
Proof.
  intros Hin Hf Hd. unfold under.
  assert (E : N.land (word_of mvs 0) m = v * 2 ^ lowest m).
  { apply N.bits_inj. intros i. rewrite N.land_spec, word_of_bit, N.bits_0. cbn [orb].
    destruct (N.testbit (v * 2 ^ lowest m) i) eqn:Eb.
    - rewrite (fits_mask_bits m v i (Hf _ _ Hin) Eb), andb_true_r.
      apply existsb_exists. exists (m, v). auto.
    - destruct (existsb _ mvs) eqn:Ee; [|reflexivity]. apply existsb_exists in Ee as ([m' v'] & Hi & He).
      cbn [fst snd] in He. destruct (Hd _ _ Hi) as [E|Hdis]; [injection E as -> ->; congruence|].
      pose proof (fits_mask_bits m' v' i (Hf _ _ Hi) He) as Hm'. specialize (Hdis i). unfold bit in Hdis.
      rewrite Hm' in Hdis. cbn [andb] in *. exact Hdis. }
  rewrite E. apply N.div_mul. apply N.pow_nonzero. lia.
Qed.
Lemma word_of_lt mvs n : (forall m v, In (m, v) mvs -> fits_mask m v /\ m < 256 ^ n) -> forall x, x < 256 ^ n -> word_of mvs x < 256 ^ n.
Proof.
  induction mvs as [|[m v] mvs IH]; intros H x Hx; [exact Hx|]. cbn [word_of fold_left fst snd].
  apply IH; [intros m' v' Hi; apply H; right; exact Hi|].
  apply lor_lt; [exact Hx|]. destruct (H m v (or_introl eq_refl)) as [Hf Hm]. pose proof (fits_mask_le _ _ Hf). lia.
Qed.

Lemma as_usize_small n : n < 256 ^ 8 -> as_usize (Z.of_N n) = n.
Proof.
  intros H. unfold as_usize, raw_of_int. rewrite <- imod_pow256. change (sizeN Usize) with 8.
  rewrite <- N2Z.inj_mod, N2Z.id. apply N.mod_small, H.
Qed.
Definition bits_fattr (m : N) (start : bool) : fattr :=
  mkfattr None None false None (Some m) start None false None None None None None None None.
Lemma more_bits_cons it m ms : more_bits it (m :: ms) =
  (match ms with [] => at_bits (const (Z.of_N m)) plain | _ => at_untake (at_bits (const (Z.of_N m)) plain) end, TInt it) :: more_bits it ms.
Proof. destruct ms; reflexivity. Qed.
Definition bits_field (start last : bool) (m : N) : fspec :=
  let f := if start then at_bits_start (const (Z.of_N m)) plain else at_bits (const (Z.of_N m)) plain in
  if last then f else at_untake f.
Definition is_last (ms : list N) : bool := match ms with [] => true | _ => false end.
Fixpoint bits_fields (start : bool) (it : ity) (ms : list N) : list (fspec * ty) :=
  match ms with [] => [] | m :: r => (bits_field start (is_last r) m, TInt it) :: bits_fields false it r end.
Lemma more_bits_fields it ms : more_bits it ms = bits_fields false it ms.
Proof. induction ms as [|m ms IH]; [reflexivity|]. rewrite more_bits_cons, IH. destruct ms; reflexivity. Qed.
Lemma bit_group_fields it m ms : bit_group it m ms = bits_fields true it (m :: ms).
Proof. unfold bit_group. destruct ms as [|m' ms]; [reflexivity|]. rewrite more_bits_fields. reflexivity. Qed.
Lemma bits_field_modifiers start last m en : m < 256 ^ 8 -> modifiers (bits_field start last m) en = Some (bits_fattr m start).
Proof.
  intros Hm. pose proof (as_usize_small m Hm) as E.
  destruct start, last; unfold modifiers, bits_field, bits_fattr; cbn; unfold const; rewrite E; reflexivity.
Qed.
Lemma published_plain start last m en ca : published (bits_field start last m) en ca = ca.
Proof. destruct ca, start, last; reflexivity. Qed.

(** Decoding: every field reads the same word. *)
Lemma bits_decode it vars ms : forall start d p ca prev done inherit,
  ms <> [] -> Forall (fun m => mask_ok it m = true /\ m < 256 ^ 8) ms -> small d -> p + width_bytes it <= lenN d ->
  dec_fields dec inherit vars (bits_fields start it ms) ca prev done d p
  = Ok (done ++ numbers (map (fun m => under m (number (match k_order ca with Some bo => bo | None => Be end) (window d p (width_bytes it)))) ms))
       (p + width_bytes it).
Proof.
  induction ms as [|m ms IH]; intros start d p ca prev done inherit Hne Hall Hd Hp; [congruence|].
  inversion Hall as [|? ? [Hm Hm8] Hall']; subst. cbn [bits_fields dec_fields].
  rewrite bits_field_modifiers by exact Hm8.
  replace (inherit && negb (f_use (bits_field start (is_last ms) m))) with false
    by (destruct start, ms, inherit; reflexivity).
  assert (Hf : dec_field (dec (TInt it)) (bits_field start (is_last ms) m) ca (bits_fattr m start) (mkenv done vars) d p
    = Ok (VInt (Z.of_N (under m (number (match k_order ca with Some bo => bo | None => Be end) (window d p (width_bytes it))))))
         (if is_last ms then p + width_bytes it else p)).
  { assert (HB : dec_int it ca (bits_fattr m start) d p
      = Ok (Z.of_N (under m (number (match k_order ca with Some bo => bo | None => Be end) (window d p (width_bytes it))))) (p + width_bytes it)).
    { assert (E : d = firstn (N.to_nat p) d ++ skipn (N.to_nat p) d ++ [])
        by (rewrite app_nil_r; symmetry; apply firstn_skipn).
      assert (HL : lenN (firstn (N.to_nat p) d) = p) by (unfold lenN in *; rewrite firstn_length; lia).
      assert (Hw : width_bytes it <= lenN (skipn (N.to_nat p) d)) by (unfold lenN in *; rewrite skipn_length; lia).
      assert (Hs : small (firstn (N.to_nat p) d ++ skipn (N.to_nat p) d ++ [])) by (rewrite <- E; exact Hd).
      pose proof (dec_bits it ca (bits_fattr m start) m _ [] eq_refl eq_refl Hm Hw _ Hs) as H.
      rewrite <- E, HL in H. rewrite H. unfold order_for. cbn [bits_fattr a_order]. reflexivity. }
    destruct start, ms; unfold dec_field, bits_field, dec_offset; cbn [is_last f_offset f_with_decode f_with_encode f_skip_decode f_from_str f_if f_untake
       f_value_decode f_check at_bits_start at_bits at_untake plain eval_opt option_map dec];
      unfold bind, ret, get_position, set_position; rewrite HB; reflexivity. }
  unfold bind at 1. rewrite Hf. rewrite publish_published, published_plain.
  destruct ms as [|m' ms].
  - cbn [is_last bits_fields dec_fields map numbers]. unfold ret. reflexivity.
  - cbn [is_last]. rewrite IH; [|discriminate|exact Hall'|exact Hd|exact Hp].
    cbn [map numbers]. rewrite <- app_assoc. reflexivity.
Qed.

Lemma value_inb_small it v : is_signed it = false -> v < 256 ^ width_bytes it -> value_inb it (Z.of_N v) = true.
Proof.
  intros Hs Hv. unfold value_inb. rewrite Hs. apply andb_true_iff. rewrite Z.leb_le, Z.ltb_lt. split; [lia|].
  replace (2 ^ (8 * Z.of_N (width_bytes it)))%Z with (Z.of_N (256 ^ width_bytes it)) by (destruct it; reflexivity). lia.
Qed.
Lemma fits_mask_value mask v : fits_mask mask v -> v <= mask.
Proof.
  intros H. pose proof (fits_mask_le _ _ H). assert (0 < 2 ^ lowest mask) by (apply N.neq_0_lt_0, N.pow_nonzero; lia).
  assert (v * 1 <= v * 2 ^ lowest mask) by (apply N.mul_le_mono_l; lia). lia.
Qed.
Lemma bits_wire it vars ms : forall vs start x ca done,
  ms <> [] -> is_signed it = false -> width_bytes it <= 8 ->
  Forall (fun m => m < 256 ^ width_bytes it) ms -> Forall2 fits_mask ms vs -> (start = true -> x = 0) ->
  fields_wire wire vars (if start then None else Some (it, match k_order ca with Some bo => bo | None => Be end, x))
     (bits_fields start it ms) ca done (numbers vs)
  = Some (digits (match k_order ca with Some bo => bo | None => Be end) (N.to_nat (width_bytes it)) (word_of (combine ms vs) x)).
Proof.
  induction ms as [|m ms IH]; intros vs start x ca done Hne Hs Hw8 Hall Hfits Hx; [congruence|].
  inversion Hfits as [|? v ? vs' Hf Hfits']; subst. inversion Hall as [|? ? Hm Hall']; subst.
  assert (Hm8 : m < 256 ^ 8) by (eapply N.lt_le_trans; [exact Hm|apply N.pow_le_mono_r; lia]).
  cbn [bits_fields numbers map fields_wire combine word_of fold_left fst snd].
  change (map (fun v0 : N => VInt (Z.of_N v0)) vs') with (numbers vs').
  rewrite bits_field_modifiers by exact Hm8.
  replace (f_bits (bits_field start (is_last ms) m)) with (Some (const (Z.of_N m))) by (destruct start, ms; reflexivity).
  replace (stored (bits_field start (is_last ms) m) (mkenv done vars) (VInt (Z.of_N v))) with (VInt (Z.of_N v))
    by (destruct start, ms; reflexivity).
  cbn [bits_fattr a_bits]. rewrite (fits_mask_mask_ok it m v Hs Hf Hm).
  replace (bits_only (bits_field start (is_last ms) m)) with true by (destruct start, ms; reflexivity).
  rewrite value_inb_small; [|exact Hs|pose proof (fits_mask_value _ _ Hf); lia]. cbn [andb].
  rewrite fits_mask_placed by assumption.
  unfold order_for. cbn [bits_fattr a_order]. set (bo := match k_order ca with Some bo => bo | None => Be end).
  replace (f_bits_start (bits_field start (is_last ms) m)) with start by (destruct start, ms; reflexivity).
  rewrite published_plain.
  replace (f_untake (bits_field start (is_last ms) m)) with (negb (is_last ms)) by (destruct start, ms; reflexivity).
  change (fold_left _ (combine ms vs') ?y) with (word_of (combine ms vs') y).
  assert (Hgo : (if negb (is_last ms)
      then fields_wire wire vars (Some (it, bo, N.lor x (v * 2 ^ lowest m))) (bits_fields false it ms) ca (done ++ [VInt (Z.of_N v)]) (numbers vs')
      else and_then (Some (digits bo (N.to_nat (width_bytes it)) (N.lor x (v * 2 ^ lowest m))))
             (fields_wire wire vars None (bits_fields false it ms) ca (done ++ [VInt (Z.of_N v)]) (numbers vs')))
      = Some (digits bo (N.to_nat (width_bytes it)) (word_of (combine ms vs') (N.lor x (v * 2 ^ lowest m))))).
  { destruct ms as [|m' ms].
    - inversion Hfits'; subst. cbn [is_last negb bits_fields numbers map fields_wire combine word_of fold_left].
      rewrite and_then_eq, app_nil_r. reflexivity.
    - cbn [is_last negb]. apply (IH vs' false); [discriminate|exact Hs|exact Hw8|exact Hall'|exact Hfits'|discriminate]. }
  destruct start.
  - rewrite (Hx eq_refl), N.lor_0_l in Hgo. rewrite (Hx eq_refl), N.lor_0_l. exact Hgo.
  - replace (same_ity it it) with true by (destruct it; reflexivity).
    replace (same_order bo bo) with true by (destruct bo; reflexivity).
    destruct (N.leb_spec (width_bytes it) 8); [|lia]. cbn [andb]. exact Hgo.
Qed.
Lemma bits_well_formed it ms : forall start,
  every (fun ft : fspec * ty => let (f, t) := ft in
           well_formed t /\ encodes_without_variables f t /\ from_str_ok f t /\ with_ok f) (bits_fields start it ms).
Proof.
  induction ms as [|m ms IH]; intros start; cbn [bits_fields every]; [exact I|]. split; [|apply IH].
  split; [exact I|]. split; [|split].
  - intros done vars vars'. destruct start, ms; repeat split; reflexivity.
  - left. destruct start, ms; reflexivity.
  - destruct start, ms; exact I.
Qed.
Lemma pairwise_in ms : pairwise_disjoint ms -> forall vs m v m' v', Forall2 fits_mask ms vs ->
  In (m, v) (combine ms vs) -> In (m', v') (combine ms vs) -> (m', v') = (m, v) \/ disjoint m' m.
Proof.
  assert (Hsym : forall a b, disjoint a b -> disjoint b a) by (intros a b H i; rewrite andb_comm; apply H).
  induction ms as [|m0 ms IH]; intros Hp vs m v m' v' HF Hi Hi'; [destruct Hi|].
  destruct Hp as [Hd Hp]. inversion HF as [|? v0 ? vs' H0 HF']; subst. rewrite Forall_forall in Hd.
  cbn [combine In] in *. destruct Hi as [E|Hi], Hi' as [E'|Hi'].
  - left. congruence.
  - right. injection E as <- <-. apply Hsym, Hd. eapply in_combine_l; exact Hi'.
  - right. injection E' as <- <-. apply Hd. eapply in_combine_l; exact Hi.
  - eapply IH; eassumption.
Qed.
Lemma bits_group_encode it m ms vs c : is_signed it = false -> width_bytes it <= 8 ->
  Forall (fun m => m < 256 ^ width_bytes it) (m :: ms) -> pairwise_disjoint (m :: ms) -> Forall2 fits_mask (m :: ms) vs ->
  exists word, word < 256 ^ width_bytes it
    /\ Forall2 (fun m v => under m word = v) (m :: ms) vs
    /\ (forall i, bit word i = true -> exists m', In m' (m :: ms) /\ bit m' i = true)
    /\ forall ca fa, writes_as (enc (TStruct true c (bit_group it m ms)) ca fa (VList (numbers vs)))
                               (digits (order_in c) (N.to_nat (width_bytes it)) word).
Proof.
  intros Hs Hw Hall Hp HF. set (L := m :: ms) in *. exists (word_of (combine L vs) 0).
  assert (Hfit : forall m' v', In (m', v') (combine L vs) -> fits_mask m' v' /\ m' < 256 ^ width_bytes it).
  { clear Hp. revert Hall. induction HF as [|m0 v0 l l' H0 HF IH]; intros Hall m' v' Hi; [destruct Hi|].
    inversion Hall; subst. cbn in Hi. destruct Hi as [E|Hi]; [injection E as <- <-; auto|apply IH; assumption]. }
  split; [|split; [|split]].
  - apply word_of_lt; [exact Hfit|]. apply N.neq_0_lt_0, N.pow_nonzero. lia.
  - assert (Hin : forall m' v', In (m', v') (combine L vs) -> under m' (word_of (combine L vs) 0) = v').
    { intros m' v' Hi. apply word_of_under; [exact Hi|intros; apply Hfit; assumption|].
      intros m2 v2 Hi2. eapply pairwise_in; eassumption. }
    clear - HF Hin. revert Hin. generalize (word_of (combine L vs) 0). intros word Hin.
    induction HF as [|m0 v0 l l' H0 HF IH]; constructor; [apply Hin; left; reflexivity|].
    apply IH. intros m' v' Hi. apply Hin. right. exact Hi.
  - intros i Hb. unfold bit in Hb. rewrite word_of_bit, N.bits_0 in Hb. cbn [orb] in Hb.
    apply existsb_exists in Hb as ([m' v'] & Hi & Hb). cbn [fst snd] in Hb. exists m'. split.
    + eapply in_combine_l; exact Hi.
    + eapply fits_mask_bits; [apply Hfit; exact Hi|exact Hb].
  - intros ca fa. apply encoder_writes.
    + cbn [well_formed]. split; [discriminate|]. rewrite bit_group_fields. apply bits_well_formed.
    + cbn [wire]. rewrite bit_group_fields.
      apply (bits_wire it (k_vars ca) L vs true 0 (inner c) []); try assumption; [discriminate|reflexivity].
Qed.
Lemma bits_group_decode it m ms c d p ca fa : is_signed it = false ->
  Forall (fun m => 0 < m /\ m < 256 ^ width_bytes it /\ m < 256 ^ 8) (m :: ms) ->
  allocatable d -> p + width_bytes it <= size d ->
  dec (TStruct true c (bit_group it m ms)) ca fa d p
  = Ok (VList (numbers (map (fun m => under m (number (order_in c) (window d p (width_bytes it)))) (m :: ms))))
       (p + width_bytes it).
Proof.
  intros Hs Hall Hd Hp. cbn [dec]. unfold bind. rewrite bit_group_fields, bits_decode; [reflexivity|discriminate| |exact Hd|exact Hp].
  rewrite Forall_forall in *. intros m' Hi. destruct (Hall m' Hi) as (H1 & H2 & H3). split; [|exact H3].
  unfold mask_ok. rewrite Hs. cbn [negb andb]. apply andb_true_iff. rewrite !N.ltb_lt. auto.
Qed.

(** Encoding on 32-bit and 64-bit targets. *)
From Verif Require Import Base Ints Spec SpecOps Reader Writer BaseLemmas ReaderLemmas ReaderHist WriterLemmas.
From Verif Require Import Schema Utf8 Decode Encode WireSpec CodecBase SafetySpec EncLemmas Counting CheckedSpec CheckedLemmas TypeSpec Typing NarrowSpec NarrowLemmas.
From Verif Require NarrowReader NarrowDecode NarrowWriter NarrowEncode.

Lemma push_same32 v b : b_pos b + lenN v < W31 -> NarrowWriter.push v b = push v b.
Proof.
  intros H. unfold NarrowWriter.push, push. rewrite !add32, !wadd_small by lia.
  unfold NarrowWriter.vec_resize, vec_resize. destruct (N.ltb_spec (b_pos b + lenN v) 2147483648); [|lia].
  destruct (N.ltb_spec (b_pos b + lenN v) W63); [reflexivity|lia].
Qed.

(** They agree whenever the data end small; [lo] bytes are before the position at the
    beginning and [hi] at the end. *)
Definition H (lo hi : N) {A} (c m : wr A) : Prop := forall d p, lo <= p -> p <= lenN d -> small d ->
  match m (mkbuf d p) with
  | Ok _ b => lenN d <= lenN (b_data b) /\ b_pos b <= lenN (b_data b) /\ small (b_data b) /\ hi <= b_pos b /\
              (small32 (b_data b) -> c (mkbuf d p) = m (mkbuf d p))
  | Err e b => e_kind e = PushFail \/ lenN d <= lenN (b_data b) /\ (small32 (b_data b) -> c (mkbuf d p) = m (mkbuf d p))
  | _ => True
  end.
Notation h0 := (H 0 0).

Lemma H_weaken {A} lo hi lo' hi' (c m : wr A) : lo <= lo' -> hi' <= hi -> H lo hi c m -> H lo' hi' c m.
Proof. intros L W Q d p P1 P2 P3. specialize (Q d p ltac:(lia) P2 P3). destruct (m (mkbuf d p)); auto. intuition lia. Qed.
Lemma H_ret {A} lo (a : A) : H lo lo (wret a) (wret a).
Proof. intros d p P1 P2 P3. cbn. repeat split; auto; lia. Qed.
Lemma H_fail {A} lo hi k : H lo hi (@wfail A k) (wfail k).
Proof. intros d p P1 P2 P3. cbn. right. split; [lia|auto]. Qed.
Lemma H_panic {A} lo hi : @H lo hi A (fun _ => Panic) (fun _ => Panic).
Proof. intros d p P1 P2 P3. exact I. Qed.
Lemma write_at_fits d p v d' : write_at d p v = Some d' -> p + lenN v <= lenN d.
Proof.
  unfold write_at, slice_get_from, slice_get_to. destruct (N.leb_spec p (lenN d)) as [A1|]; [|discriminate].
  destruct (N.leb_spec (lenN v) (lenN (skipn (N.to_nat p) d))) as [A2|]; [|discriminate]. intros _.
  unfold lenN in *. rewrite skipn_length in A2. lia.
Qed.
Lemma vec_resize_size d n d' : vec_resize d n = Some d' -> n < W63 /\ lenN d' = n.
Proof.
  unfold vec_resize. destruct (N.ltb_spec n W63); [|discriminate]. destruct (N.leb_spec n (lenN d)); intros E; injection E as <-; (split; [assumption|]).
  - unfold lenN in *. rewrite firstn_length. lia.
  - unfold lenN, zeros in *. rewrite app_length, repeat_length. lia.
Qed.
Lemma H_push lo v : H lo (lo + lenN v) (NarrowWriter.push v) (push v).
Proof.
  intros d p P1 P2 P3. destruct (N.ltb_spec (p + lenN v) W63) as [L|L].
  - rewrite push_ok by (auto; lia). cbn [b_pos b_data]. unfold small, small32 in *. rewrite overwrite_size.
    split; [lia|]. split; [lia|]. split; [lia|]. split; [lia|]. intros Q. rewrite push_same32 by (cbn; lia). apply push_ok; auto; lia.
  - unfold push. cbn [b_data b_pos]. rewrite remaining_len_eq. unfold small in P3.
    destruct (N.ltb_spec (lenN d - p) (lenN v)); [|lia].
    destruct (vec_resize d (wadd p (lenN v))) as [d'|] eqn:E; [|exact I]. apply vec_resize_size in E.
    destruct (_ =? 0); [left; reflexivity|].
    destruct (write_at d' p v) as [d2|] eqn:W; [|exact I]. apply write_at_fits in W. lia.
Qed.
Lemma H_bind {A B} lo mid hi (c m : wr A) (f g : A -> wr B) : H lo mid c m ->
  (forall a, H mid hi (f a) (g a)) -> H lo hi (wbind c f) (wbind m g).
Proof.
  intros H1 H2 d p P1 P2 P3. specialize (H1 d p P1 P2 P3). unfold wbind.
  destruct (m (mkbuf d p)) as [a [d' p']|e b| |]; auto.
  - cbn [b_pos b_data] in H1. destruct H1 as (Q1 & Q2 & Q3 & Q4 & Q5). specialize (H2 a d' p' Q4 Q2 Q3).
    destruct (g a (mkbuf d' p')) as [x b|e b| |]; auto.
    + destruct H2 as (R1 & R2 & R3 & R4 & R5). split; [lia|]. split; [exact R2|]. split; [exact R3|]. split; [exact R4|].
      intros S. rewrite Q5; [exact (R5 S)|]. unfold small32 in *. lia.
    + destruct H2 as [R|[R1 R2]]; [left; exact R|right]. split; [lia|]. intros S. rewrite Q5; [exact (R2 S)|]. unfold small32 in *. lia.
  - destruct H1 as [Q|[Q1 Q2]]; [left; exact Q|right]. split; [exact Q1|]. intros S. rewrite (Q2 S). reflexivity.
Qed.
Lemma H_then {A B} lo mid hi (c m : wr A) (f g : wr B) : H lo mid c m -> H mid hi f g -> H lo hi (_ <~ c ;; f) (_ <~ m ;; g).
Proof. intros H1 H2. apply (H_bind lo mid hi _ _ _ _ H1). intros _. exact H2. Qed.
Lemma H_plus lo mid hi a a' b b' : H lo mid a a' -> H mid hi b b' -> H lo hi (plus a b) (plus a' b').
Proof.
  intros H1 H2. apply (H_bind lo mid hi _ _ _ _ H1). intros x. apply (H_bind mid hi hi _ _ _ _ H2). intros y. apply H_ret.
Qed.
Lemma h_plus a a' b b' : h0 a a' -> h0 b b' -> h0 (plus a b) (plus a' b').
Proof. apply H_plus. Qed.
Lemma h_then {A B} (c m : wr A) (f g : wr B) : h0 c m -> h0 f g -> h0 (_ <~ c ;; f) (_ <~ m ;; g).
Proof. apply H_then. Qed.
Lemma h_push v : h0 (NarrowWriter.push v) (push v).
Proof. apply (H_weaken 0 (0 + lenN v)); [lia|lia|apply H_push]. Qed.
Lemma h_ret {A} (a : A) : h0 (wret a) (wret a).
Proof. apply H_ret. Qed.
Lemma h_list {A} (e e' : A -> wr N) l : Forall (fun x => h0 (e x) (e' x)) l -> h0 (enc_list e l) (enc_list e' l).
Proof. induction 1; [apply h_ret|apply h_plus; auto]. Qed.
Lemma h_uint k v n : h0 (NarrowWriter.push_uint k v n) (push_uint k v n).
Proof.
  unfold NarrowWriter.push_uint, push_uint, NarrowWriter.push_be_uint, push_be_uint, NarrowWriter.push_le_uint, push_le_uint.
  destruct (order_of k); [destruct (_ <? _)|destruct (slice_get_to _ _)]; first [apply h_push|apply H_fail].
Qed.
Lemma h_u8 n : h0 (NarrowWriter.push_u8 n) (push_u8 n).
Proof. apply h_push. Qed.
Lemma h_opt o : h0 (NarrowEncode.push_opt o) (push_opt o).
Proof. destruct o; [apply h_push|apply h_ret]. Qed.
Lemma h_prefix ca fa n : h0 (NarrowEncode.push_count_and_try_count ca fa n) (push_count_and_try_count ca fa n).
Proof.
  unfold NarrowEncode.push_count_and_try_count, push_count_and_try_count. destruct (a_byte_count_outside fa); [apply h_uint|].
  destruct (a_count fa), (a_try_count fa); auto using (@h_ret N), h_u8.
Qed.
Lemma h_raw ca fa l : h0 (NarrowEncode.enc_raw ca fa l) (enc_raw ca fa l).
Proof.
  unfold NarrowEncode.enc_raw, enc_raw.
  destruct (a_length fa); [|destruct (a_byte_count fa); [|destruct (a_linend fa); [|destruct (a_linend_value fa); [|destruct (a_remaining fa)]]]];
    repeat apply h_plus; auto using h_opt, (@h_ret N), h_push, h_uint, h_u8.
Qed.
Lemma h_ip ca fa l : h0 (NarrowEncode.enc_ip ca fa l) (enc_ip ca fa l).
Proof. unfold NarrowEncode.enc_ip, enc_ip, NarrowWriter.push_byteorder_array, push_byteorder_array. destruct (get_byteorder ca fa); apply h_push. Qed.
Lemma h_mac ca fa l : h0 (NarrowEncode.enc_mac ca fa l) (enc_mac ca fa l).
Proof. apply h_uint. Qed.
Lemma h_offset before f t en : narrow_field before f t -> env_of before en -> h0 (NarrowEncode.enc_offset f en) (enc_offset f en).
Proof.
  intros [HN _] He. destruct (HN en He) as (H1 & _). unfold NarrowEncode.enc_offset, enc_offset.
  destruct (eval_opt_small (f_offset f) en) as [E _]; [intros x X; apply H1; rewrite X; cbn; auto 8|]. rewrite E.
  destruct (eval_opt (f_offset f) en); [|apply h_ret].
  apply h_then; [|apply h_ret]. apply h_list, Forall_forall. intros x _. apply h_u8.
Qed.
Lemma h_tag e v i ca fa : below 5 (c_byte_count (e_c e)) -> h0 (NarrowEncode.push_tag e v i ca fa) (push_tag e v i ca fa).
Proof.
  intros B. unfold NarrowEncode.push_tag, push_tag. destruct (e_branching e); auto using h_push, (@h_ret N).
  destruct (a_branch fa); auto using (@h_ret N). destruct (c_byte_count (e_c e)) as [n|]; [cbn [below] in B; rewrite narrow_small by lia; apply h_uint|].
  destruct (a_byte_count fa); auto using h_uint. destruct (e_no_tag e); auto using (@h_ret N), h_u8.
Qed.

(** *** Reading the word back *)
Lemma H_merge lo it bo v : sizeN it <= lo ->
  H lo (lo - sizeN it) (NarrowEncode.bits_merge it bo v) (bits_merge it bo v).
Proof.
  assert (S16 : 1 <= sizeN it <= 16) by (destruct it; vm_compute; split; discriminate).
  intros Hlo d p P1 P2 P3.
  unfold NarrowEncode.bits_merge, bits_merge, wbind, on_reader, get_position, set_position. cbn [b_data b_pos].
  assert (P3' := P3). unfold small in P3'. rewrite wsub_small by lia.
  assert (E : small32 d -> NarrowReader.take_uint (KOrder bo) (sizeN it) d (NarrowReader.wsub p (sizeN it)) = take_uint (KOrder bo) (sizeN it) d (p - sizeN it)).
  { intros S. unfold small32 in S. rewrite sub32 by lia. apply (sm_uint (KOrder bo) (sizeN it) d (p - sizeN it) S ltac:(lia)). }
  destruct (take_uint (KOrder bo) (sizeN it) d (p - sizeN it)) as [x q|e q| |] eqn:T; auto; cbn [b_data b_pos].
  - assert (q = p) as ->.
    { unfold take_uint in T. destruct (N.leb_spec (sizeN it) 8) as [L|L].
      - rewrite take_n_in in T by (exact P3 || lia). injection T as _ <-. lia.
      - unfold take_n, take_n_be, take_n_le in T. destruct (order_of (KOrder bo)); destruct (N.ltb_spec 8 (sizeN it)); try lia; discriminate. }
    rewrite wsub_small by lia. unfold wret. cbn [b_pos b_data]. split; [lia|]. split; [lia|]. split; [exact P3|]. split; [lia|].
    intros S. rewrite (E S). cbn [b_data b_pos]. unfold small32 in S. rewrite sub32 by lia. reflexivity.
  - right. split; [lia|]. intros S. rewrite (E S). reflexivity.
Qed.
Lemma push_int_word k t z : fixed_width t -> exists w, lenN w = sizeN t /\ NarrowWriter.push_int k t z = NarrowWriter.push w /\ push_int k t z = push w.
Proof.
  intros F. unfold NarrowWriter.push_int. rewrite (on32_fixed t F).
  destruct t; (eexists; split; [|split; reflexivity]); try reflexivity; unfold lenN; rewrite (to_bytes_length); reflexivity.
Qed.
Lemma H_enc_int lo it ca fa z : fixed_width it -> (counts_all fa = false -> sizeN it <= lo) ->
  H lo (if absent (a_length fa) then (if counts_all fa then lo + sizeN it else lo) else 0) (NarrowEncode.enc_int it ca fa z) (enc_int it ca fa z).
Proof.
  assert (S16 : 1 <= sizeN it <= 16) by (destruct it; vm_compute; split; discriminate).
  intros HF Hlo. unfold NarrowEncode.enc_int, enc_int. rewrite (on32_fixed it HF). unfold counts_all in *.
  set (mid := if absent (a_bits fa) || a_bits_start fa then lo else lo - sizeN it).
  apply (H_bind lo mid).
  - unfold mid. destruct (a_bits fa); [|apply H_ret]. cbn [absent orb] in *. destruct (a_bits_start fa); [apply H_ret|].
    apply H_merge. apply Hlo. reflexivity.
  - intros z'. destruct (a_length fa) as [l|]; cbn [absent].
    + destruct (_ <? _); [apply H_fail|]. apply (H_weaken 0 0); [lia|lia|apply h_uint].
    + destruct (push_int_word (KOrder (get_byteorder ca fa)) it z' HF) as (w & L & -> & ->).
      apply (H_weaken mid (mid + lenN w)); [lia| |apply H_push].
      rewrite L. unfold mid. destruct (absent (a_bits fa) || a_bits_start fa) eqn:E; [lia|]. specialize (Hlo eq_refl). lia.
Qed.
Lemma h_wop o : fixed_write o -> h0 (NarrowWriter.run_wop o) (run_wop o).
Proof.
  intros F. destruct o; cbn [NarrowWriter.run_wop run_wop]; try apply h_push; try apply h_uint.
  - unfold NarrowWriter.push_byteorder_array, push_byteorder_array. destruct bo; apply h_push.
  - destruct (push_int_word k t z F) as (w & _ & -> & ->). apply h_push.
  - unfold NarrowWriter.push_u24, push_u24. destruct (order_of k); apply h_push.
Qed.

(** *** Fields *)
Lemma h_field before t e e' f ca fa en v : narrow_field before f t -> env_of before en -> typed_field f t -> value_of t v ->
  (forall g, f_with_encode f = Some g -> forall en ca fa v, value_of t v -> h0 (g en ca fa v) (g en ca fa v)) ->
  (forall x, value_of t x -> h0 (e ca fa x) (e' ca fa x)) ->
  h0 (NarrowEncode.enc_field e f ca fa en v) (enc_field e' f ca fa en v).
Proof.
  intros HN Hen HT Hv Hw He. unfold NarrowEncode.enc_field, enc_field.
  destruct (f_with_encode f) as [g|]; [apply (Hw g eq_refl), Hv|]. destruct (f_skip_encode f); [apply h_ret|]. apply h_plus.
  - destruct (f_from_str f) as [[? ?]|]; auto using (@h_ret N), h_raw.
  - destruct HT as (_ & _ & _ & _ & _ & HT).
    assert (X : value_of t (match f_value_encode f with Some g => g en v | None => v end)) by (destruct (f_value_encode f); [apply (HT _ en v eq_refl Hv)|exact Hv]).
    destruct (f_bits f), (f_untake f); auto using (@h_ret N); (apply h_then; [apply (h_offset before f t); assumption|apply He, X]).
Qed.
(** A bit field with nothing but its mask. *)
Lemma H_bit_field lo it f ca fa en v : bits_only f = true -> absent (f_bits f) = false -> absent (a_length fa) = true ->
  fixed_width it -> (counts_all fa = false -> sizeN it <= lo) ->
  H lo (if counts_all fa then lo + sizeN it else lo) (NarrowEncode.enc_field (NarrowEncode.enc (TInt it)) f ca fa en v) (enc_field (enc (TInt it)) f ca fa en v).
Proof.
  intros B FB L HF Hlo. unfold bits_only, no_with in B. unfold NarrowEncode.enc_field, enc_field, NarrowEncode.enc_offset, enc_offset.
  destruct (f_offset f), (f_skip_decode f), (f_from_str f), (f_if f), (f_length f); try discriminate B.
  apply andb_prop in B. destruct B as [B1 B2]. destruct (f_skip_encode f); [discriminate|].
  destruct (f_with_decode f), (f_with_encode f), (f_format f); try discriminate B2.
  destruct (f_bits f); [|discriminate FB]. cbn [NarrowDecode.eval_opt eval_opt option_map].
  apply (H_plus lo lo); [apply H_ret|]. apply (H_then lo lo); [apply H_ret|].
  pose proof (fun z => H_enc_int lo it ca fa z HF Hlo) as X. rewrite L in X.
  destruct (match f_value_encode f with Some g => g en v | None => v end); cbn [NarrowEncode.enc enc]; try apply X; apply H_panic.
Qed.

(** *** Every type *)
Definition alike {A} (m : wr A) : Prop := h0 m m.
Definition TW (t : ty) : Prop := portable t -> typed t -> address_free t = true -> grouped t = true -> each_encoder value_of alike t ->
  forall ca fa v, value_of t v -> small_ca ca -> numbers fa -> counts_all fa = true -> h0 (NarrowEncode.enc t ca fa v) (enc t ca fa v).
Definition with_alike (ft : fspec * ty) : Prop :=
  (forall g, f_with_encode (fst ft) = Some g -> forall en ca fa v, value_of (snd ft) v -> alike (g en ca fa v)) /\ each_encoder value_of alike (snd ft).
Definition usual (inherit : bool) (prev : fattr) (lo : N) (fs : list (fspec * ty)) : Prop :=
  counts_all prev = true /\ forallb own_word (map fst fs) = true \/
  (inherit = false \/ forallb f_use (map fst fs) = true) /\ words_follow lo fs = true.
Lemma h_fields inherit vars ca : small_vars vars -> small_ca ca -> forall fs before, narrow_fields portable before fs -> typed_fields fs ->
  Forall (fun ft => TW (snd ft)) fs -> forallb (fun ft : fspec * ty => address_free (snd ft)) fs = true ->
  forallb (fun ft : fspec * ty => grouped (snd ft)) fs = true ->
  Forall with_alike fs -> forall lo prev done vs, usual inherit prev lo fs -> numbers prev -> each (map value_of before) done ->
  each (map (fun ft => value_of (snd ft)) fs) vs ->
  H lo 0 (NarrowEncode.enc_fields NarrowEncode.enc inherit vars ca fs prev done vs) (enc_fields enc inherit vars ca fs prev done vs).
Proof.
  intros Hvars Hca. induction fs as [|[f t] fs IH]; intros before HP HY HT HA HG HU lo prev done vs HW Hprev Hdone Hvs.
  - destruct vs; cbn [NarrowEncode.enc_fields enc_fields]; [|apply H_panic]. apply (H_weaken 0 0); [lia|lia|apply H_ret].
  - destruct vs as [|v vs]; [destruct Hvs|]. cbn [NarrowEncode.enc_fields enc_fields].
    destruct Hvs as [Hv Hvs]. inversion HT as [|? ? Kt HT']; subst. inversion HU as [|? ? [U1 U2] HU']; subst. cbn [fst snd] in *.
    destruct HP as (P1 & P2 & P3). destruct HY as [[Y1 Y2] Y3].
    assert (He : env_of before (mkenv done vars)) by (split; assumption).
    destruct (narrow_modifiers_of before f t _ P1 He) as [EM MM]. rewrite EM. clear EM.
    destruct (modifiers f (mkenv done vars)) as [own|] eqn:M; [|apply H_panic]. cbv zeta.
    destruct (MM own eq_refl) as [MN _]. clear MM.
    set (fa := if inherit && negb (f_use f) then prev else own).
    assert (Nfa : numbers fa) by (unfold fa; destruct (_ && _); assumption).
    assert (Hd : each (map value_of (before ++ [t])) (done ++ [v])) by (rewrite map_app; apply each_app; [exact Hdone|cbn; auto]).
    cbn [forallb snd] in HG, HA. apply andb_prop in HG. destruct HG as [G1 G2]. apply andb_prop in HA. destruct HA as [A1 A2].
    assert (PLAIN : counts_all fa = true -> h0 (NarrowEncode.enc_field (NarrowEncode.enc t) f ca fa (mkenv done vars) v)
                                              (enc_field (enc t) f ca fa (mkenv done vars) v)).
    { intros Hf. apply (h_field before t); [exact P1|exact He|exact Y1|exact Hv|intros g E en' ca' fa' v'; apply (U1 g E)|]. intros x Hx. apply Kt; assumption. }
    destruct HW as [[W1 W2]|[W1 W2]].
    + cbn [map fst forallb] in W2. apply andb_prop in W2. destruct W2 as [W2 W3].
      assert (Hfa : counts_all fa = true) by (unfold fa; destruct (inherit && negb (f_use f)); [exact W1|exact (own_word_modifiers _ _ _ W2 M)]).
      apply (H_weaken 0 0); [lia|lia|]. apply (H_plus 0 0); [apply PLAIN; auto|]. apply (IH (before ++ [t])); auto. left. auto.
    + assert (E : fa = own).
      { unfold fa. destruct W1 as [->|W1]; [reflexivity|]. cbn [map fst forallb] in W1. apply andb_prop in W1. destruct W1 as [-> _].
        cbn [negb]. rewrite andb_false_r. reflexivity. }
      assert (W1' : inherit = false \/ forallb f_use (map fst fs) = true).
      { destruct W1 as [W1|W1]; [auto|]. cbn [map fst forallb] in W1. apply andb_prop in W1. right. apply W1. }
      assert (LEN : bits_only f = true -> absent (a_length fa) = true).
      { intros B. rewrite E. destruct (modifiers_inv _ _ _ M) as [[_ ->]|(_ & L & _)]; [reflexivity|]. rewrite L.
        unfold bits_only in B. destruct (f_offset f), (f_skip_decode f), (f_from_str f), (f_if f), (f_length f); try discriminate B. reflexivity. }
      assert (R : forall lo', words_follow lo' fs = true -> H lo' 0 (NarrowEncode.enc_fields NarrowEncode.enc inherit vars ca fs fa (done ++ [v]) vs)
                    (enc_fields enc inherit vars ca fs fa (done ++ [v]) vs)) by (intros lo' W; apply (IH (before ++ [t])); auto; right; auto).
      cbn [words_follow] in W2. destruct (own_word f) eqn:OW.
      * assert (Hfa : counts_all fa = true) by (rewrite E; exact (own_word_modifiers _ _ _ OW M)).
        apply (H_plus lo (word_begun f t)); [|apply R, W2].
        unfold word_begun. destruct t; try (apply (H_weaken 0 0); [lia|lia|apply PLAIN; auto]).
        destruct (f_bits f) eqn:FB; [|apply (H_weaken 0 0); [lia|lia|apply PLAIN; auto]].
        destruct (bits_only f) eqn:BO; [|apply (H_weaken 0 0); [lia|lia|apply PLAIN; auto]].
        refine (H_weaken lo _ lo _ _ _ _ _ (H_bit_field lo t f ca fa (mkenv done vars) v BO _ (LEN eq_refl) P2 _)); [lia| |rewrite FB; reflexivity|congruence].
        rewrite Hfa, width_sizeN. lia.
      * destruct t; try discriminate W2. apply andb_prop in W2. destruct W2 as [W2 W3]. apply andb_prop in W2. destruct W2 as [BO W2].
        apply N.leb_le in W2. rewrite width_sizeN in W2.
        apply (H_plus lo lo); [|apply R, W3].
        refine (H_weaken lo _ lo _ _ _ _ _ (H_bit_field lo t f ca fa (mkenv done vars) v BO _ (LEN BO) P2 _)); [lia| | |intros; exact W2].
        -- destruct (counts_all fa); lia.
        -- unfold own_word in OW. destruct (f_bits f); [reflexivity|discriminate].
Qed.
Lemma with_alike_all fs : every (fun ft : fspec * ty => let (f, t1) := ft in
    (forall g, f_with_encode f = Some g -> forall en ca fa v, value_of t1 v -> alike (g en ca fa v)) /\ each_encoder value_of alike t1) fs ->
  Forall with_alike fs.
Proof. induction fs as [|[f t] fs IH]; intros X; constructor; [|apply IH, X]. apply X. Qed.
Lemma h_arms e ca fa xs vs : below 5 (c_byte_count (e_c e)) -> small_ca ca -> Forall (fun vf => Forall (fun ft => TW (snd ft)) (snd vf)) vs ->
  every (fun vf : vspec * list (fspec * ty) => narrow_field [] (v_attr (fst vf)) TUnit /\ narrow_fields portable [] (snd vf)) vs ->
  all_of_them (fun vf : vspec * list (fspec * ty) => let (v, fs) := vf in typed_fields fs) vs ->
  forallb (fun vf : vspec * list (fspec * ty) => forallb (fun ft : fspec * ty => address_free (snd ft)) (snd vf)) vs = true ->
  forallb (fun vf : vspec * list (fspec * ty) =>
        (forallb own_word (v_attr (fst vf) :: map fst (snd vf))
         || forallb f_use (map fst (snd vf)) && words_follow 0 (snd vf)) && forallb (fun ft : fspec * ty => grouped (snd ft)) (snd vf)) vs = true ->
  every (fun vf : vspec * list (fspec * ty) => Forall with_alike (snd vf)) vs ->
  forall i next, match nth_error (map (fun vf => map (fun ft => value_of (snd ft)) (snd vf)) vs) i with Some ps => each ps xs | None => False end ->
  h0 (NarrowEncode.enc_arms NarrowEncode.enc e ca fa xs vs i next) (enc_arms enc e ca fa xs vs i next).
Proof.
  intros HB Hca. induction vs as [|[v fs] vs IH]; intros HT HP HY HA HG HU i next Hx; cbn [NarrowEncode.enc_arms enc_arms]; [apply H_panic|].
  inversion HT as [|? ? K1 HT']; subst. cbn [snd] in *. destruct HU as [U1 U2]. cbv zeta.
  destruct HP as [[P1 P2] P3]. destruct HY as [Y1 Y2]. cbn [forallb fst snd] in *. apply andb_prop in HA. destruct HA as [A1 A2].
  apply andb_prop in HG. destruct HG as [G1 G2]. cbn [map] in Hx.
  destruct i; [|apply IH; assumption]. cbn [nth_error] in Hx. apply andb_prop in G1. destruct G1 as [W G1].
  assert (He : env_of [] (mkenv [] (k_vars ca))) by (split; [exact I|exact Hca]).
  destruct (narrow_modifiers_of [] (v_attr v) TUnit _ P1 He) as [E M0]. rewrite E.
  destruct (modifiers (v_attr v) (mkenv [] (k_vars ca))) as [prev|] eqn:M; [|apply H_panic].
  apply h_plus; [apply h_tag, HB|]. apply h_then; [apply (h_offset [] _ TUnit); assumption|].
  apply (h_fields true (k_vars ca) (own_cattr (e_c e)) Hca ltac:(constructor) fs []); try assumption; [|apply (M0 prev eq_refl)|exact I].
  apply orb_prop in W. destruct W as [W|W].
  - apply andb_prop in W. destruct W as [W1 W2]. left. split; [exact (own_word_modifiers _ _ _ W1 M)|exact W2].
  - apply andb_prop in W. destruct W as [W1 W2]. right. auto.
Qed.
Theorem h_enc t : TW t.
Proof.
  induction t as [t Hl|n t IH|ts IH|t IH|t IH|k v IHk IHv|t IH|named c fs IH|e vs IH] using ty_nested_ind;
    intros HP HY HA HG HU ca fa x Hx Hca Hn Hf.
  - destruct t; try (exact (HU ca fa x Hx)); try discriminate Hl; try discriminate HA; destruct x; cbn [NarrowEncode.enc enc]; try apply H_panic;
      auto using h_raw, h_ip, h_mac, (@h_ret N); try apply h_push.
    + refine (H_weaken 0 _ 0 0 _ _ _ _ (H_enc_int 0 t ca fa z HP _)); [lia|lia|]. congruence.
    + destruct i as [|[|]]; try apply H_panic; (destruct fs as [|y [|]]; [apply H_panic| |destruct y; apply H_panic]); destruct y; try apply H_panic; apply h_ip.
  - destruct x; cbn [NarrowEncode.enc enc]; try apply H_panic. destruct (Nat.eqb _ _); [|apply H_panic].
    destruct Hx as [_ Hx]. apply h_list. eapply Forall_impl; [|exact Hx]. intros y Hy. apply IH; assumption.
  - destruct x; cbn [NarrowEncode.enc enc]; try apply H_panic. cbn [grouped each_encoder portable typed address_free value_of] in *.
    revert l Hx. induction IH as [|t ts Ht _ IHr]; intros [|y l] Hx; cbn [map enc_seq]; try apply H_panic; [apply h_ret|].
    cbn [map forallb] in *. apply andb_prop in HA. apply andb_prop in HG. destruct HA as [A1 A2], HG as [G1 G2], Hx as [X1 X2].
    apply h_plus.
    + apply Ht; try assumption; [apply HP|apply HY|apply HU].
    + apply IHr; try assumption; [apply HP|apply HY|apply HU].
  - destruct x; cbn [NarrowEncode.enc enc]; try apply H_panic. destruct (a_loop fa).
    + apply h_list. eapply Forall_impl; [|exact Hx]. intros y Hy. apply h_plus; [apply h_push|apply IH; assumption].
    + apply h_plus; [apply h_prefix|]. apply h_list. eapply Forall_impl; [|exact Hx]. intros y Hy. apply IH; assumption.
  - destruct x; apply H_panic.
  - destruct x; cbn [NarrowEncode.enc enc]; try apply H_panic. apply h_plus; [apply h_prefix|].
    apply andb_prop in HA. apply andb_prop in HG. destruct HA as [A1 A2], HG as [G1 G2], HP as [P1 P2], HY as [Y1 Y2], HU as [U1 U2].
    destruct Hx as [_ Hx]. apply h_list. eapply Forall_impl; [|exact Hx]. intros y [Hy1 Hy2].
    apply h_plus; [apply IHk|apply IHv]; auto using counts_all_key, counts_all_value, numbers_key, numbers_value.
  - destruct x as [| | | | | | |[y|]| | |]; cbn [NarrowEncode.enc enc]; try apply H_panic; [apply IH; assumption|apply h_ret].
  - destruct x; cbn [NarrowEncode.enc enc]; try apply H_panic. cbn [grouped] in HG. apply andb_prop in HG. destruct HG as [G1 G2].
    apply (h_fields false (k_vars ca) (own_cattr c) Hca ltac:(constructor) fs []); try assumption; [apply with_alike_all, HU| |apply numbers_none|exact I].
    right. split; [left; reflexivity|exact G1].
  - destruct x; cbn [NarrowEncode.enc enc]; try apply H_panic. destruct HP as (P1 & P2 & P3). destruct HY as [_ HY].
    apply h_arms; try assumption.
    cbn [each_encoder] in HU. clear - HU. induction vs as [|vf vs IHv]; [exact I|]. split; [apply with_alike_all, HU|apply IHv, HU].
Qed.

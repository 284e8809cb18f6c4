(** The number an encoder returns is the number of bytes it has written. *)
From Verif Require Import Base Ints Spec SpecOps Reader Writer BaseLemmas ReaderLemmas WriterLemmas.
From Verif Require Import RunSpec.
From Verif Require Import Schema Utf8 Decode Encode WireSpec SafetySpec CodecBase EncLemmas.

Definition counts (m : wr N) : Prop :=
  forall d p n b, p <= lenN d -> small d -> n < W63 -> m (mkbuf d p) = Ok n b ->
  exists w, lenN w = n /\ p + n < W63 /\ b = mkbuf (overwrite d p w) (p + n).

Lemma counts_ret : counts (wret 0).
Proof.
  intros d p n b Hp Hs _ H. injection H as <- <-. exists []. rewrite overwrite_nil by exact Hp.
  split; [reflexivity|]. split; [unfold small in Hs; lia|]. f_equal. lia.
Qed.
Lemma counts_push v : counts (push v).
Proof.
  intros d p n b Hp Hs Hn H.
  assert (E : lenN v = n).
  { unfold push in H. destruct (_ <? _); [destruct (vec_resize _ _); [destruct (_ =? 0)|]|];
      try discriminate; destruct (write_at _ _ _); try discriminate; injection H as <- _; reflexivity. }
  destruct (N.lt_ge_cases (p + n) W63) as [L|G].
  - rewrite push_ok in H; [|exact Hs|lia|auto]. injection H as <- <-. eauto.
  - exfalso. unfold push in H. cbn [b_data b_pos] in H.
    rewrite remaining_len_eq in H. unfold small in Hs.
    replace (lenN d - p <? lenN v) with true in H by (symmetry; apply N.ltb_lt; lia).
    unfold vec_resize, wadd in H. rewrite N.mod_small in H by lia.
    replace (p + lenN v <? W63) with false in H by (symmetry; apply N.ltb_ge; lia). discriminate.
Qed.
Lemma counts_fail m : (forall b n b', m b <> Ok n b') -> counts m.
Proof. intros H d p n b _ _ _ E. destruct (H _ _ _ E). Qed.
Lemma counts_ill : counts ill_typed.
Proof. apply counts_fail. discriminate. Qed.
Lemma counts_ext m m' : (forall b, m b = m' b) -> counts m' -> counts m.
Proof. intros E H d p n b. rewrite E. apply H. Qed.
Lemma counts_wop o : counts (run_wop o).
Proof.
  destruct (image o) as [w|] eqn:E.
  - apply counts_ext with (m' := push w); [|apply counts_push]. intros b. pose proof (image_push o b) as H.
    rewrite E in H. exact H.
  - apply counts_fail. intros b n b' X. pose proof (image_push o b) as H. rewrite E, X in H. discriminate.
Qed.
Lemma counts_plus a b : counts a -> counts b -> counts (plus a b).
Proof.
  intros Ha Hb d p n b0 Hp Hs Hn H. unfold plus, wbind in H.
  destruct (a (mkbuf d p)) as [x bx|? ?| |] eqn:Ea; try discriminate.
  destruct (b bx) as [y by'|? ?| |] eqn:Eb; try discriminate. unfold wret in H. injection H as <- <-.
  destruct (Ha d p x bx Hp Hs ltac:(lia) Ea) as (w1 & L1 & R1 & ->).
  destruct (Hb (overwrite d p w1) (p + x) y by' ltac:(rewrite overwrite_size; lia) ltac:(unfold small in *; rewrite overwrite_size; lia) ltac:(lia) Eb)
    as (w2 & L2 & R2 & ->).
  exists (w1 ++ w2). rewrite lenN_app, L1, L2. split; [reflexivity|]. split; [lia|].
  rewrite <- overwrite_app by exact Hp. rewrite L1. f_equal. lia.
Qed.
Lemma counts_bind {A} (a : A) (k : A -> wr N) : counts (k a) -> counts (x <~ wret a ;; k x).
Proof. intros H. exact H. Qed.
Lemma counts_list {A} (e : A -> wr N) l : (forall x, counts (e x)) -> counts (enc_list e l).
Proof. intros H. induction l; [apply counts_ret|apply counts_plus; auto]. Qed.
Lemma counts_opt s : counts (push_opt s).
Proof. destruct s; [apply counts_push|apply counts_ret]. Qed.
Lemma counts_u8 n : counts (push_u8 n).
Proof. apply counts_push. Qed.
Lemma counts_uint k v n : counts (push_uint k v n).
Proof. apply (counts_wop (WPushUint k v n)). Qed.
Lemma counts_int ca fa it z : counts_all fa = true -> counts (enc_int it ca fa z).
Proof.
  intros H. unfold counts_all in H. unfold enc_int.
  assert (K : forall z', counts (match a_length fa with
    | Some l => if sizeN it <? l then wfail InvalidByteLength else push_uint (KOrder (get_byteorder ca fa)) (raw_of_int U64 z') l
    | None => push_int (KOrder (get_byteorder ca fa)) it z' end)).
  { intros z'. destruct (a_length fa) as [l|]; [destruct (sizeN it <? l)|].
    - apply counts_fail. discriminate.
    - apply counts_uint.
    - apply (counts_wop (WPushInt (KOrder (get_byteorder ca fa)) it z')). }
  destruct (a_bits fa) as [m|].
  - cbn in H. rewrite H. cbv zeta. apply counts_bind, K.
  - cbv zeta. apply counts_bind, K.
Qed.
Lemma counts_raw ca fa l : counts (enc_raw ca fa l).
Proof.
  unfold enc_raw.
  destruct (a_length fa); [|destruct (a_byte_count fa); [|destruct (a_linend fa); [|destruct (a_linend_value fa); [|destruct (a_remaining fa)]]]];
    repeat apply counts_plus; auto using counts_opt, counts_ret, counts_push, counts_uint, counts_u8.
Qed.
Lemma counts_ip ca fa l : counts (enc_ip ca fa l).
Proof. unfold enc_ip. apply (counts_wop (WPushOrderArray l _)). Qed.
Lemma counts_mac ca fa l : counts (enc_mac ca fa l).
Proof. apply counts_uint. Qed.
Lemma counts_prefix ca fa n : counts (push_count_and_try_count ca fa n).
Proof.
  unfold push_count_and_try_count. destruct (a_byte_count_outside fa); [apply counts_uint|].
  destruct (a_count fa), (a_try_count fa); auto using counts_ret, counts_u8.
Qed.
Lemma counts_tag e v i ca fa : counts (push_tag e v i ca fa).
Proof.
  unfold push_tag. destruct (e_branching e); auto using counts_push, counts_ret.
  destruct (a_branch fa); auto using counts_ret. destruct (c_byte_count (e_c e)); auto using counts_uint.
  destruct (a_byte_count fa); auto using counts_uint. destruct (e_no_tag e); auto using counts_ret, counts_u8.
Qed.
Lemma counts_field e f ca fa en v : no_offset f = true ->
  (forall g, f_with_encode f = Some g -> forall en ca fa v, True -> counts_bytes (g en ca fa v)) ->
  (forall x, counts (e ca fa x)) -> counts (enc_field e f ca fa en v).
Proof.
  intros Ho Hu He. unfold enc_field. destruct (f_with_encode f) as [g|]; [exact (Hu g eq_refl en ca fa v Coq.Init.Logic.I)|].
  destruct (f_skip_encode f); [apply counts_ret|]. apply counts_plus.
  - destruct (f_from_str f) as [[? ?]|]; auto using counts_ret, counts_raw.
  - assert (K : counts (_ <~ enc_offset f en ;; e ca fa (match f_value_encode f with Some g => g en v | None => v end))).
    { unfold enc_offset. unfold no_offset in Ho. destruct (f_offset f); [discriminate|]. cbn. apply counts_bind, He. }
    destruct (f_bits f), (f_untake f); auto using counts_ret.
Qed.
Lemma own_word_modifiers f en fa : own_word f = true -> modifiers f en = Some fa -> counts_all fa = true.
Proof.
  intros H M. destruct (modifiers_inv f en fa M) as [[_ ->]|(_ & _ & B & S & _)]; [reflexivity|].
  unfold counts_all. rewrite B, S. unfold own_word in H. destruct (f_bits f); [cbn in *; exact H|reflexivity].
Qed.

Definition K (t : ty) : Prop := counted t = true ->
  each_encoder (fun _ _ => True) counts_bytes t -> forall ca fa v, counts_all fa = true -> counts (enc t ca fa v).

Definition with_counts (ft : fspec * ty) : Prop :=
  (forall g, f_with_encode (fst ft) = Some g -> forall en ca fa v, True -> counts_bytes (g en ca fa v))
  /\ each_encoder (fun _ _ => True) counts_bytes (snd ft).
Lemma with_counts_all fs : every (fun ft : fspec * ty => let (f, t1) := ft in
    (forall g, f_with_encode f = Some g -> forall en ca fa v, True -> counts_bytes (g en ca fa v))
    /\ each_encoder (fun _ _ => True) counts_bytes t1) fs -> Forall with_counts fs.
Proof. induction fs as [|[f t] fs IH]; intros H; constructor; [exact (proj1 H)|apply IH, H]. Qed.

Lemma counts_fields inherit vars ca fs : Forall (fun ft => K (snd ft)) fs -> counted_fields counted fs = true -> Forall with_counts fs ->
  forall prev done vs, counts_all prev = true -> counts (enc_fields enc inherit vars ca fs prev done vs).
Proof.
  induction fs as [|[f t] fs IH]; intros HK HC HU prev done vs Hp.
  - destruct vs; cbn [enc_fields]; auto using counts_ret, counts_ill.
  - destruct vs as [|v vs]; cbn [enc_fields]; [apply counts_ill|].
    inversion HK as [|? ? Kt HK']; subst. inversion HU as [|? ? [Hu1 Hu2] HU']; subst. unfold counted_fields in HC. cbn [forallb fst snd] in HC, Kt.
    apply andb_prop in HC as [HC1 HC]. apply andb_prop in HC1 as [HC1 Ht]. apply andb_prop in HC1 as [Ho Hw].
    destruct (modifiers f (mkenv done vars)) as [own|] eqn:M; [|apply counts_fail; discriminate].
    assert (Hfa : counts_all (if inherit && negb (f_use f) then prev else own) = true).
    { destruct (inherit && negb (f_use f)); [exact Hp|exact (own_word_modifiers _ _ _ Hw M)]. }
    apply counts_plus; [apply counts_field; [exact Ho|exact Hu1|]; intros x; apply Kt; assumption|apply IH; assumption].
Qed.
Lemma counts_arms e ca fa xs vs : Forall (fun vf => Forall (fun ft => K (snd ft)) (snd vf)) vs ->
  forallb (fun vf : vspec * list (fspec * ty) =>
             no_offset (v_attr (fst vf)) && own_word (v_attr (fst vf)) && counted_fields counted (snd vf)) vs = true ->
  every (fun vf : vspec * list (fspec * ty) => Forall with_counts (snd vf)) vs ->
  forall i next, counts (enc_arms enc e ca fa xs vs i next).
Proof.
  induction vs as [|[v fs] vs IH]; intros HK HC HU i next; cbn [enc_arms]; [apply counts_ill|].
  inversion HK as [|? ? K1 HK']; subst. cbn [forallb fst snd] in *. apply andb_prop in HC as [HC1 HC].
  apply andb_prop in HC1 as [HC1 Hf]. apply andb_prop in HC1 as [Ho Hw].
  destruct i; [|apply IH; try assumption; exact (proj2 HU)].
  destruct (modifiers (v_attr v) (mkenv [] (k_vars ca))) as [prev|] eqn:M; [|apply counts_fail; discriminate].
  apply counts_plus; [apply counts_tag|].
  unfold enc_offset. unfold no_offset in Ho. destruct (f_offset (v_attr v)); [discriminate|]. cbn [eval_opt option_map].
  apply counts_bind, counts_fields; [exact K1|exact Hf|exact (proj1 HU)|exact (own_word_modifiers _ _ _ Hw M)].
Qed.
Lemma counts_all_key fa : counts_all fa = true -> counts_all (key_fattr fa) = true.
Proof. intros H. unfold key_fattr. destruct (a_split fa); [reflexivity|exact H]. Qed.
Lemma counts_all_value fa : counts_all fa = true -> counts_all (value_fattr fa) = true.
Proof. intros H. unfold value_fattr. destruct (a_linend_value fa); [reflexivity|]. destruct (a_linend fa); [reflexivity|exact H]. Qed.

Theorem enc_counts t : K t.
Proof.
  induction t as [t Hl|n t IH|ts IH|t IH|t IH|k v IHk IHv|t IH|named c fs IH|e vs IH] using ty_nested_ind;
    intros HC HU ca fa x Hf.
  - destruct t; try (cbn [enc]; apply HU; exact Coq.Init.Logic.I); try discriminate Hl; destruct x; cbn [enc]; try apply counts_ill;
      auto using counts_int, counts_raw, counts_ip, counts_mac, counts_ret; try apply counts_push.
    + destruct i as [|[|]]; destruct fs as [|y [|]]; try apply counts_ill; destruct y; try apply counts_ill; apply counts_ip.
    + destruct i as [|[|[|[|]]]]; destruct fs as [|y [|]]; try apply counts_ill; destruct y; try apply counts_ill;
        auto using counts_int, counts_ip, counts_mac.
  - destruct x; cbn [enc]; try apply counts_ill. destruct (Nat.eqb _ _); [|apply counts_ill].
    apply counts_list. intros y. apply IH; assumption.
  - destruct x; cbn [enc]; try apply counts_ill. cbn [counted] in HC.
    revert l. induction ts as [|t ts IHt]; intros [|y l]; cbn [map enc_seq]; auto using counts_ret, counts_ill.
    inversion IH; subst. cbn [forallb] in HC. apply andb_prop in HC as [A1 A2]. destruct HU as [U1 U2].
    apply counts_plus; [auto|apply IHt; assumption].
  - destruct x; cbn [enc]; try apply counts_ill. destruct (a_loop fa).
    + apply counts_list. intros y. apply counts_plus; [apply counts_push|apply IH; assumption].
    + apply counts_plus; [apply counts_prefix|]. apply counts_list. intros y. apply IH; assumption.
  - destruct x; apply counts_ill.
  - destruct x; cbn [enc]; try apply counts_ill. cbn [counted] in HC. apply andb_prop in HC as [H1 H2]. destruct HU as [U1 U2].
    apply counts_plus; [apply counts_prefix|]. apply counts_list. intros y.
    apply counts_plus; [apply IHk|apply IHv]; auto using counts_all_key, counts_all_value.
  - destruct x as [| | | | | | |[y|]| | |]; cbn [enc]; try apply counts_ill; [apply IH; assumption|apply counts_ret].
  - destruct x; cbn [enc]; try apply counts_ill. apply counts_fields; [exact IH|exact HC|exact (with_counts_all _ HU)|reflexivity].
  - destruct x; cbn [enc]; try apply counts_ill. apply counts_arms; [exact IH|exact HC|].
    cbn [each_encoder] in HU. clear - HU. induction vs as [|[v fs] r IH]; [exact HU|].
    split; [exact (with_counts_all _ (proj1 HU))|exact (IH (proj2 HU))].
Qed.

Lemma encoder_counts t ca fa v d p n d' p' : counted t = true ->
  each_encoder (fun _ _ => True) counts_bytes t -> counts_all fa = true ->
  p <= size d -> allocatable d -> n < 9223372036854775808 ->
  enc t ca fa v (mkbuf d p) = Ok n (mkbuf d' p') ->
  exists w, size w = n /\ p' = p + n /\ d' = overwrite d p w /\ allocatable d'.
Proof.
  intros HC HU HF Hp Hd Hn H. destruct (enc_counts t HC HU ca fa v HF d p n _ Hp Hd Hn H) as (w & L & R & E).
  injection E as -> ->. exists w. split; [exact L|]. split; [reflexivity|]. split; [reflexivity|].
  unfold allocatable. change size with (@lenN byte). rewrite overwrite_size. unfold allocatable in Hd.
  change size with (@lenN byte) in Hd. lia.
Qed.

(** Encoding into any implementor is encoding into [Buffer]. *)
From Verif Require Import Base Ints Spec SpecOps Reader Writer BaseLemmas ReaderLemmas ReaderHist WriterLemmas.
From Verif Require Import ReadMut ReadAny WriteMut WriteMutSpec WriteMutLemmas.
From Verif Require Import Schema Utf8 Decode Encode WireSpec CodecBase SafetySpec EncLemmas Counting CheckedSpec CheckedLemmas CheckedEnc.
From Verif Require Import AnyEncode AnyWriteSpec.

(** ** The traversal of the type, for any relation that the calls respect *)
Section Tree.
Context {S : Type}.
Variables (K : sink S) (U : wr N -> @mrd S N) (s : bool).
Variable T : forall A : Type, N -> N -> @mrd S A -> wr A -> Prop.
Arguments T {A}.
Local Notation W := (wimpl_of K).
Hypothesis T_weaken : forall A lo hi lo' hi' (c : @mrd S A) m, lo <= lo' -> hi' <= hi -> T lo hi c m -> T lo' hi' c m.
Hypothesis T_ret : forall A lo (a : A), T lo lo (mret a) (wret a).
Hypothesis T_fail : forall lo hi k, T lo hi (mw_fail W k) (wfail k).
Hypothesis T_panic : forall A lo hi, @T A lo hi (fun _ => Panic) (fun _ => Panic).
Hypothesis T_push : forall lo v, T lo (lo + lenN v) (mw_push W v) (push v).
Hypothesis T_bind : forall A B lo mid hi (c : @mrd S A) m (f : A -> @mrd S B) g,
  T lo mid c m -> (forall a, T mid hi (f a) (g a)) -> T lo hi (mbind c f) (wbind m g).
Hypothesis T_int : forall lo it ca fa z, (s = true -> counts_all fa = false -> absent (a_length fa) = true /\ sizeN it <= lo) ->
  T lo (if absent (a_length fa) then (if counts_all fa then lo + sizeN it else if s then lo else 0) else 0) (any_enc_int K it ca fa z) (enc_int it ca fa z).

Lemma T_then {A B} lo mid hi (c : @mrd S A) m (f : @mrd S B) g : T lo mid c m -> T mid hi f g -> T lo hi (mbind c (fun _ => f)) (_ <~ m ;; g).
Proof. intros H1 H2. apply (T_bind _ _ lo mid); auto. Qed.
Lemma T_plus lo mid hi a a' b b' : T lo mid a a' -> T mid hi b b' -> T lo hi (any_plus a b) (plus a' b').
Proof. intros H1 H2. apply (T_bind _ _ lo mid); [exact H1|]. intros x. apply (T_bind _ _ mid hi); auto. Qed.
Notation g0 := (T 0 0).
Lemma t_plus a a' b b' : g0 a a' -> g0 b b' -> g0 (any_plus a b) (plus a' b').
Proof. apply T_plus. Qed.
Lemma t_then {A B} (c : @mrd S A) m (f : @mrd S B) g : g0 c m -> g0 f g -> g0 (mbind c (fun _ => f)) (_ <~ m ;; g).
Proof. apply T_then. Qed.
Lemma t_push v : g0 (mw_push W v) (push v).
Proof. apply (T_weaken _ 0 (0 + lenN v)); [lia|lia|apply T_push]. Qed.
Lemma t_ret {A} (a : A) : g0 (mret a) (wret a).
Proof. apply T_ret. Qed.
Lemma t_list {A} (e : A -> @mrd S N) e' l : Forall (fun x => g0 (e x) (e' x)) l -> g0 (any_enc_list e l) (enc_list e' l).
Proof. induction 1; [apply t_ret|apply t_plus; auto]. Qed.
Lemma t_uint k v n : g0 (mw_push_uint W k v n) (push_uint k v n).
Proof.
  unfold mw_push_uint, push_uint, mw_push_be_uint, push_be_uint, mw_push_le_uint, push_le_uint.
  destruct (order_of k); [destruct (_ <? _)|destruct (slice_get_to _ _)]; first [apply t_push|apply T_fail].
Qed.
Lemma t_u8 n : g0 (any_push_u8 K n) (push_u8 n).
Proof. apply t_push. Qed.
Lemma t_wop o : g0 (run_mwop W o) (run_wop o).
Proof.
  destruct o; cbn [run_mwop run_wop]; try apply t_push; try apply t_uint.
  - unfold mw_push_byteorder_array, push_byteorder_array. destruct bo; apply t_push.
  - destruct t; apply t_push.
  - unfold mw_push_u24, push_u24. destruct (order_of k); apply t_push.
Qed.
Lemma t_opt o : g0 (any_push_opt K o) (push_opt o).
Proof. destruct o; [apply t_push|apply t_ret]. Qed.
Lemma t_prefix ca fa n : g0 (any_push_count_and_try_count K ca fa n) (push_count_and_try_count ca fa n).
Proof.
  unfold any_push_count_and_try_count, push_count_and_try_count. destruct (a_byte_count_outside fa); [apply t_uint|].
  destruct (a_count fa), (a_try_count fa); auto using (@t_ret N), t_u8.
Qed.
Lemma t_raw ca fa l : g0 (any_enc_raw K ca fa l) (enc_raw ca fa l).
Proof.
  unfold any_enc_raw, enc_raw.
  destruct (a_length fa); [|destruct (a_byte_count fa); [|destruct (a_linend fa); [|destruct (a_linend_value fa); [|destruct (a_remaining fa)]]]];
    repeat apply t_plus; auto using t_opt, (@t_ret N), t_push, t_uint, t_u8.
Qed.
Lemma t_ip ca fa l : g0 (any_enc_ip K ca fa l) (enc_ip ca fa l).
Proof. apply (t_wop (WPushOrderArray l _)). Qed.
Lemma t_mac ca fa l : g0 (any_enc_mac K ca fa l) (enc_mac ca fa l).
Proof. apply t_uint. Qed.
Lemma t_offset f en : g0 (any_enc_offset K f en) (enc_offset f en).
Proof.
  unfold any_enc_offset, enc_offset. destruct (eval_opt (f_offset f) en); [|apply t_ret].
  apply t_then; [|apply t_ret]. apply t_list, Forall_forall. intros x _. apply t_u8.
Qed.
Lemma t_tag e v i ca fa : g0 (any_push_tag K e v i ca fa) (push_tag e v i ca fa).
Proof.
  unfold any_push_tag, push_tag. destruct (e_branching e); auto using t_push, (@t_ret N).
  destruct (a_branch fa); auto using (@t_ret N). destruct (c_byte_count (e_c e)); auto using t_uint.
  destruct (a_byte_count fa); auto using t_uint. destruct (e_no_tag e); auto using (@t_ret N), t_u8.
Qed.
Lemma t_field e e' f ca fa en v :
  (forall g, f_with_encode f = Some g -> forall en ca fa v, g0 (U (g en ca fa v)) (g en ca fa v)) -> (forall x, g0 (e ca fa x) (e' ca fa x)) ->
  g0 (any_enc_field K U e f ca fa en v) (enc_field e' f ca fa en v).
Proof.
  intros Hw He. unfold any_enc_field, enc_field.
  destruct (f_with_encode f) as [g|]; [apply (Hw g eq_refl)|]. destruct (f_skip_encode f); [apply t_ret|]. apply t_plus.
  - destruct (f_from_str f) as [[? ?]|]; auto using (@t_ret N), t_raw.
  - destruct (f_bits f), (f_untake f); auto using (@t_ret N); (apply t_then; [apply t_offset|apply He]).
Qed.
Lemma T_bit_field lo it f ca fa en v : bits_only f = true -> absent (f_bits f) = false -> absent (a_length fa) = true ->
  (s = true -> counts_all fa = false -> sizeN it <= lo) ->
  T lo (if counts_all fa then lo + sizeN it else if s then lo else 0) (any_enc_field K U (any_enc K U (TInt it)) f ca fa en v) (enc_field (enc (TInt it)) f ca fa en v).
Proof.
  intros B FB L Hlo. unfold bits_only, no_with in B. unfold any_enc_field, enc_field, any_enc_offset, enc_offset.
  destruct (f_offset f), (f_skip_decode f), (f_from_str f), (f_if f), (f_length f); try discriminate B.
  apply andb_prop in B. destruct B as [B1 B2]. destruct (f_skip_encode f); [discriminate|].
  destruct (f_with_decode f), (f_with_encode f), (f_format f); try discriminate B2.
  destruct (f_bits f); [|discriminate FB]. cbn [eval_opt option_map].
  apply (T_plus lo lo); [apply T_ret|]. apply (T_then lo lo); [apply T_ret|].
  pose proof (fun z => T_int lo it ca fa z (fun E C => conj L (Hlo E C))) as X. rewrite L in X.
  destruct (match f_value_encode f with Some g => g en v | None => v end); cbn [any_enc enc]; try apply X; apply T_panic.
Qed.

Definition mine (m : wr N) : Prop := g0 (U m) m.
Definition TA (t : ty) : Prop := (s = true -> grouped t = true) -> each_encoder (fun _ _ => True) mine t ->
  forall ca fa v, (s = true -> counts_all fa = true) -> g0 (any_enc K U t ca fa v) (enc t ca fa v).
Definition with_mine (ft : fspec * ty) : Prop :=
  (forall g, f_with_encode (fst ft) = Some g -> forall en ca fa v, mine (g en ca fa v)) /\ each_encoder (fun _ _ => True) mine (snd ft).
Lemma t_fields inherit vars ca fs :
  Forall (fun ft => TA (snd ft)) fs -> (s = true -> forallb (fun ft : fspec * ty => grouped (snd ft)) fs = true) ->
  Forall with_mine fs -> forall lo prev done vs, (s = true -> usual inherit prev lo fs) -> (s = false -> lo = 0) ->
  T lo 0 (any_enc_fields K U (any_enc K U) inherit vars ca fs prev done vs) (enc_fields enc inherit vars ca fs prev done vs).
Proof.
  induction fs as [|[f t] fs IH]; intros HT HG HU lo prev done vs HW Hlo.
  - destruct vs; cbn [any_enc_fields enc_fields]; [|apply T_panic]. apply (T_weaken _ 0 0); [lia|lia|apply T_ret].
  - destruct vs as [|v vs]; cbn [any_enc_fields enc_fields]; [apply T_panic|].
    inversion HT as [|? ? Kt HT']; subst. inversion HU as [|? ? [U1 U2] HU']; subst. cbn [fst snd] in *.
    destruct (modifiers f (mkenv done vars)) as [own|] eqn:M; [|apply T_panic]. cbv zeta.
    set (fa := if inherit && negb (f_use f) then prev else own).
    assert (G1 : s = true -> grouped t = true) by (intros E; specialize (HG E); apply andb_prop in HG; apply HG).
    assert (G2 : s = true -> forallb (fun ft : fspec * ty => grouped (snd ft)) fs = true) by (intros E; specialize (HG E); apply andb_prop in HG; apply HG).
    assert (PLAIN : (s = true -> counts_all fa = true) -> g0 (any_enc_field K U (any_enc K U t) f ca fa (mkenv done vars) v)
                                              (enc_field (enc t) f ca fa (mkenv done vars) v)).
    { intros Hf. apply t_field; [intros g E en' ca' fa' v'; apply (U1 g E)|]. intros x. apply Kt; assumption. }
    assert (SC : s = true \/ s = false) by (destruct s; auto). destruct SC as [SC|SC].
    2:{ rewrite (Hlo SC). apply (T_plus 0 0); [apply PLAIN; congruence|]. apply IH; auto. congruence. }
    specialize (HW SC). destruct HW as [[W1 W2]|[W1 W2]].
    + cbn [map fst forallb] in W2. apply andb_prop in W2. destruct W2 as [W2 W3].
      assert (Hfa : counts_all fa = true) by (unfold fa; destruct (inherit && negb (f_use f)); [exact W1|exact (own_word_modifiers _ _ _ W2 M)]).
      apply (T_weaken _ 0 0); [lia|lia|]. apply (T_plus 0 0); [apply PLAIN; auto|]. apply IH; auto. intros _. left. auto.
    + assert (E : fa = own).
      { unfold fa. destruct W1 as [->|W1]; [reflexivity|]. cbn [map fst forallb] in W1. apply andb_prop in W1. destruct W1 as [-> _].
        cbn [negb]. rewrite andb_false_r. reflexivity. }
      assert (W1' : inherit = false \/ forallb f_use (map fst fs) = true).
      { destruct W1 as [W1|W1]; [auto|]. cbn [map fst forallb] in W1. apply andb_prop in W1. right. apply W1. }
      assert (LEN : bits_only f = true -> absent (a_length fa) = true).
      { intros B. rewrite E. destruct (modifiers_inv _ _ _ M) as [[_ ->]|(_ & L & _)]; [reflexivity|]. rewrite L.
        unfold bits_only in B. destruct (f_offset f), (f_skip_decode f), (f_from_str f), (f_if f), (f_length f); try discriminate B. reflexivity. }
      cbn [words_follow] in W2. destruct (own_word f) eqn:OW.
      * assert (Hfa : counts_all fa = true) by (rewrite E; exact (own_word_modifiers _ _ _ OW M)).
        apply (T_plus lo (word_begun f t)); [|apply IH; auto; first [congruence|intros _; right; solve [auto]]].
        unfold word_begun. destruct t; try (apply (T_weaken _ 0 0); [lia|lia|apply PLAIN; auto]).
        destruct (f_bits f) eqn:FB; [|apply (T_weaken _ 0 0); [lia|lia|apply PLAIN; auto]].
        destruct (bits_only f) eqn:BO; [|apply (T_weaken _ 0 0); [lia|lia|apply PLAIN; auto]].
        refine (T_weaken _ lo _ lo _ _ _ _ _ (T_bit_field lo t f ca fa (mkenv done vars) v BO _ (LEN eq_refl) _)); [lia| |rewrite FB; reflexivity|congruence].
        rewrite Hfa, width_sizeN. lia.
      * destruct t; try discriminate W2. apply andb_prop in W2. destruct W2 as [W2 W3]. apply andb_prop in W2. destruct W2 as [BO W2].
        apply N.leb_le in W2. rewrite width_sizeN in W2.
        apply (T_plus lo lo); [|apply IH; auto; first [congruence|intros _; right; solve [auto]]].
        refine (T_weaken _ lo _ lo _ _ _ _ _ (T_bit_field lo t f ca fa (mkenv done vars) v BO _ (LEN BO) _)); [lia| | |intros; exact W2].
        -- rewrite SC. destruct (counts_all fa); lia.
        -- unfold own_word in OW. destruct (f_bits f); [reflexivity|discriminate].
Qed.
Lemma with_mine_all fs : every (fun ft : fspec * ty => let (f, t1) := ft in
    (forall g, f_with_encode f = Some g -> forall en ca fa v, True -> mine (g en ca fa v)) /\ each_encoder (fun _ _ => True) mine t1) fs ->
  Forall with_mine fs.
Proof.
  induction fs as [|[f t] fs IH]; intros H; constructor; [|apply IH, H]. destruct H as [[H1 H2] _]. split; [|exact H2].
  intros g E en ca fa v. exact (H1 g E en ca fa v I).
Qed.
Lemma t_arms e ca fa xs vs : Forall (fun vf => Forall (fun ft => TA (snd ft)) (snd vf)) vs ->
  (s = true -> forallb (fun vf : vspec * list (fspec * ty) =>
        (forallb own_word (v_attr (fst vf) :: map fst (snd vf))
         || forallb f_use (map fst (snd vf)) && words_follow 0 (snd vf)) && forallb (fun ft : fspec * ty => grouped (snd ft)) (snd vf)) vs = true) ->
  every (fun vf : vspec * list (fspec * ty) => Forall with_mine (snd vf)) vs ->
  forall i next, g0 (any_enc_arms K U (any_enc K U) e ca fa xs vs i next) (enc_arms enc e ca fa xs vs i next).
Proof.
  induction vs as [|[v fs] vs IH]; intros HT HG HU i next; cbn [any_enc_arms enc_arms]; [apply T_panic|].
  inversion HT as [|? ? K1 HT']; subst. cbn [snd] in *. destruct HU as [U1 U2]. cbv zeta.
  assert (G2 := fun E => proj2 (andb_prop _ _ (HG E))). assert (G1 := fun E => proj1 (andb_prop _ _ (HG E))). cbn [fst snd] in G1.
  destruct i; [|apply IH; assumption].
  destruct (modifiers (v_attr v) (mkenv [] (k_vars ca))) as [prev|] eqn:M; [|apply T_panic].
  apply t_plus; [apply t_tag|]. apply t_then; [apply t_offset|].
  apply t_fields; [exact K1|intros E; apply (andb_prop _ _ (G1 E))|exact U1| |auto].
  intros E. destruct (andb_prop _ _ (G1 E)) as [W0 _]. apply orb_prop in W0. destruct W0 as [W0|W0].
  - cbn [forallb] in W0. apply andb_prop in W0. destruct W0 as [W1 W2]. left. split; [exact (own_word_modifiers _ _ _ W1 M)|exact W2].
  - apply andb_prop in W0. destruct W0 as [W1 W2]. right. auto.
Qed.
Theorem t_enc t : TA t.
Proof.
  induction t as [t Hl|n t IH|ts IH|t IH|t IH|k v IHk IHv|t IH|named c fs IH|e vs IH] using ty_nested_ind;
    intros HG HU ca fa x Hf.
  - assert (INT : forall it z, g0 (any_enc_int K it ca fa z) (enc_int it ca fa z)).
    { intros it z. refine (T_weaken _ 0 _ 0 0 _ _ _ _ (T_int 0 it ca fa z _)); [lia|lia|]. intros E C. rewrite (Hf E) in C. discriminate. }
    destruct t; try (exact (HU ca fa x I)); try discriminate Hl; destruct x; cbn [any_enc enc]; try apply T_panic;
      auto using t_raw, t_ip, t_mac, (@t_ret N); try apply t_push.
    + destruct i as [|[|]]; try apply T_panic; (destruct fs as [|y [|]]; [apply T_panic| |destruct y; apply T_panic]); destruct y; try apply T_panic; apply t_ip.
    + destruct i as [|[|[|[|]]]]; try apply T_panic; (destruct fs as [|y [|]]; [apply T_panic| |destruct y; apply T_panic]); destruct y; try apply T_panic;
        auto using t_ip, t_mac.
  - destruct x; cbn [any_enc enc]; try apply T_panic. destruct (Nat.eqb _ _); [|apply T_panic].
    apply t_list, Forall_forall. intros y _. apply IH; assumption.
  - destruct x; cbn [any_enc enc]; try apply T_panic. cbn [grouped each_encoder] in *.
    revert l. induction IH as [|t ts Ht _ IHr]; intros [|y l]; cbn [map any_enc_seq enc_seq]; try apply T_panic; [apply t_ret|].
    apply t_plus.
    + apply Ht; [intros E; apply (andb_prop _ _ (HG E))|apply HU|exact Hf].
    + apply IHr; [intros E; apply (andb_prop _ _ (HG E))|apply HU].
  - destruct x; cbn [any_enc enc]; try apply T_panic. destruct (a_loop fa).
    + apply t_list, Forall_forall. intros y _. apply t_plus; [apply t_push|apply IH; assumption].
    + apply t_plus; [apply t_prefix|]. apply t_list, Forall_forall. intros y _. apply IH; assumption.
  - destruct x; apply T_panic.
  - destruct x; cbn [any_enc enc]; try apply T_panic. apply t_plus; [apply t_prefix|].
    assert (O : s = true -> grouped k = true /\ grouped v = true) by (intros E; apply andb_prop, (HG E)).
    apply t_list, Forall_forall. intros y _. apply t_plus; [apply IHk|apply IHv]; try apply O; try apply HU;
      intros E; auto using counts_all_key, counts_all_value.
  - destruct x as [| | | | | | |[y|]| | |]; cbn [any_enc enc]; try apply T_panic; [apply IH; assumption|apply t_ret].
  - destruct x; cbn [any_enc enc]; try apply T_panic. cbn [grouped] in HG.
    apply t_fields; [exact IH|intros E; apply (andb_prop _ _ (HG E))|apply with_mine_all, HU| |auto].
    intros E. right. split; [left; reflexivity|apply (andb_prop _ _ (HG E))].
  - destruct x; cbn [any_enc enc]; try apply T_panic. apply t_arms; [exact IH|exact HG|].
    cbn [each_encoder] in HU. clear - HU. induction vs as [|vf vs IHv]; [exact I|]. split; [apply with_mine_all, HU|apply IHv, HU].
Qed.
Lemma t_pushes p : g0 (by_pushes_on K p) (by_pushes p).
Proof. induction p as [n|o next IH]; cbn [by_pushes_on by_pushes]; [apply t_ret|]. apply (T_bind _ _ 0 0); [apply t_wop|exact IH]. Qed.
End Tree.

(** Integers, for relations that reading the word back respects. *)
Lemma mw_push_int_word {S} (K : sink S) k t z : exists w, lenN w = sizeN t /\ mw_push_int (wimpl_of K) k t z = mw_push (wimpl_of K) w /\ push_int k t z = push w.
Proof.
  destruct t; (eexists; split; [|split; reflexivity]); try reflexivity; unfold lenN; rewrite (to_bytes_length); reflexivity.
Qed.
Section Int.
Context {S : Type}.
Variables (K : sink S) (s : bool).
Variable T : forall A : Type, N -> N -> @mrd S A -> wr A -> Prop.
Arguments T {A}.
Local Notation W := (wimpl_of K).
Hypothesis T_weaken : forall A lo hi lo' hi' (c : @mrd S A) m, lo <= lo' -> hi' <= hi -> T lo hi c m -> T lo' hi' c m.
Hypothesis T_ret : forall A lo (a : A), T lo lo (mret a) (wret a).
Hypothesis T_fail : forall lo hi k, T lo hi (mw_fail W k) (wfail k).
Hypothesis T_push : forall lo v, T lo (lo + lenN v) (mw_push W v) (push v).
Hypothesis T_bind : forall A B lo mid hi (c : @mrd S A) m (f : A -> @mrd S B) g,
  T lo mid c m -> (forall a, T mid hi (f a) (g a)) -> T lo hi (mbind c f) (wbind m g).
Hypothesis T_merge : forall lo it bo v, (s = true -> sizeN it <= lo) ->
  T lo (lo - sizeN it) (any_bits_merge K it bo v) (bits_merge it bo v).
Lemma T_enc_int lo it ca fa z : (s = true -> counts_all fa = false -> absent (a_length fa) = true /\ sizeN it <= lo) ->
  T lo (if absent (a_length fa) then (if counts_all fa then lo + sizeN it else if s then lo else 0) else 0) (any_enc_int K it ca fa z) (enc_int it ca fa z).
Proof.
  assert (S16 : 1 <= sizeN it <= 16) by (destruct it; vm_compute; split; discriminate).
  intros Hlo. unfold any_enc_int, enc_int. unfold counts_all in *.
  set (mid := if absent (a_bits fa) || a_bits_start fa then lo else lo - sizeN it).
  apply (T_bind _ _ lo mid).
  - unfold mid. destruct (a_bits fa); [|apply T_ret]. cbn [absent orb] in *. destruct (a_bits_start fa); [apply T_ret|].
    apply T_merge. intros E. apply Hlo; [exact E|reflexivity].
  - intros z'. destruct (a_length fa) as [l|]; cbn [absent].
    + destruct (_ <? _); [apply T_fail|]. apply (T_weaken _ 0 0); [lia|lia|apply (t_uint K (@T)); auto].
    + destruct (mw_push_int_word K (KOrder (get_byteorder ca fa)) it z') as (w & L & -> & ->).
      apply (T_weaken _ mid (mid + lenN w)); [lia| |apply T_push].
      rewrite L. unfold mid. destruct (absent (a_bits fa) || a_bits_start fa) eqn:E; [lia|]. destruct s; [|lia]. destruct (Hlo eq_refl eq_refl). lia.
Qed.
End Int.

(** Encoding values of the right type does not panic and, whatever the outcome,
    only writes at the position. *)
From Verif Require Import Base Ints Spec SpecOps Reader Writer BaseLemmas ReaderLemmas WriterLemmas RunSpec.
From Verif Require Import Schema Utf8 Decode Encode WireSpec SafetySpec TypeSpec CodecBase EncLemmas Counting.

(** Within [K] bytes: success or an error, and [w] written. *)
Definition calm {A} (m : wr A) : Prop :=
  exists K, forall d p, p <= lenN d -> small d -> p + K < W63 ->
  exists w, lenN w <= K /\
    ((exists n, m (mkbuf d p) = Ok n (mkbuf (overwrite d p w) (p + lenN w))) \/
     (exists e, m (mkbuf d p) = Err e (mkbuf (overwrite d p w) (p + lenN w)))).

Lemma calm_ret {A} (a : A) : calm (wret a).
Proof.
  exists 0. intros d p Hp Hs _. exists []. split; [rewrite lenN_nil; lia|]. left. exists a.
  rewrite overwrite_nil, lenN_nil, N.add_0_r by exact Hp. reflexivity.
Qed.
Lemma calm_fail {A} k : calm (@wfail A k).
Proof.
  exists 0. intros d p Hp Hs _. exists []. split; [rewrite lenN_nil; lia|]. right. exists (mkerr p k).
  rewrite overwrite_nil, lenN_nil, N.add_0_r by exact Hp. reflexivity.
Qed.
Lemma calm_push v : calm (push v).
Proof.
  exists (lenN v). intros d p Hp Hs HK. exists v. split; [lia|]. left. exists (lenN v). apply push_ok; auto.
Qed.
Lemma calm_ext {A} (m m' : wr A) : (forall b, m b = m' b) -> calm m' -> calm m.
Proof. intros E [K H]. exists K. intros d p. rewrite E. apply H. Qed.
Lemma calm_bind {A B} (m : wr A) (k : A -> wr B) (Q : A -> Prop) :
  calm m -> (forall b a b', m b = Ok a b' -> Q a) -> (exists K, forall a, Q a -> forall d p, p <= lenN d -> small d -> p + K < W63 ->
  exists w, lenN w <= K /\
    ((exists n, k a (mkbuf d p) = Ok n (mkbuf (overwrite d p w) (p + lenN w))) \/
     (exists e, k a (mkbuf d p) = Err e (mkbuf (overwrite d p w) (p + lenN w))))) -> calm (wbind m k).
Proof.
  intros [K1 H1] HQ [K2 H2]. exists (K1 + K2). intros d p Hp Hs HK.
  destruct (H1 d p Hp Hs ltac:(lia)) as (w1 & L1 & [[a E]|[e E]]).
  - destruct (H2 a (HQ _ _ _ E) (overwrite d p w1) (p + lenN w1)) as (w2 & L2 & D).
    { rewrite overwrite_size. lia. } { unfold small in *. rewrite overwrite_size. lia. } { lia. }
    exists (w1 ++ w2). rewrite lenN_app. split; [lia|]. unfold wbind. rewrite E.
    rewrite <- overwrite_app by exact Hp. rewrite N.add_assoc. exact D.
  - exists w1. split; [lia|]. right. exists e. unfold wbind. rewrite E. reflexivity.
Qed.
Lemma calm_then {A B} (m : wr A) (k : wr B) : calm m -> calm k -> calm (_ <~ m ;; k).
Proof. intros Hm [K Hk]. apply calm_bind with (Q := fun _ => True); auto. exists K. auto. Qed.
Lemma calm_plus a b : calm a -> calm b -> calm (plus a b).
Proof.
  intros Ha [K Hb]. unfold plus. apply calm_bind with (Q := fun _ => True); auto.
  exists K. intros x _ d p Hp Hs HK. destruct (Hb d p Hp Hs HK) as (w & L & [[y E]|[e E]]); exists w; (split; [exact L|]).
  - left. exists (x + y). unfold wbind. rewrite E. reflexivity.
  - right. exists e. unfold wbind. rewrite E. reflexivity.
Qed.
Lemma calm_wop o : calm (run_wop o).
Proof.
  destruct (image o) as [w|] eqn:E.
  - apply calm_ext with (m' := push w); [|apply calm_push]. intros b. pose proof (image_push o b) as H. rewrite E in H. exact H.
  - apply calm_ext with (m' := wfail InvalidByteLength); [|apply calm_fail].
    intros b. pose proof (image_push o b) as H. rewrite E in H. exact H.
Qed.
Lemma calm_list {A} (e : A -> wr N) l : Forall (fun x => calm (e x)) l -> calm (enc_list e l).
Proof. induction 1; [apply calm_ret|apply calm_plus; auto]. Qed.
Lemma calm_opt s : calm (push_opt s).
Proof. destruct s; [apply calm_push|apply calm_ret]. Qed.
Lemma calm_u8 n : calm (push_u8 n).
Proof. apply calm_push. Qed.
Lemma calm_uint k v n : calm (push_uint k v n).
Proof. apply (calm_wop (WPushUint k v n)). Qed.
Lemma calm_int ca fa it z : counts_all fa = true -> calm (enc_int it ca fa z).
Proof.
  intros H. unfold counts_all in H. unfold enc_int.
  assert (K : forall z', calm (match a_length fa with
    | Some l => if sizeN it <? l then wfail InvalidByteLength else push_uint (KOrder (get_byteorder ca fa)) (raw_of_int U64 z') l
    | None => push_int (KOrder (get_byteorder ca fa)) it z' end)).
  { intros z'. destruct (a_length fa) as [l|]; [destruct (sizeN it <? l)|].
    - apply calm_fail.
    - apply calm_uint.
    - apply (calm_wop (WPushInt (KOrder (get_byteorder ca fa)) it z')). }
  destruct (a_bits fa) as [m|]; [cbn in H; rewrite H|]; apply K.
Qed.
Lemma calm_raw ca fa l : calm (enc_raw ca fa l).
Proof.
  unfold enc_raw.
  destruct (a_length fa); [|destruct (a_byte_count fa); [|destruct (a_linend fa); [|destruct (a_linend_value fa); [|destruct (a_remaining fa)]]]];
    repeat apply calm_plus; auto using calm_opt, (@calm_ret N), calm_push, calm_uint, calm_u8.
Qed.
Lemma calm_ip ca fa l : calm (enc_ip ca fa l).
Proof. unfold enc_ip. apply (calm_wop (WPushOrderArray l _)). Qed.
Lemma calm_mac ca fa l : calm (enc_mac ca fa l).
Proof. apply calm_uint. Qed.
Lemma calm_prefix ca fa n : calm (push_count_and_try_count ca fa n).
Proof.
  unfold push_count_and_try_count. destruct (a_byte_count_outside fa); [apply calm_uint|].
  destruct (a_count fa), (a_try_count fa); auto using (@calm_ret N), calm_u8.
Qed.
Lemma calm_tag e v i ca fa : calm (push_tag e v i ca fa).
Proof.
  unfold push_tag. destruct (e_branching e); auto using calm_push, (@calm_ret N).
  destruct (a_branch fa); auto using (@calm_ret N). destruct (c_byte_count (e_c e)); auto using calm_uint.
  destruct (a_byte_count fa); auto using calm_uint. destruct (e_no_tag e); auto using (@calm_ret N), calm_u8.
Qed.
Lemma calm_offset f en : calm (enc_offset f en).
Proof.
  unfold enc_offset. destruct (eval_opt (f_offset f) en); [|apply calm_ret].
  apply calm_then; [|apply calm_ret]. apply calm_list. apply Forall_forall. intros x _. apply calm_u8.
Qed.
Lemma calm_field t e f ca fa en v : typed_field f t ->
  (forall g, f_with_encode f = Some g -> forall en ca fa v, value_of t v -> calm (g en ca fa v)) -> value_of t v -> (forall x, value_of t x -> calm (e ca fa x)) ->
  calm (enc_field e f ca fa en v).
Proof.
  intros (_ & _ & _ & _ & _ & Hg) Hw Hv He. unfold enc_field.
  destruct (f_with_encode f) as [g|]; [exact (Hw g eq_refl en ca fa v Hv)|]. destruct (f_skip_encode f); [apply calm_ret|]. apply calm_plus.
  - destruct (f_from_str f) as [[? ?]|]; auto using (@calm_ret N), calm_raw.
  - assert (K : calm (_ <~ enc_offset f en ;; e ca fa (match f_value_encode f with Some g => g en v | None => v end))).
    { apply calm_then; [apply calm_offset|]. apply He. destruct (f_value_encode f) as [g|]; [apply (Hg g en v eq_refl Hv)|exact Hv]. }
    destruct (f_bits f), (f_untake f); auto using (@calm_ret N).
Qed.

Definition C (t : ty) : Prop := typed t -> encodable t ->
  each_encoder value_of calm t -> forall ca fa v, value_of t v -> counts_all fa = true -> calm (enc t ca fa v).

Definition encodable_field (ft : fspec * ty) : Prop := let (f, t1) := ft in
  (forall en, modifiers f en <> None) /\ own_word f = true /\ encodable t1.
Definition with_calm (ft : fspec * ty) : Prop := let (f, t1) := ft in
  (forall g, f_with_encode f = Some g -> forall en ca fa v, value_of t1 v -> calm (g en ca fa v))
  /\ each_encoder value_of calm t1.
Lemma calm_fields inherit vars ca fs : Forall (fun ft => C (snd ft)) fs ->
  all_of_them (fun ft : fspec * ty => let (f, t1) := ft in typed_field f t1 /\ typed t1) fs -> every encodable_field fs ->
  every with_calm fs ->
  forall prev done vs, counts_all prev = true -> each (map (fun ft => value_of (snd ft)) fs) vs ->
  calm (enc_fields enc inherit vars ca fs prev done vs).
Proof.
  induction fs as [|[f t] fs IH]; intros HK HT HC HU prev done vs Hp HV.
  - destruct vs; cbn [enc_fields]; [apply calm_ret|contradiction].
  - destruct vs as [|v vs]; cbn [enc_fields each map snd] in *; [contradiction|]. destruct HV as [Hv HV].
    inversion HK as [|? ? Kt HK']; subst. destruct HT as [[T1 T2] T3]. destruct HC as [(C1 & C2 & C3) C4].
    destruct HU as [[U1 U2] U3].
    destruct (modifiers f (mkenv done vars)) as [own|] eqn:M; [|destruct (C1 _ M)].
    assert (Hfa : counts_all (if inherit && negb (f_use f) then prev else own) = true).
    { destruct (inherit && negb (f_use f)); [exact Hp|exact (own_word_modifiers _ _ _ C2 M)]. }
    apply calm_plus; [apply calm_field with (t := t); [exact T1|exact U1|exact Hv|]; intros x Hx; apply Kt; assumption|apply IH; assumption].
Qed.
Lemma calm_arms e ca fa xs vs : Forall (fun vf => Forall (fun ft => C (snd ft)) (snd vf)) vs ->
  all_of_them (fun vf : vspec * list (fspec * ty) => let (v, fs) := vf in
    all_of_them (fun ft : fspec * ty => let (f, t1) := ft in typed_field f t1 /\ typed t1) fs) vs ->
  every (fun vf : vspec * list (fspec * ty) => let (v, fs) := vf in
               (forall en, modifiers (v_attr v) en <> None) /\ own_word (v_attr v) = true /\ every encodable_field fs) vs ->
  every (fun vf : vspec * list (fspec * ty) => every with_calm (snd vf)) vs ->
  forall i next, match nth_error (map (fun vf => map (fun ft => value_of (snd ft)) (snd vf)) vs) i with
                 | Some ps => each ps xs | None => False end ->
  calm (enc_arms enc e ca fa xs vs i next).
Proof.
  induction vs as [|[v fs] vs IH]; intros HK HT HC HU i next HV; cbn [enc_arms]; [destruct i; contradiction|].
  inversion HK as [|? ? K1 HK']; subst. destruct HT as [T1 T2]. destruct HC as [(C1 & C2 & C3) C4].
  destruct HU as [U1 U2]. destruct i; [|apply IH; assumption]. cbn [nth_error map snd] in HV.
  destruct (modifiers (v_attr v) (mkenv [] (k_vars ca))) as [prev|] eqn:M; [|destruct (C1 _ M)].
  apply calm_plus; [apply calm_tag|]. apply calm_then; [apply calm_offset|].
  apply calm_fields; [exact K1|exact T1|exact C3|exact U1|exact (own_word_modifiers _ _ _ C2 M)|exact HV].
Qed.

Theorem enc_calm t : C t.
Proof.
  induction t as [t Hl|n t IH|ts IH|t IH|t IH|k v IHk IHv|t IH|named c fs IH|e vs IH] using ty_nested_ind;
    intros HT HC HU ca fa x HV Hf.
  - destruct t; try (exact (HU ca fa x HV)); try discriminate Hl; destruct x; try contradiction HV; cbn [enc];
      auto using calm_int, calm_raw, calm_ip, calm_mac, (@calm_ret N); try apply calm_push.
    + destruct i as [|[|]]; cbn [value_of nth_error] in HV; [| |match goal with H : match nth_error [] ?k with _ => _ end |- _ => destruct k end; contradiction];
        (destruct fs as [|y [|]]; [contradiction| |destruct HV as [_ HV]; contradiction]);
        destruct HV as [HV _]; destruct y; try contradiction; apply calm_ip.
    + destruct i as [|[|[|[|]]]]; cbn [value_of nth_error] in HV; [| | | |match goal with H : match nth_error [] ?k with _ => _ end |- _ => destruct k end; contradiction];
        (destruct fs as [|y [|]]; [contradiction| |destruct HV as [_ HV]; contradiction]);
        destruct HV as [HV _]; destruct y; try contradiction; auto using calm_ip, calm_mac, calm_int.
  - destruct x; try contradiction HV. destruct HV as [Hn HV]. cbn [enc]. rewrite Hn, Nat.eqb_refl.
    apply calm_list. apply Forall_forall. intros y Hy. apply IH; auto. exact (proj1 (Forall_forall _ _) HV y Hy).
  - destruct x; try contradiction HV. cbn [enc value_of typed encodable] in *.
    revert l HV. induction ts as [|t ts IHt]; intros [|y l] HV; cbn [map enc_seq each every] in *; try contradiction; [apply calm_ret|].
    inversion IH; subst. destruct HT, HC, HV, HU. apply calm_plus; [auto|apply IHt; assumption].
  - destruct x; try contradiction HV. cbn [enc value_of] in *.
    assert (Q : forall y, In y l -> calm (enc t ca fa y)).
    { intros y Hy. apply IH; auto. exact (proj1 (Forall_forall _ _) HV y Hy). }
    destruct (a_loop fa).
    + apply calm_list, Forall_forall. intros y Hy. apply calm_plus; [apply calm_push|auto].
    + apply calm_plus; [apply calm_prefix|]. apply calm_list, Forall_forall. auto.
  - contradiction HC.
  - destruct x; try contradiction HV. destruct HT as [T1 T2], HC as [C1 C2], HV as [_ HV], HU as [U1 U2]. cbn [enc].
    apply calm_plus; [apply calm_prefix|]. apply calm_list, Forall_forall. intros y Hy.
    destruct (proj1 (Forall_forall _ _) HV y Hy) as [V1 V2].
    apply calm_plus; [apply IHk|apply IHv]; auto using counts_all_key, counts_all_value.
  - destruct x as [| | | | | | |[y|]| | |]; try contradiction HV; cbn [enc]; [apply IH; assumption|apply calm_ret].
  - destruct x; try contradiction HV. cbn [enc]. apply calm_fields; [exact IH|exact HT|exact HC|exact HU|reflexivity|exact HV].
  - destruct HT as [_ HT]. destruct x; try contradiction HV. cbn [enc]. apply calm_arms; assumption.
Qed.

Lemma encoder_safe t ca fa v : typed t -> encodable t -> each_encoder value_of writes_at_position t -> counts_all fa = true -> value_of t v ->
  exists room, forall d p, p <= size d -> allocatable d -> p + room < 9223372036854775808 ->
  exists w, size w <= room /\
    ((exists n, enc t ca fa v (mkbuf d p) = Ok n (mkbuf (overwrite d p w) (p + size w))) \/
     (exists e, enc t ca fa v (mkbuf d p) = Err e (mkbuf (overwrite d p w) (p + size w)))).
Proof. intros HT HC HU Hf HV. exact (enc_calm t HT HC HU ca fa v HV Hf). Qed.

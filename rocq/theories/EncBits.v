(** Encoding values of the right type does not panic, with bit fields that read back
    the word before them. *)
From Verif Require Import Base Ints Spec SpecOps Reader Writer BaseLemmas ReaderLemmas WriterLemmas RunSpec.
From Verif Require Import Schema Utf8 Decode Encode WireSpec SafetySpec TypeSpec CodecBase EncLemmas Counting EncSafe.

(** Within [K] bytes: success or an error, and the buffer has not shrunk. *)
Definition steady {A} (m : wr A) : Prop :=
  exists K, forall d p, p <= lenN d -> small d -> p + K < W63 ->
  match m (mkbuf d p) with
  | Ok _ b => b_pos b <= lenN (b_data b) /\ small (b_data b) /\ b_pos b <= p + K /\ lenN d <= lenN (b_data b)
  | Err _ b => lenN d <= lenN (b_data b)
  | Panic | Hang => False
  end.

Lemma calm_steady {A} (m : wr A) : calm m -> steady m.
Proof.
  intros [K H]. exists K. intros d p Hp Hs HK. destruct (H d p Hp Hs HK) as (w & L & [[n E]|[e E]]); rewrite E; cbn [b_pos b_data];
    unfold small in *; rewrite overwrite_size; lia.
Qed.
Lemma steady_bind {A B} (m : wr A) (k : A -> wr B) : steady m ->
  (exists K, forall a d p, p <= lenN d -> small d -> p + K < W63 ->
   match k a (mkbuf d p) with
   | Ok _ b => b_pos b <= lenN (b_data b) /\ small (b_data b) /\ b_pos b <= p + K /\ lenN d <= lenN (b_data b)
   | Err _ b => lenN d <= lenN (b_data b)
   | Panic | Hang => False
   end) -> steady (wbind m k).
Proof.
  intros [K1 H1] [K2 H2]. exists (K1 + K2). intros d p Hp Hs HK. specialize (H1 d p Hp Hs ltac:(lia)).
  unfold wbind. destruct (m (mkbuf d p)) as [a [d1 p1]|e [d1 p1]| |]; cbn [b_pos b_data] in H1; try contradiction; [|exact H1].
  destruct H1 as (A1 & A2 & A3 & A4). specialize (H2 a d1 p1 A1 A2 ltac:(lia)).
  unfold small in *. destruct (k a (mkbuf d1 p1)) as [b [d2 p2]|e [d2 p2]| |]; cbn [b_pos b_data] in *; try contradiction; lia.
Qed.
Lemma steady_then {A B} (m : wr A) (k : wr B) : steady m -> steady k -> steady (_ <~ m ;; k).
Proof. intros Hm [K Hk]. apply steady_bind; auto. exists K. auto. Qed.
Lemma steady_plus a b : steady a -> steady b -> steady (plus a b).
Proof.
  intros Ha [K Hb]. unfold plus. apply steady_bind; auto. exists K. intros x d p Hp Hs HK. specialize (Hb d p Hp Hs HK).
  unfold wbind. destruct (b (mkbuf d p)) as [y [d1 p1]|e [d1 p1]| |]; exact Hb.
Qed.
Lemma steady_list {A} (e : A -> wr N) l : Forall (fun x => steady (e x)) l -> steady (enc_list e l).
Proof. induction 1; [apply calm_steady, calm_ret|apply steady_plus; auto]. Qed.

(** A word of at most eight bytes can be read back, or there is an error. *)
Lemma steady_merge it bo v : wide_ints (TInt it) = false -> steady (bits_merge it bo v).
Proof.
  intros W. assert (S8 : 1 <= sizeN it <= 8) by (destruct it; try discriminate W; vm_compute; split; discriminate).
  exists 0. intros d p Hp Hs HK. unfold small in Hs.
  unfold bits_merge, wbind, on_reader, get_position, set_position. cbn [b_data b_pos].
  assert (T : forall q, (exists x, take_uint (KOrder bo) (sizeN it) d q = Ok x (q + sizeN it) /\ q + sizeN it <= lenN d)
                        \/ (take_uint (KOrder bo) (sizeN it) d q = Err (mkerr q InvalidByteLength) q /\ lenN d < q + sizeN it)).
  { intros q. unfold take_uint. destruct (N.le_gt_cases (q + sizeN it) (lenN d)).
    - left. rewrite take_n_in by (assumption || lia). eauto.
    - right. rewrite take_n_out by lia. auto. }
  destruct (N.le_gt_cases (sizeN it) p) as [Hz|Hz].
  - rewrite wsub_small by lia. destruct (T (p - sizeN it)) as [(x & E & B)|[E B]]; rewrite E; [|lia].
    replace (p - sizeN it + sizeN it) with p by lia. cbn [b_data b_pos]. rewrite ?(wsub_small p (sizeN it)) by lia.
    unfold wret. cbn [b_pos b_data]. unfold small. lia.
  - assert (E : wsub p (sizeN it) = p + W64 - sizeN it).
    { unfold wsub. rewrite (N.mod_small (sizeN it)) by lia. apply N.mod_small. lia. }
    rewrite E. destruct (T (p + W64 - sizeN it)) as [(x & E' & B)|[E' B]]; [lia|]. rewrite E'. cbn [b_data]. lia.
Qed.

Definition fine (t : ty) (fa : fattr) : Prop := counts_all fa = true \/ wide_ints t = false.

Lemma steady_int ca fa it z : fine (TInt it) fa -> steady (enc_int it ca fa z).
Proof.
  intros [H|W]; [apply calm_steady, calm_int; exact H|]. unfold enc_int. apply steady_bind.
  - destruct (a_bits fa); [destruct (a_bits_start fa)|]; auto using calm_steady, (@calm_ret Z), steady_merge.
  - exists 16. intros z' d p Hp Hs HK.
    assert (F : forall o, lenN (image_or_nothing o) <= 16 ->
      match run_wop o (mkbuf d p) with
      | Ok _ b => b_pos b <= lenN (b_data b) /\ small (b_data b) /\ b_pos b <= p + 16 /\ lenN d <= lenN (b_data b)
      | Err _ b => lenN d <= lenN (b_data b)
      | Panic | Hang => False
      end).
    { intros o L. unfold image_or_nothing in L. pose proof (image_push o (mkbuf d p)) as I. destruct (image o) as [w|]; rewrite I.
      - rewrite push_ok by (auto; lia). cbn [b_pos b_data]. unfold small in *. rewrite overwrite_size. lia.
      - cbn. lia. }
    destruct (a_length fa) as [l|]; [destruct (sizeN it <? l)|].
    + cbn. lia.
    + apply (F (WPushUint (KOrder (get_byteorder ca fa)) (raw_of_int U64 z') l)).
      unfold image_or_nothing. cbn [image]. destruct (N.leb_spec l 8); [|rewrite lenN_nil; lia].
      unfold lenN. rewrite digits_length. lia.
    + apply (F (WPushInt (KOrder (get_byteorder ca fa)) it z')).
      unfold image_or_nothing. cbn [image]. unfold lenN. rewrite digits_length. destruct it; cbn; lia.
Qed.

Lemma steady_field t e f ca fa en v : typed_field f t ->
  (forall g, f_with_encode f = Some g -> forall en ca fa v, value_of t v -> steady (g en ca fa v)) -> value_of t v -> (forall x, value_of t x -> steady (e ca fa x)) ->
  steady (enc_field e f ca fa en v).
Proof.
  intros (_ & _ & _ & _ & _ & Hg) Hw Hv He. unfold enc_field.
  destruct (f_with_encode f) as [g|]; [exact (Hw g eq_refl en ca fa v Hv)|]. destruct (f_skip_encode f); [apply calm_steady, calm_ret|]. apply steady_plus.
  - destruct (f_from_str f) as [[? ?]|]; auto using calm_steady, (@calm_ret N), calm_raw.
  - assert (K : steady (_ <~ enc_offset f en ;; e ca fa (match f_value_encode f with Some g => g en v | None => v end))).
    { apply steady_then; [apply calm_steady, calm_offset|]. apply He. destruct (f_value_encode f) as [g|]; [apply (Hg g en v eq_refl Hv)|exact Hv]. }
    destruct (f_bits f), (f_untake f); auto using calm_steady, (@calm_ret N).
Qed.

Definition C (t : ty) : Prop := typed t -> encodable_bits t ->
  each_encoder value_of steady t -> forall ca fa v, value_of t v -> fine t fa -> steady (enc t ca fa v).

Definition encodable_field (ft : fspec * ty) : Prop := let (f, t1) := ft in
  (forall en, modifiers f en <> None) /\ encodable_bits t1.
Definition with_steady (ft : fspec * ty) : Prop := let (f, t1) := ft in
  (forall g, f_with_encode f = Some g -> forall en ca fa v, value_of t1 v -> steady (g en ca fa v))
  /\ each_encoder value_of steady t1.
Lemma steady_fields inherit vars ca fs : Forall (fun ft => C (snd ft)) fs ->
  all_of_them (fun ft : fspec * ty => let (f, t1) := ft in typed_field f t1 /\ typed t1) fs -> every encodable_field fs ->
  every with_steady fs ->
  forall prev done vs,
  counts_all prev = true /\ forallb own_word (map fst fs) = true \/ existsb wide_ints (map snd fs) = false ->
  each (map (fun ft => value_of (snd ft)) fs) vs ->
  steady (enc_fields enc inherit vars ca fs prev done vs).
Proof.
  induction fs as [|[f t] fs IH]; intros HK HT HC HU prev done vs Hp HV.
  - destruct vs; cbn [enc_fields]; [apply calm_steady, calm_ret|contradiction].
  - destruct vs as [|v vs]; cbn [enc_fields each map snd fst forallb existsb] in *; [contradiction|]. destruct HV as [Hv HV].
    inversion HK as [|? ? Kt HK']; subst. destruct HT as [[T1 T2] T3]. destruct HC as [(C1 & C3) C4].
    destruct HU as [[U1 U2] U3].
    destruct (modifiers f (mkenv done vars)) as [own|] eqn:M; [|destruct (C1 _ M)].
    assert (Hfa : fine t (if inherit && negb (f_use f) then prev else own)
      /\ (counts_all (if inherit && negb (f_use f) then prev else own) = true /\ forallb own_word (map fst fs) = true
          \/ existsb wide_ints (map snd fs) = false)).
    { destruct Hp as [[P1 P2]|P].
      - apply andb_prop in P2. destruct P2 as [P2 P3].
        assert (Q : counts_all (if inherit && negb (f_use f) then prev else own) = true)
          by (destruct (inherit && negb (f_use f)); [exact P1|exact (own_word_modifiers _ _ _ P2 M)]).
        split; left; auto.
      - apply Bool.orb_false_elim in P. destruct P as [P P']. split; right; assumption. }
    destruct Hfa as [F1 F2].
    apply steady_plus; [apply steady_field with (t := t); [exact T1|exact U1|exact Hv|]; intros x Hx; apply Kt; assumption|apply IH; assumption].
Qed.
Lemma steady_arms e ca fa xs vs : Forall (fun vf => Forall (fun ft => C (snd ft)) (snd vf)) vs ->
  all_of_them (fun vf : vspec * list (fspec * ty) => let (v, fs) := vf in
    all_of_them (fun ft : fspec * ty => let (f, t1) := ft in typed_field f t1 /\ typed t1) fs) vs ->
  every (fun vf : vspec * list (fspec * ty) => let (v, fs) := vf in
               (forall en, modifiers (v_attr v) en <> None)
               /\ narrow_words (v_attr v :: map fst fs) (map snd fs) /\ every encodable_field fs) vs ->
  every (fun vf : vspec * list (fspec * ty) => every with_steady (snd vf)) vs ->
  forall i next, match nth_error (map (fun vf => map (fun ft => value_of (snd ft)) (snd vf)) vs) i with
                 | Some ps => each ps xs | None => False end ->
  steady (enc_arms enc e ca fa xs vs i next).
Proof.
  induction vs as [|[v fs] vs IH]; intros HK HT HC HU i next HV; cbn [enc_arms]; [destruct i; contradiction|].
  inversion HK as [|? ? K1 HK']; subst. destruct HT as [T1 T2]. destruct HC as [(C1 & C2 & C3) C4].
  destruct HU as [U1 U2]. destruct i; [|apply IH; assumption]. cbn [nth_error map snd] in HV.
  destruct (modifiers (v_attr v) (mkenv [] (k_vars ca))) as [prev|] eqn:M; [|destruct (C1 _ M)].
  apply steady_plus; [apply calm_steady, calm_tag|]. apply steady_then; [apply calm_steady, calm_offset|].
  apply steady_fields; [exact K1|exact T1|exact C3|exact U1| |exact HV].
  destruct C2 as [C2|C2]; [left|right; exact C2]. cbn [forallb] in C2. apply andb_prop in C2. destruct C2 as [P Q].
  split; [exact (own_word_modifiers _ _ _ P M)|exact Q].
Qed.

Theorem enc_steady t : C t.
Proof.
  induction t as [t Hl|n t IH|ts IH|t IH|t IH|k v IHk IHv|t IH|named c fs IH|e vs IH] using ty_nested_ind;
    intros HT HC HU ca fa x HV Hf.
  - destruct t; try (exact (HU ca fa x HV)); try discriminate Hl; destruct x; try contradiction HV; cbn [enc];
      auto using steady_int, calm_steady, calm_raw, calm_ip, calm_mac, (@calm_ret N); try apply calm_steady, calm_push.
    + destruct i as [|[|]]; cbn [value_of nth_error] in HV; [| |match goal with H : match nth_error [] ?k with _ => _ end |- _ => destruct k end; contradiction];
        (destruct fs as [|y [|]]; [contradiction| |destruct HV as [_ HV]; contradiction]);
        destruct HV as [HV _]; destruct y; try contradiction; apply calm_steady, calm_ip.
    + destruct i as [|[|[|[|]]]]; cbn [value_of nth_error] in HV; [| | | |match goal with H : match nth_error [] ?k with _ => _ end |- _ => destruct k end; contradiction];
        (destruct fs as [|y [|]]; [contradiction| |destruct HV as [_ HV]; contradiction]);
        destruct HV as [HV _]; destruct y; try contradiction; auto using calm_steady, calm_ip, calm_mac.
      apply steady_int. right. reflexivity.
  - destruct x; try contradiction HV. destruct HV as [Hn HV]. cbn [enc]. rewrite Hn, Nat.eqb_refl.
    apply steady_list. apply Forall_forall. intros y Hy. apply IH; auto. exact (proj1 (Forall_forall _ _) HV y Hy).
  - destruct x; try contradiction HV. cbn [enc value_of typed encodable_bits] in *. unfold fine in Hf. cbn [wide_ints] in Hf.
    revert l HV. induction ts as [|t ts IHt]; intros [|y l] HV; cbn [map enc_seq each every existsb] in *; try contradiction; [apply calm_steady, calm_ret|].
    inversion IH; subst. destruct HT, HC, HV, HU.
    assert (Hf' : fine t fa /\ (counts_all fa = true \/ existsb wide_ints ts = false)).
    { destruct Hf as [F|F]; [split; left; exact F|]. apply Bool.orb_false_elim in F. destruct F. split; right; assumption. }
    destruct Hf'. apply steady_plus; [auto|apply IHt; assumption].
  - destruct x; try contradiction HV. cbn [enc value_of] in *.
    assert (Q : forall y, In y l -> steady (enc t ca fa y)).
    { intros y Hy. apply IH; auto. exact (proj1 (Forall_forall _ _) HV y Hy). }
    destruct (a_loop fa).
    + apply steady_list, Forall_forall. intros y Hy. apply steady_plus; [apply calm_steady, calm_push|auto].
    + apply steady_plus; [apply calm_steady, calm_prefix|]. apply steady_list, Forall_forall. auto.
  - contradiction HC.
  - destruct x; try contradiction HV. destruct HT as [T1 T2], HC as [C1 C2], HV as [_ HV], HU as [U1 U2]. cbn [enc].
    assert (Hk : fine k (key_fattr fa) /\ fine v (value_fattr fa)).
    { destruct Hf as [F|F]; [split; left; auto using counts_all_key, counts_all_value|].
      cbn [wide_ints] in F. apply Bool.orb_false_elim in F. destruct F. split; right; assumption. }
    destruct Hk as [Hk Hv].
    apply steady_plus; [apply calm_steady, calm_prefix|]. apply steady_list, Forall_forall. intros y Hy.
    destruct (proj1 (Forall_forall _ _) HV y Hy) as [V1 V2].
    apply steady_plus; [apply IHk|apply IHv]; auto.
  - destruct x as [| | | | | | |[y|]| | |]; try contradiction HV; cbn [enc]; [apply IH; assumption|apply calm_steady, calm_ret].
  - destruct x; try contradiction HV. cbn [enc encodable_bits] in *. destruct HC as [HN HC].
    apply steady_fields; [exact IH|exact HT|exact HC|exact HU| |exact HV].
    destruct HN as [HN|HN]; [left; split; [reflexivity|exact HN]|right; exact HN].
  - destruct HT as [_ HT]. destruct x; try contradiction HV. cbn [enc]. apply steady_arms; assumption.
Qed.

Lemma writes_answers {A} (m : wr A) : writes_at_position m -> answers_writing m.
Proof. exact (calm_steady m). Qed.
Lemma encoder_answers t ca fa v : typed t -> encodable_bits t -> each_encoder value_of answers_writing t ->
  counts_all fa = true \/ wide_ints t = false -> value_of t v -> answers_writing (enc t ca fa v).
Proof. intros HT HC HU Hf HV. exact (enc_steady t HT HC HU ca fa v HV Hf). Qed.

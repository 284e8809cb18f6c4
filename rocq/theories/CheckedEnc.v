(** Encoding in builds with and without overflow checks. *)
From Verif Require Import Base Ints Spec SpecOps Reader Writer BaseLemmas ReaderLemmas ReaderHist WriterLemmas.
From Verif Require Import Schema Utf8 Decode Encode WireSpec CodecBase SafetySpec EncLemmas Counting CheckedSpec CheckedLemmas.
From Verif Require CheckedReader CheckedWriter CheckedEncode.

Lemma push_same v b : b_pos b + lenN v < W64 -> CheckedWriter.push v b = push v b.
Proof.
  intros H. unfold CheckedWriter.push, push. rewrite !add_ok, wadd_small by exact H.
  assert (E : forall d, match write_at d (b_pos b) v with
    | Some d' => CheckedReader.adding (b_pos b) (lenN v) (fun q => Ok (lenN v) (mkbuf d' q)) | None => Panic end =
    match write_at d (b_pos b) v with Some d' => Ok (lenN v) (mkbuf d' (b_pos b + lenN v)) | None => Panic end).
  { intros d. destruct (write_at d (b_pos b) v); [apply add_ok, H|reflexivity]. }
  rewrite !E. destruct (_ <? _); [|reflexivity]. destruct (vec_resize _ _); [|reflexivity].
  destruct (_ =? 0); [reflexivity|apply E].
Qed.

(** Either they agree (with [s], given room and [lo] bytes before the position, and
    then [hi] bytes are before it), or the checked one panics. *)
Definition within (K lo hi : N) {A} (c m : wr A) : Prop := forall d p, lo <= p -> p <= lenN d -> small d -> p + K < W63 ->
  c (mkbuf d p) = m (mkbuf d p) /\
  match m (mkbuf d p) with
  | Ok _ b => b_pos b <= lenN (b_data b) /\ small (b_data b) /\ b_pos b <= p + K /\ hi <= b_pos b
  | _ => True
  end.
Definition inside (lo hi : N) {A} (c m : wr A) : Prop := exists K, within K lo hi c m.
Definition anywhere {A} (c m : wr A) : Prop := forall b, possible b ->
  (c b = m b /\ match m b with Ok _ b' | Err _ b' => possible b' | _ => True end) \/ c b = Panic.
Definition G (s : bool) (lo hi : N) {A} (c m : wr A) : Prop := if s then inside lo hi c m else anywhere c m.

Section G.
Variable s : bool.
Lemma G_weaken {A} lo hi lo' hi' (c m : wr A) : lo <= lo' -> hi' <= hi -> G s lo hi c m -> G s lo' hi' c m.
Proof.
  destruct s; cbn; [|auto]. intros L H [K Q]. exists K. intros d p P1 P2 P3 P4. destruct (Q d p ltac:(lia) P2 P3 P4) as [E R].
  split; [exact E|]. destruct (m (mkbuf d p)); auto. intuition lia.
Qed.
Lemma G_ret {A} lo (a : A) : G s lo lo (wret a) (wret a).
Proof.
  destruct s; cbn.
  - exists 0. intros d p P1 P2 P3 P4. split; [reflexivity|]. cbn. repeat split; auto; lia.
  - intros b H. left. split; [reflexivity|exact H].
Qed.
Lemma G_fail {A} lo hi k : G s lo hi (@wfail A k) (wfail k).
Proof.
  destruct s; cbn.
  - exists 0. intros d p P1 P2 P3 P4. split; [reflexivity|]. exact I.
  - intros b H. left. split; [reflexivity|exact H].
Qed.
Lemma G_panic {A} lo hi : @G s lo hi A (fun _ => Panic) (fun _ => Panic).
Proof.
  destruct s; cbn.
  - exists 0. intros d p P1 P2 P3 P4. split; [reflexivity|]. exact I.
  - intros b H. left. split; [reflexivity|exact I].
Qed.
Lemma within_push K lo v : lenN v <= K -> within K lo (lo + lenN v) (CheckedWriter.push v) (push v).
Proof.
  intros H d p P1 P2 P3 P4. rewrite push_same by (cbn; lia). split; [reflexivity|].
  rewrite push_ok by (auto; lia). cbn [b_pos b_data]. unfold small in *. rewrite overwrite_size. lia.
Qed.
Lemma G_push lo v : G s lo (lo + lenN v) (CheckedWriter.push v) (push v).
Proof.
  destruct s; cbn.
  - exists (lenN v). apply within_push. lia.
  - intros b [H1 H2]. destruct (N.ltb_spec (b_pos b + lenN v) W64) as [L|L].
    + left. rewrite push_same by exact L. split; [reflexivity|]. unfold push. rewrite wadd_small by exact L.
      assert (W : forall d, allocatable d -> match match write_at d (b_pos b) v with Some d' => Ok (lenN v) (mkbuf d' (b_pos b + lenN v)) | None => Panic end
        with Ok _ b' | Err _ b' => possible b' | _ => True end).
      { intros d Hd. destruct (write_at d (b_pos b) v) as [d'|] eqn:E; [|exact I]. split; [|exact L]. cbn [b_data].
        unfold allocatable, size in *. unfold write_at, slice_get_from, slice_get_to in E.
        destruct (N.leb_spec (b_pos b) (lenN d)) as [A1|]; [|discriminate].
        destruct (N.leb_spec (lenN v) (lenN (skipn (N.to_nat (b_pos b)) d))) as [A2|]; [|discriminate].
        injection E as <-. rewrite !app_length, firstn_length, !skipn_length. unfold lenN in *. rewrite skipn_length in A2. lia. }
      destruct (_ <? _); [|apply W, H1]. destruct (vec_resize (b_data b) (b_pos b + lenN v)) as [d|] eqn:E; [|exact I].
      unfold vec_resize in E. destruct (N.ltb_spec (b_pos b + lenN v) W63) as [L'|]; [|discriminate]. injection E as E.
      assert (Hd : allocatable d).
      { subst d. unfold allocatable, size in *. destruct (N.leb_spec (b_pos b + lenN v) (lenN (b_data b))).
        - rewrite firstn_length. lia.
        - rewrite app_length. unfold zeros. rewrite repeat_length. unfold lenN in *. lia. }
      destruct (_ =? 0); [split; assumption|apply W, Hd].
    + right. unfold CheckedWriter.push, CheckedReader.adding. destruct (N.ltb_spec (b_pos b + lenN v) W64); [lia|].
      destruct (_ <? _); [reflexivity|]. destruct (write_at _ _ _); reflexivity.
Qed.
Lemma G_bind {A B} lo mid hi (c m : wr A) (f g : A -> wr B) : G s lo mid c m ->
  (exists K, forall a, if s then within K mid hi (f a) (g a) else anywhere (f a) (g a)) -> G s lo hi (wbind c f) (wbind m g).
Proof.
  destruct s; cbn.
  - intros [K1 H1] [K2 H2]. exists (K1 + K2). intros d p P1 P2 P3 P4.
    destruct (H1 d p P1 P2 P3 ltac:(lia)) as [E Q]. unfold wbind. rewrite E.
    destruct (m (mkbuf d p)) as [a [d' p']|e b| |]; auto. cbn [b_pos b_data] in Q. destruct Q as (Q1 & Q2 & Q3 & Q4).
    destruct (H2 a d' p' Q4 Q1 Q2 ltac:(lia)) as [E' Q']. split; [exact E'|].
    destruct (g a (mkbuf d' p')); auto. intuition lia.
  - intros H1 [_ H2] b Hb. unfold wbind. destruct (H1 b Hb) as [[E Q]|E]; rewrite E; [|right; reflexivity].
    destruct (m b) as [a b'|e b'| |]; [apply (H2 a b' Q)|left; auto..].
Qed.
Lemma G_then {A B} lo mid hi (c m : wr A) (f g : wr B) : G s lo mid c m -> G s mid hi f g -> G s lo hi (_ <~ c ;; f) (_ <~ m ;; g).
Proof.
  intros H1 H2. apply (G_bind lo mid hi _ _ _ _ H1). destruct s; cbn in *.
  - destruct H2 as [K H2]. exists K. intros _. exact H2.
  - exists 0. intros _. exact H2.
Qed.
Lemma G_plus lo mid hi a a' b b' : G s lo mid a a' -> G s mid hi b b' -> G s lo hi (plus a b) (plus a' b').
Proof.
  intros H1 H2. apply (G_bind lo mid hi _ _ _ _ H1).
  assert (W : forall (x : N) lo hi, G s lo hi b b' -> G s lo hi (y <~ b ;; wret (x + y)) (y <~ b' ;; wret (x + y))) by
    (intros x l h Hx; apply (G_bind l h h _ _ _ _ Hx); exists 0; intros y; pose proof (G_ret h (x + y)) as R; destruct s; cbn in *;
       [intros d p P1 P2 P3 P4; split; [reflexivity|cbn; repeat split; auto; lia]|exact R]).
  destruct s; cbn in *.
  - destruct H2 as [K H2]. exists K. intros x d p P1 P2 P3 P4. destruct (H2 d p P1 P2 P3 P4) as [E Q]. unfold wbind. rewrite E.
    destruct (b' (mkbuf d p)); auto.
  - exists 0. intros x. exact (W x 0 0 H2).
Qed.
(** From anywhere to anywhere. *)
Notation g0 := (G s 0 0).
Lemma g_plus a a' b b' : g0 a a' -> g0 b b' -> g0 (plus a b) (plus a' b').
Proof. apply G_plus. Qed.
Lemma g_then {A B} (c m : wr A) (f g : wr B) : g0 c m -> g0 f g -> g0 (_ <~ c ;; f) (_ <~ m ;; g).
Proof. apply G_then. Qed.
Lemma g_push v : g0 (CheckedWriter.push v) (push v).
Proof. apply (G_weaken 0 (0 + lenN v)); [lia|lia|apply G_push]. Qed.
Lemma g_ret {A} (a : A) : g0 (wret a) (wret a).
Proof. apply G_ret. Qed.
Lemma g_list {A} (e e' : A -> wr N) l : Forall (fun x => g0 (e x) (e' x)) l -> g0 (enc_list e l) (enc_list e' l).
Proof. induction 1; [apply g_ret|apply g_plus; auto]. Qed.
Lemma g_uint k v n : g0 (CheckedWriter.push_uint k v n) (push_uint k v n).
Proof.
  unfold CheckedWriter.push_uint, push_uint, CheckedWriter.push_be_uint, push_be_uint, CheckedWriter.push_le_uint, push_le_uint.
  destruct (order_of k); [destruct (_ <? _)|destruct (slice_get_to _ _)]; first [apply g_push|apply G_fail].
Qed.
Lemma g_u8 n : g0 (CheckedWriter.push_u8 n) (push_u8 n).
Proof. apply g_push. Qed.
Lemma g_wop o : g0 (CheckedWriter.run_wop o) (run_wop o).
Proof.
  destruct o; cbn [CheckedWriter.run_wop run_wop]; try apply g_push; try apply g_uint.
  - unfold CheckedWriter.push_byteorder_array, push_byteorder_array. destruct bo; apply g_push.
  - destruct t; apply g_push.
  - unfold CheckedWriter.push_u24, push_u24. destruct (order_of k); apply g_push.
Qed.
Lemma g_opt o : g0 (CheckedEncode.push_opt o) (push_opt o).
Proof. destruct o; [apply g_push|apply g_ret]. Qed.
Lemma g_prefix ca fa n : g0 (CheckedEncode.push_count_and_try_count ca fa n) (push_count_and_try_count ca fa n).
Proof.
  unfold CheckedEncode.push_count_and_try_count, push_count_and_try_count. destruct (a_byte_count_outside fa); [apply g_uint|].
  destruct (a_count fa), (a_try_count fa); auto using (@g_ret N), g_u8.
Qed.
Lemma g_raw ca fa l : g0 (CheckedEncode.enc_raw ca fa l) (enc_raw ca fa l).
Proof.
  unfold CheckedEncode.enc_raw, enc_raw.
  destruct (a_length fa); [|destruct (a_byte_count fa); [|destruct (a_linend fa); [|destruct (a_linend_value fa); [|destruct (a_remaining fa)]]]];
    repeat apply g_plus; auto using g_opt, (@g_ret N), g_push, g_uint, g_u8.
Qed.
Lemma g_ip ca fa l : g0 (CheckedEncode.enc_ip ca fa l) (enc_ip ca fa l).
Proof. apply (g_wop (WPushOrderArray l _)). Qed.
Lemma g_mac ca fa l : g0 (CheckedEncode.enc_mac ca fa l) (enc_mac ca fa l).
Proof. apply g_uint. Qed.
Lemma g_offset f en : g0 (CheckedEncode.enc_offset f en) (enc_offset f en).
Proof.
  unfold CheckedEncode.enc_offset, enc_offset. destruct (eval_opt (f_offset f) en); [|apply g_ret].
  apply g_then; [|apply g_ret]. apply g_list, Forall_forall. intros x _. apply g_u8.
Qed.
Lemma g_tag e v i ca fa : g0 (CheckedEncode.push_tag e v i ca fa) (push_tag e v i ca fa).
Proof.
  unfold CheckedEncode.push_tag, push_tag. destruct (e_branching e); auto using g_push, (@g_ret N).
  destruct (a_branch fa); auto using (@g_ret N). destruct (c_byte_count (e_c e)); auto using g_uint.
  destruct (a_byte_count fa); auto using g_uint. destruct (e_no_tag e); auto using (@g_ret N), g_u8.
Qed.

(** *** Reading the word back *)
Lemma sub_cases {T A} a b (k : N -> res T A) : (b <= a /\ CheckedReader.subtracting a b k = k (a - b)) \/
  (a < b /\ CheckedReader.subtracting a b k = Panic).
Proof. unfold CheckedReader.subtracting. destruct (N.leb_spec b a); [left|right]; auto. Qed.
Lemma G_merge lo it bo v : (s = true -> sizeN it <= lo) ->
  G s lo (lo - sizeN it) (CheckedEncode.bits_merge it bo v) (bits_merge it bo v).
Proof.
  assert (S16 : 1 <= sizeN it <= 16) by (destruct it; vm_compute; split; discriminate).
  intros Hlo. destruct s; cbn.
  - specialize (Hlo eq_refl). exists 0. intros d p P1 P2 P3 P4. unfold small in P3.
    unfold CheckedEncode.bits_merge, bits_merge, wbind, on_reader, get_position, set_position. cbn [b_data b_pos].
    rewrite sub_ok, wsub_small by lia. cbn [b_data b_pos].
    destruct (ag_uint true (KOrder bo) (sizeN it) d (p - sizeN it) P3 ltac:(lia)) as [[E|[? _]] Q]; [|discriminate]. rewrite E.
    destruct (take_uint (KOrder bo) (sizeN it) d (p - sizeN it)) as [x q|e q| |] eqn:T; auto. cbn [b_data b_pos].
    assert (q = p) as ->.
    { unfold take_uint in T. destruct (N.leb_spec (sizeN it) 8) as [L|L].
      - rewrite take_n_in in T by (exact P3 || lia). injection T as _ <-. lia.
      - unfold take_n, take_n_be, take_n_le in T. destruct (order_of (KOrder bo)); destruct (N.ltb_spec 8 (sizeN it)); try lia; discriminate. }
    rewrite sub_ok, wsub_small by lia. split; [reflexivity|]. unfold wret. cbn [b_pos b_data]. unfold small. lia.
  - intros [d p] [H1 H2]. cbn [b_data b_pos] in *.
    unfold CheckedEncode.bits_merge, bits_merge, wbind, on_reader, get_position, set_position. cbn [b_data b_pos].
    match goal with |- context [CheckedReader.subtracting p ?b ?k] => destruct (sub_cases p b k) as [[L E]|[L E]]; rewrite E; [|right; reflexivity] end.
    clear E. rewrite wsub_small by lia. cbn [b_data b_pos].
    destruct (ag_uint true (KOrder bo) (sizeN it) d (p - sizeN it) H1 ltac:(lia)) as [[E|[? _]] Q]; [|discriminate]. rewrite E.
    destruct (take_uint (KOrder bo) (sizeN it) d (p - sizeN it)) as [x q|e q| |]; [|left; split; [reflexivity|split; assumption]|left; auto..].
    cbn [b_data b_pos].
    match goal with |- context [CheckedReader.subtracting q ?b ?k] => destruct (sub_cases q b k) as [[L' E']|[L' E']]; rewrite E'; [|right; reflexivity] end.
    left. rewrite wsub_small by lia. split; [reflexivity|]. split; cbn [b_data b_pos]; [exact H1|lia].
Qed.
Lemma within_weaken {A} K lo hi lo' hi' (c m : wr A) : lo <= lo' -> hi' <= hi -> within K lo hi c m -> within K lo' hi' c m.
Proof.
  intros L H Q d p P1 P2 P3 P4. destruct (Q d p ltac:(lia) P2 P3 P4) as [E R].
  split; [exact E|]. destruct (m (mkbuf d p)); auto. intuition lia.
Qed.
Lemma within_fail {A} K lo hi k : within K lo hi (@wfail A k) (wfail k).
Proof. intros d p _ _ _ _. split; [reflexivity|exact I]. Qed.
Lemma within_uint k v n : within 16 0 0 (CheckedWriter.push_uint k v n) (push_uint k v n).
Proof.
  assert (W : forall w, lenN w <= 16 -> within 16 0 0 (CheckedWriter.push w) (push w)).
  { intros w H. apply (within_weaken 16 0 (0 + lenN w)); [lia|lia|]. apply within_push, H. }
  unfold CheckedWriter.push_uint, push_uint, CheckedWriter.push_be_uint, push_be_uint, CheckedWriter.push_le_uint, push_le_uint.
  destruct (order_of k); [destruct (_ <? _)|destruct (slice_get_to _ _) as [w|] eqn:E]; try apply within_fail; apply W.
  - unfold lenN. rewrite skipn_length, to_be_length. lia.
  - unfold slice_get_to in E. destruct (n <=? _); [|discriminate]. assert (E' : firstn (N.to_nat n) (to_le 8 v) = w) by congruence.
    rewrite <- E'. unfold lenN. rewrite firstn_length, to_le_length. lia.
Qed.
Lemma push_int_word k t z : exists w, lenN w = sizeN t /\ CheckedWriter.push_int k t z = CheckedWriter.push w /\ push_int k t z = push w.
Proof.
  destruct t; (eexists; split; [|split; reflexivity]); try reflexivity; unfold lenN; rewrite (to_bytes_length); reflexivity.
Qed.
Lemma G_enc_int lo it ca fa z : (s = true -> counts_all fa = false -> sizeN it <= lo) ->
  G s lo (if absent (a_length fa) then (if counts_all fa then lo + sizeN it else lo) else 0) (CheckedEncode.enc_int it ca fa z) (enc_int it ca fa z).
Proof.
  assert (S16 : 1 <= sizeN it <= 16) by (destruct it; vm_compute; split; discriminate).
  intros Hlo. unfold CheckedEncode.enc_int, enc_int. unfold counts_all in *.
  set (mid := if absent (a_bits fa) || a_bits_start fa then lo else lo - sizeN it).
  apply (G_bind lo mid).
  - unfold mid. destruct (a_bits fa); [|apply G_ret]. cbn [absent orb] in *. destruct (a_bits_start fa); [apply G_ret|].
    apply G_merge. intros S. apply Hlo; [exact S|reflexivity].
  - exists 16. intros z'. destruct (a_length fa) as [l|]; cbn [absent].
    + destruct (_ <? _); [pose proof (@G_fail N mid 0 InvalidByteLength) as X|].
      * destruct s; [apply within_fail|exact X].
      * pose proof (g_uint (KOrder (get_byteorder ca fa)) (raw_of_int U64 z') l) as X.
        destruct s; [|exact X]. apply (within_weaken 16 0 0); [lia|lia|apply within_uint].
    + destruct (push_int_word (KOrder (get_byteorder ca fa)) it z') as (w & L & -> & ->).
      pose proof (G_push mid w) as X. destruct s; [|exact X].
      apply (within_weaken 16 mid (mid + lenN w)); [lia| |apply within_push; lia].
      rewrite L. unfold mid. destruct (absent (a_bits fa) || a_bits_start fa) eqn:E; [lia|]. specialize (Hlo eq_refl eq_refl). lia.
Qed.

(** *** Fields *)
Lemma g_field e e' f ca fa en v :
  (forall g, f_with_encode f = Some g -> forall en ca fa v, g0 (g en ca fa v) (g en ca fa v)) -> (forall x, g0 (e ca fa x) (e' ca fa x)) ->
  g0 (CheckedEncode.enc_field e f ca fa en v) (enc_field e' f ca fa en v).
Proof.
  intros Hw He. unfold CheckedEncode.enc_field, enc_field.
  destruct (f_with_encode f) as [g|]; [apply (Hw g eq_refl)|]. destruct (f_skip_encode f); [apply g_ret|]. apply g_plus.
  - destruct (f_from_str f) as [[? ?]|]; auto using (@g_ret N), g_raw.
  - destruct (f_bits f), (f_untake f); auto using (@g_ret N); (apply g_then; [apply g_offset|apply He]).
Qed.
(** A bit field with nothing but its mask. *)
Lemma G_bit_field lo it f ca fa en v : bits_only f = true -> absent (f_bits f) = false -> absent (a_length fa) = true ->
  (s = true -> counts_all fa = false -> sizeN it <= lo) ->
  G s lo (if counts_all fa then lo + sizeN it else lo) (CheckedEncode.enc_field (CheckedEncode.enc (TInt it)) f ca fa en v) (enc_field (enc (TInt it)) f ca fa en v).
Proof.
  intros B FB L Hlo. unfold bits_only, no_with in B. unfold CheckedEncode.enc_field, enc_field, CheckedEncode.enc_offset, enc_offset.
  destruct (f_offset f), (f_skip_decode f), (f_from_str f), (f_if f), (f_length f); try discriminate B.
  apply andb_prop in B. destruct B as [B1 B2]. destruct (f_skip_encode f); [discriminate|].
  destruct (f_with_decode f), (f_with_encode f), (f_format f); try discriminate B2.
  destruct (f_bits f); [|discriminate FB]. cbn [eval_opt option_map].
  apply (G_plus lo lo); [apply G_ret|]. apply (G_then lo lo); [apply G_ret|].
  pose proof (fun z => G_enc_int lo it ca fa z Hlo) as X. rewrite L in X.
  destruct (match f_value_encode f with Some g => g en v | None => v end); cbn [CheckedEncode.enc enc]; try apply X; apply G_panic.
Qed.
End G.

Lemma each_encoder_impl (P : ty -> val -> Prop) (p q : wr N -> Prop) : (forall m, p m -> q m) -> forall t, each_encoder P p t -> each_encoder P q t.
Proof.
  intros HI t. assert (F : forall fs, Forall (fun ft : fspec * ty => each_encoder P p (snd ft) -> each_encoder P q (snd ft)) fs ->
    every (fun ft : fspec * ty => let (f, t1) := ft in
      (forall e, f_with_encode f = Some e -> forall en ca fa v, P t1 v -> p (e en ca fa v)) /\ each_encoder P p t1) fs ->
    every (fun ft : fspec * ty => let (f, t1) := ft in
      (forall e, f_with_encode f = Some e -> forall en ca fa v, P t1 v -> q (e en ca fa v)) /\ each_encoder P q t1) fs).
  { induction 1 as [|[f t0] r Ht _ IH]; intros H; [exact H|]. destruct H as [[H1 H2] H3].
    split; [split; [intros; apply HI; eapply H1; eassumption|exact (Ht H2)]|exact (IH H3)]. }
  induction t as [t Hl|n t IH|ts IH|t IH|t IH|k v IHk IHv|t IH|named c fs IH|e vs IH] using ty_nested_ind; intros H;
    try exact (IH H).
  - destruct t; try discriminate Hl; try exact H. intros ca fa v Hv. apply HI, H, Hv.
  - cbn [each_encoder] in *. induction IH as [|t0 r Ht _ IHr]; [exact H|].
    split; [exact (Ht (proj1 H))|exact (IHr (proj2 H))].
  - split; [exact (IHk (proj1 H))|exact (IHv (proj2 H))].
  - exact (F fs IH H).
  - cbn [each_encoder] in *. induction IH as [|[v fs] r Ht _ IHr]; [exact H|].
    split; [exact (F fs Ht (proj1 H))|exact (IHr (proj2 H))].
Qed.
(** *** Every type *)
Definition ownly {A} (s : bool) (m : wr A) : Prop := G s 0 0 m m.
Definition TE (s : bool) (t : ty) : Prop := (s = true -> grouped t = true) -> each_encoder (fun _ _ => True) (ownly s) t ->
  forall ca fa v, (s = true -> counts_all fa = true) -> G s 0 0 (CheckedEncode.enc t ca fa v) (enc t ca fa v).
Definition with_own (s : bool) (ft : fspec * ty) : Prop :=
  (forall g, f_with_encode (fst ft) = Some g -> forall en ca fa v, ownly s (g en ca fa v)) /\ each_encoder (fun _ _ => True) (ownly s) (snd ft).
Definition usual (inherit : bool) (prev : fattr) (lo : N) (fs : list (fspec * ty)) : Prop :=
  counts_all prev = true /\ forallb own_word (map fst fs) = true \/
  (inherit = false \/ forallb f_use (map fst fs) = true) /\ words_follow lo fs = true.
Lemma g_fields s inherit vars ca fs :
  Forall (fun ft => TE s (snd ft)) fs -> (s = true -> forallb (fun ft : fspec * ty => grouped (snd ft)) fs = true) ->
  Forall (with_own s) fs -> forall lo prev done vs, (s = true -> usual inherit prev lo fs) ->
  G s lo 0 (CheckedEncode.enc_fields CheckedEncode.enc inherit vars ca fs prev done vs) (enc_fields enc inherit vars ca fs prev done vs).
Proof.
  induction fs as [|[f t] fs IH]; intros HT HG HU lo prev done vs HW.
  - destruct vs; cbn [CheckedEncode.enc_fields enc_fields]; [|apply G_panic]. apply (G_weaken s 0 0); [lia|lia|apply G_ret].
  - destruct vs as [|v vs]; cbn [CheckedEncode.enc_fields enc_fields]; [apply G_panic|].
    inversion HT as [|? ? Kt HT']; subst. inversion HU as [|? ? [U1 U2] HU']; subst. cbn [fst snd] in *.
    destruct (modifiers f (mkenv done vars)) as [own|] eqn:M; [|apply G_panic]. cbv zeta.
    set (fa := if inherit && negb (f_use f) then prev else own).
    assert (G1 : s = true -> grouped t = true) by (intros S; specialize (HG S); apply andb_prop in HG; apply HG).
    assert (G2 : s = true -> forallb (fun ft : fspec * ty => grouped (snd ft)) fs = true) by (intros S; specialize (HG S); apply andb_prop in HG; apply HG).
    assert (PLAIN : (s = true -> counts_all fa = true) -> G s 0 0 (CheckedEncode.enc_field (CheckedEncode.enc t) f ca fa (mkenv done vars) v)
                                              (enc_field (enc t) f ca fa (mkenv done vars) v)).
    { intros Hf. apply g_field; [intros g E en' ca' fa' v'; apply (U1 g E)|]. intros x. apply Kt; assumption. }
    destruct s.
    2:{ change (G false 0 0 (plus (CheckedEncode.enc_field (CheckedEncode.enc t) f ca fa (mkenv done vars) v) (CheckedEncode.enc_fields CheckedEncode.enc inherit vars ca fs fa (done ++ [v]) vs)) (plus (enc_field (enc t) f ca fa (mkenv done vars) v) (enc_fields enc inherit vars ca fs fa (done ++ [v]) vs))); apply (G_plus false 0 0); [apply PLAIN; discriminate|]. apply IH; auto. discriminate. }
    specialize (HW eq_refl). destruct HW as [[W1 W2]|[W1 W2]].
    + cbn [map fst forallb] in W2. apply andb_prop in W2. destruct W2 as [W2 W3].
      assert (Hfa : counts_all fa = true) by (unfold fa; destruct (inherit && negb (f_use f)); [exact W1|exact (own_word_modifiers _ _ _ W2 M)]).
      apply (G_weaken true 0 0); [lia|lia|]. apply (G_plus true 0 0); [apply PLAIN; auto|]. apply IH; auto. intros _. left. auto.
    + assert (E : fa = own).
      { unfold fa. destruct W1 as [->|W1]; [reflexivity|]. cbn [map fst forallb] in W1. apply andb_prop in W1. destruct W1 as [-> _].
        cbn [negb]. rewrite andb_false_r. reflexivity. }
      assert (W1' : inherit = false \/ forallb f_use (map fst fs) = true).
      { destruct W1 as [W1|W1]; [auto|]. cbn [map fst forallb] in W1. apply andb_prop in W1. right. apply W1. }
      assert (LEN : bits_only f = true -> absent (a_length fa) = true).
      { intros B. rewrite E. destruct (modifiers_inv _ _ _ M) as [[_ ->]|(_ & L & _)]; [reflexivity|]. rewrite L.
        unfold bits_only in B. destruct (f_offset f), (f_skip_decode f), (f_from_str f), (f_if f), (f_length f); try discriminate B. reflexivity. }
      cbn [words_follow] in W2. destruct (own_word f) eqn:OW.
      * assert (Hfa : counts_all fa = true) by (rewrite E; exact (own_word_modifiers _ _ _ OW M)).
        apply (G_plus true lo (word_begun f t)); [|apply IH; auto; intros _; right; auto].
        unfold word_begun. destruct t; try (apply (G_weaken true 0 0); [lia|lia|apply PLAIN; auto]).
        destruct (f_bits f) eqn:FB; [|apply (G_weaken true 0 0); [lia|lia|apply PLAIN; auto]].
        destruct (bits_only f) eqn:BO; [|apply (G_weaken true 0 0); [lia|lia|apply PLAIN; auto]].
        refine (G_weaken true lo _ lo _ _ _ _ _ (G_bit_field true lo t f ca fa (mkenv done vars) v BO _ (LEN eq_refl) _)); [lia| |rewrite FB; reflexivity|congruence].
        rewrite Hfa, width_sizeN. lia.
      * destruct t; try discriminate W2. apply andb_prop in W2. destruct W2 as [W2 W3]. apply andb_prop in W2. destruct W2 as [BO W2].
        apply N.leb_le in W2. rewrite width_sizeN in W2.
        apply (G_plus true lo lo); [|apply IH; auto; intros _; right; auto].
        refine (G_weaken true lo _ lo _ _ _ _ _ (G_bit_field true lo t f ca fa (mkenv done vars) v BO _ (LEN BO) _)); [lia| | |intros; exact W2].
        -- destruct (counts_all fa); lia.
        -- unfold own_word in OW. destruct (f_bits f); [reflexivity|discriminate].
Qed.
Lemma with_own_all s fs : every (fun ft : fspec * ty => let (f, t1) := ft in
    (forall g, f_with_encode f = Some g -> forall en ca fa v, True -> ownly s (g en ca fa v)) /\ each_encoder (fun _ _ => True) (ownly s) t1) fs ->
  Forall (with_own s) fs.
Proof.
  induction fs as [|[f t] fs IH]; intros H; constructor; [|apply IH, H]. destruct H as [[H1 H2] _]. split; [|exact H2].
  intros g E en ca fa v. exact (H1 g E en ca fa v I).
Qed.
Lemma g_arms s e ca fa xs vs : Forall (fun vf => Forall (fun ft => TE s (snd ft)) (snd vf)) vs ->
  (s = true -> forallb (fun vf : vspec * list (fspec * ty) =>
        (forallb own_word (v_attr (fst vf) :: map fst (snd vf))
         || forallb f_use (map fst (snd vf)) && words_follow 0 (snd vf)) && forallb (fun ft : fspec * ty => grouped (snd ft)) (snd vf)) vs = true) ->
  every (fun vf : vspec * list (fspec * ty) => Forall (with_own s) (snd vf)) vs ->
  forall i next, G s 0 0 (CheckedEncode.enc_arms CheckedEncode.enc e ca fa xs vs i next) (enc_arms enc e ca fa xs vs i next).
Proof.
  induction vs as [|[v fs] vs IH]; intros HT HG HU i next; cbn [CheckedEncode.enc_arms enc_arms]; [apply G_panic|].
  inversion HT as [|? ? K1 HT']; subst. cbn [snd] in *. destruct HU as [U1 U2]. cbv zeta.
  assert (G2 := fun S => proj2 (andb_prop _ _ (HG S))). assert (G1 := fun S => proj1 (andb_prop _ _ (HG S))). cbn [fst snd] in G1.
  destruct i; [|apply IH; assumption].
  destruct (modifiers (v_attr v) (mkenv [] (k_vars ca))) as [prev|] eqn:M; [|apply G_panic].
  apply g_plus; [apply g_tag|]. apply g_then; [apply g_offset|].
  apply g_fields; [exact K1|intros S; apply (andb_prop _ _ (G1 S))|exact U1|].
  intros S. destruct (andb_prop _ _ (G1 S)) as [W _]. apply orb_prop in W. destruct W as [W|W].
  - cbn [forallb] in W. apply andb_prop in W. destruct W as [W1 W2]. left. split; [exact (own_word_modifiers _ _ _ W1 M)|exact W2].
  - apply andb_prop in W. destruct W as [W1 W2]. right. auto.
Qed.
Theorem g_enc s t : TE s t.
Proof.
  induction t as [t Hl|n t IH|ts IH|t IH|t IH|k v IHk IHv|t IH|named c fs IH|e vs IH] using ty_nested_ind;
    intros HG HU ca fa x Hf.
  - assert (INT : forall it z, G s 0 0 (CheckedEncode.enc_int it ca fa z) (enc_int it ca fa z)).
    { intros it z. refine (G_weaken s 0 _ 0 0 _ _ _ _ (G_enc_int s 0 it ca fa z _)); [lia|lia|]. intros S C. rewrite (Hf S) in C. discriminate. }
    destruct t; try (exact (HU ca fa x I)); try discriminate Hl; destruct x; cbn [CheckedEncode.enc enc]; try apply G_panic;
      auto using g_raw, g_ip, g_mac, (@g_ret s N); try apply g_push.
    + destruct i as [|[|]]; try apply G_panic; (destruct fs as [|y [|]]; [apply G_panic| |destruct y; apply G_panic]); destruct y; try apply G_panic; apply g_ip.
    + destruct i as [|[|[|[|]]]]; try apply G_panic; (destruct fs as [|y [|]]; [apply G_panic| |destruct y; apply G_panic]); destruct y; try apply G_panic;
        auto using g_ip, g_mac.
  - destruct x; cbn [CheckedEncode.enc enc]; try apply G_panic. destruct (Nat.eqb _ _); [|apply G_panic].
    apply g_list, Forall_forall. intros y _. apply IH; assumption.
  - destruct x; cbn [CheckedEncode.enc enc]; try apply G_panic. cbn [grouped each_encoder] in *.
    revert l. induction IH as [|t ts Ht _ IHr]; intros [|y l]; cbn [map enc_seq]; try apply G_panic; [apply g_ret|].
    apply g_plus.
    + apply Ht; [intros S; apply (andb_prop _ _ (HG S))|apply HU|exact Hf].
    + apply IHr; [intros S; apply (andb_prop _ _ (HG S))|apply HU].
  - destruct x; cbn [CheckedEncode.enc enc]; try apply G_panic. destruct (a_loop fa).
    + apply g_list, Forall_forall. intros y _. apply g_plus; [apply g_push|apply IH; assumption].
    + apply g_plus; [apply g_prefix|]. apply g_list, Forall_forall. intros y _. apply IH; assumption.
  - destruct x; apply G_panic.
  - destruct x; cbn [CheckedEncode.enc enc]; try apply G_panic. apply g_plus; [apply g_prefix|].
    assert (O : s = true -> grouped k = true /\ grouped v = true) by (intros S; apply andb_prop, (HG S)).
    apply g_list, Forall_forall. intros y _. apply g_plus; [apply IHk|apply IHv]; try apply O; try apply HU;
      intros S; auto using counts_all_key, counts_all_value.
  - destruct x as [| | | | | | |[y|]| | |]; cbn [CheckedEncode.enc enc]; try apply G_panic; [apply IH; assumption|apply g_ret].
  - destruct x; cbn [CheckedEncode.enc enc]; try apply G_panic. cbn [grouped] in HG.
    apply g_fields; [exact IH|intros S; apply (andb_prop _ _ (HG S))|apply with_own_all, HU|].
    intros S. right. split; [left; reflexivity|apply (andb_prop _ _ (HG S))].
  - destruct x; cbn [CheckedEncode.enc enc]; try apply G_panic. apply g_arms; [exact IH|exact HG|].
    cbn [each_encoder] in HU. clear - HU. induction vs as [|vf vs IHv]; [exact I|]. split; [apply with_own_all, HU|apply IHv, HU].
Qed.

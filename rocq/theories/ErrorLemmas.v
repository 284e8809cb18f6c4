(** Where errors come from. *)
From Coq Require Import String.
From Verif Require Import Base Ints Reader Writer BaseLemmas Text TextSpec NetLemmas.
From Verif Require Import Utf8 Decode Encode WireSpec CodecBase SafetySpec Bounds ErrorText ErrorSpec Schema.
Close Scope string_scope.

Section Decoding.
Variable K : list ekind.
Hypothesis KL : In InvalidByteLength K.
Hypothesis KF : In Fail K.
Notation ok := (reports K).

Lemma rep_ret {A} (a : A) : ok (ret a).
Proof. intros d p e q H. discriminate. Qed.
Lemma rep_fail {A} k : In k K -> ok (@fail A k).
Proof. intros Hk d p e q H. injection H as <- <-. split; [reflexivity|exact Hk]. Qed.
Lemma rep_panic {A} : ok (@panic A).
Proof. intros d p e q H. discriminate. Qed.
Lemma rep_bind {A B} (m : rd A) (k : A -> rd B) : ok m -> (forall a, ok (k a)) -> ok (bind m k).
Proof.
  intros Hm Hk d p e q. unfold bind. destruct (m d p) as [a p'|e' p'| |] eqn:E; try discriminate.
  - apply Hk.
  - intros H. injection H as <- <-. exact (Hm _ _ _ _ E).
Qed.
Lemma rep_map {A B} (m : rd A) (f : A -> B) : ok m -> ok (x <- m ;; ret (f x)).
Proof. intros H. apply rep_bind; [exact H|intros; apply rep_ret]. Qed.
Lemma rep_dec_n {A} n (d : rd A) : ok d -> ok (dec_n n d).
Proof.
  intros H. induction n as [|n IH]; [apply rep_ret|]. cbn [dec_n].
  apply rep_bind; [exact H|]. intros x. apply rep_map, IH.
Qed.
Lemma rep_dec_try {A} n (d : rd A) : ok (dec_try n d).
Proof.
  induction n as [|n IH]; [apply rep_ret|]. intros dt p e q. cbn [dec_try].
  destruct (d dt p) as [a p'|e' p'| |]; try discriminate. apply (rep_map _ (fun xs => a :: xs)), IH.
Qed.
Lemma rep_dec_loop {A} fuel m (d : rd A) : ok d -> ok (dec_loop fuel m d).
Proof.
  intros H. induction fuel as [|fuel IH]; intros dt p e q; [discriminate|]. cbn [dec_loop].
  destruct (take_bytes_starts m dt p) as [a p'|e' p'| |]; try discriminate.
  apply rep_bind; [exact H|]. intros x. apply rep_map, IH.
Qed.
Lemma rep_dec_seq ds : Forall ok ds -> ok (dec_seq ds).
Proof.
  induction 1 as [|d r Hd Hr IH]; [apply rep_ret|]. cbn [dec_seq].
  apply rep_bind; [exact Hd|]. intros x. apply rep_map, IH.
Qed.

Lemma rep_bytes n : ok (take_bytes n).
Proof.
  intros d p e q. unfold take_bytes. destruct (remaining_len d p <? n).
  - intros H. injection H as <- <-. split; [reflexivity|exact KL].
  - destruct (slice_get _ _ _); discriminate.
Qed.
Lemma rep_array n : ok (take_array n).
Proof.
  intros d p e q. unfold take_array. destruct (slice_get_to _ _); [discriminate|].
  intros H. injection H as <- <-. split; [reflexivity|exact KL].
Qed.
Lemma rep_starts m : ok (take_bytes_starts m).
Proof.
  intros d p e q. unfold take_bytes_starts. destruct (_ <? _).
  - intros H. injection H as <- <-. split; [reflexivity|exact KL].
  - destruct (starts_with _ _); [discriminate|]. intros H. injection H as <- <-. split; [reflexivity|exact KF].
Qed.
Lemma rep_idx0 l : ok (idx0 l).
Proof. intros d p e q. destruct l; discriminate. Qed.
Lemma rep_one {A} (f : byte -> A) : ok (l <- take_bytes 1 ;; b <- idx0 l ;; ret (f b)).
Proof. apply rep_bind; [apply rep_bytes|]. intros l. apply rep_map, rep_idx0. Qed.
Lemma rep_slice d a b p' e q : slice_ok d a b p' = Err e q -> False.
Proof. unfold slice_ok. destruct (slice_get _ _ _); discriminate. Qed.
Lemma rep_peek n : ok (untake_bytes n).
Proof.
  intros d p e q. unfold untake_bytes. destruct (_ <? _).
  - intros H. injection H as <- <-. split; [reflexivity|exact KL].
  - intros H. destruct (rep_slice _ _ _ _ _ _ H).
Qed.
Lemma rep_peek_one {A} (f : byte -> A) : ok (l <- untake_bytes 1 ;; b <- idx0 l ;; ret (f b)).
Proof. apply rep_bind; [apply rep_peek|]. intros l. apply rep_map, rep_idx0. Qed.
Ltac found := intros d p e q H; match type of H with match ?x with _ => _ end = _ => destruct x as [[? ?]|] || destruct x end;
  [destruct (rep_slice _ _ _ _ _ _ H)|injection H as <- <-; split; [reflexivity|exact KF]].
Lemma rep_find s : ok (find_subsequence s).
Proof. unfold find_subsequence. found. Qed.
Lemma rep_find_needle s i : ok (find_subsequence_needle s i).
Proof. unfold find_subsequence_needle. found. Qed.
Lemma rep_finds s : ok (find_subsequences s).
Proof. unfold find_subsequences. found. Qed.
Lemma rep_finds_needle s i : ok (find_subsequences_needle s i).
Proof. unfold find_subsequences_needle. found. Qed.
Lemma rep_n bo s n : ok (take_n bo s n).
Proof.
  destruct bo; cbn [take_n]; [unfold take_n_be|unfold take_n_le]; destruct (s <? n);
    auto using (@rep_fail N), (@rep_panic N); apply rep_map, rep_bytes.
Qed.
Lemma rep_peek_n bo s n : ok (untake_n bo s n).
Proof.
  destruct bo; cbn [untake_n]; [unfold untake_n_be|unfold untake_n_le]; destruct (s <? n);
    auto using (@rep_fail N), (@rep_panic N); apply rep_map, rep_peek.
Qed.
Lemma rep_fixed bo n : ok (take_fixed bo n).
Proof. apply rep_map, rep_bytes. Qed.
Lemma rep_int k t : ok (take_int k t).
Proof. destruct t; apply rep_map; first [apply rep_one|apply rep_fixed]. Qed.
Lemma rep_peek_int k t : ok (untake_int k t).
Proof. destruct t; apply rep_map; first [apply rep_peek_one|apply rep_map, rep_peek]. Qed.

(** Single calls *)
Lemma rep_call o : ok (run_rop o).
Proof.
  destruct o; apply rep_map.
  - apply rep_array.
  - apply rep_map, rep_array.
  - apply rep_bytes.
  - apply rep_starts.
  - apply rep_one.
  - apply rep_one.
  - apply rep_int.
  - apply rep_n.
  - apply rep_n.
  - apply rep_map, rep_n.
  - apply rep_fixed.
  - apply rep_fixed.
  - apply rep_find.
  - apply rep_find_needle.
  - apply rep_finds.
  - apply rep_finds_needle.
  - apply rep_peek.
  - apply rep_peek_one.
  - apply rep_peek_one.
  - apply rep_peek_int.
  - apply rep_peek_n.
  - apply rep_peek_n.
  - apply rep_map, rep_peek_n.
  - apply rep_map, rep_peek.
  - apply rep_map, rep_peek.
Qed.

(** Leaves *)
Lemma rep_dec_int it ca fa : ok (dec_int it ca fa).
Proof.
  unfold dec_int. apply rep_map. destruct (a_length fa) as [l|]; [|apply rep_int].
  destruct (_ <? _); [apply rep_fail, KL|apply rep_map, rep_n].
Qed.
Lemma rep_skip_to k : ok (skip_to k).
Proof. destruct k; [apply rep_map, rep_find_needle|apply rep_ret]. Qed.
Lemma rep_raw ca fa : ok (dec_raw ca fa).
Proof.
  unfold dec_raw. apply rep_bind; [apply rep_skip_to|intros _]. apply rep_bind; [apply rep_skip_to|intros _].
  destruct (a_length fa); [apply rep_bytes|].
  destruct (a_byte_count fa); [apply rep_bind; [apply rep_n|intros; apply rep_bytes]|].
  destruct (a_linend fa); [apply rep_finds|].
  destruct (a_linend_value fa); [apply rep_find|].
  destruct (a_remaining fa).
  - intros d p. apply rep_bytes.
  - apply rep_bind; [apply rep_one|intros; apply rep_bytes].
Qed.
Lemma rep_string ca fa : ok (dec_string ca fa).
Proof.
  unfold dec_string. apply rep_bind; [apply rep_raw|]. intros l.
  destruct (utf8_ok l); [apply rep_ret|apply rep_fail, KF].
Qed.
Lemma rep_ipv4 ca fa : ok (dec_ipv4 ca fa).
Proof. apply rep_map, rep_int. Qed.
Lemma rep_ipv6 ca fa : ok (dec_ipv6 ca fa).
Proof. apply rep_map, rep_int. Qed.
Lemma rep_mac ca fa : ok (dec_mac ca fa).
Proof. apply rep_map, rep_n. Qed.
Lemma rep_ipaddr ca fa : ok (dec_ipaddr ca fa).
Proof.
  unfold dec_ipaddr. destruct (a_length fa) as [l|]; [|apply rep_fail, KF].
  destruct (l =? 16); [apply rep_map, rep_ipv6|]. destruct (l =? 4); [apply rep_map, rep_ipv4|apply rep_fail, KF].
Qed.
Lemma rep_netaddr ca fa : ok (dec_netaddr ca fa).
Proof.
  unfold dec_netaddr. destruct (a_length fa) as [l|]; [|apply rep_fail, KF].
  destruct (l =? 0); [apply rep_fail, KF|]. destruct (l =? 4); [apply rep_map, rep_ipv4|].
  destruct (l =? 6); [apply rep_map, rep_mac|]. destruct (l =? 16); [apply rep_map, rep_ipv6|].
  apply rep_map, rep_dec_int.
Qed.
Lemma rep_counted {A} ca fa (d : rd A) : ok d -> ok (dec_counted ca fa d).
Proof.
  intros Hd. unfold dec_counted. apply rep_bind.
  - unfold get_count_and_try_count. destruct (a_count fa); [apply rep_ret|]. destruct (a_try_count fa); [apply rep_ret|].
    destruct (a_byte_count_outside fa); apply rep_map; [apply rep_n|apply rep_one].
  - intros [c o]. cbn [snd fst]. destruct o; [apply rep_dec_try|apply rep_dec_n, Hd].
Qed.

(** Derived types *)
Lemma rep_field (d : cattr -> fattr -> rd val) f ca fa en :
  (forall g, f_with_decode f = Some g -> forall en ca fa, ok (g en ca fa)) ->
  (f_check f = None \/ In InvalidValue K) -> (forall ca fa, ok (d ca fa)) -> ok (dec_field d f ca fa en).
Proof.
  intros Hw Hc Hd. unfold dec_field, dec_offset. apply rep_bind.
  { destruct (eval_opt _ _); [intros ? ? ? ? H; discriminate|apply rep_ret]. }
  intros _. destruct (f_with_decode f) as [g|]; [apply Hw; reflexivity|].
  destruct (f_skip_decode f); [apply rep_ret|]. destruct (f_from_str f) as [[parse show]|].
  { apply rep_bind; [apply rep_string|]. intros l. destruct (parse l); [apply rep_ret|apply rep_fail, KF]. }
  apply rep_bind; [intros ? ? ? ? H; discriminate|]. intros p0. apply rep_bind.
  { destruct (f_if f) as [c|]; [destruct (c en); [apply Hd|apply rep_ret]|apply Hd]. }
  intros v. apply rep_bind; [destruct (f_untake f); [intros ? ? ? ? H; discriminate|apply rep_ret]|].
  intros _. destruct (f_check f) as [c|]; [|apply rep_ret].
  destruct (val_eqb _ _); [apply rep_ret|]. apply rep_fail. destruct Hc as [Hc|Hc]; [discriminate|exact Hc].
Qed.
Definition nice (t : ty) : Prop := each_decoder ok t -> checks t = false \/ In InvalidValue K -> forall ca fa, ok (dec t ca fa).
Definition spot (ft : fspec * ty) : bool := let (f, t1) := ft in negb (absent (f_check f)) || checks t1.
Lemma or_split a b : orb a b = false \/ In InvalidValue K -> (a = false \/ In InvalidValue K) /\ (b = false \/ In InvalidValue K).
Proof. destruct a, b; cbn; intuition discriminate. Qed.
Lemma rep_fields fs inherit vars : Forall (fun ft => nice (snd ft)) fs -> Forall (with_fine ok) fs ->
  existsb spot fs = false \/ In InvalidValue K ->
  forall ca prev done, ok (dec_fields dec inherit vars fs ca prev done).
Proof.
  induction fs as [|[f t] r IH]; intros HN HU HC ca prev done; [apply rep_ret|].
  inversion HN as [|? ? Ht HN']; subst. inversion HU as [|? ? [Hw Hu] HU']; subst. cbn [fst snd] in *.
  cbn [existsb spot] in HC. apply or_split in HC as [HC1 HC2]. apply or_split in HC1 as [HC0 HC1].
  cbn [dec_fields]. destruct (modifiers f (mkenv done vars)) as [own|]; [|apply rep_panic].
  apply rep_bind; [|intros v; apply IH; assumption]. apply rep_field; [exact Hw| |].
  - destruct HC0 as [HC0|HC0]; [left|right; exact HC0]. destruct (f_check f); [discriminate|reflexivity].
  - intros ca' fa'. apply Ht; [exact Hu|exact HC1].
Qed.
Lemma rep_arms hit eat nomatch ca vars vs : In nomatch K ->
  Forall (fun vf => Forall (fun ft => nice (snd ft)) (snd vf)) vs ->
  Forall (fun vf : vspec * list (fspec * ty) => Forall (with_fine ok) (snd vf)) vs ->
  existsb (fun vf : vspec * list (fspec * ty) => existsb spot (snd vf)) vs = false \/ In InvalidValue K ->
  forall i next, ok (dec_arms dec hit eat nomatch ca vars vs i next).
Proof.
  intros Hk. induction vs as [|[v fs] r IH]; intros HN HU HC i next; [apply rep_fail, Hk|].
  inversion HN as [|? ? Ht HN']; subst. inversion HU as [|? ? Hu HU']; subst. cbn [fst snd] in *.
  cbn [existsb snd] in HC. apply or_split in HC as [HC1 HC2].
  cbn [dec_arms]. destruct (hit v _); [|apply IH; assumption].
  apply rep_bind; [intros ? ? ? ? H; discriminate|intros _].
  destruct (modifiers (v_attr v) _) as [prev|]; [|apply rep_panic].
  apply rep_bind; [unfold dec_offset; destruct (eval_opt _ _); [intros ? ? ? ? H; discriminate|apply rep_ret]|intros _].
  apply rep_map. apply rep_fields; assumption.
Qed.
Lemma with_fine_arms vs : every (fun vf : vspec * list (fspec * ty) => every (fun ft : fspec * ty => let (f, t1) := ft in
    (forall d, f_with_decode f = Some d -> forall en ca fa, ok (d en ca fa)) /\ each_decoder ok t1) (snd vf)) vs ->
  Forall (fun vf : vspec * list (fspec * ty) => Forall (with_fine ok) (snd vf)) vs.
Proof. induction vs as [|[v fs] r IH]; intros H; constructor; [exact (with_fine_all _ _ (proj1 H))|exact (IH (proj2 H))]. Qed.

Theorem dec_nice t : nice t.
Proof.
  induction t as [t Hl|n t IH|ts IH|t IH|t IH|k v IHk IHv|t IH|named c fs IH|e vs IH] using ty_nested_ind;
    intros HU HC ca fa.
  - destruct t; try discriminate Hl; cbn [dec]; try apply rep_map; try apply rep_ret.
    + apply rep_dec_int.
    + apply rep_one.
    + apply rep_one.
    + apply rep_fixed.
    + apply rep_fixed.
    + apply rep_raw.
    + apply rep_string.
    + apply rep_mac.
    + apply rep_ipv4.
    + apply rep_ipv6.
    + apply rep_ipaddr.
    + apply rep_netaddr.
    + apply HU.
  - cbn [dec]. apply rep_map, rep_dec_n, IH; assumption.
  - cbn [dec]. apply rep_map, rep_dec_seq. cbn [each_decoder checks] in *. apply Forall_map.
    induction IH as [|t0 r Ht _ IHr]; constructor.
    + apply Ht; [exact (proj1 HU)|]. exact (proj1 (or_split _ _ HC)).
    + apply IHr; [exact (proj2 HU)|]. exact (proj2 (or_split _ _ HC)).
  - cbn [dec]. destruct (a_loop fa); apply rep_map.
    + intros d p. apply rep_dec_loop, IH; assumption.
    + apply rep_counted, IH; assumption.
  - cbn [dec]. apply rep_map, rep_counted, IH; assumption.
  - cbn [dec]. apply rep_map, rep_counted. cbn [checks] in HC. apply or_split in HC as [C1 C2].
    apply rep_bind; [apply IHk; [exact (proj1 HU)|exact C1]|]. intros x. apply rep_map, IHv; [exact (proj2 HU)|exact C2].
  - cbn [dec]. intros d p e q H. destruct (a_length fa) as [[|l]|]; [discriminate| |];
      destruct (dec t ca fa d p); discriminate.
  - cbn [dec]. apply rep_map. apply rep_fields; [exact IH|exact (with_fine_all _ _ HU)|exact HC].
  - cbn [dec]. destruct vs as [|vf vs']; [apply rep_ret|]. remember (vf :: vs') as vs eqn:Evs. clear Evs vf vs'.
    pose proof (with_fine_arms _ HU) as HW. cbn [checks] in HC.
    assert (HA : forall hit eat nomatch ca vars i next, In nomatch K -> ok (dec_arms dec hit eat nomatch ca vars vs i next)).
    { intros. apply rep_arms; assumption. }
    destruct (e_branching e).
    + apply rep_bind; [|intros; apply HA, KL]. unfold enum_tag. destruct (a_branch fa); [apply rep_ret|].
      destruct (a_byte_count fa); [apply rep_n|]. destruct (c_byte_count (e_c e)); [apply rep_n|apply rep_one].
    + intros d p. apply HA, KF.
    + intros d p. apply HA, KF.
    + apply rep_bind; [apply rep_bytes|intros; apply HA, KL].
Qed.
End Decoding.

(** ** Encoding *)
Section Encoding.
Variable K : list ekind.
Hypothesis KL : In InvalidByteLength K.
Hypothesis KP : In PushFail K.
Notation ok := (reports_writing K).

Lemma wrep_ret {A} (a : A) : ok (wret a).
Proof. intros b e b' H. discriminate. Qed.
Lemma wrep_fail {A} k : In k K -> ok (@wfail A k).
Proof. intros Hk b e b' H. injection H as <- <-. split; [reflexivity|exact Hk]. Qed.
Lemma wrep_bind {A B} (m : wr A) (k : A -> wr B) : ok m -> (forall a, ok (k a)) -> ok (wbind m k).
Proof.
  intros Hm Hk b e b'. unfold wbind. destruct (m b) as [a b1|e1 b1| |] eqn:E; try discriminate.
  - apply Hk.
  - intros H. injection H as <- <-. exact (Hm _ _ _ E).
Qed.
Lemma wrep_plus a b : ok a -> ok b -> ok (plus a b).
Proof. intros Ha Hb. apply wrep_bind; [exact Ha|]. intros x. apply wrep_bind; [exact Hb|]. intros y. apply wrep_ret. Qed.
Lemma wrep_ill : ok ill_typed.
Proof. intros b e b' H. discriminate. Qed.
Lemma wrep_push v : ok (push v).
Proof.
  intros b e b'. unfold push. destruct (_ <? _).
  - destruct (vec_resize _ _); [|discriminate]. destruct (_ =? 0).
    + intros H. injection H as <- <-. split; [reflexivity|exact KP].
    + destruct (write_at _ _ _); discriminate.
  - destruct (write_at _ _ _); discriminate.
Qed.
Lemma wrep_uint k v n : ok (push_uint k v n).
Proof.
  unfold push_uint. destruct (order_of k); [unfold push_be_uint|unfold push_le_uint].
  - destruct (8 <? n); [apply wrep_fail, KL|apply wrep_push].
  - destruct (slice_get_to _ _); [apply wrep_push|apply wrep_fail, KL].
Qed.
Lemma wrep_int k t z : ok (push_int k t z).
Proof. destruct t; apply wrep_push. Qed.
Lemma wrep_call o : ok (run_wop o).
Proof.
  destruct o; cbn [run_wop]; try apply wrep_push; try apply wrep_uint; try apply wrep_int.
  - destruct bo; apply wrep_push.
  - unfold push_u24. destruct (order_of k); apply wrep_push.
Qed.
Lemma wrep_list {A} (e : A -> wr N) l : (forall x, ok (e x)) -> ok (enc_list e l).
Proof. intros H. induction l; [apply wrep_ret|apply wrep_plus; auto]. Qed.
Lemma wrep_reader {A} (m : rd A) : reports K m -> ok (on_reader m).
Proof.
  intros H b e b'. unfold on_reader. destruct (m (b_data b) (b_pos b)) eqn:E; try discriminate.
  intros Q. injection Q as <- <-. exact (H _ _ _ _ E).
Qed.
Lemma rep_uint_length k n : reports K (take_uint k n).
Proof.
  unfold take_uint, take_n. assert (B : forall n, reports K (take_bytes n)).
  { intros m d p e q. unfold take_bytes. destruct (_ <? _).
    - intros H. injection H as <- <-. split; [reflexivity|exact KL].
    - destruct (slice_get _ _ _); discriminate. }
  destruct (order_of k); [unfold take_n_be|unfold take_n_le]; destruct (8 <? n);
    auto using (@rep_fail K), (@rep_panic K); apply rep_map, B.
Qed.
Lemma wrep_enc_int t ca fa z : ok (enc_int t ca fa z).
Proof.
  unfold enc_int. apply wrep_bind.
  - destruct (a_bits fa); [|apply wrep_ret]. destruct (a_bits_start fa); [apply wrep_ret|]. unfold bits_merge.
    repeat (apply wrep_bind; [apply wrep_reader|intros ?]); try (intros ? ? ? ? H; discriminate);
      [apply rep_uint_length|apply wrep_ret].
  - intros z'. destruct (a_length fa); [|apply wrep_int]. destruct (_ <? _); [apply wrep_fail, KL|apply wrep_uint].
Qed.
Lemma wrep_opt s : ok (push_opt s).
Proof. destruct s; [apply wrep_push|apply wrep_ret]. Qed.
Lemma wrep_raw ca fa l : ok (enc_raw ca fa l).
Proof.
  unfold enc_raw.
  destruct (a_length fa); [|destruct (a_byte_count fa); [|destruct (a_linend fa); [|destruct (a_linend_value fa); [|destruct (a_remaining fa)]]]];
    repeat apply wrep_plus; auto using wrep_opt, (@wrep_ret N), wrep_push, wrep_uint; apply wrep_push.
Qed.
Lemma wrep_ip ca fa l : ok (enc_ip ca fa l).
Proof. unfold enc_ip, push_byteorder_array. destruct (get_byteorder ca fa); apply wrep_push. Qed.
Lemma wrep_count ca fa n : ok (push_count_and_try_count ca fa n).
Proof.
  unfold push_count_and_try_count. destruct (a_byte_count_outside fa); [apply wrep_uint|].
  destruct (a_count fa), (a_try_count fa); auto using (@wrep_ret N); apply wrep_push.
Qed.
Lemma wrep_tag e v i ca fa : ok (push_tag e v i ca fa).
Proof.
  unfold push_tag. destruct (e_branching e); auto using wrep_push, (@wrep_ret N).
  destruct (a_branch fa); auto using (@wrep_ret N). destruct (c_byte_count (e_c e)); auto using wrep_uint.
  destruct (a_byte_count fa); auto using wrep_uint. destruct (e_no_tag e); auto using (@wrep_ret N). apply wrep_push.
Qed.
Lemma wrep_offset f en : ok (enc_offset f en).
Proof.
  unfold enc_offset. destruct (eval_opt (f_offset f) en); [|apply wrep_ret].
  apply wrep_bind; [|intros; apply wrep_ret]. apply wrep_list. intros x. apply wrep_push.
Qed.
Lemma wrep_seq es : Forall (fun e : val -> wr N => forall v, ok (e v)) es -> forall vs, ok (enc_seq es vs).
Proof. induction 1; intros [|v vs]; cbn [enc_seq]; auto using (@wrep_ret N), wrep_ill, wrep_plus. Qed.
Lemma wrep_field e f ca fa en v : (forall g, f_with_encode f = Some g -> forall en ca fa v, ok (g en ca fa v)) ->
  (forall ca fa v, ok (e ca fa v)) -> ok (enc_field e f ca fa en v).
Proof.
  intros Hw He. unfold enc_field. destruct (f_with_encode f) as [g|]; [apply Hw; reflexivity|].
  destruct (f_skip_encode f); [apply wrep_ret|]. apply wrep_plus.
  - destruct (f_from_str f) as [[? ?]|]; [apply wrep_raw|apply wrep_ret].
  - assert (Q : ok (_ <~ enc_offset f en;; e ca fa match f_value_encode f with Some g => g en v | None => v end)).
    { apply wrep_bind; [apply wrep_offset|intros; apply He]. }
    destruct (f_bits f), (f_untake f); auto using (@wrep_ret N).
Qed.
Definition any_value (_ : ty) (_ : val) : Prop := True.
Definition wnice (t : ty) : Prop := each_encoder any_value ok t -> forall ca fa v, ok (enc t ca fa v).
Definition wfine (ft : fspec * ty) : Prop :=
  (forall g, f_with_encode (fst ft) = Some g -> forall en ca fa v, ok (g en ca fa v)) /\ each_encoder any_value ok (snd ft).
Lemma wfine_all fs : every (fun ft : fspec * ty => let (f, t1) := ft in
    (forall e, f_with_encode f = Some e -> forall en ca fa v, any_value t1 v -> ok (e en ca fa v))
    /\ each_encoder any_value ok t1) fs -> Forall wfine fs.
Proof.
  induction fs as [|[f t] fs IH]; intros H; constructor; [|apply IH, H].
  destruct H as [[H1 H2] _]. split; [intros g Hg en ca fa v; exact (H1 g Hg en ca fa v Logic.I)|exact H2].
Qed.
Lemma wrep_fields inherit vars ca fs : Forall (fun ft => wnice (snd ft)) fs -> Forall wfine fs ->
  forall prev done vs, ok (enc_fields enc inherit vars ca fs prev done vs).
Proof.
  induction fs as [|[f t] r IH]; intros HN HU prev done [|v vs]; cbn [enc_fields]; auto using (@wrep_ret N), wrep_ill.
  inversion HN as [|? ? Ht HN']; subst. inversion HU as [|? ? [Hw Hu] HU']; subst. cbn [fst snd] in *.
  destruct (modifiers f _); [|intros ? ? ? H; discriminate].
  apply wrep_plus; [|apply IH; assumption]. apply wrep_field; [exact Hw|]. intros. apply Ht, Hu.
Qed.
Lemma wrep_arms e ca fa xs vs : Forall (fun vf => Forall (fun ft => wnice (snd ft)) (snd vf)) vs ->
  Forall (fun vf : vspec * list (fspec * ty) => Forall wfine (snd vf)) vs ->
  forall i next, ok (enc_arms enc e ca fa xs vs i next).
Proof.
  induction vs as [|[v fs] r IH]; intros HN HU i next; cbn [enc_arms]; [apply wrep_ill|].
  inversion HN as [|? ? Ht HN']; subst. inversion HU as [|? ? Hu HU']; subst. cbn [snd] in *.
  destruct i; [|apply IH; assumption]. destruct (modifiers _ _); [|intros ? ? ? H; discriminate].
  apply wrep_plus; [apply wrep_tag|]. apply wrep_bind; [apply wrep_offset|]. intros _. apply wrep_fields; assumption.
Qed.
Theorem enc_nice t : wnice t.
Proof.
  induction t as [t Hl|n t IH|ts IH|t IH|t IH|k v IHk IHv|t IH|named c fs IH|e vs IH] using ty_nested_ind;
    intros HU ca fa x.
  - destruct t; try discriminate Hl; try exact (HU ca fa x Logic.I);
      destruct x; cbn [enc]; try apply wrep_ill; try apply wrep_push; try apply wrep_raw; try apply wrep_ip;
      try apply wrep_uint; try apply wrep_enc_int; try apply wrep_ret.
    + destruct i as [|[|i]]; destruct fs as [|[] [|? ?]]; try apply wrep_ill; apply wrep_ip.
    + destruct i as [|[|[|[|i]]]]; destruct fs as [|[] [|? ?]]; try apply wrep_ill; try apply wrep_ip; try apply wrep_uint; apply wrep_enc_int.
  - destruct x; cbn [enc]; try apply wrep_ill. destruct (Nat.eqb _ _); [|apply wrep_ill]. apply wrep_list. intros. apply IH, HU.
  - destruct x; cbn [enc]; try apply wrep_ill. apply wrep_seq. cbn [each_encoder] in HU. apply Forall_map.
    induction IH as [|t0 r Ht _ IHr]; constructor; [intros; apply Ht, HU|apply IHr, HU].
  - destruct x; cbn [enc]; try apply wrep_ill. destruct (a_loop fa).
    + apply wrep_list. intros. apply wrep_plus; [apply wrep_push|apply IH, HU].
    + apply wrep_plus; [apply wrep_count|]. apply wrep_list. intros. apply IH, HU.
  - destruct x; apply wrep_ill.
  - destruct x; cbn [enc]; try apply wrep_ill. apply wrep_plus; [apply wrep_count|]. apply wrep_list. intros.
    apply wrep_plus; [apply IHk, HU|apply IHv, HU].
  - destruct x as [| | | | | | | | | |]; cbn [enc]; try apply wrep_ill.
    match goal with |- context [match ?o with Some _ => _ | None => _ end] => destruct o end; [apply IH, HU|apply wrep_ret].
  - destruct x; cbn [enc]; try apply wrep_ill. apply wrep_fields; [exact IH|exact (wfine_all _ HU)].
  - destruct x; cbn [enc]; try apply wrep_ill. apply wrep_arms; [exact IH|].
    cbn [each_encoder] in HU. clear - HU. induction vs as [|[v fs] r IHr]; constructor; [exact (wfine_all _ (proj1 HU))|exact (IHr (proj2 HU))].
Qed.
End Encoding.

(** ** The text *)
Lemma shown_digits n : n < 2 ^ 64 -> Forall is_decimal (show_usize n).
Proof. intros H. exact (proj1 (proj2 (show_usize_text n H))). Qed.
Lemma shown_inj n m : n < 2 ^ 64 -> m < 2 ^ 64 -> show_usize n = show_usize m -> n = m.
Proof. intros A B E. pose proof (usize_round_trip n A). pose proof (usize_round_trip m B). congruence. Qed.
(** The digits at the end are those behind the last character that is no digit. *)
Lemma last_split (a b s t : bytes) c : ~ is_decimal c -> Forall is_decimal s -> Forall is_decimal t ->
  a ++ [c] ++ s = b ++ [c] ++ t -> a = b /\ s = t.
Proof.
  intros Hc. revert b. induction a as [|x a IH]; intros [|y b] Hs Ht E; cbn in E.
  - injection E as E. auto.
  - injection E as -> E. exfalso. subst s. apply Forall_app in Hs as [_ Hs]. inversion Hs; subst. contradiction.
  - injection E as -> E. exfalso. subst t. apply Forall_app in Ht as [_ Ht]. inversion Ht; subst. contradiction.
  - injection E as -> E. destruct (IH _ Hs Ht E) as [-> ->]. auto.
Qed.
Lemma app_common (p a b : bytes) : p ++ a = p ++ b -> a = b.
Proof. apply app_inv_head. Qed.
Lemma app_common_tail (p a b : bytes) : a ++ p = b ++ p -> a = b.
Proof. apply app_inv_tail. Qed.
Definition position_fits (k : error_kind) : Prop := match k with KindPosition p => p < 2 ^ 64 | _ => True end.
Lemma kind_inj k k' : position_fits k -> position_fits k' -> show_kind k = show_kind k' -> k = k'.
Proof.
  intros F F' E. destruct k, k'; try reflexivity; cbn [show_kind position_fits] in *;
    try (exfalso; clear - E; revert E; generalize show_usize; intros x E; vm_compute in E; discriminate).
  - apply app_common, app_common_tail in E. f_equal. exact (shown_inj _ _ F F' E).
  - apply app_common, app_common_tail in E. congruence.
Qed.
Lemma error_inj p p' k k' : p < 2 ^ 64 -> p' < 2 ^ 64 -> position_fits k -> position_fits k' ->
  show_error p k = show_error p' k' -> p = p' /\ k = k'.
Proof.
  intros Hp Hp' F F' E. unfold show_error in E. apply app_common in E.
  assert (S : list_byte_of_string ", position: " = list_byte_of_string ", position:" ++ [" "%byte]) by reflexivity.
  rewrite S in E. rewrite <- !app_assoc in E.
  assert (L : forall a b c d : bytes, a ++ b ++ c ++ d = (a ++ b) ++ c ++ d) by (intros; apply app_assoc).
  rewrite !L in E. apply last_split in E; auto using shown_digits.
  - destruct E as [E1 E2]. apply app_common_tail in E1. split; [exact (shown_inj _ _ Hp Hp' E2)|exact (kind_inj _ _ F F' E1)].
  - unfold is_decimal. cbv. intros [H _]. apply H. reflexivity.
Qed.

(** The decoder inverts the wire format. *)
From Verif Require Import Base Ints Reader Writer Spec SpecOps RunSpec.
From Verif Require Import BaseLemmas ReaderLemmas ReaderHist WriterLemmas WriterHist CodecBase BitsLemmas EncLemmas.
From Verif Require Import Schema Utf8 Decode Encode WireSpec.

(** From the start of [w], with [rest] after it, [m] consumes [w] and returns [a]. *)
Definition reads {A} (m : rd A) (w rest : bytes) (a : A) : Prop :=
  forall pre, small (pre ++ w ++ rest) -> m (pre ++ w ++ rest) (lenN pre) = Ok a (lenN pre + lenN w).

Lemma reads_as_reads {A} (m : rd A) w rest a : reads_as m w rest a -> reads m w rest a.
Proof. intros H pre Hs. apply H. exact Hs. Qed.
Lemma reads_bind {A B} (m : rd A) (k : A -> rd B) w1 w2 rest a b :
  reads m w1 (w2 ++ rest) a -> reads (k a) w2 rest b -> reads (bind m k) (w1 ++ w2) rest b.
Proof.
  intros Hm Hk pre Hs. rewrite <- app_assoc in *. unfold bind. rewrite Hm by exact Hs.
  rewrite <- lenN_app. rewrite app_assoc in *. rewrite Hk by exact Hs. f_equal. rewrite !lenN_app. lia.
Qed.
Lemma reads_ret {A} (a : A) rest : reads (ret a) [] rest a.
Proof. intros pre _. unfold ret. rewrite lenN_nil. f_equal; lia. Qed.
Lemma reads_eq {A} (m : rd A) w w' rest a : w = w' -> reads m w rest a -> reads m w' rest a.
Proof. intros ->; auto. Qed.
Lemma reads_map {A B} (m : rd A) (f : A -> B) w rest a :
  reads m w rest a -> reads (x <- m ;; ret (f x)) w rest (f a).
Proof.
  intros H. apply reads_eq with (w ++ []); [apply app_nil_r|].
  eapply reads_bind; [exact H|apply reads_ret].
Qed.
Lemma reads_map_eq {A B} (m : rd A) (f : A -> B) w rest a b :
  reads m w rest a -> f a = b -> reads (x <- m ;; ret (f x)) w rest b.
Proof. intros H <-. apply reads_map, H. Qed.
Lemma reads_after {A B} (m : rd A) (k : A -> rd B) w rest a b :
  reads m [] (w ++ rest) a -> reads (k a) w rest b -> reads (bind m k) w rest b.
Proof. intros Hm Hk. exact (reads_bind m k [] w rest a b Hm Hk). Qed.

Lemma small_pre pre w rest : small (pre ++ w ++ rest) -> lenN pre + lenN w + lenN rest < W63.
Proof. unfold small. rewrite !lenN_app. lia. Qed.

(** ** Leaves *)
Lemma take_bytes_reads l rest : reads (take_bytes (lenN l)) l rest l.
Proof. intros pre Hs. apply take_bytes_app, Hs. Qed.
Lemma sub_mid pre w rest : sub (pre ++ w ++ rest) (lenN pre) (lenN w) = w.
Proof. apply sub_app. Qed.
Lemma take_uint_reads bo n v rest : n <= 8 ->
  reads (take_uint (KOrder bo) n) (digits bo (N.to_nat n) v) rest (v mod 256 ^ n).
Proof.
  intros Hn pre Hs. unfold take_uint. cbn [order_of].
  assert (HL : lenN (digits bo (N.to_nat n) v) = n) by (rewrite digits_lenN; lia).
  rewrite take_n_in; [|exact Hs|exact Hn|rewrite !lenN_app, HL; lia].
  rewrite HL. f_equal. rewrite <- HL at 2. rewrite sub_app, digits_to_bytes, from_to_bytes, N2Nat.id. reflexivity.
Qed.
Lemma take_int_reads bo t z rest : in_range t z ->
  reads (take_int (KOrder bo) t) (digits bo (N.to_nat (width_bytes t)) (unsigned t z)) rest z.
Proof.
  intros Hz pre Hs.
  assert (HL : lenN (digits bo (N.to_nat (width_bytes t)) (unsigned t z)) = sizeN t)
    by (rewrite digits_lenN, width_sizeN; lia).
  rewrite take_int_in; [|exact Hs|rewrite !lenN_app, HL; lia].
  rewrite HL. f_equal. rewrite <- HL. rewrite sub_app. cbn [order_of].
  rewrite digits_to_bytes, from_to_bytes, N2Nat.id, width_sizeN, N.mod_small, unsigned_raw;
    [|rewrite unsigned_raw; apply raw_lt].
  apply int_of_raw_of_int, Hz.
Qed.
Lemma byte_reads {A} (f : byte -> A) b rest :
  reads (l <- take_bytes 1 ;; x <- idx0 l ;; ret (f x)) [b] rest (f b).
Proof.
  apply (reads_bind _ _ [b] [] rest [b]); [apply (take_bytes_reads [b])|].
  intros pre Hs. unfold bind, idx0, ret. rewrite lenN_nil, N.add_0_r. reflexivity.
Qed.
Lemma b2n_byte_of n : b2n (byte_of n) = n mod 256.
Proof. apply b2n_n2b. Qed.
Lemma take_u8_reads n rest : reads take_u8 [byte_of n] rest (n mod 256).
Proof. rewrite <- b2n_byte_of. apply (byte_reads b2n). Qed.
Lemma take_fixed_reads bo n v rest : 
  reads (take_fixed bo n) (digits bo (N.to_nat n) v) rest (v mod 256 ^ n).
Proof.
  intros pre Hs.
  assert (HL : lenN (digits bo (N.to_nat n) v) = n) by (rewrite digits_lenN; lia).
  rewrite take_fixed_in; [|exact Hs|rewrite !lenN_app, HL; lia].
  rewrite HL. f_equal. rewrite <- HL at 2. rewrite sub_app, digits_to_bytes, from_to_bytes, N2Nat.id. reflexivity.
Qed.

Lemma order_for_get1 ca fa : order_for ca fa = get_byteorder ca fa.
Proof. unfold order_for, get_byteorder. destruct (a_order fa), (k_order ca); reflexivity. Qed.

Lemma dec_int_reads it ca fa z w rest : wire_int it ca fa z = Some w -> fits_int fa z = true ->
  reads (dec_int it ca fa) w rest z.
Proof.
  unfold wire_int, fits_int, dec_int, ko. rewrite order_for_get1.
  destruct (value_inb it z) eqn:Ez; [cbn [negb]|discriminate]. apply value_inb_range in Ez.
  destruct (a_bits fa); [discriminate|]. destruct (a_length fa) as [l|].
  - destruct (N.leb_spec l (width_bytes it)); [|discriminate]. destruct (N.leb_spec l 8); [|discriminate].
    cbn [andb]. intros E; injection E as <-. rewrite andb_true_iff, Z.leb_le, N.ltb_lt. intros [Hz Hl].
    rewrite <- width_sizeN. destruct (N.ltb_spec (width_bytes it) l); [lia|].
    apply (reads_map _ (fun x => x)).
    assert (Hu : unsigned U64 z = Z.to_N z).
    { unfold unsigned. cbn [width_bytes]. rewrite Z.mod_small; [reflexivity|].
      assert (256 ^ l <= 256 ^ 8) by (apply N.pow_le_mono_r; lia).
      change (256 ^ 8) with 18446744073709551616 in *.
      change (2 ^ (8 * Z.of_N 8))%Z with 18446744073709551616%Z. lia. }
    rewrite Hu.
    eapply reads_map_eq; [apply take_uint_reads; assumption|]. cbv beta.
    rewrite N.mod_small, Z2N.id by assumption. apply cast_id, Ez.
  - intros E; injection E as <-. intros _. apply (reads_map _ (fun x => x)). apply take_int_reads, Ez.
Qed.

(** ** Searches *)
Lemma slice_ok_app pre a b p : lenN a + lenN pre <= W63 ->
  slice_ok (pre ++ a ++ b) (lenN pre) (lenN pre + lenN a) p = Ok a p.
Proof.
  intros _. unfold slice_ok. rewrite slice_get_ok; [|lia|rewrite !lenN_app; lia].
  replace (lenN pre + lenN a - lenN pre) with (lenN a) by lia. rewrite sub_app. reflexivity.
Qed.
Lemma memmem_here s rest : memmem_find s (s ++ rest) = Some O.
Proof. destruct (s ++ rest) eqn:E; cbn [memmem_find]; rewrite <- E, starts_with_app; reflexivity. Qed.
Lemma skip_to_reads s rest : reads (skip_to s) (optional s) rest tt.
Proof.
  destruct s as [s|]; cbn [skip_to optional]; [|apply reads_ret].
  intros pre Hs. unfold bind, find_subsequence_needle. rewrite remaining_app, memmem_here.
  apply small_pre in Hs. change (N.of_nat 0) with 0.
  rewrite (wadd_small 0) by lia. rewrite N.add_0_l. rewrite wadd_small by lia.
  rewrite slice_ok_app by lia. reflexivity.
Qed.

Lemma occurs_at_starts s hay j : occurs_at s hay j <-> (j <= length hay)%nat /\ starts_with s (skipn j hay) = true.
Proof.
  rewrite starts_with_iff. split.
  - intros (a & b & -> & <-). split; [rewrite !app_length; lia|].
    exists b. rewrite skipn_app, skipn_all, Nat.sub_diag. reflexivity.
  - intros [Hj [r Hr]]. exists (firstn j hay), r. rewrite <- Hr, firstn_skipn. split; [reflexivity|].
    rewrite firstn_length. lia.
Qed.
Lemma ends_first_memmem s l rest : ends_first s l = true -> memmem_find s (l ++ s ++ rest) = Some (length l).
Proof.
  intros H. apply memmem_complete.
  - exists l, rest. auto.
  - intros j Hj Hocc. apply occurs_at_starts in Hocc as [_ Hocc].
    unfold ends_first in H. rewrite forallb_forall in H.
    specialize (H j). rewrite in_seq in H. specialize (H ltac:(lia)). apply negb_true_iff in H.
    apply starts_with_iff in Hocc as [r Hr].
    rewrite skipn_app in Hr. replace (j - length l)%nat with O in Hr by lia. cbn [skipn] in Hr.
    assert (starts_with s (skipn j (l ++ s)) = true); [|congruence].
    rewrite skipn_app. replace (j - length l)%nat with O by lia. cbn [skipn].
    apply starts_with_iff.
    (* the first |s| bytes of skipn j l ++ s ++ rest lie inside skipn j l ++ s *)
    exists (skipn (length s) (skipn j l ++ s)).
    rewrite app_assoc in Hr.
    assert (Hf : firstn (length s) ((skipn j l ++ s) ++ rest) = s).
    { rewrite Hr, firstn_app, firstn_all, Nat.sub_diag, firstn_O, app_nil_r. reflexivity. }
    rewrite firstn_app in Hf.
    replace (length s - length (skipn j l ++ s))%nat with O in Hf by (rewrite app_length; lia).
    rewrite firstn_O, app_nil_r in Hf.
    etransitivity; [symmetry; apply (firstn_skipn (length s))|]. rewrite Hf. reflexivity.
Qed.
Lemma find_reads s l rest : ends_first s l = true -> reads (find_subsequence s) (l ++ s) rest l.
Proof.
  intros H pre Hs. unfold find_subsequence. rewrite remaining_app, <- app_assoc.
  rewrite ends_first_memmem by exact H. apply small_pre in Hs. rewrite lenN_app in Hs.
  change (N.of_nat (length l)) with (lenN l).
  rewrite (wadd_small (lenN l)) by lia. rewrite !wadd_small by lia.
  rewrite slice_ok_app by lia. f_equal. rewrite lenN_app. lia.
Qed.

Lemma nth_error_occurs b hay j s : occurs_at (b :: s) hay j -> nth_error hay j = Some b.
Proof.
  intros (a & r & -> & <-). rewrite nth_error_app2, Nat.sub_diag by lia. reflexivity.
Qed.
Lemma line_reads l rest :
  forallb (fun b => negb (byte_eqb b line_feed) && negb (byte_eqb b nul)) l = true ->
  reads (find_subsequences line_ends) (l ++ [x0d; x0a]) rest l.
Proof.
  intros H pre Hs. unfold find_subsequences. rewrite remaining_app, <- app_assoc.
  rewrite forallb_forall in H.
  assert (Hin : forall j b, (j < length l)%nat -> nth_error (l ++ [x0d; x0a] ++ rest) j = Some b -> b <> x0a /\ b <> x00).
  { intros j b Hj Hn. rewrite nth_error_app1 in Hn by exact Hj. apply nth_error_In, H in Hn.
    apply andb_true_iff in Hn as [H1 H2]. apply negb_true_iff in H1, H2.
    split; intros ->; [unfold line_feed in H1|unfold nul in H2]; cbn in *; discriminate. }
  rewrite (ac_find_complete line_ends (l ++ [x0d; x0a] ++ rest) (length l) (length l + 2)).
  - apply small_pre in Hs. rewrite lenN_app in Hs. change (lenN [x0d; x0a]) with 2 in Hs.
    replace (N.of_nat (length l + 2)) with (lenN l + 2) by (unfold lenN; lia).
    change (N.of_nat (length l)) with (lenN l). rewrite !wadd_small by lia.
    rewrite slice_ok_app by lia. f_equal. rewrite lenN_app. reflexivity.
  - exists [x0d; x0a]. split; [left; reflexivity|]. split; [|reflexivity].
    exists l, rest. auto.
  - intros p j [<-|[<-|[<-|[]]]] Hocc; cbn [length].
    + (* \r\n at j: the line feed is at j+1 *)
      assert (Hn : nth_error (l ++ [x0d; x0a] ++ rest) (S j) = Some x0a).
      { destruct Hocc as (a & r & E & <-). rewrite E, nth_error_app2 by lia.
        replace (S (length a) - length a)%nat with 1%nat by lia. reflexivity. }
      destruct (Nat.lt_ge_cases (S j) (length l)) as [Hlt|Hge]; [destruct (Hin _ _ Hlt Hn); congruence|].
      destruct (Nat.eq_dec (S j) (length l)) as [Eq|]; [|lia].
      rewrite Eq, nth_error_app2, Nat.sub_diag in Hn by lia. discriminate.
    + apply nth_error_occurs in Hocc.
      destruct (Nat.lt_ge_cases j (length l)) as [Hlt|Hge]; [destruct (Hin _ _ Hlt Hocc); congruence|].
      destruct (Nat.eq_dec j (length l)) as [Eq|]; [|lia].
      rewrite Eq, nth_error_app2, Nat.sub_diag in Hocc by lia. discriminate.
    + apply nth_error_occurs in Hocc.
      destruct (Nat.lt_ge_cases j (length l)) as [Hlt|Hge]; [destruct (Hin _ _ Hlt Hocc); congruence|].
      destruct (Nat.eq_dec j (length l)) as [Eq|].
      { rewrite Eq, nth_error_app2, Nat.sub_diag in Hocc by lia. discriminate. }
      destruct (Nat.eq_dec j (S (length l))) as [Eq|]; [|lia].
      rewrite Eq, nth_error_app2 in Hocc by lia.
      replace (S (length l) - length l)%nat with 1%nat in Hocc by lia. discriminate.
Qed.

Lemma dec_raw_reads ca fa l w rest : frame ca fa l = Some w -> fits_frame fa l rest = true ->
  reads (dec_raw ca fa) w rest l.
Proof.
  unfold frame, fits_frame, dec_raw, ko. rewrite order_for_get1. intros H HF.
  destruct (match a_length fa, a_byte_count fa with Some _, _ => _ | _, _ => _ end) as [framed|] eqn:E;
    [|discriminate].
  cbn [option_map] in H. injection H as <-.
  eapply reads_bind; [apply skip_to_reads|]. cbv beta.
  eapply reads_bind; [apply skip_to_reads|]. cbv beta.
  destruct (a_length fa) as [n|].
  - injection E as <-. apply N.eqb_eq in HF. subst n. apply take_bytes_reads.
  - destruct (a_byte_count fa) as [k|].
    + destruct (N.leb_spec k 8); [|discriminate]. injection E as <-. apply N.ltb_lt in HF.
      eapply reads_bind; [apply take_uint_reads; assumption|]. rewrite N.mod_small by exact HF.
      apply take_bytes_reads.
    + destruct (a_linend fa); [injection E as <-; apply line_reads, HF|].
      destruct (a_linend_value fa) as [s|]; [injection E as <-; apply find_reads, HF|].
      destruct (a_remaining fa); injection E as <-.
      * destruct rest; [|discriminate]. intros pre Hs. unfold remaining_len.
        rewrite remaining_app.
        replace (lenN (l ++ [])) with (lenN l) by (rewrite app_nil_r; reflexivity).
        apply take_bytes_app. exact Hs.
      * apply N.ltb_lt in HF. change (byte_of (size l) :: l) with ([byte_of (size l)] ++ l).
        eapply reads_bind; [apply take_u8_reads|]. rewrite N.mod_small by exact HF. apply take_bytes_reads.
Qed.
Lemma dec_string_reads ca fa l w rest : frame ca fa l = Some w -> fits_frame fa l rest = true ->
  utf8_ok l = true -> reads (dec_string ca fa) w rest l.
Proof.
  intros H HF HU. unfold dec_string. apply reads_eq with (w ++ []); [apply app_nil_r|].
  eapply reads_bind; [eapply dec_raw_reads; eassumption|]. rewrite HU. apply reads_ret.
Qed.

Lemma take_octets_reads bo l rest n : size l = n -> n <= 8 ->
  reads (take_uint (KOrder bo) n) (octets bo l) rest (be_val l).
Proof.
  intros Hl Hn. rewrite octets_to_bytes, <- digits_to_bytes. unfold size in Hl.
  replace (length l) with (N.to_nat n) by lia.
  pose proof (take_uint_reads bo n (be_val l) rest Hn) as H.
  rewrite N.mod_small in H; [exact H|]. pose proof (be_val_lt l) as Hb. unfold lenN in Hb. rewrite Hl in Hb. exact Hb.
Qed.
Lemma dec_mac_reads ca fa l rest : size l = 6 -> reads (dec_mac ca fa) (octets (order_for ca fa) l) rest l.
Proof.
  intros Hl. unfold dec_mac, ko. replace (order_for ca fa) with (get_byteorder ca fa) by (symmetry; apply order_for_get1).
  assert (E : l = skipn 2 (to_be 8 (be_val l))).
  { rewrite (skipn_to_be 6 8) by lia. unfold size in Hl. replace 6%nat with (length l) by lia.
    symmetry. apply (to_from_bytes Be). }
  eapply reads_map_eq; [apply take_octets_reads; [exact Hl|lia]|]. symmetry. exact E.
Qed.
Lemma dec_ip_reads it n ca fa l rest : is_signed it = false -> width_bytes it = n -> size l = n ->
  reads (v <- take_int (ko ca fa) it ;; ret (to_be (N.to_nat n) (Z.to_N v))) (octets (order_for ca fa) l) rest l.
Proof.
  intros Hs Hw Hl. unfold ko. replace (order_for ca fa) with (get_byteorder ca fa) by (symmetry; apply order_for_get1).
  assert (Hlt : be_val l < 256 ^ n) by (pose proof (be_val_lt l); unfold lenN, size in *; rewrite Hl in *; assumption).
  assert (E : l = to_be (N.to_nat n) (Z.to_N (Z.of_N (be_val l)))).
  { rewrite N2Z.id. unfold size in Hl. replace (N.to_nat n) with (length l) by lia. symmetry. apply (to_from_bytes Be). }
  apply reads_map_eq with (Z.of_N (be_val l)); [|symmetry; exact E].
  rewrite octets_to_bytes, <- digits_to_bytes. unfold size in Hl. replace (length l) with (N.to_nat (width_bytes it)) by lia.
  assert (Hu : be_val l = unsigned it (Z.of_N (be_val l))).
  { unfold unsigned. rewrite <- imod_width, imod_256, <- N2Z.inj_mod, N2Z.id. symmetry. apply N.mod_small. rewrite Hw; exact Hlt. }
  rewrite Hu at 1. apply take_int_reads. apply unsigned_range; [exact Hs|]. rewrite imod_256, Hw. lia.
Qed.

(** ** Decoders that need a byte fail at the end of the input, where they stand *)
Definition starves {A} (m : rd A) : Prop :=
  forall d, small d -> exists e, m d (lenN d) = Err e (lenN d).
Lemma starves_bind {A B} (m : rd A) (k : A -> rd B) : starves m -> starves (bind m k).
Proof. intros H d Hd. destruct (H d Hd) as [e He]. exists e. unfold bind. rewrite He. reflexivity. Qed.
Lemma starves_after {A B} (m : rd A) (k : A -> rd B) a :
  (forall d, small d -> m d (lenN d) = Ok a (lenN d)) -> starves (k a) -> starves (bind m k).
Proof. intros H Hk d Hd. unfold bind. rewrite H by exact Hd. apply Hk, Hd. Qed.
Lemma starves_take n : 0 < n -> starves (take_bytes n).
Proof. intros Hn d Hd. eexists. apply take_bytes_out; [lia|left; exact Hn]. Qed.
Lemma starves_u8 : starves take_u8.
Proof. apply starves_bind, starves_take; lia. Qed.
Lemma starves_fixed bo n : 0 < n -> starves (take_fixed bo n).
Proof. intros Hn. apply starves_bind, starves_take; exact Hn. Qed.
Lemma starves_int k t : starves (take_int k t).
Proof. intros d Hd. eexists. apply take_int_out; [exact Hd|]. pose proof (sizeN_pos t). lia. Qed.
Lemma starves_uint bo n : positive_length (Some n) = true -> starves (take_uint (KOrder bo) n).
Proof.
  cbn. rewrite andb_true_iff, !N.leb_le. intros [H1 H2] d Hd. eexists. apply take_n_out; [exact H2|lia|left; lia].
Qed.
Lemma starves_fail {A} k : starves (@fail A k).
Proof. intros d Hd. eexists. reflexivity. Qed.

Lemma remaining_end d : remaining d (lenN d) = [].
Proof. rewrite remaining_in by lia. rewrite to_nat_lenN, skipn_all. reflexivity. Qed.
Lemma starves_skip_to s : non_empty s = true -> starves (skip_to (Some s)).
Proof.
  intros Hs. apply starves_bind. intros d Hd. unfold find_subsequence_needle. rewrite remaining_end.
  destruct s; [discriminate|]. cbn [memmem_find starts_with]. eexists; reflexivity.
Qed.
Lemma starves_find s : non_empty s = true -> starves (find_subsequence s).
Proof.
  intros Hs d Hd. unfold find_subsequence. rewrite remaining_end.
  destruct s; [discriminate|]. cbn [memmem_find starts_with]. eexists; reflexivity.
Qed.
Lemma starves_lines : starves (find_subsequences line_ends).
Proof. intros d Hd. unfold find_subsequences. rewrite remaining_end. cbn. eexists; reflexivity. Qed.

Lemma hungry_frame_starves ca fa : hungry_frame fa = true -> starves (dec_raw ca fa).
Proof.
  unfold hungry_frame, dec_raw.
  destruct (a_key fa) as [s|]; [intros H; apply starves_bind, starves_skip_to, H|].
  intros H. apply starves_after with tt; [reflexivity|].
  destruct (a_split fa) as [s|]; [apply starves_bind, starves_skip_to, H|].
  apply starves_after with tt; [reflexivity|].
  destruct (a_length fa) as [n|]; [apply starves_take; apply N.leb_le in H; lia|].
  destruct (a_byte_count fa) as [n|]; [apply starves_bind, starves_uint, H|].
  destruct (a_linend fa); [apply starves_lines|].
  destruct (a_linend_value fa) as [s|]; [apply starves_find, H|].
  destruct (a_remaining fa); [discriminate|]. apply starves_bind, starves_u8.
Qed.
Lemma hungry_int_starves it ca fa : positive_length (a_length fa) = true -> starves (dec_int it ca fa).
Proof.
  intros H. apply starves_bind. destruct (a_length fa) as [n|]; [|apply starves_int].
  destruct (N.ltb_spec (sizeN it) n); [apply starves_fail|]. apply starves_bind, starves_uint, H.
Qed.
Lemma hungry_count_starves {A} ca fa h (d : rd A) : hungry_count fa h = true -> (h = true -> starves d) ->
  starves (dec_counted ca fa d).
Proof.
  unfold hungry_count, dec_counted, get_count_and_try_count.
  destruct (a_count fa) as [c|].
  - rewrite andb_true_iff, N.leb_le. intros [Hc Hh] Hd.
    apply starves_after with (c, None); [reflexivity|]. cbn [fst snd].
    destruct (N.to_nat c) as [|n] eqn:E; [lia|]. cbn [dec_n]. apply starves_bind, Hd, Hh.
  - destruct (a_try_count fa); [discriminate|]. intros H _. apply starves_bind.
    destruct (a_byte_count_outside fa) as [n|]; apply starves_bind; [apply starves_uint, H|apply starves_u8].
Qed.

Lemma dec_fields_cons_starves inherit vars f t fs ca fa (prev : fattr) done :
  modifiers f (mkenv done vars) = Some fa -> (inherit && negb (f_use f) = true -> prev = no_fattr) ->
  starves (dec_field (dec t) f ca fa (mkenv done vars)) ->
  starves (dec_fields dec inherit vars ((f, t) :: fs) ca prev done).
Proof.
  intros Hm Hp Hs. cbn [dec_fields]. rewrite Hm.
  replace (if inherit && negb (f_use f) then prev else fa) with fa; [apply starves_bind, Hs|].
  destruct (inherit && negb (f_use f)) eqn:E; [|reflexivity]. rewrite Hp by reflexivity.
  apply andb_true_iff in E as [_ E]. apply negb_true_iff in E. unfold modifiers in Hm. rewrite E in Hm. congruence.
Qed.

Lemma hungry_starves t : well_formed t -> forall ca fa, hungry t ca fa = true -> starves (dec t ca fa).
Proof.
  induction t using ty_nested_ind; intros Hwf ca fa Hh.
  - destruct t; try discriminate; cbn [dec].
    + apply starves_bind, hungry_int_starves, Hh.
    + apply starves_bind, starves_bind, starves_take; lia.
    + apply starves_bind, starves_bind, starves_take; lia.
    + apply starves_bind, starves_fixed; lia.
    + apply starves_bind, starves_fixed; lia.
    + apply starves_bind, hungry_frame_starves, Hh.
    + apply starves_bind, starves_bind, hungry_frame_starves, Hh.
    + apply starves_bind, starves_bind, starves_uint; reflexivity.
    + apply starves_bind, starves_bind, starves_int.
    + apply starves_bind, starves_bind, starves_int.
    + unfold dec_ipaddr. destruct (a_length fa) as [n|]; [|apply starves_fail].
      destruct (n =? 16); [apply starves_bind, starves_bind, starves_int|].
      destruct (n =? 4); [apply starves_bind, starves_bind, starves_int|apply starves_fail].
    + unfold dec_netaddr. destruct (a_length fa) as [n|] eqn:El; [|apply starves_fail].
      destruct (N.eqb_spec n 0); [apply starves_fail|].
      destruct (n =? 4); [apply starves_bind, starves_bind, starves_int|].
      destruct (n =? 6); [apply starves_bind, starves_bind, starves_uint; reflexivity|].
      destruct (n =? 16); [apply starves_bind, starves_bind, starves_int|].
      apply starves_bind, starves_bind. rewrite El. change (sizeN Usize) with 8.
      destruct (N.ltb_spec 8 n); [apply starves_fail|]. apply starves_bind, starves_uint.
      cbn. rewrite andb_true_iff, !N.leb_le. lia.
    + exact (kf_hungry _ _ _ Hwf ca fa Hh).
  - cbn [hungry] in Hh. destruct n; [discriminate|]. cbn [dec]. apply starves_bind. cbn [dec_n].
    apply starves_bind, IHt, Hh. exact Hwf.
  - cbn [hungry] in Hh. destruct H as [|t ts Ht _]; [discriminate|]. cbn [map] in Hh. cbn [dec map].
    apply starves_bind. cbn [dec_seq]. apply starves_bind, Ht, Hh. exact (proj1 Hwf).
  - cbn [hungry] in Hh. cbn [dec]. destruct (a_loop fa); [discriminate|].
    apply starves_bind. eapply hungry_count_starves; [exact Hh|apply IHt, Hwf].
  - cbn [hungry] in Hh. cbn [dec]. apply starves_bind. eapply hungry_count_starves; [exact Hh|apply IHt, Hwf].
  - cbn [hungry] in Hh. cbn [dec]. apply starves_bind. eapply hungry_count_starves; [exact Hh|].
    intros E. apply starves_bind, IHt1, E. exact (proj1 Hwf).
  - discriminate.
  - cbn [hungry] in Hh. cbn [dec]. apply starves_bind. destruct fs as [|[f t] fs]; [discriminate|].
    destruct (modifiers f (mkenv [] (k_vars ca))) as [fa'|] eqn:Em; [|discriminate].
    eapply dec_fields_cons_starves; [exact Em|reflexivity|].
    destruct Hwf as [_ Hwf]. cbn [every] in Hwf. destruct Hwf as [(Hwt & _ & _ & Hwith) _]. unfold with_ok in Hwith.
    destruct (f_format f) as [doc|].
    { destruct (f_with_decode f) as [wd|] eqn:Ewd; [|destruct (f_with_encode f); contradiction].
      destruct (f_with_encode f) as [we|]; [|contradiction]. destruct Hwith as (Ho & _ & HK).
      unfold dec_field, dec_offset. rewrite Ho, Ewd. cbn [eval_opt option_map].
      apply starves_after with tt; [reflexivity|].
      exact (kf_hungry _ _ _ (HK [] (k_vars ca) []) (own_cattr c) fa' Hh). }
    destruct (f_with_decode f) eqn:Ewd; [destruct (f_with_encode f); contradiction|].
    destruct (f_skip_decode f) eqn:Es; [discriminate|]. destruct (f_if f) eqn:Ei; [discriminate|].
    apply andb_true_iff in Hh as [Ho Hh].
    unfold dec_field, dec_offset. unfold no_offset in Ho. destruct (f_offset f); [discriminate|]. cbn [eval_opt option_map].
    apply starves_after with tt; [reflexivity|]. rewrite Ewd, Es, Ei.
    destruct (f_from_str f) as [[parse show]|].
    + apply starves_bind, starves_bind, hungry_frame_starves, Hh.
    + intros d Hd. unfold bind at 1, get_position. apply (starves_bind (dec t (own_cattr c) fa')); [|exact Hd].
      inversion H as [|? ? Ht _]; subst. apply Ht; [exact Hwt|exact Hh].
  - cbn [hungry] in Hh. cbn [dec]. destruct vs as [|v vs]; [discriminate|].
    destruct (e_branching e); try discriminate.
    + unfold enum_tag. destruct (a_branch fa); [discriminate|]. apply starves_bind.
      destruct (a_byte_count fa); [apply starves_uint, Hh|].
      destruct (c_byte_count (e_c e)); [apply starves_uint, Hh|apply starves_u8].
    + apply starves_bind, starves_take. apply N.leb_le in Hh. lia.
Qed.

(** ** Sequences *)
Lemma all_of_app_inv {A} (w : A -> option bytes) x l out : all_of (map w (x :: l)) = Some out ->
  exists a b, w x = Some a /\ all_of (map w l) = Some b /\ out = a ++ b.
Proof. intros H. apply all_of_cons in H. exact H. Qed.

Lemma dec_n_reads {A B} (d : rd A) (val : B -> A) (w : B -> option bytes) (fit : B -> bytes -> bool) :
  (forall x a rest, w x = Some a -> fit x rest = true -> reads d a rest (val x)) ->
  forall l out rest, all_of (map w l) = Some out -> all_fit w fit l rest = true ->
  reads (dec_n (length l) d) out rest (map val l).
Proof.
  intros Hd. induction l as [|x l IH]; intros out rest Hw Hf.
  - injection Hw as <-. apply reads_ret.
  - destruct (all_of_app_inv _ _ _ _ Hw) as (a & b & Ha & Hb & ->).
    cbn [all_fit] in Hf. apply andb_true_iff in Hf as [Hf1 Hf2]. rewrite Hb in Hf1. cbn [optional] in Hf1.
    cbn [dec_n length map]. eapply reads_bind; [apply Hd; eassumption|].
    apply (reads_map _ (cons (val x))). apply IH; assumption.
Qed.
(** [k] spare attempts after the last element. *)
Lemma dec_try_reads {A B} (d : rd A) (val : B -> A) (w : B -> option bytes) (fit : B -> bytes -> bool) k :
  (forall x a rest, w x = Some a -> fit x rest = true -> reads d a rest (val x)) ->
  forall l out rest, all_of (map w l) = Some out -> all_fit w fit l rest = true ->
  (k = O \/ rest = [] /\ starves d) ->
  reads (dec_try (length l + k) d) out rest (map val l).
Proof.
  intros Hd. induction l as [|x l IH]; intros out rest Hw Hf Hk.
  - injection Hw as <-. cbn [length Nat.add map]. destruct Hk as [->|[-> Hst]]; [apply reads_ret|].
    destruct k as [|k]; [apply reads_ret|]. intros pre Hs. cbn [app] in *. rewrite app_nil_r in *.
    cbn [dec_try]. destruct (Hst pre Hs) as [e He]. rewrite He. rewrite lenN_nil, N.add_0_r. reflexivity.
  - destruct (all_of_app_inv _ _ _ _ Hw) as (a & b & Ha & Hb & ->).
    cbn [all_fit] in Hf. apply andb_true_iff in Hf as [Hf1 Hf2]. rewrite Hb in Hf1. cbn [optional] in Hf1.
    assert (HR : reads (x0 <- d ;; xs <- dec_try (length l + k) d ;; ret (x0 :: xs)) (a ++ b) rest (val x :: map val l)).
    { eapply reads_bind; [apply Hd; eassumption|]. apply (reads_map _ (cons (val x))). apply IH; assumption. }
    intros pre Hs. specialize (HR pre Hs). cbn [length Nat.add dec_try map]. unfold bind at 1 in HR.
    pose proof (Hd x a (b ++ rest) Ha Hf1 pre) as H1. rewrite <- app_assoc in *. rewrite H1 in * by exact Hs.
    exact HR.
Qed.

Lemma counted_reads {A B} ca fa (d : rd A) (val : B -> A) (w : B -> option bytes) (fit : B -> bytes -> bool) :
  (forall x a rest, w x = Some a -> fit x rest = true -> reads d a rest (val x)) ->
  forall l pfx out rest starved, (starved = true -> rest = [] /\ starves d) ->
  count_prefix ca fa (N.of_nat (length l)) = Some pfx ->
  fits_count fa (N.of_nat (length l)) starved = true ->
  all_of (map w l) = Some out -> all_fit w fit l rest = true ->
  reads (dec_counted ca fa d) (pfx ++ out) rest (map val l).
Proof.
  intros Hd l pfx out rest starved Hst Hp Hc Hw Hf.
  unfold count_prefix in Hp. unfold fits_count in Hc. unfold dec_counted, get_count_and_try_count, ko.
  rewrite order_for_get1 in Hp.
  assert (HN : forall c, N.to_nat (N.of_nat c) = c) by (intros; lia).
  destruct (a_count fa) as [c|].
  - assert (pfx = []) by (destruct (a_byte_count_outside fa); congruence). subst pfx.
    apply N.eqb_eq in Hc. subst c.
    eapply reads_bind; [apply reads_ret|]. cbn [fst snd]. rewrite HN. eapply dec_n_reads; eassumption.
  - destruct (a_try_count fa) as [c|].
    + assert (pfx = []) by (destruct (a_byte_count_outside fa); congruence). subst pfx.
      eapply reads_bind; [apply reads_ret|]. cbn [fst snd].
      apply orb_true_iff in Hc as [Hc|Hc].
      * apply N.eqb_eq in Hc. subst c. rewrite HN, <- (Nat.add_0_r (length l)).
        eapply dec_try_reads; try eassumption. left; reflexivity.
      * apply andb_true_iff in Hc as [Hlt Hs]. apply N.ltb_lt in Hlt.
        replace (N.to_nat c) with (length l + (N.to_nat c - length l))%nat by lia.
        eapply dec_try_reads; try eassumption. right; auto.
    + destruct (a_byte_count_outside fa) as [k|].
      * destruct (N.leb_spec k 8); [|discriminate]. injection Hp as <-. apply N.ltb_lt in Hc.
        eapply reads_bind.
        { apply (reads_map _ (fun v => (v, None))). apply take_uint_reads; assumption. }
        cbn [fst snd]. rewrite N.mod_small, HN by exact Hc. eapply dec_n_reads; eassumption.
      * injection Hp as <-. apply N.ltb_lt in Hc. eapply reads_bind.
        { apply (reads_map _ (fun v => (v, None))). apply take_u8_reads. }
        cbn [fst snd]. rewrite N.mod_small, HN by exact Hc. eapply dec_n_reads; eassumption.
Qed.

Lemma take_starts_reads m rest : reads (take_bytes_starts m) m rest tt.
Proof.
  intros pre Hs. apply small_pre in Hs. unfold take_bytes_starts, remaining_len. rewrite remaining_app, starts_with_app.
  rewrite lenN_app. destruct (N.ltb_spec (lenN m + lenN rest) (lenN m)); [lia|].
  rewrite wadd_small by lia. reflexivity.
Qed.
Lemma starts_with_short m l : lenN l < lenN m -> starts_with m l = false.
Proof.
  intros H. destruct (starts_with m l) eqn:E; [|reflexivity].
  apply starts_with_iff in E as [r ->]. rewrite lenN_app in H. lia.
Qed.
Lemma loop_reads {A B} m (d : rd A) (val : B -> A) (w : B -> option bytes) (fit : B -> bytes -> bool) :
  (forall x a rest, w x = Some a -> fit x rest = true -> reads d a rest (val x)) ->
  forall l out rest fuel, starts_with m rest = false -> (length l < fuel)%nat ->
  all_of (map (fun x => and_then (Some m) (w x)) l) = Some out ->
  all_fit (fun x => and_then (Some m) (w x)) fit l rest = true ->
  reads (dec_loop fuel m d) out rest (map val l).
Proof.
  intros Hd. induction l as [|x l IH]; intros out rest fuel Hm Hfuel Hw Hf.
  - injection Hw as <-. destruct fuel as [|fuel]; [lia|]. intros pre Hs. cbn [dec_loop app] in *.
    unfold take_bytes_starts, remaining_len. rewrite remaining_app, Hm. rewrite lenN_nil, N.add_0_r.
    destruct (lenN rest <? lenN m); reflexivity.
  - destruct (all_of_app_inv _ _ _ _ Hw) as (ma & b & Hma & Hb & ->).
    destruct (and_then_some _ _ _ Hma) as (m' & a & Hm' & Ha & ->). injection Hm' as <-.
    cbn [all_fit] in Hf. apply andb_true_iff in Hf as [Hf1 Hf2]. rewrite Hb in Hf1. cbn [optional] in Hf1.
    destruct fuel as [|fuel]; [cbn in Hfuel; lia|]. cbn [length] in Hfuel.
    assert (HR : reads (x0 <- d ;; xs <- dec_loop fuel m d ;; ret (x0 :: xs)) (a ++ b) rest (val x :: map val l)).
    { eapply reads_bind; [apply Hd; eassumption|]. apply (reads_map _ (cons (val x))). apply IH; auto; lia. }
    rewrite <- (app_assoc m a b). intros pre Hs.
    assert (HR' : reads (_ <- take_bytes_starts m ;; x0 <- d ;; xs <- dec_loop fuel m d ;; ret (x0 :: xs))
              (m ++ a ++ b) rest (val x :: map val l)).
    { eapply reads_bind; [apply take_starts_reads|exact HR]. }
    specialize (HR' pre Hs). cbn [dec_loop map]. unfold bind at 1 in HR'.
    pose proof (take_starts_reads m ((a ++ b) ++ rest) pre) as H1. rewrite (app_assoc m (a ++ b) rest) in H1.
    rewrite H1 in * by exact Hs. exact HR'.
Qed.
Lemma loop_count {A} (w : A -> option bytes) m l : forall out, non_empty m = true ->
  all_of (map (fun x => and_then (Some m) (w x)) l) = Some out -> (length l <= length out)%nat.
Proof.
  induction l as [|x l IH]; intros out Hm Hw; [cbn; lia|].
  destruct (all_of_app_inv _ _ _ _ Hw) as (ma & b & Hma & Hb & ->).
  destruct (and_then_some _ _ _ Hma) as (m' & a & Hm' & Ha & ->). injection Hm' as <-.
  specialize (IH b Hm Hb). rewrite !app_length. destruct m; [discriminate|]. cbn [length]. lia.
Qed.

(** A map with distinct keys is rebuilt entry by entry. *)
Lemma map_insert_new k v l : forallb (fun y => negb (val_eqb k y)) (map fst l) = true ->
  map_insert k v l = l ++ [(k, v)].
Proof.
  induction l as [|[k' v'] l IH]; cbn; [reflexivity|]. rewrite andb_true_iff, negb_true_iff. intros [H1 H2].
  rewrite H1, IH by exact H2. reflexivity.
Qed.
Lemma val_eqb_sym a b : val_eqb a b = val_eqb b a.
Proof.
  destruct (val_eqb a b) eqn:E; destruct (val_eqb b a) eqn:E'; try reflexivity.
  - apply val_eqb_eq in E. subst. rewrite val_eqb_refl in E'. discriminate.
  - apply val_eqb_eq in E'. subst. rewrite val_eqb_refl in E. discriminate.
Qed.
Lemma map_rebuilt l : forall acc, distinct (map fst (acc ++ l)) = true ->
  fold_left (fun m kv => map_insert (fst kv) (snd kv) m) l acc = acc ++ l.
Proof.
  induction l as [|[k v] l IH]; intros acc H; cbn [fold_left]; [rewrite app_nil_r; reflexivity|].
  cbn [fst snd]. rewrite map_insert_new.
  - rewrite IH; rewrite <- app_assoc; [reflexivity|exact H].
  - clear IH. induction acc as [|[k' v'] acc IHa]; [reflexivity|].
    cbn in H. apply andb_true_iff in H as [H1 H2]. cbn. rewrite (IHa H2), andb_true_r.
    rewrite map_app, forallb_app in H1. apply andb_true_iff in H1 as [_ H1]. cbn in H1.
    apply andb_true_iff in H1 as [H1 _]. rewrite val_eqb_sym. exact H1.
Qed.

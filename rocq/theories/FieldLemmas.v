(** Integers, bit fields, byte strings and addresses: what is written is read
    back. *)
From Verif Require Import Base Ints Reader Writer Spec SpecOps.
From Verif Require Import BaseLemmas ReaderLemmas ReaderHist WriterLemmas WriterHist CodecBase BitsLemmas EncLemmas DecLemmas DecWire.
From Verif Require Import Schema Utf8 Sugar Decode Encode WireSpec RunSpec CodecSpec RoundTrip Collections Containers OrderLemmas.

Lemma digits_size bo n v : size (digits bo n v) = N.of_nat n.
Proof. rewrite digits_to_bytes. apply to_bytes_lenN. Qed.
Lemma number_digits bo n v : number bo (digits bo n v) = v mod 256 ^ N.of_nat n.
Proof. rewrite digits_to_bytes. rewrite number_from_bytes. apply from_to_bytes. Qed.
Lemma window_mid pre w rest : window (pre ++ w ++ rest) (size pre) (size w) = w.
Proof. apply sub_mid. Qed.

Lemma length_both_ways it ca fa l z : a_length fa = Some l -> a_bits fa = None ->
  0 < l -> l <= width_bytes it -> l <= 8 -> value_in it z ->
  exists w, size w = l /\ writes_as (enc (TInt it) ca fa (VInt z)) w
    /\ forall pre rest, allocatable (pre ++ w ++ rest) ->
       (dec (TInt it) ca fa (pre ++ w ++ rest) (size pre) = Ok (VInt z) (size pre + l)
        <-> (0 <= z < Z.of_N (256 ^ l))%Z \/ l = width_bytes it).
Proof.
  intros Hl Hb H0 Hw H8 Hz. eexists. split; [|split; [apply length_encode; eassumption|]].
  - rewrite digits_size. apply N2Nat.id.
  - set (w := digits _ _ _). assert (Hs : size w = l) by (subst w; rewrite digits_size; apply N2Nat.id).
    intros pre rest Ha. rewrite (length_decode it ca fa l); try assumption.
    2:{ unfold size in *. rewrite !app_length. lia. }
    assert (HWn : window (pre ++ w ++ rest) (size pre) l = w) by (rewrite <- Hs; apply window_mid). rewrite HWn.
    assert (HE : int_number (order_for ca fa) it w = int_of_raw it (Z.to_N (z mod Z.of_N (256 ^ l)))).
    { rewrite int_number_eq. f_equal. rewrite <- number_from_bytes. subst w. rewrite number_digits, N2Nat.id. apply N.mod_small.
      pose proof (pow256_pos l). pose proof (Z.mod_pos_bound z (Z.of_N (256 ^ l)) ltac:(lia)). lia. }
    rewrite HE, <- (length_round_trip it z l Hz H0 Hw). split; congruence.
Qed.

Lemma bits_group_round_trip it m ms vs c ca fa rest : is_signed it = false -> width_bytes it <= 8 ->
  Forall (fun m => m < 256 ^ width_bytes it) (m :: ms) -> pairwise_disjoint (m :: ms) -> Forall2 fits_mask (m :: ms) vs ->
  exists w, size w = width_bytes it
    /\ writes_as (enc (TStruct true c (bit_group it m ms)) ca fa (VList (numbers vs))) w
    /\ reads_as (dec (TStruct true c (bit_group it m ms)) ca fa) w rest (VList (numbers vs)).
Proof.
  intros Hs Hw Hall Hp HF. destruct (bits_group_encode it m ms vs c Hs Hw Hall Hp HF) as (word & Hlt & HU & _ & HW).
  eexists. split; [|split; [apply HW|]]; [rewrite digits_size; apply N2Nat.id|].
  intros pre Ha. set (w := digits _ _ _) in *. assert (Hsz : size w = width_bytes it) by (subst w; rewrite digits_size; apply N2Nat.id).
  rewrite bits_group_decode; try assumption.
  - f_equal; [|rewrite Hsz; reflexivity]. do 2 f_equal. rewrite <- Hsz, window_mid. subst w. rewrite number_digits, N2Nat.id.
    rewrite N.mod_small by exact Hlt. clear - HU. revert HU. generalize (m :: ms). intros L HU.
    induction HU as [|m0 v0 L vs H0 _ IH]; [reflexivity|]. cbn [map]. rewrite H0, IH. reflexivity.
  - clear - HF Hall Hw. revert Hall. induction HF as [|m0 v0 L vs H0 _ IH]; intros Hall; constructor; inversion Hall; subst.
    + destruct H0 as (k & j & Hj & -> & _). split; [|split; [assumption|]].
      * assert (2 ^ 1 <= 2 ^ j) by (apply N.pow_le_mono_r; lia). pose proof (N.pow_nonzero 2 k ltac:(lia)). nia.
      * eapply N.lt_le_trans; [eassumption|]. apply N.pow_le_mono_r; lia.
    + apply IH. assumption.
  - unfold size in *. rewrite !app_length. lia.
Qed.

Lemma key_skips_as ca fa k l w junk rest : a_key fa = Some k -> ends_first k junk = true ->
  frame ca fa l = Some w -> fits_frame fa l rest = true ->
  reads_as (dec TBytes ca fa) (junk ++ w) rest (VBytes l).
Proof. intros Hk Hj Hw Hf. apply reads_reads_as. cbn [dec]. apply reads_map. eapply key_skips; eassumption. Qed.

(** ** Addresses *)
Lemma octets_size bo l : size (octets bo l) = size l.
Proof. destruct bo; [reflexivity|]. unfold size, octets. rewrite rev_length. reflexivity. Qed.
Lemma octets_twice bo l : octets bo (octets bo l) = l.
Proof. destruct bo; [reflexivity|]. apply rev_involutive. Qed.
Lemma address_round_trip t n ca fa l rest : In (t, n) [(TMac, 6); (TIpv4, 4); (TIpv6, 16)] -> size l = n ->
  writes_as (enc t ca fa (VBytes l)) (octets (order_for ca fa) l)
  /\ reads_as (dec t ca fa) (octets (order_for ca fa) l) rest (VBytes l).
Proof.
  intros [E|[E|[E|[]]]] Hs; injection E as <- <-; (split; [apply encoder_writes|apply decoder_reads]);
    try exact I; try reflexivity; cbn [wire]; rewrite Hs; reflexivity.
Qed.
Lemma cut_window d p n : p + n <= size d -> exists pre rest, d = pre ++ window d p n ++ rest /\ size pre = p /\ size (window d p n) = n.
Proof.
  intros H. unfold size in *. exists (firstn (N.to_nat p) d), (skipn (N.to_nat n) (skipn (N.to_nat p) d)). unfold window.
  rewrite (firstn_skipn (N.to_nat n)), firstn_skipn. split; [reflexivity|].
  rewrite !firstn_length, skipn_length. split; lia.
Qed.
Lemma address_decode t n ca fa d p : In (t, n) [(TMac, 6); (TIpv4, 4); (TIpv6, 16)] -> allocatable d -> p + n <= size d ->
  dec t ca fa d p = Ok (VBytes (octets (order_for ca fa) (window d p n))) (p + n).
Proof.
  intros Ht Ha Hp. destruct (cut_window d p n Hp) as (pre & rest & Hd & Hpre & Hw).
  set (w := window d p n) in *.
  destruct (address_round_trip t n ca fa (octets (order_for ca fa) w) rest Ht) as [_ HR]; [rewrite octets_size; exact Hw|].
  rewrite octets_twice in HR. specialize (HR pre). rewrite <- Hd in HR. rewrite Hpre, Hw in HR. apply HR, Ha.
Qed.
Lemma address_by_length t i n ca fa l rest :
  In (t, i, n) [(TIpAddr, 0%nat, 4); (TIpAddr, 1%nat, 16); (TNetAddr, 0%nat, 4); (TNetAddr, 1%nat, 16); (TNetAddr, 2%nat, 6)] ->
  size l = n -> a_length fa = Some n ->
  writes_as (enc t ca fa (VVariant i [VBytes l])) (octets (order_for ca fa) l)
  /\ reads_as (dec t ca fa) (octets (order_for ca fa) l) rest (VVariant i [VBytes l]).
Proof.
  intros H Hs Hl. cbn [In] in H. decompose [or] H; try contradiction;
    match goal with E : _ = (t, i, n) |- _ => injection E as <- <- <- end; (split; [apply encoder_writes|apply decoder_reads]);
    try exact I; try (cbn [wire]; rewrite Hs; reflexivity); cbn [fits]; rewrite Hl; reflexivity.
Qed.
Lemma net_number ca fa n z rest : a_length fa = Some n -> a_bits fa = None ->
  In n [1; 2; 3; 5; 7; 8] -> (0 <= z < 256 ^ Z.of_N n)%Z ->
  writes_as (enc TNetAddr ca fa (VVariant 3 [VInt z])) (digits (order_for ca fa) (N.to_nat n) (Z.to_N z))
  /\ reads_as (dec TNetAddr ca fa) (digits (order_for ca fa) (N.to_nat n) (Z.to_N z)) rest (VVariant 3 [VInt z]).
Proof.
  intros Hl Hb Hn Hz.
  assert (Hpow : (256 ^ Z.of_N n <= 256 ^ 8)%Z) by (apply Z.pow_le_mono_r; [lia|]; cbn [In] in Hn; lia).
  change (256 ^ 8)%Z with 18446744073709551616%Z in Hpow.
  assert (HW : wire TNetAddr ca fa (VVariant 3 [VInt z]) = Some (digits (order_for ca fa) (N.to_nat n) (Z.to_N z))).
  { cbn [wire]. unfold wire_int. replace (value_inb Usize z) with true.
    2:{ symmetry. unfold value_inb. change (2 ^ (8 * Z.of_N (width_bytes Usize)))%Z with 18446744073709551616%Z. cbn [is_signed]. apply andb_true_iff. rewrite Z.leb_le, Z.ltb_lt. lia. }
    rewrite Hb, Hl. cbn [negb]. replace ((n <=? width_bytes Usize) && (n <=? 8)) with true.
    2:{ symmetry. apply andb_true_iff. rewrite !N.leb_le. change (width_bytes Usize) with 8. cbn [In] in Hn. lia. }
    f_equal. f_equal. unfold unsigned. change (2 ^ (8 * Z.of_N (width_bytes U64)))%Z with 18446744073709551616%Z. rewrite Z.mod_small by lia. reflexivity. }
  split; [apply encoder_writes|apply decoder_reads]; try exact I; try exact HW.
  cbn [fits]. rewrite Hl. unfold fits_int. rewrite Hl.
  assert (HZ : (0 <=? z)%Z && (Z.to_N z <? 256 ^ n) = true).
  { apply andb_true_iff. rewrite Z.leb_le, N.ltb_lt. split; [lia|]. apply N2Z.inj_lt. rewrite Z2N.id, N2Z.inj_pow by lia. apply Hz. }
  rewrite HZ. cbn [In] in Hn. decompose [or] Hn; try contradiction; subst; reflexivity.
Qed.
Lemma address_no_length t ca fa d p : t = TIpAddr \/ t = TNetAddr ->
  a_length fa = None \/ a_length fa = Some 0 -> refuses (dec t ca fa) d p.
Proof.
  intros [-> | ->] [H|H]; unfold refuses; cbn [dec]; unfold dec_ipaddr, dec_netaddr; rewrite H; eexists; reflexivity.
Qed.


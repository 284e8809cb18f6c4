(** Proofs about Text.v: MAC and network addresses. *)
From Verif Require Import Base Ints Spec SpecOps Reader Writer BaseLemmas ReaderLemmas WriterLemmas Utf8Spec Utf8Lemmas.
From Verif Require Import Text TextSpec TextLemmas.

(** ** Splitting *)
Lemma byte_eqb_eq a b : Byte.eqb a b = true <-> a = b.
Proof. split; [apply Byte.byte_dec_bl|apply Byte.byte_dec_lb]. Qed.
Lemma byte_eqb_neq a b : Byte.eqb a b = false <-> a <> b.
Proof. rewrite <- byte_eqb_eq. destruct (Byte.eqb a b); split; congruence. Qed.
Lemma split_nonempty sep s : split_on sep s <> [].
Proof. destruct s as [|c r]; cbn; [discriminate|]. destruct (Byte.eqb c sep); [discriminate|]. destruct (split_on sep r); discriminate. Qed.
Lemma joined_cons sep g gs : gs <> [] -> joined sep (g :: gs) = g ++ sep :: joined sep gs.
Proof. destruct gs; [congruence|reflexivity]. Qed.
Lemma joined_split sep s : joined sep (split_on sep s) = s.
Proof.
  induction s as [|c r IH]; [reflexivity|]. cbn [split_on]. destruct (Byte.eqb c sep) eqn:E.
  - apply byte_eqb_eq in E as ->. rewrite joined_cons by apply split_nonempty. rewrite IH. reflexivity.
  - pose proof (split_nonempty sep r). destruct (split_on sep r) as [|g gs]; [congruence|].
    destruct gs; cbn in IH |- *; rewrite <- IH; reflexivity.
Qed.
Lemma split_parts sep s : Forall (fun g => ~ In sep g) (split_on sep s).
Proof.
  induction s as [|c r IH]; [repeat constructor; auto|]. cbn [split_on]. destruct (Byte.eqb c sep) eqn:E.
  - constructor; [auto|exact IH].
  - apply byte_eqb_neq in E. destruct (split_on sep r) as [|g gs]; [repeat constructor; intros [->|[]]; congruence|].
    apply Forall_cons_iff in IH as [A B]. constructor; [|exact B]. intros [->|X]; [congruence|auto].
Qed.
Lemma split_app sep g s : ~ In sep g -> split_on sep (g ++ sep :: s) = g :: split_on sep s.
Proof.
  induction g as [|c g IH]; intros H; cbn [app split_on].
  - rewrite (proj2 (byte_eqb_eq sep sep) eq_refl). reflexivity.
  - rewrite (proj2 (byte_eqb_neq c sep)) by (intros ->; apply H; left; reflexivity).
    rewrite IH by (intros X; apply H; right; exact X). reflexivity.
Qed.
Lemma split_one sep g : ~ In sep g -> split_on sep g = [g].
Proof.
  induction g as [|c g IH]; intros H; cbn [split_on]; [reflexivity|].
  rewrite (proj2 (byte_eqb_neq c sep)) by (intros ->; apply H; left; reflexivity).
  rewrite IH by (intros X; apply H; right; exact X). reflexivity.
Qed.
Lemma split_joined sep gs : gs <> [] -> Forall (fun g => ~ In sep g) gs -> split_on sep (joined sep gs) = gs.
Proof.
  intros N F. induction F as [|g gs Hg F IH]; [congruence|]. destruct gs as [|h gs].
  - apply split_one, Hg.
  - rewrite joined_cons by discriminate. rewrite split_app by assumption. f_equal. apply IH. discriminate.
Qed.

(** ** Groups *)
Lemma to_digit_16 c : to_digit 16 c = is_hex c.
Proof.
  unfold to_digit. destruct (is_hex c) as [d|] eqn:E; [|reflexivity]. apply is_hex_digit, hex_digit_lt in E.
  rewrite (proj2 (N.ltb_lt d 16) E). reflexivity.
Qed.
Lemma plus_no_hex d : ~ hex_digit "+"%byte d.
Proof. intros H. apply digit_is_hex in H. discriminate. Qed.
Lemma colon_no_hex d : ~ hex_digit COLON d.
Proof. intros H. apply digit_is_hex in H. discriminate. Qed.
Lemma group_value v n : lenN v =? 2 = true -> from_str_radix 16 256 v = Some n -> n < 256 /\ lax_group v (n2b n).
Proof.
  intros L. apply N.eqb_eq in L. destruct v as [|a [|b [|c v]]]; rewrite ?lenN_cons, ?lenN_nil in L; try lia.
  cbn [from_str_radix]. destruct (N.eqb_spec (b2n a) 43) as [E|E].
  - cbn [radix_digits]. rewrite to_digit_16. destruct (is_hex b) as [d|] eqn:B; [|discriminate].
    apply is_hex_digit in B. pose proof (hex_digit_lt _ _ B). replace (0 * 16 + d) with d by lia.
    destruct (N.ltb_spec d 256); [|discriminate]. intros X. injection X as <-. split; [assumption|].
    right. exists b. split.
    + rewrite (byte_is _ _ E). reflexivity.
    + change (hex_digit b (b2n (n2b d))). rewrite b2n_n2b, N.mod_small by assumption. exact B.
  - cbn [radix_digits]. rewrite !to_digit_16. destruct (is_hex a) as [x|] eqn:A; [|discriminate].
    apply is_hex_digit in A. pose proof (hex_digit_lt _ _ A). destruct (N.ltb_spec (0 * 16 + x) 256); [|discriminate].
    destruct (is_hex b) as [y|] eqn:B; [|discriminate]. apply is_hex_digit in B. pose proof (hex_digit_lt _ _ B).
    destruct (N.ltb_spec ((0 * 16 + x) * 16 + y) 256); [|discriminate]. intros X. injection X as <-. split; [assumption|].
    left. split; [|exact I]. exists x, y. repeat split; auto. change (b2n (n2b ((0 * 16 + x) * 16 + y)) = 16 * x + y).
    rewrite b2n_n2b, N.mod_small by assumption. lia.
Qed.
Lemma value_group v b : lax_group v b -> lenN v =? 2 = true /\ from_str_radix 16 256 v = Some (b2n b) /\ ~ In COLON v.
Proof.
  intros [H|(c & -> & H)].
  - destruct v as [|h [|k v]]; try contradiction. destruct H as [(x & y & A & B & C) H]. destruct v; [|destruct v; contradiction].
    split; [reflexivity|]. split.
    + cbn [from_str_radix]. destruct (N.eqb_spec (b2n h) 43) as [E|E].
      * apply byte_is in E. rewrite E in A. destruct (plus_no_hex x A).
      * cbn [radix_digits]. rewrite !to_digit_16. rewrite (digit_is_hex _ _ A), (digit_is_hex _ _ B).
        apply hex_digit_lt in A, B. rewrite (proj2 (N.ltb_lt (0 * 16 + x) 256)) by lia.
        rewrite (proj2 (N.ltb_lt ((0 * 16 + x) * 16 + y) 256)) by lia. f_equal. change (b2n b = 16 * x + y) in C. lia.
    + intros [->|[->|[]]]; eapply colon_no_hex; eassumption.
  - split; [reflexivity|]. split.
    + cbn [from_str_radix radix_digits]. change (b2n "+"%byte =? 43) with true. cbv iota. rewrite to_digit_16, (digit_is_hex _ _ H).
      change (Byte.to_N b) with (b2n b) in *. replace (0 * 16 + b2n b) with (b2n b) by lia.
      rewrite (proj2 (N.ltb_lt _ 256)) by apply b2n_lt. reflexivity.
    + intros [X|[->|[]]]; [discriminate|]. eapply colon_no_hex; eassumption.
Qed.

Lemma set_nth_app pre x post v : set_nth (length pre) v (pre ++ x :: post) = pre ++ v :: post.
Proof. induction pre; cbn; [reflexivity|]. rewrite IHpre. reflexivity. Qed.
Lemma mac_groups_ok gs : forall pre post m, length (pre ++ post) = 6%nat ->
  mac_groups (length pre) gs (pre ++ post) = Some m ->
  exists vs, Forall2 lax_group gs vs /\ (length pre + length gs <= 6)%nat /\
    m = pre ++ vs ++ skipn (length gs) post.
Proof.
  induction gs as [|g gs IH]; intros pre post m L; cbn [mac_groups].
  - intros E. injection E as <-. exists []. rewrite app_length in L. split; [constructor|]. split; [cbn; lia|reflexivity].
  - destruct (Nat.ltb_spec 5 (length pre)); [discriminate|]. cbn [orb]. destruct (lenN g =? 2) eqn:G; [|discriminate]. cbn [negb].
    destruct (from_str_radix 16 256 g) as [n|] eqn:E; [|discriminate]. destruct (group_value g n G E) as [Hn HG].
    rewrite app_length in L. destruct post as [|x post]; [cbn in L; lia|]. rewrite set_nth_app. intros H'.
    replace (S (length pre)) with (length (pre ++ [n2b n])) in H' by (rewrite app_length; cbn; lia).
    replace (pre ++ n2b n :: post) with ((pre ++ [n2b n]) ++ post) in H' by (rewrite <- app_assoc; reflexivity).
    apply IH in H' as (vs & F & B & ->).
    + exists (n2b n :: vs). split; [constructor; assumption|]. split; [rewrite app_length in B; cbn in *; lia|].
      rewrite <- app_assoc. reflexivity.
    + rewrite !app_length in *. cbn in *. lia.
Qed.
Lemma mac_groups_back gs vs : Forall2 lax_group gs vs -> forall pre post, length (pre ++ post) = 6%nat ->
  (length pre + length gs <= 6)%nat ->
  mac_groups (length pre) gs (pre ++ post) = Some (pre ++ vs ++ skipn (length gs) post).
Proof.
  induction 1 as [|g b gs vs HG F IH]; intros pre post L B; cbn [mac_groups]; [reflexivity|].
  destruct (value_group g b HG) as (G & E & _). cbn [length] in B.
  destruct (Nat.ltb_spec 5 (length pre)); [lia|]. cbn [orb]. rewrite G, E. cbn [negb].
  rewrite app_length in L. destruct post as [|x post]; [cbn in L; lia|]. rewrite set_nth_app, n2b_b2n.
  replace (S (length pre)) with (length (pre ++ [b])) by (rewrite app_length; cbn; lia).
  replace (pre ++ b :: post) with ((pre ++ [b]) ++ post) by (rewrite <- app_assoc; reflexivity).
  rewrite IH.
  - rewrite <- app_assoc. reflexivity.
  - rewrite !app_length in *. cbn in *. lia.
  - rewrite !app_length in *. cbn in *. lia.
Qed.
Lemma lax_no_colon gs vs : Forall2 lax_group gs vs -> Forall (fun g => ~ In COLON g) gs.
Proof. induction 1 as [|g b gs vs H F IH]; constructor; [apply value_group in H as (_ & _ & X); exact X|exact IH]. Qed.

(** ** MAC addresses in text *)
Lemma mac_accepts s m : mac_from_str s = Some m <->
  exists gs vs, s = joined ":"%byte gs /\ (1 <= length gs <= 6)%nat /\ Forall2 lax_group gs vs /\
    m = vs ++ repeat x00 (6 - length gs).
Proof.
  unfold mac_from_str. split.
  - intros E. apply (mac_groups_ok _ [] (repeat x00 6) m eq_refl) in E as (vs & F & B & ->).
    exists (split_on COLON s), vs. split; [symmetry; apply joined_split|].
    pose proof (split_nonempty COLON s). split.
    + destruct (split_on COLON s); [congruence|cbn in *; lia].
    + split; [exact F|]. cbn [app]. f_equal. clear. generalize 6%nat as n. generalize (length (split_on COLON s)) as k.
      intros k; induction k; intros [|n]; cbn; auto.
  - intros (gs & vs & -> & B & F & ->). rewrite split_joined.
    + etransitivity; [apply (mac_groups_back gs vs F [] (repeat x00 6) eq_refl); cbn; lia|]. cbn [app]. f_equal. f_equal.
      clear. generalize 6%nat as n. generalize (length gs) as k. intros k; induction k; intros [|n]; cbn; auto.
    + destruct gs; [cbn in B; lia|discriminate].
    + eapply lax_no_colon, F.
Qed.
Lemma mac_text_accepted s m : mac_text s m -> mac_from_str s = Some m.
Proof.
  intros (gs & -> & L & F). apply mac_accepts. exists gs, m. split; [reflexivity|]. split; [lia|]. split.
  - clear L. induction F; constructor; auto. left. assumption.
  - rewrite L. cbn. rewrite app_nil_r. reflexivity.
Qed.
Lemma fmt_spells b : spells hex_digit (fmt_02x b) [b].
Proof. unfold fmt_02x. eapply spells_hex; [|apply (lowercase_spells [b])]. intros; left; assumption. Qed.
Lemma size_cases (m : bytes) (n : nat) : size m = N.of_nat n -> length m = n.
Proof. unfold size. lia. Qed.
Lemma mac_displayed m : size m = 6 -> mac_text (mac_display m) m.
Proof.
  intros H. apply (size_cases m 6) in H. destruct m as [|a [|b [|c [|d [|e [|f [|? ?]]]]]]]; try discriminate H.
  exists (map fmt_02x [a; b; c; d; e; f]). split; [reflexivity|]. split; [reflexivity|].
  cbn [map]. repeat constructor; apply fmt_spells.
Qed.
Lemma mac_round_trip m : size m = 6 -> mac_from_str (mac_display m) = Some m.
Proof. intros H. apply mac_text_accepted, mac_displayed, H. Qed.
Lemma mac_from_str_size s m : mac_from_str s = Some m -> size m = 6.
Proof.
  intros H. apply mac_accepts in H as (gs & vs & _ & B & F & ->). assert (length gs = length vs) by (clear B; induction F; cbn; auto).
  unfold size. rewrite app_length, repeat_length. lia.
Qed.

(** ** MAC addresses as numbers *)
Lemma mac_to_bits_number m : mac_to_bits m = be_number m.
Proof.
  unfold mac_to_bits. change (be_number m) with (number Be m). rewrite number_from_bytes. cbn [from_bytes]. unfold be_val.
  cbn [app rev]. rewrite <- app_assoc. cbn [app]. generalize (rev m) as l. induction l as [|b l IH]; [reflexivity|].
  cbn [app le_val]. rewrite IH. reflexivity.
Qed.
Lemma mac_from_to m : size m = 6 -> mac_from_bits (mac_to_bits m) = m.
Proof.
  intros H. apply (size_cases m 6) in H. unfold mac_from_bits, mac_to_bits.
  replace 8%nat with (length ([x00; x00] ++ m)) by (rewrite app_length, H; reflexivity). rewrite to_from_bytes. reflexivity.
Qed.
Lemma mac_to_from n : n < 2 ^ 48 -> mac_to_bits (mac_from_bits n) = n.
Proof.
  intros H. unfold mac_to_bits, mac_from_bits.
  assert (E : [x00; x00] ++ skipn 2 (to_bytes Be 8 n) = to_bytes Be 8 n).
  { cbn [to_bytes]. unfold to_be. cbn [to_le rev app]. cbn [skipn].
    assert (Z : forall x, x = 0 -> n2b x = x00) by (intros x ->; reflexivity).
    rewrite (Z (n / 256 / 256 / 256 / 256 / 256 / 256 / 256)), (Z (n / 256 / 256 / 256 / 256 / 256 / 256)); [reflexivity|..];
      rewrite !N.div_div by discriminate; apply N.div_small; cbn; lia. }
  rewrite E, from_to_bytes. apply N.mod_small. cbn in *. lia.
Qed.
Lemma mac_from_bits_size n : size (mac_from_bits n) = 6.
Proof. unfold size, mac_from_bits. rewrite skipn_length, to_bytes_length. reflexivity. Qed.

Lemma mac_number a r : size (a :: r) = 6 -> mac_to_bits (a :: r) = b2n a * 2 ^ 40 + be_number r /\ be_number r < 2 ^ 40.
Proof.
  intros H. apply (size_cases _ 6) in H. rewrite mac_to_bits_number.
  change (be_number (a :: r)) with (number Be (a :: r)). change (be_number r) with (number Be r).
  rewrite !number_from_bytes. cbn [from_bytes]. unfold be_val. destruct r as [|b [|c [|d [|e [|f [|? ?]]]]]]; try discriminate H.
  cbn [rev app le_val]. pose proof (b2n_lt b). pose proof (b2n_lt c). pose proof (b2n_lt d). pose proof (b2n_lt e). pose proof (b2n_lt f). cbn. lia.
Qed.
Lemma group_bit x y : y < 2 ^ 40 -> N.testbit (x * 2 ^ 40 + y) 40 = N.testbit x 0.
Proof.
  intros H. change (N.testbit (x * 2 ^ 40 + y) (0 + 40) = N.testbit x 0). rewrite <- N.div_pow2_bits. f_equal.
  rewrite N.add_comm, N.div_add by (cbn; lia). rewrite N.div_small by assumption. reflexivity.
Qed.
Lemma land_bit n : N.land n 0x010000000000 = if N.testbit n 40 then 0x010000000000 else 0.
Proof.
  apply N.bits_inj. intros i. rewrite N.land_spec. change 0x010000000000 with (2 ^ 40). rewrite N.pow2_bits_eqb.
  destruct (N.eqb_spec 40 i) as [<-|E].
  - destruct (N.testbit n 40); [rewrite N.pow2_bits_eqb, N.eqb_refl; reflexivity|rewrite N.bits_0; reflexivity].
  - rewrite andb_false_r. destruct (N.testbit n 40); [rewrite N.pow2_bits_eqb; symmetry; apply N.eqb_neq, E|rewrite N.bits_0; reflexivity].
Qed.
Lemma multicast_bit a r : size (a :: r) = 6 -> mac_is_multicast (a :: r) = N.odd (b2n a) /\ mac_is_unicast (a :: r) = negb (N.odd (b2n a)).
Proof.
  intros H. destruct (mac_number a r H) as [E B]. unfold mac_is_multicast, mac_is_unicast. rewrite land_bit, E, group_bit by exact B.
  rewrite N.bit0_odd. destruct (N.odd (b2n a)); split; reflexivity.
Qed.
Lemma mac_bits_injective m m' : size m = 6 -> size m' = 6 -> mac_to_bits m = mac_to_bits m' -> m = m'.
Proof. intros H H' E. rewrite <- (mac_from_to m H), <- (mac_from_to m' H'), E. reflexivity. Qed.
Lemma broadcast_all m : size m = 6 -> (mac_is_broadcast m = true <-> m = repeat xff 6).
Proof.
  intros H. unfold mac_is_broadcast. rewrite N.eqb_eq. split.
  - intros E. apply mac_bits_injective; [exact H|reflexivity|]. rewrite E. reflexivity.
  - intros ->. reflexivity.
Qed.
Lemma zero_all m : size m = 6 -> (mac_is_zero m = true <-> m = repeat x00 6).
Proof.
  intros H. unfold mac_is_zero. rewrite N.eqb_eq. split.
  - intros E. apply mac_bits_injective; [exact H|reflexivity|]. rewrite E. reflexivity.
  - intros ->. reflexivity.
Qed.
Lemma mac_text_length s m : mac_text s m -> length s = 17%nat.
Proof.
  intros (gs & -> & L & F).
  assert (X : Forall (fun g => length g = 2%nat) gs).
  { clear L. induction F as [|g b gs m H F IH]; constructor; [|exact IH].
    destruct g as [|h [|k [|? [|? ?]]]]; try reflexivity; cbn in H; tauto. }
  destruct gs as [|g1 [|g2 [|g3 [|g4 [|g5 [|g6 [|? ?]]]]]]]; try discriminate L.
  repeat match goal with X : Forall _ (_ :: _) |- _ => inversion X; subst; clear X end.
  cbn [joined]. repeat (rewrite app_length; cbn [length]). lia.
Qed.

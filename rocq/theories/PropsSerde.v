(** Property C59: the serde implementations. *)
From Coq Require Import String.
From Verif Require Import Base Ints Spec SpecOps BaseLemmas Utf8 Utf8Spec Utf8Lemmas.
From Verif Require Import Text TextSpec TextLemmas MacLemmas NetLemmas IpText IpLemmas Serde Examples.

(** ** C59. Values survive serde

    Serialized as a string and found as a string in the input, a value comes back. *)
Theorem C59_mac : forall m, size m = 6 -> mac_deserialize (BorrowedStr (mac_serialize m)) = Some m.
Proof. exact mac_round_trip. Qed.
Theorem C59_hex_string : forall l, hexstring_deserialize (BorrowedStr (hexstring_serialize l)) = Parsed l.
Proof. exact hex_lower_back. Qed.
Theorem C59_net : forall a, net_value a -> net_deserialize std_ip (BorrowedStr (net_serialize std_ip a)) = Some a.
Proof. intros a. apply net_round_trip. exact std_ip_standard. Qed.

(** The strings are made of hexadecimal digits, colons and dots only. So no format needs
    escapes for them, and one that reads from memory finds them as they were written. *)
Definition plain_char (c : byte) : Prop := (exists d, lower_digit c d) \/ c = ":"%byte \/ c = "."%byte.
Lemma hexval_lower d : d < 16 -> lower_digit (hexval d) d.
Proof.
  revert d. apply below_16. intros k H.
  do 10 (destruct k as [|k]; [left; vm_compute; split; reflexivity|]).
  do 6 (destruct k as [|k]; [right; vm_compute; repeat split; discriminate|]). lia.
Qed.
Lemma in_radix_chars radix k n : 2 <= radix -> radix <= 16 -> Forall plain_char (in_radix radix k n).
Proof.
  intros R2 R16. revert n. induction k as [|k IH]; intros n; [constructor|]. rewrite in_radix_unfold. apply Forall_app. split.
  - destruct (n <? radix); [constructor|apply IH].
  - constructor; [|constructor]. left. exists (n mod radix). apply hexval_lower. pose proof (N.mod_lt n radix ltac:(lia)). lia.
Qed.
Lemma spells_plain s : forall l, spells lower_digit s l -> Forall plain_char s.
Proof.
  assert (H : forall n s, (length s <= n)%nat -> forall l, spells lower_digit s l -> Forall plain_char s).
  { clear s. induction n as [|n IH]; intros s L l Hs; destruct s as [|h [|k s]]; try constructor; try (cbn in L; lia); destruct l as [|b l]; try contradiction.
    - destruct Hs as [(x & y & A & B & _) _]. left. eauto.
    - destruct Hs as [(x & y & A & B & _) Hs]. constructor; [left; eauto|]. apply (IH s) with (l := l); [cbn in L; lia|exact Hs]. }
  intros l. apply (H (length s)). lia.
Qed.
Lemma hex_plain l : Forall plain_char (to_hex HEX_LOWER l).
Proof. eapply spells_plain. apply lowercase_spells. Qed.
Lemma colon_plain : plain_char COLON.
Proof. right. left. reflexivity. Qed.
Lemma dot_plain : plain_char DOT.
Proof. right. right. reflexivity. Qed.
Ltac plain := repeat first [apply hex_plain | (apply in_radix_chars; lia) | apply Forall_app; split | apply Forall_cons | apply Forall_nil | apply colon_plain | apply dot_plain].
Lemma mac_plain m : Forall plain_char (mac_display m).
Proof. destruct m as [|? [|? [|? [|? [|? [|? [|? ?]]]]]]]; try apply Forall_nil. unfold mac_display, fmt_02x. plain. Qed.
Lemma groups_plain l : Forall plain_char (show_groups l).
Proof.
  induction l as [|g [|h l] IH]; [constructor|unfold show_groups, show_x; plain|].
  change (show_groups (g :: h :: l)) with (show_x g ++ [COLON] ++ show_groups (h :: l)). unfold show_x. plain. exact IH.
Qed.
Lemma v4_plain a : Forall plain_char (std_show4 a).
Proof. destruct a as [|? [|? [|? [|? [|? ?]]]]]; try apply Forall_nil. unfold std_show4, show_u8. plain. Qed.
Lemma v6_plain a : Forall plain_char (std_show6 a).
Proof.
  unfold std_show6. cbv zeta. destruct (mapped (segments a)).
  - unfold show_x. plain. apply v4_plain.
  - destruct (zero_run 0 (0, 0)%nat (0, 0)%nat (segments a)) as [start len]. destruct (1 <? len)%nat; [|apply groups_plain].
    apply Forall_app. split; [apply groups_plain|]. plain. apply groups_plain.
Qed.
Lemma usize_plain k n : Forall plain_char (decimal k n).
Proof.
  revert n. induction k as [|k IH]; intros n; [constructor|]. cbn [decimal]. apply Forall_app. split.
  - destruct (n <? 10); [constructor|apply IH].
  - constructor; [|constructor]. left. exists (n mod 10). left. pose proof (N.mod_lt n 10 ltac:(lia)). split; [assumption|]. reflexivity.
Qed.
Theorem C59_plain : (forall m, Forall plain_char (mac_serialize m)) /\ (forall l, Forall plain_char (hexstring_serialize l)) /\
  (forall l, Forall plain_char (hexbytes_serialize l)) /\ (forall a, Forall plain_char (net_serialize std_ip a)).
Proof.
  split; [exact mac_plain|]. split; [exact hex_plain|]. split; [exact hex_plain|]. intros [l|l|m|n].
  - apply v4_plain.
  - apply v6_plain.
  - apply mac_plain.
  - apply usize_plain.
Qed.

(** An input that hands over bytes instead, such as a binary format: the same values come
    back, and bytes that are not UTF-8 are refused. *)
Lemma plain_utf8 s : Forall plain_char s -> utf8_ok s = true.
Proof.
  induction 1 as [|c s Hc _ IH]; [reflexivity|]. assert (L : b2n c < 128).
  { destruct Hc as [[d [[H E]|[H E]]]|[E|E]]; rewrite E; try reflexivity;
      rewrite Utf8Lemmas.b2n_byte_of; lia. }
  replace (c :: s) with (utf8 (b2n c) ++ s).
  - rewrite utf8_ok_char; [exact IH|]. unfold scalar. lia.
  - unfold utf8. destruct (N.ltb_spec (b2n c) 128); [|lia]. rewrite byte_of_b2n. reflexivity.
Qed.
Theorem C59_bytes : (forall m, size m = 6 -> mac_deserialize (BorrowedBytes (mac_serialize m)) = Some m)
  /\ (forall l, hexstring_deserialize (BorrowedBytes (hexstring_serialize l)) = Parsed l)
  /\ (forall a, net_value a -> net_deserialize std_ip (BorrowedBytes (net_serialize std_ip a)) = Some a)
  /\ (forall l, ~ text l -> mac_deserialize (BorrowedBytes l) = None /\ hexstring_deserialize (BorrowedBytes l) = Rejected
        /\ net_deserialize std_ip (BorrowedBytes l) = None).
Proof.
  destruct C59_plain as (P1 & P2 & _ & P4). repeat split.
  - intros m Hm. unfold mac_deserialize, de_str. rewrite (plain_utf8 _ (P1 m)). exact (C59_mac m Hm).
  - intros l. unfold hexstring_deserialize, de_str. rewrite (plain_utf8 _ (P2 l)). exact (C59_hex_string l).
  - intros a Ha. unfold net_deserialize, de_str. rewrite (plain_utf8 _ (P4 a)). exact (C59_net a Ha).
  - unfold mac_deserialize, de_str. destruct (utf8_ok l) eqn:E; [|reflexivity]. destruct H. apply utf8_ok_text. exact E.
  - unfold hexstring_deserialize, de_str. destruct (utf8_ok l) eqn:E; [|reflexivity]. destruct H. apply utf8_ok_text. exact E.
  - unfold net_deserialize, de_str. destruct (utf8_ok l) eqn:E; [|reflexivity]. destruct H. apply utf8_ok_text. exact E.
Qed.

(** But an input that hands over a string of its own, such as a stream or a value already
    in memory, is refused, whatever the string. *)
Theorem C59_owned_refuted : forall s, mac_deserialize (OwnedStr s) = None /\ hexstring_deserialize (OwnedStr s) = Rejected
  /\ net_deserialize std_ip (OwnedStr s) = None.
Proof. repeat split. Qed.

Example C59_case : mac_serialize (hex [1; 2; 3; 4; 5; 0xff]) = str "01:02:03:04:05:ff"
  /\ mac_deserialize (BorrowedStr (str "01:02:03:04:05:ff")) = Some (hex [1; 2; 3; 4; 5; 0xff])
  /\ hexstring_serialize (hex [0xab; 1]) = str "ab01"
  /\ net_deserialize std_ip (BorrowedStr (str "fe80::1")) = Some (V6 (hex [0xfe; 0x80; 0; 0; 0; 0; 0; 0; 0; 0; 0; 0; 0; 0; 0; 1]))
  /\ net_value (V6 (hex [0xfe; 0x80; 0; 0; 0; 0; 0; 0; 0; 0; 0; 0; 0; 0; 0; 1])).
Proof. repeat split. Qed.

Print Assumptions C59_mac.
Print Assumptions C59_hex_string.
Print Assumptions C59_net.
Print Assumptions C59_plain.
Print Assumptions C59_bytes.
Print Assumptions C59_owned_refuted.

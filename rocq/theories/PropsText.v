(** Properties C28, C29, C46 and C47: the text and number forms of MAC addresses,
    hex strings and network addresses. *)
From Coq Require Import String.
From Verif Require Import Base Ints Spec SpecOps BaseLemmas Utf8Spec Utf8Lemmas.
From Verif Require Import Text TextSpec TextLemmas MacLemmas NetLemmas IpText IpLemmas Examples.

(** ** C28. MAC addresses in text *)
Theorem C28_round_trip : forall mac, size mac = 6 -> mac_from_str (mac_display mac) = Some mac.
Proof. exact mac_round_trip. Qed.
Theorem C28_display : forall mac, size mac = 6 -> mac_text (mac_display mac) mac.
Proof. exact mac_displayed. Qed.
(** Six groups of two digits are accepted, in either case... *)
Theorem C28_accepts : forall s mac, mac_text s mac -> mac_from_str s = Some mac.
Proof. exact mac_text_accepted. Qed.
(** ... but so are fewer groups, and a plus sign in place of a digit. This is
    exactly what is accepted. *)
Theorem C28_accepted_partial : forall s mac, mac_from_str s = Some mac <->
  exists gs vs, s = joined ":"%byte gs /\ (1 <= length gs <= 6)%nat /\ Forall2 lax_group gs vs /\
    mac = vs ++ repeat x00 (6 - length gs).
Proof. exact mac_accepts. Qed.
Theorem C28_short_refuted : exists s mac, mac_from_str s = Some mac /\ ~ mac_text s mac.
Proof.
  exists (str "aa:bb"), (hex [0xaa; 0xbb; 0; 0; 0; 0]). split; [reflexivity|]. intros H.
  apply mac_text_length in H. discriminate.
Qed.
Theorem C28_plus_refuted : exists s mac, mac_from_str s = Some mac /\ In "+"%byte s.
Proof. exists (str "+1:02:03:04:05:06"), (hex [1; 2; 3; 4; 5; 6]). split; [reflexivity|left; reflexivity]. Qed.

Example C28_case : mac_display (hex [0xaa; 0; 0x1f; 3; 0xff; 9]) = str "aa:00:1f:03:ff:09"
  /\ mac_from_str (str "AA:00:1f:03:fF:09") = Some (hex [0xaa; 0; 0x1f; 3; 0xff; 9])
  /\ mac_from_str (str "aa:00:1f:03:ff:09:01") = None /\ mac_from_str (str "aa:0:1f:03:ff:09") = None
  /\ mac_from_str (str "ag:00:1f:03:ff:09") = None /\ mac_from_str [] = None.
Proof. repeat split. Qed.

Print Assumptions C28_round_trip.
Print Assumptions C28_display.
Print Assumptions C28_accepts.
Print Assumptions C28_accepted_partial.
Print Assumptions C28_short_refuted.
Print Assumptions C28_plus_refuted.

(** ** C29. Hex strings *)
Theorem C29_lowercase : forall l, spells lower_digit (to_hex_lowercase l) l /\ hex_from_str (to_hex_lowercase l) = Parsed l.
Proof. intros l. split; [apply lowercase_spells|apply hex_lower_back]. Qed.
Theorem C29_uppercase : forall l, spells upper_digit (to_hex_uppercase l) l /\ hex_from_str (to_hex_uppercase l) = Parsed l.
Proof. intros l. split; [apply uppercase_spells|apply hex_upper_back]. Qed.
Theorem C29_parse : forall s l, hex_from_str s = Parsed l <-> spells hex_digit s l.
Proof. exact hex_parsed. Qed.
Theorem C29_accepts : forall s, (exists l, hex_from_str s = Parsed l) <->
  Nat.Even (length s) /\ Forall (fun c => exists d, hex_digit c d) s.
Proof. exact hex_accepts. Qed.
Theorem C29_rejects : forall s, ~ (Nat.Even (length s) /\ Forall (fun c => exists d, hex_digit c d) s) ->
  hex_from_str s = Rejected.
Proof. exact hex_rejects. Qed.
Theorem C29_no_panic : forall s, hex_from_str s <> ParsePanic.
Proof. exact hex_no_panic. Qed.
(** [encode] and [decode] of text. [decode] always returns text; it is the bytes that
    were spelled only when they are text themselves. *)
Theorem C29_encode_decode : forall l, text l -> hex_decode (hex_encode l) = Parsed l.
Proof. exact hex_text_back. Qed.
Theorem C29_display : forall l, text (hexstring_display l) /\ (hexstring_display l = l <-> text l).
Proof. intros l. split; [apply lossy_text|apply lossy_same]. Qed.
Theorem C29_decode_refuted : exists l, hex_decode (hex_encode l) <> Parsed l.
Proof. exists (hex [0xff]). discriminate. Qed.

Example C29_case : to_hex_lowercase (hex [1; 0xaf; 0xff]) = str "01afff"
  /\ to_hex_uppercase (hex [1; 0xaf; 0xff]) = str "01AFFF"
  /\ hex_from_str (str "09afAF") = Parsed (hex [9; 0xaf; 0xaf])
  /\ hex_from_str (str "0") = Rejected /\ hex_from_str (str "0g") = Rejected /\ hex_from_str (str "0/") = Rejected
  /\ hex_decode (str "6a616e") = Parsed (str "jan")
  /\ hexstring_display (hex [0x61; 0xff; 0x62]) = hex [0x61; 0xef; 0xbf; 0xbd; 0x62].
Proof. repeat split. Qed.

Print Assumptions C29_lowercase.
Print Assumptions C29_uppercase.
Print Assumptions C29_parse.
Print Assumptions C29_accepts.
Print Assumptions C29_rejects.
Print Assumptions C29_no_panic.
Print Assumptions C29_encode_decode.
Print Assumptions C29_display.
Print Assumptions C29_decode_refuted.

(** ** C46. MAC addresses as numbers, and their kinds *)
Theorem C46_to_bits : forall mac, mac_to_bits mac = be_number mac.
Proof. exact mac_to_bits_number. Qed.
Theorem C46_from_to : forall mac, size mac = 6 -> mac_from_bits (mac_to_bits mac) = mac.
Proof. exact mac_from_to. Qed.
Theorem C46_to_from : forall n, n < 2 ^ 48 -> size (mac_from_bits n) = 6 /\ mac_to_bits (mac_from_bits n) = n.
Proof. intros n H. split; [apply mac_from_bits_size|apply mac_to_from, H]. Qed.
(** The low bit of the first octet tells multicast from unicast. *)
Theorem C46_multicast : forall a r, size (a :: r) = 6 ->
  mac_is_multicast (a :: r) = N.odd (Byte.to_N a) /\ mac_is_unicast (a :: r) = negb (N.odd (Byte.to_N a)).
Proof. exact multicast_bit. Qed.
Theorem C46_broadcast : forall mac, size mac = 6 -> (mac_is_broadcast mac = true <-> mac = repeat xff 6).
Proof. exact broadcast_all. Qed.
Theorem C46_zero : forall mac, size mac = 6 -> (mac_is_zero mac = true <-> mac = repeat x00 6).
Proof. exact zero_all. Qed.

(** Network addresses: the kinds are told apart, IPv4 255.255.255.255 and the broadcast MAC
    are broadcast, 224.0.0.0/4, ff00::/8 and multicast MACs are multicast. *)
Theorem C46_net_kinds : forall a, net_is_ipv4 a = (match a with V4 _ => true | _ => false end)
  /\ (net_is_ipv4 a || net_is_ipv6 a || net_is_mac a || net_is_usize a = true)
  /\ (net_is_ipv6 a = true -> net_is_ipv4 a = false /\ net_is_mac a = false /\ net_is_usize a = false).
Proof. intros []; repeat split; discriminate. Qed.
Theorem C46_net_broadcast : forall a, net_value a ->
  (net_is_broadcast a = true <-> a = V4 (repeat xff 4) \/ a = Mac (repeat xff 6)).
Proof.
  intros [l|l|m|n] V; cbn [net_is_broadcast net_value] in *.
  - unfold v4_is_broadcast. rewrite N.eqb_eq. split.
    + intros E. left. f_equal. rewrite <- (to_from_bytes Be l), E. replace (length l) with 4%nat by (change size with (@lenN byte) in V; unfold lenN in V; lia). reflexivity.
    + intros [E|E]; [|discriminate]. injection E as ->. reflexivity.
  - split; [discriminate|]. intros [E|E]; discriminate.
  - rewrite (broadcast_all m V). split; [intros ->; right; reflexivity|]. intros [E|E]; [discriminate|]. injection E as ->. reflexivity.
  - split; [discriminate|]. intros [E|E]; discriminate.
Qed.
Theorem C46_net_multicast : forall a, net_value a -> (net_is_multicast a = true <->
  (exists x r, a = V4 (x :: r) /\ 224 <= Byte.to_N x <= 239) \/ (exists r, a = V6 (xff :: r)) \/
  (exists x r, a = Mac (x :: r) /\ N.odd (Byte.to_N x) = true)).
Proof.
  intros [l|l|m|n] V; cbn [net_is_multicast net_value] in *.
  - destruct l as [|x r]; [discriminate|]. cbn [v4_is_multicast]. rewrite andb_true_iff, !N.leb_le. change (Byte.to_N x) with (b2n x). split.
    + intros H. left. exists x, r. split; [reflexivity|exact H].
    + intros [(y & q & E & H)|[(q & E)|(y & q & E & H)]]; try discriminate. injection E as -> ->. exact H.
  - destruct l as [|x r]; [discriminate|]. cbn [v6_is_multicast]. rewrite N.eqb_eq. split.
    + intros H. right. left. exists r. rewrite <- (n2b_b2n x), H. reflexivity.
    + intros [(y & q & E & H)|[(q & E)|(y & q & E & H)]]; try discriminate. injection E as -> ->. reflexivity.
  - destruct m as [|x r]; [discriminate|]. rewrite (proj1 (multicast_bit x r V)). split.
    + intros H. right. right. exists x, r. split; [reflexivity|exact H].
    + intros [(y & q & E & H)|[(q & E)|(y & q & E & H)]]; try discriminate. injection E as -> ->. exact H.
  - split; [discriminate|]. intros [(y & q & E & H)|[(q & E)|(y & q & E & H)]]; discriminate.
Qed.

Example C46_case : mac_to_bits (hex [0xaa; 0xbb; 0xcc; 0xdd; 0xee; 0xff]) = 0xaabbccddeeff
  /\ mac_from_bits 0xaabbccddeeff = hex [0xaa; 0xbb; 0xcc; 0xdd; 0xee; 0xff]
  /\ mac_is_multicast (hex [1; 0xbb; 0xcc; 0xdd; 0xee; 0xff]) = true.
Proof. repeat split. Qed.

Print Assumptions C46_to_bits.
Print Assumptions C46_from_to.
Print Assumptions C46_to_from.
Print Assumptions C46_multicast.
Print Assumptions C46_broadcast.
Print Assumptions C46_zero.
Print Assumptions C46_net_kinds.
Print Assumptions C46_net_broadcast.
Print Assumptions C46_net_multicast.

(** ** C47. Network addresses in text

    [std_ip] (IpText.v) is a model of the standard library's text forms of IP addresses.
    [ip_standard] (TextSpec.v) says which of their properties are needed. *)
Theorem C47_contract : ip_standard std_ip.
Proof. exact std_ip_standard. Qed.
Theorem C47_round_trip : forall a, net_value a -> net_from_str std_ip (net_display std_ip a) = Some a.
Proof. intros a. apply net_round_trip. exact std_ip_standard. Qed.
Theorem C47_any_ip : forall ip a, ip_standard ip -> net_value a -> net_from_str ip (net_display ip a) = Some a.
Proof. exact net_round_trip. Qed.
(** Without separators, the text is a decimal number below 2^64, possibly with a plus sign. *)
Theorem C47_number : forall ip s n, ~ In ":"%byte s -> ~ In "."%byte s ->
  (net_from_str ip s = Some (Number n) <->
   exists t, (s = t \/ s = "+"%byte :: t) /\ t <> [] /\ Forall (fun c => 48 <= Byte.to_N c <= 57) t /\
     decimal_value t = n /\ n < 2 ^ 64).
Proof.
  intros ip s n C D. rewrite <- parse_usize. unfold net_from_str.
  rewrite (proj2 (contains_not COLON s) C), (proj2 (contains_not DOT s) D).
  destruct (from_str_radix 10 (2 ^ 64) s); split; congruence.
Qed.
(** Whatever is accepted is an address of the right size, and is read back from its own text. *)
Theorem C47_accepted : forall s a, net_from_str std_ip s = Some a ->
  net_value a /\ net_from_str std_ip (net_display std_ip a) = Some a.
Proof.
  intros s a H. assert (V : net_value a); [|split; [exact V|apply C47_round_trip, V]]. unfold net_from_str in H.
  destruct (contains COLON s).
  - destruct (parse6 std_ip s) as [l|] eqn:P; [injection H as <-; eapply std_parse6_size, P|].
    destruct (mac_from_str s) as [m|] eqn:M; [|discriminate]. injection H as <-. eapply mac_from_str_size, M.
  - destruct (contains DOT s).
    + destruct (parse4 std_ip s) as [l|] eqn:P; [|discriminate]. injection H as <-. eapply std_parse4_size, P.
    + destruct (from_str_radix 10 (2 ^ 64) s) as [n|] eqn:P; [|discriminate]. injection H as <-.
      apply parse_usize in P as (t & _ & _ & _ & _ & L). exact L.
Qed.
(** The kind follows from the separators. *)
Theorem C47_kinds : forall ip s a, net_from_str ip s = Some a ->
  match a with
  | V4 l => parse4 ip s = Some l /\ In "."%byte s /\ ~ In ":"%byte s
  | V6 l => parse6 ip s = Some l /\ In ":"%byte s
  | Mac m => size m = 6 /\ mac_from_str s = Some m /\ In ":"%byte s
  | Number n => n < 2 ^ 64 /\ ~ In ":"%byte s /\ ~ In "."%byte s
  end.
Proof.
  intros ip s a. unfold net_from_str. destruct (contains COLON s) eqn:C.
  - apply contains_iff in C. destruct (parse6 ip s) as [l|] eqn:P; [intros E; injection E as <-; auto|].
    destruct (mac_from_str s) as [m|] eqn:M; [|discriminate]. intros E; injection E as <-. split; [eapply mac_from_str_size, M|auto].
  - apply contains_not in C. destruct (contains DOT s) eqn:D.
    + apply contains_iff in D. destruct (parse4 ip s) as [l|] eqn:P; [|discriminate]. intros E; injection E as <-. auto.
    + apply contains_not in D. destruct (from_str_radix 10 (2 ^ 64) s) as [n|] eqn:P; [|discriminate]. intros E; injection E as <-.
      apply parse_usize in P as (t & _ & _ & _ & _ & L). auto.
Qed.

Example C47_case : net_display std_ip (V4 (hex [192; 168; 1; 1])) = str "192.168.1.1"
  /\ net_from_str std_ip (str "192.168.1.1") = Some (V4 (hex [192; 168; 1; 1]))
  /\ net_from_str std_ip (str "192.168.01.1") = None
  /\ net_display std_ip (V6 (hex [0xfe; 0x80; 0; 0; 0; 0; 0; 0; 0; 0; 0; 0; 0; 0; 0; 1])) = str "fe80::1"
  /\ net_display std_ip (V6 (hex [0; 1; 0; 0; 0; 0; 0; 2; 0; 0; 0; 0; 0; 0; 0; 3])) = str "1:0:0:2::3"
  /\ net_display std_ip (V6 (repeat x00 16)) = str "::"
  /\ net_display std_ip (V6 (hex [0; 0; 0; 0; 0; 0; 0; 0; 0; 0; 0xff; 0xff; 1; 2; 3; 4])) = str "::ffff:1.2.3.4"
  /\ net_from_str std_ip (str "::ffff:1.2.3.4") = Some (V6 (hex [0; 0; 0; 0; 0; 0; 0; 0; 0; 0; 0xff; 0xff; 1; 2; 3; 4]))
  /\ net_from_str std_ip (str "1:2:3:4:5:6:7::") = Some (V6 (hex [0; 1; 0; 2; 0; 3; 0; 4; 0; 5; 0; 6; 0; 7; 0; 0]))
  /\ net_from_str std_ip (str "1:2:3:4:5:6:7:8::") = None
  /\ net_display std_ip (Mac (hex [0xaa; 0xbb; 0xcc; 0xdd; 0xee; 0xff])) = str "aa:bb:cc:dd:ee:ff"
  /\ net_from_str std_ip (str "aa:bb:cc:dd:ee:ff") = Some (Mac (hex [0xaa; 0xbb; 0xcc; 0xdd; 0xee; 0xff]))
  /\ net_display std_ip (Number 18446744073709551615) = str "18446744073709551615"
  /\ net_from_str std_ip (str "18446744073709551616") = None
  /\ net_from_str std_ip (str "aa:bb:cc:dd:ee:") = None /\ net_from_str std_ip (str "a") = None.
Proof. repeat split. Qed.
(** A MAC address that is cut short is accepted here too. *)
Theorem C47_short_refuted : exists s a, net_from_str std_ip s = Some a /\ colons s = 1%nat.
Proof. exists (str "aa:bb"), (Mac (hex [0xaa; 0xbb; 0; 0; 0; 0])). split; reflexivity. Qed.

Print Assumptions C47_contract.
Print Assumptions C47_round_trip.
Print Assumptions C47_any_ip.
Print Assumptions C47_accepted.
Print Assumptions C47_number.
Print Assumptions C47_kinds.
Print Assumptions C47_short_refuted.

(** C97: which texts are network addresses. The texts of IP addresses are read by the standard library, whose
    parser is modelled in IpText.v. *)
From Coq Require Import String.
From Verif Require Import Base Ints Spec SpecOps BaseLemmas.
From Verif Require Import Text TextSpec TextLemmas MacLemmas NetLemmas IpText IpLemmas AttrSpec AttrLemmas IpSpec IpExact Examples.

Lemma decimal_plain t n c : decimal_text t n -> In c t -> c <> COLON /\ c <> DOT.
Proof.
  intros (_ & F & _) H. rewrite Forall_forall in F. specialize (F c H). split; intros ->; vm_compute in F; destruct F as [A B]; (now apply A) || (now apply B).
Qed.
Lemma dotted_plain s l : dotted s l -> ~ In COLON s /\ In DOT s.
Proof.
  intros (ts & L & -> & F). destruct ts as [|t0 [|t1 [|t2 [|t3 [|]]]]]; try discriminate.
  inversion F as [|? b0 ? l0 D0 F0]; subst. inversion F0 as [|? b1 ? l1 D1 F1]; subst. inversion F1 as [|? b2 ? l2 D2 F2]; subst. inversion F2 as [|? b3 ? l3 D3 F3]; subst.
  cbn [joined]. split; [|apply in_or_app; right; left; reflexivity].
  rewrite !in_app_iff. cbn [In]. rewrite !in_app_iff. cbn [In]. rewrite !in_app_iff. cbn [In].
  pose proof (fun H => proj1 (decimal_plain _ _ COLON D0 H) eq_refl). pose proof (fun H => proj1 (decimal_plain _ _ COLON D1 H) eq_refl).
  pose proof (fun H => proj1 (decimal_plain _ _ COLON D2 H) eq_refl). pose proof (fun H => proj1 (decimal_plain _ _ COLON D3 H) eq_refl).
  assert (K : DOT <> COLON) by discriminate. change ("."%byte) with DOT. tauto.
Qed.
Lemma ipv6_colon s gs : ipv6_text s gs -> In COLON s.
Proof.
  intros [(W & L)|(h & t & hs & ts & -> & _)].
  - destruct W; [discriminate|discriminate|]. apply in_or_app. right. left. reflexivity.
  - apply in_or_app. right. left. reflexivity.
Qed.

(** IPv4: four decimal numbers below 256 with dots between them. *)
Theorem C97_v4 : forall s l, net_from_str std_ip s = Some (V4 l) <-> dotted s l.
Proof.
  intros s l. unfold net_from_str. split.
  - destruct (contains COLON s); [destruct (parse6 std_ip s); [discriminate|]; destruct (mac_from_str s); discriminate|].
    destruct (contains DOT s); [|destruct (from_str_radix 10 (2 ^ 64) s); discriminate].
    destruct (parse4 std_ip s) as [v|] eqn:P; [|discriminate]. intros H. injection H as ->. apply parse4_exact, P.
  - intros D. destruct (dotted_plain s l D) as (C & T). apply contains_not in C. apply contains_iff in T. rewrite C, T.
    assert (P : parse4 std_ip s = Some l) by (apply parse4_exact, D). now rewrite P.
Qed.
(** IPv6: the grammar of RFC 4291, section 2.2. *)
Theorem C97_v6 : forall s l, net_from_str std_ip s = Some (V6 l) <-> exists gs, ipv6_text s gs /\ group_bytes l gs.
Proof.
  intros s l. unfold net_from_str. split.
  - destruct (contains COLON s).
    + destruct (parse6 std_ip s) as [v|] eqn:P; [|destruct (mac_from_str s); discriminate]. intros H. injection H as ->. apply parse6_exact, P.
    + destruct (contains DOT s); [destruct (parse4 std_ip s); discriminate|destruct (from_str_radix 10 (2 ^ 64) s); discriminate].
  - intros H. pose proof H as (gs & T & _). apply ipv6_colon, contains_iff in T. rewrite T.
    assert (P : parse6 std_ip s = Some l) by (apply parse6_exact, H). now rewrite P.
Qed.
(** A MAC address is what is left among the texts with colons: up to six groups of two digits. *)
Theorem C97_mac : forall s mac, net_from_str std_ip s = Some (Mac mac) <->
  In ":"%byte s /\ (forall gs, ~ ipv6_text s gs) /\
  exists gs vs, s = joined ":"%byte gs /\ (1 <= length gs <= 6)%nat /\ Forall2 lax_group gs vs /\ mac = vs ++ repeat x00 (6 - length gs).
Proof.
  intros s mac. rewrite <- mac_accepts. unfold net_from_str. split.
  - destruct (contains COLON s) eqn:C.
    + destruct (parse6 std_ip s) as [v|] eqn:P; [discriminate|]. destruct (mac_from_str s) as [m|]; [|discriminate]. intros H. injection H as ->.
      split; [apply contains_iff, C|]. split; [|reflexivity]. intros gs T.
      assert (E : std_parse6 s = Some (segments_octets gs)) by (unfold std_parse6; now rewrite (proj2 (ipv6_exact s gs) T)). cbn [parse6 std_ip] in P. congruence.
    + destruct (contains DOT s); [destruct (parse4 std_ip s); discriminate|destruct (from_str_radix 10 (2 ^ 64) s); discriminate].
  - intros (C & N & M). apply contains_iff in C. change (":"%byte) with COLON in C. rewrite C, M.
    destruct (parse6 std_ip s) as [v|] eqn:P; [|reflexivity]. exfalso. apply parse6_exact in P as (gs & T & _). exact (N gs T).
Qed.
(** What is displayed is one of these texts. *)
Theorem C97_shown : forall l, (length l = 4%nat -> dotted (net_display std_ip (V4 l)) l)
  /\ (length l = 16%nat -> exists gs, ipv6_text (net_display std_ip (V6 l)) gs /\ group_bytes l gs).
Proof.
  intros l. split; intros L.
  - apply C97_v4. apply net_round_trip; [exact std_ip_standard|]. cbn [net_value]. change size with (@lenN byte). unfold lenN. now rewrite L.
  - apply C97_v6. apply net_round_trip; [exact std_ip_standard|]. cbn [net_value]. change size with (@lenN byte). unfold lenN. now rewrite L.
Qed.

Example C97_case : dotted (str "10.0.255.7") (hex [10; 0; 255; 7])
  /\ (forall l, ~ dotted (str "10.0.256.7") l) /\ (forall l, ~ dotted (str "10.00.5.7") l)
  /\ (exists gs, ipv6_text (str "fe80::1:AB:10.0.0.1") gs /\ group_bytes (hex [0xfe; 0x80; 0; 0; 0; 0; 0; 0; 0; 1; 0; 0xab; 10; 0; 0; 1]) gs)
  /\ (forall gs, ~ ipv6_text (str "1:2:3:4:5:6:7:8::") gs) /\ (forall gs, ~ ipv6_text (str "1::2::3") gs) /\ (forall gs, ~ ipv6_text (str "12345::") gs)
  /\ net_from_str std_ip (str "aa:bb:cc:dd:ee:ff") = Some (Mac (hex [0xaa; 0xbb; 0xcc; 0xdd; 0xee; 0xff])).
Proof.
  assert (N : forall s, net_from_str std_ip s = None -> forall gs, ~ ipv6_text s gs).
  { intros s H gs T. pose proof (ipv6_small _ _ T) as F. assert (X : net_from_str std_ip s = Some (V6 (segments_octets gs))) by (apply C97_v6; exists gs; split; [exact T|]; now apply group_bytes_exact). congruence. }
  assert (M : forall s, net_from_str std_ip s = None -> forall l, ~ dotted s l) by (intros s H l D; apply C97_v4 in D; congruence).
  split; [apply C97_v4; vm_compute; reflexivity|]. split; [apply M; vm_compute; reflexivity|]. split; [apply M; vm_compute; reflexivity|].
  split; [apply C97_v6; vm_compute; reflexivity|]. split; [apply N; vm_compute; reflexivity|]. split; [apply N; vm_compute; reflexivity|].
  split; [apply N; vm_compute; reflexivity|]. vm_compute. reflexivity.
Qed.

Print Assumptions C97_v4.
Print Assumptions C97_v6.
Print Assumptions C97_mac.
Print Assumptions C97_shown.

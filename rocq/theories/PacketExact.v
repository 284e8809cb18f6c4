(** Every input is a packet with something behind it, or the beginning of one. *)
From Coq Require Import Lia.
From Verif Require Import Base Ints Reader Writer Spec SpecOps RunSpec BaseLemmas WriterLemmas Schema Utf8 Utf8Spec Decode Encode Sugar WireSpec SafetySpec CodecSpec CodecBase FieldLemmas RoundTrip EncLemmas DecWire Canonical Robust Bounds Containers Packets PacketSpec PacketLemmas PacketText.

(** ** Packets and their beginnings *)
Definition settled (t : ty) (v : val) (w d : bytes) : Prop :=
  encode t v = Ok w tt /\
  ((exists rest, d = w ++ rest /\ decode t d 0 = Ok v (size w)) \/
   (cut_short d w /\ exists e q, decode t d 0 = Err e q /\ q <= size d)).
Lemma app_split {A} (a b c e : list A) : a ++ b = c ++ e -> (length c <= length a)%nat -> a = c ++ skipn (length c) a.
Proof.
  intros H L. rewrite <- (firstn_skipn (length c) a) at 1. f_equal.
  apply (f_equal (firstn (length c))) in H. rewrite !firstn_app in H.
  replace (length c - length a)%nat with 0%nat in H by lia. rewrite PeanoNat.Nat.sub_diag, !firstn_O, !app_nil_r, firstn_all in H. exact H.
Qed.
Lemma settle t v w d pad rest' : well_formed t -> delimited t = true -> no_code t = true -> safe t ->
  (forall rest, carries t no_cattr no_fattr v w rest) -> allocatable w -> allocatable d -> d ++ pad = w ++ rest' -> settled t v w d.
Proof.
  intros HW HD HN HS HC Ha Hd E. split.
  { destruct (HC []) as [C1 C2]. eapply round_trip; try eassumption. rewrite app_nil_r. exact Ha. }
  destruct (Compare_dec.le_lt_dec (length w) (length d)) as [L|L].
  - left. exists (skipn (length w) d). pose proof (app_split _ _ _ _ E L) as Ed. split; [exact Ed|].
    rewrite Ed at 1. destruct (HC (skipn (length w) d)) as [C1 C2]. eapply round_trip; try eassumption. rewrite <- Ed. exact Hd.
  - right. assert (Ew : w = d ++ skipn (length d) w) by (eapply app_split; [symmetry; exact E|lia]).
    split.
    + exists (skipn (length d) w). split; [|symmetry; exact Ew]. intros Hn. apply (f_equal (@length _)) in Hn. rewrite skipn_length in Hn. cbn [length] in Hn. lia.
    + destruct (HC []) as [C1 C2]. destruct (truncated_encoding t v w (size d)) as (_ & e & q & Dq & Hq); try eassumption.
      { apply no_code_decoders, HN. } { apply no_code_decoders, HN. } { unfold size, lenN. lia. }
      exists e, q. split; [|exact Hq]. rewrite Ew in Dq. unfold size, lenN in Dq. rewrite Nnat.Nat2N.id, firstn_app, firstn_all, PeanoNat.Nat.sub_diag, firstn_O, app_nil_r in Dq.
      exact Dq.
Qed.

(** ** Taking bytes apart *)
Lemma take_bytes n (d : bytes) : (n <= length d)%nat -> exists l r, length l = n /\ d = l ++ r.
Proof. intros H. exists (firstn n d), (skipn n d). split; [apply firstn_length_le, H|symmetry; apply firstn_skipn]. Qed.
Lemma take_be n (d : bytes) : (n <= length d)%nat -> exists x r, x < 256 ^ N.of_nat n /\ d = be n x ++ r.
Proof.
  intros H. destruct (take_bytes n d H) as (l & r & <- & ->). exists (from_bytes Be l), r. split.
  - apply from_bytes_lt.
  - f_equal. unfold be. rewrite <- (digits_back Be l (lenN l) eq_refl) at 1. unfold lenN. rewrite Nnat.Nat2N.id. reflexivity.
Qed.
Lemma split_word x k m : x < k * m -> k <> 0 -> exists a b, x = k * a + b /\ a < m /\ b < k.
Proof.
  intros H Hk. exists (x / k), (x mod k). split; [apply N.div_mod, Hk|]. split; [apply N.div_lt_upper_bound; assumption|apply N.mod_lt, Hk].
Qed.
Lemma be_length n x : length (be n x) = n.
Proof. apply digits_length. Qed.
Ltac short := rewrite ?app_length, ?be_length in *; lia.
Ltac next n x Hx := match goal with H : (_ <= ?R)%nat |- _ => match R with context [@length _ ?d] => is_var d;
  let r := fresh "r" in let E := fresh in destruct (take_be n d ltac:(lia)) as (x & r & Hx & E); subst d; rewrite app_length, be_length in H end end.
Ltac next_bytes n l Hl := match goal with H : (_ <= ?R)%nat |- _ => match R with context [@length _ ?d] => is_var d;
  let r := fresh "r" in let E := fresh in destruct (take_bytes n d ltac:(lia)) as (l & r & Hl & E); subst d; rewrite app_length, Hl in H end end.

Lemma ethernet_there (d : bytes) : (14 <= length d)%nat -> exists h r, ethernet_ok h /\ d = ethernet_layout h ++ r /\ length d = (14 + length r)%nat.
Proof.
  intros H. next_bytes 6%nat s Hs. next_bytes 6%nat t Ht. next 2%nat x Hx.
  exists (mkethernet t s x). eexists. split; [|split].
  - unfold ethernet_ok, size, lenN. cbn [eth_src eth_dst eth_type]. rewrite Hs, Ht. repeat split. exact Hx.
  - unfold ethernet_layout. cbn [eth_src eth_dst eth_type]. rewrite <- !app_assoc. reflexivity.
  - rewrite !app_length, be_length. lia.
Qed.
Lemma udp_there (d : bytes) : (8 <= length d)%nat -> exists h r, udp_ok h /\ d = udp_layout h ++ r.
Proof.
  intros H. next 2%nat a Ha. next 2%nat b Hb. next 2%nat c Hc. next 2%nat e He.
  exists (mkudp a b c e). eexists. split.
  - unfold udp_ok. cbn [udp_sport udp_dport udp_length udp_checksum]. repeat split; assumption.
  - unfold udp_layout. cbn [udp_sport udp_dport udp_length udp_checksum]. rewrite <- !app_assoc. reflexivity.
Qed.
Lemma ipv4_there (d : bytes) : (276 <= length d)%nat -> exists h r, ipv4_accepted h /\ d = ipv4_layout h ++ r /\ (length d <= 276 + length r)%nat.
Proof.
  intros H. next 1%nat vw Hvw. next 1%nat tos Htos. next 2%nat tot Htot. next 2%nat idn Hid. next 2%nat ff Hff. next 1%nat ttl Httl.
  next 1%nat pr Hpr. next 2%nat ck Hck. next_bytes 4%nat s Hs. next_bytes 4%nat t Ht.
  destruct (split_word vw 16 16) as (v & w & -> & Hv & Hw); [exact Hvw|discriminate|].
  destruct (split_word ff 8192 8) as (fl & fr & -> & Hfl & Hfr); [exact Hff|discriminate|].
  pose proof (ipv4_announced_small w) as An.
  next_bytes (N.to_nat (ipv4_announced w)) o Ho.
  exists (mkipv4 v w tos tot idn fl fr ttl pr ck s t o). eexists. split; [|split].
  - split; [|unfold size, lenN; cbn [ip_options ip_words]; lia]. unfold ipv4_fields, size, lenN.
    cbn [ip_version ip_words ip_tos ip_total ip_id ip_flags ip_fragment ip_ttl ip_protocol ip_checksum ip_src ip_dst]. rewrite Hs, Ht. repeat split; assumption.
  - unfold ipv4_layout. cbn [ip_version ip_words ip_tos ip_total ip_id ip_flags ip_fragment ip_ttl ip_protocol ip_checksum ip_src ip_dst ip_options].
    rewrite <- !app_assoc. reflexivity.
  - rewrite !app_length, !be_length. lia.
Qed.
Lemma tcp_there (d : bytes) : 65556 <= size d -> exists h r, tcp_accepted h /\ d = tcp_layout h ++ r.
Proof.
  intros H. rename H into H'. unfold size, lenN in H'.
  assert (HN : exists k, (20 + k <= length d)%nat /\ 65536 <= N.of_nat k) by (exists (length d - 20)%nat; split; lia). destruct HN as (k & H & Hk). clear H'.
  next 2%nat a Ha. next 2%nat b Hb. next 4%nat c Hc. next 4%nat e He. next 2%nat wf Hwf.
  next 2%nat wi Hwi. next 2%nat ck Hck. next 2%nat u Hu.
  destruct (split_word wf 4096 16) as (w & fl & -> & Hw & Hfl); [exact Hwf|discriminate|].
  pose proof (tcp_announced_small w) as An.
  next_bytes (N.to_nat (tcp_announced w)) o Ho.
  exists (mktcp a b c e w fl wi ck u o). eexists. split.
  - split; [|unfold size, lenN; cbn [tcp_options tcp_words]; lia]. unfold tcp_fields.
    cbn [tcp_sport tcp_dport tcp_seq tcp_ack tcp_words tcp_flags tcp_window tcp_checksum tcp_urgent]. repeat split; assumption.
  - unfold tcp_layout. cbn [tcp_sport tcp_dport tcp_seq tcp_ack tcp_words tcp_flags tcp_window tcp_checksum tcp_urgent tcp_options].
    rewrite <- !app_assoc. reflexivity.
Qed.

Lemma frame_there (d : bytes) : 65860 <= size d -> exists f r, frame_accepted f /\ d = frame_head f ++ r.
Proof.
  intros H. unfold size, lenN in H. destruct (ethernet_there d) as (e & r & He & -> & Hl); [lia|].
  destruct (N.eq_dec (eth_type e) 2048) as [Et|Et].
  - destruct (ipv4_there r) as (h & r' & Hh & -> & Hl'); [lia|].
    assert (HT : exists t r'', transport_with tcp_accepted (ip_protocol h) t /\ r' = transport_layout t ++ r'').
    { destruct (N.eq_dec (ip_protocol h) 6) as [E6|E6].
      - destruct (tcp_there r') as (t & r'' & Ht & ->); [unfold size, lenN; lia|]. exists (OverTcp t), r''. split; [split; assumption|reflexivity].
      - destruct (N.eq_dec (ip_protocol h) 17) as [E17|E17].
        + destruct (udp_there r') as (t & r'' & Ht & ->); [lia|]. exists (OverUdp t), r''. split; [split; assumption|reflexivity].
        + exists OverOther, r'. split; [split; assumption|reflexivity]. }
    destruct HT as (t & r'' & Ht & ->). exists (mkframe e (OverIpv4 h t) []), r''. split.
    + split; [exact He|]. split; [exact Et|]. split; assumption.
    + unfold frame_head, frame_layout. cbn [f_link f_network f_payload]. rewrite app_nil_r, <- !app_assoc. reflexivity.
  - exists (mkframe e OverUnknown []), r. split; [split; assumption|].
    unfold frame_head, frame_layout. cbn [f_link f_network f_payload app]. rewrite app_nil_r. reflexivity.
Qed.

(** ** Sizes *)
Lemma size_app (a b : bytes) : size (a ++ b) = size a + size b.
Proof. unfold size, lenN. rewrite app_length. lia. Qed.
Lemma size_be n x : size (be n x) = N.of_nat n.
Proof. apply digits_size. Qed.
Lemma ipv4_size h : ipv4_accepted h -> size (ipv4_layout h) = 20 + ipv4_announced (ip_words h).
Proof.
  intros [(_ & _ & _ & _ & _ & _ & _ & _ & _ & _ & Hs & Ht) Ho]. unfold ipv4_layout. rewrite !size_app, !size_be, Hs, Ht, Ho. lia.
Qed.
Lemma tcp_size h : tcp_accepted h -> size (tcp_layout h) = 20 + tcp_announced (tcp_words h).
Proof. intros [_ Ho]. unfold tcp_layout. rewrite !size_app, !size_be, Ho. lia. Qed.
Lemma udp_size h : size (udp_layout h) = 8.
Proof. unfold udp_layout. rewrite !size_app, !size_be. reflexivity. Qed.
Lemma ethernet_size h : ethernet_ok h -> size (ethernet_layout h) = 14.
Proof. intros (Hs & Ht & _). unfold ethernet_layout. rewrite !size_app, size_be, Hs, Ht. reflexivity. Qed.
Lemma frame_head_size f : frame_accepted f -> size (frame_head f) <= 70000.
Proof.
  destruct f as [e n pay]. intros [He Hn]. cbn [f_link f_network] in *. unfold frame_head, frame_layout. cbn [f_link f_network f_payload].
  rewrite !size_app, (ethernet_size e He). change (size []) with 0. destruct n as [h t|]; [|vm_compute; discriminate]. destruct Hn as (_ & Hh & Ht).
  rewrite size_app, (ipv4_size h Hh). pose proof (ipv4_announced_small (ip_words h)). destruct t as [ht|hu|]; cbn [transport_layout].
  - destruct Ht as [_ Ht]. rewrite (tcp_size ht Ht). pose proof (tcp_announced_small (tcp_words ht)). lia.
  - rewrite udp_size. lia.
  - change (size []) with 0. lia.
Qed.
Lemma small_allocatable w : size w <= 70000 -> allocatable w.
Proof. unfold allocatable. intros H. eapply N.le_lt_trans; [exact H|reflexivity] || (eapply N.le_trans; [exact H|discriminate]). Qed.

(** ** An error before the last field *)
Lemma error_stays dty inh vars fs gs d : forall ca prev done p e q,
  dec_fields dty inh vars fs ca prev done d p = Err e q -> dec_fields dty inh vars (fs ++ gs) ca prev done d p = Err e q.
Proof.
  induction fs as [|[f t] fs IH]; intros ca prev done p e q H; [discriminate|].
  cbn [dec_fields app] in H |- *. destruct (modifiers f (mkenv done vars)) as [own|]; [|discriminate]. cbv zeta in H |- *. unfold Reader.bind in H |- *.
  destruct (dec_field (dty t) f ca (if inh && negb (f_use f) then prev else own) (mkenv done vars) d p) as [v q'|e' q'| |]; try discriminate; [apply IH; exact H|exact H].
Qed.
Lemma head_fails d p e q : decode (a_struct layer_head) d p = Err e q -> decode Layer d p = Err e q.
Proof.
  unfold decode. change Layer with (a_struct (layer_head ++ [(at_remaining plain, TBytes)])). unfold a_struct. cbn [dec]. unfold Reader.bind. intros H.
  destruct (dec_fields dec (negb true) (k_vars no_cattr) layer_head (own_cattr no_cspec) no_fattr [] d p) as [v q'|e' q'| |] eqn:E; try discriminate.
  rewrite (error_stays _ _ _ _ _ _ _ _ _ _ _ _ E). exact H.
Qed.

(** ** Commands *)
Lemma command_there (d : bytes) : 65600 <= size d -> exists v c b r, command_ok v c b /\ d = command_layout v c b ++ r.
Proof.
  intros H. unfold size, lenN in H.
  assert (HN : exists k, (6 + k <= length d)%nat /\ 65536 <= N.of_nat k) by (exists (length d - 6)%nat; split; lia). destruct HN as (k & L & Hk). clear H.
  next 1%nat v Hv. next 1%nat c Hc. exists v, c.
  assert (HB : exists b r', match b with
    | Stop => c = 1 | Start => c = 2 | Read a l => 4 <= c <= 7 /\ a < 2 ^ 16 /\ l < 2 ^ 16
    | Write a data => c = 8 /\ a < 2 ^ 16 /\ size data < 2 ^ 16
    | Unknown a => ~ (c = 1 \/ c = 2 \/ 4 <= c <= 7 \/ c = 8) /\ a < 2 ^ 16 end
    /\ r0 = match b with
            | Stop | Start => [] | Read a l => be 2 a ++ be 2 l | Write a data => be 2 a ++ be 2 (size data) ++ data | Unknown a => be 2 a end ++ r').
  { destruct (N.eq_dec c 1) as [E1|E1]; [exists Stop, r0; auto|]. destruct (N.eq_dec c 2) as [E2|E2]; [exists Start, r0; auto|].
    next 2%nat a Ha. destruct (N.eq_dec c 8) as [E8|E8].
    - next 2%nat n Hn. change (256 ^ N.of_nat 2) with 65536 in *. next_bytes (N.to_nat n) l Hl. exists (Write a l). eexists.
      replace (size l) with n by (unfold size, lenN; lia). split; [repeat split; assumption|]. rewrite <- !app_assoc. reflexivity.
    - destruct (N.le_gt_cases 4 c) as [G4|G4]; [destruct (N.le_gt_cases c 7) as [G7|G7]|].
      + next 2%nat n Hn. exists (Read a n). eexists. split; [repeat split; assumption|]. rewrite <- !app_assoc. reflexivity.
      + exists (Unknown a). eexists. split; [split; [lia|exact Ha]|reflexivity].
      + exists (Unknown a). eexists. split; [split; [lia|exact Ha]|reflexivity]. }
  destruct HB as (b & r' & Hb & ->). exists b, r'. split; [repeat split; assumption|]. unfold command_layout. rewrite <- !app_assoc. reflexivity.
Qed.
Lemma command_size v c b : command_ok v c b -> size (command_layout v c b) <= 70000.
Proof.
  intros (_ & _ & Hb). unfold command_layout. rewrite !size_app, !size_be. destruct b as [| |a l|a data|a]; cbn [size].
  - vm_compute. discriminate.
  - vm_compute. discriminate.
  - rewrite size_app, !size_be. vm_compute. discriminate.
  - destruct Hb as (_ & _ & Hd). change (2 ^ 16) with 65536 in Hd. rewrite !size_app, !size_be. lia.
  - rewrite size_be. vm_compute. discriminate.
Qed.

(** ** Socket messages *)
Definition socket_tag (m : socket_body) : N := match m with ReadReq _ _ => 1 | ReadRsp _ _ => 2 | WriteReq _ _ => 3 | WriteRsp _ _ => 4 | StopMsg => 5 end.
Lemma socket_there (d : bytes) : (260 <= length d)%nat -> exists v tag r, v < 256 /\ tag < 256 /\ d = be 1 v ++ be 1 tag ++ r
  /\ (1 <= tag <= 5 -> exists m r', socket_ok v m /\ d = socket_layout v m ++ r').
Proof.
  intros H. next 1%nat v Hv. next 1%nat t Ht. exists v, t, r0. do 3 (split; [assumption || reflexivity|]). intros HT.
  destruct (N.eq_dec t 5) as [->|N5].
  { exists StopMsg, r0. split; [split; [exact Hv|exact Logic.I]|]. unfold socket_layout. rewrite <- !app_assoc. reflexivity. }
  next 1%nat a Ha. next 1%nat l Hl. change (256 ^ N.of_nat 1) with 256 in *.
  destruct (N.eq_dec t 1) as [->|N1].
  { exists (ReadReq a l). eexists. split; [split; [exact Hv|split; assumption]|]. unfold socket_layout. rewrite <- !app_assoc. reflexivity. }
  destruct (N.eq_dec t 4) as [->|N4].
  { exists (WriteRsp a l). eexists. split; [split; [exact Hv|split; assumption]|]. unfold socket_layout. rewrite <- !app_assoc. reflexivity. }
  next_bytes (N.to_nat l) data Hd. assert (Es : size data = l) by (unfold size, lenN; lia).
  destruct (N.eq_dec t 2) as [->|N2].
  { exists (ReadRsp a data). eexists. split; [split; [exact Hv|split; [assumption|rewrite Es; assumption]]|]. unfold socket_layout. rewrite Es, <- !app_assoc. reflexivity. }
  assert (t = 3) as -> by lia.
  exists (WriteReq a data). eexists. split; [split; [exact Hv|split; [assumption|rewrite Es; assumption]]|]. unfold socket_layout. rewrite Es, <- !app_assoc. reflexivity.
Qed.
Lemma socket_size v m : socket_ok v m -> size (socket_layout v m) <= 70000.
Proof.
  intros [_ Hm]. unfold socket_layout. rewrite size_app, size_be. destruct m as [a l|a data|a data|a l|]; rewrite ?size_app, ?size_be.
  1,4,5: vm_compute; discriminate.
  all: destruct Hm as [_ Hd]; change (2 ^ 8) with 256 in Hd; lia.
Qed.
Lemma socket_unknown v t r : v < 256 -> t < 256 -> ~ 1 <= t <= 5 -> allocatable (be 1 v ++ be 1 t ++ r) ->
  decode SocketMessage (be 1 v ++ be 1 t ++ r) 0 = Err (mkerr 2 InvalidByteLength) 2.
Proof.
  intros Hv Ht Hn Ha. set (d := be 1 v ++ be 1 t ++ r) in *.
  assert (H1 : dec a_u8 (own_cattr no_cspec) no_fattr d 0 = Ok (num v) 1).
  { destruct (carries_num U8 (own_cattr no_cspec) v (be 1 t ++ r)) as [A B]; [reflexivity|reflexivity|exact Hv|].
    pose proof (decoder_reads a_u8 (own_cattr no_cspec) no_fattr (num v) _ (be 1 t ++ r) Logic.I A B) as R.
    specialize (R []). exact (R Ha). }
  assert (H2 : dec MessageBody (own_cattr no_cspec) no_fattr d 1 = Err (mkerr 2 InvalidByteLength) 2).
  { unfold MessageBody. eapply (enum_no_arm _ _ _ _ _ _ t); [reflexivity|discriminate|exact Ha| | |].
    - intros k [E|E]; [discriminate|]. injection E as <-. discriminate.
    - split; [unfold size, lenN, d; rewrite !app_length, !be_length; lia|]. split; [|reflexivity].
      change (window d 1 1) with (firstn 1 (be 1 t ++ r)). rewrite firstn_app, be_length, PeanoNat.Nat.sub_diag, firstn_O, app_nil_r.
      rewrite <- (be_length 1 t) at 1. rewrite firstn_all. unfold be. change (order_for (own_cattr no_cspec) no_fattr) with Be.
      rewrite number_digits. symmetry. apply N.mod_small, Ht.
    - intros i (v' & n & E1 & E2 & E3). destruct i as [|[|[|[|[|i]]]]]; cbn in E1, E2; try (destruct i; discriminate).
      all: injection E1 as <-; injection E2 as <-; apply N.eqb_eq in E3; lia. }
  unfold decode, SocketMessage, a_struct. cbn [dec]. unfold Reader.bind.
  cbn [dec_fields]. change (modifiers plain (mkenv [] (k_vars no_cattr))) with (Some no_fattr). cbv beta iota zeta. unfold Reader.bind.
  change (if negb true && negb (f_use plain) then no_fattr else no_fattr) with no_fattr.
  change (dec_field (dec a_u8) plain (own_cattr no_cspec) no_fattr (mkenv [] (k_vars no_cattr)) d 0) with
    (Reader.bind (dec a_u8 (own_cattr no_cspec) no_fattr) (fun v => ret v) d 0).
  unfold Reader.bind. rewrite H1. unfold ret at 1. cbv beta iota. cbn [app].
  change (modifiers plain (mkenv [num v] (k_vars no_cattr))) with (Some no_fattr). cbv beta iota zeta. unfold Reader.bind.
  match goal with |- context [dec_field (dec MessageBody) plain ?c ?f ?en d 1] => change (dec_field (dec MessageBody) plain c f en d 1) with
    (Reader.bind (dec MessageBody (own_cattr no_cspec) no_fattr) (fun v => ret v) d 1) end.
  unfold Reader.bind. rewrite H2. reflexivity.
Qed.

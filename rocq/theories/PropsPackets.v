(** Property C72: the packets of the examples. *)
From Coq Require Import String Lia.
From Verif Require Import Base Ints Reader Writer Spec SpecOps.
From Verif Require Import BaseLemmas CodecBase.
From Verif Require Import Schema Utf8 Utf8Spec Utf8Lemmas Sugar Decode Encode WireSpec RunSpec SafetySpec CodecSpec RoundTrip Examples PropsContainers Robust PropsRobust.
From Verif Require Import Packets PacketSpec PacketLemmas PacketText PacketExact.

(** ** The schemas are in the classes of C30, C33 and C34 *)
Ltac well_packet := unfold Layer, Layer3, Layer4, Ethernet, EthernetHeader, Ipv4, Tcp, Udp, Request, RequestMap, RequestMethod, HttpMethod, METHODS, map, Header, SocketMessage, MessageBody,
  Command, CommandBody, a_struct; well.
Lemma ethernet_well : well_formed Ethernet. Proof. well_packet. Qed.
Lemma ipv4_well : well_formed Ipv4. Proof. well_packet. Qed.
Lemma tcp_well : well_formed Tcp. Proof. well_packet. Qed.
Lemma layer_well : well_formed Layer. Proof. well_packet. Qed.
Lemma head_well : well_formed (a_struct layer_head). Proof. change layer_head with [(plain, EthernetHeader); (at_branch ethernet_type plain, Layer3); (at_branch protocol_above plain, Layer4)]. well_packet. Qed.
Lemma request_well : well_formed Request. Proof. well_packet. Qed.
Lemma request_map_well : well_formed RequestMap. Proof. well_packet. Qed.
Lemma request_method_well : well_formed RequestMethod.
Proof.
  split; [discriminate|]. split; [split; [well_packet|]|well_packet]. split; [repeat split|]. split; [|exact Logic.I].
  right. repeat split.
Qed.
Lemma socket_well : well_formed SocketMessage. Proof. well_packet. Qed.
Lemma command_well : well_formed Command. Proof. well_packet. Qed.
Ltac safe_packet := unfold Layer, Layer3, Layer4, Ethernet, EthernetHeader, Ipv4, Tcp, Udp, Request, RequestMap, RequestMethod, HttpMethod, METHODS, map, Header, SocketMessage, MessageBody, Command, CommandBody, a_struct; safe_by.
Lemma ethernet_safe : safe Ethernet. Proof. safe_packet. Qed.
Lemma ipv4_safe : safe Ipv4. Proof. safe_packet. Qed.
Lemma tcp_safe : safe Tcp. Proof. safe_packet. Qed.
Lemma head_safe : safe (a_struct layer_head). Proof. change layer_head with [(plain, EthernetHeader); (at_branch ethernet_type plain, Layer3); (at_branch protocol_above plain, Layer4)]. safe_packet. Qed.
Lemma request_safe : safe Request. Proof. safe_packet. Qed.
Lemma request_map_safe : safe RequestMap. Proof. safe_packet. Qed.
Lemma request_method_safe : safe RequestMethod. Proof. safe_packet. Qed.
Lemma socket_safe : safe SocketMessage. Proof. safe_packet. Qed.
Lemma command_safe : safe Command. Proof. safe_packet. Qed.

(** What the documents call valid is accepted. *)
Lemma ipv4_valid h : ipv4_ok h -> ipv4_accepted h.
Proof.
  intros (Hf & H5 & Ho). split; [exact Hf|]. destruct Hf as (_ & H16 & _). unfold ipv4_announced.
  rewrite <- (N.mod_small (size (ip_options h)) 256) by lia. replace (4 * ip_words h + 236) with (size (ip_options h) + 1 * 256) by lia.
  symmetry. apply N.mod_add. discriminate.
Qed.
Lemma tcp_valid h : tcp_ok h -> tcp_accepted h.
Proof.
  intros (Hf & H5 & Ho). split; [exact Hf|]. destruct Hf as (_ & _ & _ & _ & H16 & _). unfold tcp_announced.
  rewrite <- (N.mod_small (size (tcp_options h)) 65536) by lia. replace (4 * tcp_words h + 65516) with (size (tcp_options h) + 1 * 65536) by lia.
  symmetry. apply N.mod_add. discriminate.
Qed.
Lemma frame_valid f : frame_ok f -> frame_accepted f.
Proof.
  intros [He Hn]. split; [exact He|]. destruct (f_network f) as [h t|]; [|exact Hn]. destruct Hn as (E & Hh & Ht). split; [exact E|].
  split; [apply ipv4_valid, Hh|]. destruct t as [ht|hu|]; [|exact Ht|exact Ht]. destruct Ht as [Ep Ht]. split; [exact Ep|apply tcp_valid, Ht].
Qed.

(** ** C72. The packets of the examples *)

(** Encoding a header gives the octets of the document that defines it, and decoding
    gives the header back and leaves what comes behind it. *)
Definition codec (t : ty) (v : val) (layout rest : bytes) : Prop :=
  encode t v = Ok layout tt /\ decode t (layout ++ rest) 0 = Ok v (size layout).
Lemma codec_of t v w rest : well_formed t -> carries t no_cattr no_fattr v w rest -> allocatable (w ++ rest) -> codec t v w rest.
Proof. intros Hw [C1 C2] Ha. apply C30_round_trip; assumption. Qed.
Theorem C72_ethernet : forall h rest, ethernet_ok h -> allocatable (ethernet_layout h ++ rest) ->
  codec Ethernet (ethernet_value h) (ethernet_layout h) rest.
Proof. intros h rest H Ha. apply codec_of; [exact ethernet_well|apply carries_ethernet, H|exact Ha]. Qed.
Theorem C72_ipv4 : forall h rest, ipv4_ok h -> allocatable (ipv4_layout h ++ rest) ->
  codec Ipv4 (ipv4_value h) (ipv4_layout h) rest.
Proof. intros h rest H Ha. apply codec_of; [exact ipv4_well|apply carries_ipv4, ipv4_valid, H|exact Ha]. Qed.
Theorem C72_tcp : forall h rest, tcp_ok h -> allocatable (tcp_layout h ++ rest) ->
  codec Tcp (tcp_value h) (tcp_layout h) rest.
Proof. intros h rest H Ha. apply codec_of; [exact tcp_well|apply carries_tcp, tcp_valid, H|exact Ha]. Qed.
(** Whole frames: the payload is what is left. *)
Theorem C72_frame : forall f, frame_ok f -> allocatable (frame_layout f) ->
  encode Layer (frame_value f) = Ok (frame_layout f) tt /\
  decode Layer (frame_layout f) 0 = Ok (frame_value f) (size (frame_layout f)).
Proof.
  intros f H Ha. destruct (codec_of Layer (frame_value f) (frame_layout f) [] layer_well) as [A B].
  - apply carries_frame, frame_valid, H.
  - rewrite app_nil_r. exact Ha.
  - rewrite app_nil_r in B. split; assumption.
Qed.
(** Requests with at most 20 header fields, in order; as a map with at most 10
    different ones. *)
Theorem C72_http : forall r, request_ok r -> (length (rq_headers r) <= 20)%nat -> allocatable (request_layout r) ->
  encode Request (request_value header_list r) = Ok (request_layout r) tt /\
  decode Request (request_layout r) 0 = Ok (request_value header_list r) (size (request_layout r)).
Proof.
  intros r H Hn Ha. destruct (codec_of Request (request_value header_list r) (request_layout r) [] request_well) as [A B].
  - apply carries_request; assumption.
  - rewrite app_nil_r. exact Ha.
  - rewrite app_nil_r in B. split; assumption.
Qed.
Theorem C72_http_map : forall r, request_ok r -> (length (rq_headers r) <= 10)%nat -> NoDup (map fst (rq_headers r)) ->
  allocatable (request_layout r) ->
  encode RequestMap (request_value header_map r) = Ok (request_layout r) tt /\
  decode RequestMap (request_layout r) 0 = Ok (request_value header_map r) (size (request_layout r)).
Proof.
  intros r H Hn Hd Ha. destruct (codec_of RequestMap (request_value header_map r) (request_layout r) [] request_map_well) as [A B].
  - apply carries_request_map; assumption.
  - rewrite app_nil_r. exact Ha.
  - rewrite app_nil_r in B. split; assumption.
Qed.
(** With the method as an enum: for each of the nine methods. *)
Theorem C72_http_method : forall i r, nth_error methods i = Some (rq_method r) -> request_ok r ->
  (length (rq_headers r) <= 20)%nat -> allocatable (request_layout r) ->
  encode RequestMethod (method_value i r) = Ok (request_layout r) tt /\
  decode RequestMethod (request_layout r) 0 = Ok (method_value i r) (size (request_layout r)).
Proof.
  intros i r Hi H Hn Ha. destruct (codec_of RequestMethod (method_value i r) (request_layout r) [] request_method_well) as [A B].
  - apply carries_request_method; assumption.
  - rewrite app_nil_r. exact Ha.
  - rewrite app_nil_r in B. split; assumption.
Qed.
Theorem C72_socket : forall v m rest, socket_ok v m -> allocatable (socket_layout v m ++ rest) ->
  codec SocketMessage (socket_value v m) (socket_layout v m) rest.
Proof. intros v m rest H Ha. apply codec_of; [exact socket_well|apply carries_socket, H|exact Ha]. Qed.
Theorem C72_command : forall v c b rest, command_ok v c b -> allocatable (command_layout v c b ++ rest) ->
  codec Command (command_value v c b) (command_layout v c b) rest.
Proof. intros v c b rest H Ha. apply codec_of; [exact command_well|apply carries_command, H|exact Ha]. Qed.

(** Untrusted input: any bytes are read as a request or give an error, without reading
    past their end; and only one of the nine methods is read. *)
Theorem C72_http_any : forall t d, In t [Request; RequestMap; RequestMethod] -> allocatable d ->
  (exists v q, decode t d 0 = Ok v q /\ q <= size d) \/ (exists e q, decode t d 0 = Err e q /\ q <= size d).
Proof.
  intros t d Ht Ha. destruct (C34_total t d 0) as [(v & q & E & H)|(e & q & E & H)].
  - destruct Ht as [<-|[<-|[<-|[]]]]; reflexivity.
  - destruct Ht as [<-|[<-|[<-|[]]]]; apply Bounds.no_code_decoders; reflexivity.
  - destruct Ht as [<-|[<-|[<-|[]]]]; [exact request_safe|exact request_map_safe|exact request_method_safe].
  - exact Ha.
  - unfold size. lia.
  - left. exists v, q. split; [exact E|apply H].
  - right. exists e, q. split; [exact E|apply H].
Qed.
Theorem C72_http_method_any : forall d v q, allocatable d -> decode RequestMethod d 0 = Ok v q ->
  exists m rest, d = m ++ space ++ rest /\ In m methods.
Proof.
  intros d v q Ha H. unfold decode, RequestMethod, a_struct in H. cbn [dec] in H.
  apply Collections.bind_ok in H as (xs & p & H & _). cbn [dec_fields] in H.
  match type of H with match ?m with _ => _ end _ _ = _ => destruct m as [own|] eqn:Em; [|discriminate] end.
  cbn [negb andb] in H. apply Collections.bind_ok in H as (x & p1 & H & _). unfold dec_field in H.
  cbn [at_linend at_from_str plain f_offset f_with_decode f_skip_decode f_from_str dec_offset] in H.
  apply Collections.bind_ok in H as (u & p2 & H0 & H). injection H0 as <- <-.
  apply Collections.bind_ok in H as (m & p3 & H0 & H). unfold dec_string in H0. apply Collections.bind_ok in H0 as (l & p4 & H1 & H0).
  destruct (utf8_ok l); [|discriminate]. injection H0 as <- <-.
  destruct (method_from_str l) as [y|] eqn:Ey; [|discriminate]. apply place_in in Ey.
  injection Em as <-. unfold dec_raw in H1. cbn [a_key a_split a_length a_byte_count a_linend a_linend_value] in H1.
  assert (E : find_subsequence SP d 0 = Ok l p4) by exact H1.
  destruct (Canonical.consumes_find SP d 0 l p4) as (A & B & C); [exact Ha|unfold lenN; lia|exact E|].
  exists l, (skipn (N.to_nat p4) d). split; [|exact Ey].
  rewrite N.sub_0_r in C. change (firstn (N.to_nat p4) d = l ++ SP) in C.
  rewrite <- (firstn_skipn (N.to_nat p4) d) at 1. rewrite C, <- app_assoc. reflexivity.
Qed.
(** Untrusted input: whatever arrives is one of the packets with something behind
    it, which is decoded, or the beginning of one, which is an error. [settled]: one
    of the two. *)
Lemma longer (d : bytes) n : exists pad, (n <= N.of_nat (length (d ++ pad)))%N /\ (n <= size (d ++ pad))%N.
Proof.
  exists (repeat x01 (N.to_nat n)). unfold size, lenN. rewrite app_length, repeat_length. split; lia.
Qed.
Theorem C72_ethernet_any : forall d, allocatable d -> exists h, ethernet_ok h /\ settled Ethernet (ethernet_value h) (ethernet_layout h) d.
Proof.
  intros d Hd. destruct (longer d 14) as (pad & Hl & _). destruct (ethernet_there (d ++ pad)) as (h & r & Hh & E & _); [lia|].
  exists h. split; [exact Hh|]. eapply settle; [exact ethernet_well|reflexivity|reflexivity|exact ethernet_safe| | |exact Hd|exact E].
  - intros. apply carries_ethernet, Hh.
  - apply small_allocatable. rewrite ethernet_size by exact Hh. discriminate.
Qed.
Theorem C72_ipv4_any : forall d, allocatable d -> exists h, ipv4_accepted h /\ settled Ipv4 (ipv4_value h) (ipv4_layout h) d.
Proof.
  intros d Hd. destruct (longer d 276) as (pad & Hl & _). destruct (ipv4_there (d ++ pad)) as (h & r & Hh & E & _); [lia|].
  exists h. split; [exact Hh|]. eapply settle; [exact ipv4_well|reflexivity|reflexivity|exact ipv4_safe| | |exact Hd|exact E].
  - intros. apply carries_ipv4, Hh.
  - apply small_allocatable. rewrite ipv4_size by exact Hh. pose proof (ipv4_announced_small (ip_words h)). lia.
Qed.
Theorem C72_tcp_any : forall d, allocatable d -> exists h, tcp_accepted h /\ settled Tcp (tcp_value h) (tcp_layout h) d.
Proof.
  intros d Hd. destruct (longer d 65556) as (pad & _ & Hl). destruct (tcp_there (d ++ pad) Hl) as (h & r & Hh & E).
  exists h. split; [exact Hh|]. eapply settle; [exact tcp_well|reflexivity|reflexivity|exact tcp_safe| | |exact Hd|exact E].
  - intros. apply carries_tcp, Hh.
  - apply small_allocatable. rewrite tcp_size by exact Hh. pose proof (tcp_announced_small (tcp_words h)). lia.
Qed.
Theorem C72_frame_any : forall d, allocatable d ->
  (exists f, frame_accepted f /\ d = frame_layout f /\ decode Layer d 0 = Ok (frame_value f) (size d)
             /\ encode Layer (frame_value f) = Ok d tt) \/
  (exists f, frame_accepted f /\ f_payload f = [] /\ cut_short d (frame_layout f)
             /\ exists e q, decode Layer d 0 = Err e q /\ q <= size d).
Proof.
  intros d Hd. destruct (longer d 65860) as (pad & _ & Hl). destruct (frame_there (d ++ pad) Hl) as (f & r & Hf & E).
  assert (HS : settled (a_struct layer_head) (VList (head_values f)) (frame_head f) d).
  { eapply settle; [exact head_well|reflexivity|reflexivity|exact head_safe| | |exact Hd|exact E].
    - intros. apply carries_head, Hf.
    - apply small_allocatable, frame_head_size, Hf. }
  destruct HS as [_ [(rest & Ed & _)|(Hc & e & q & De & Hq)]].
  - left. exists (mkframe (f_link f) (f_network f) rest). assert (Hf' : frame_accepted (mkframe (f_link f) (f_network f) rest)) by exact Hf.
    assert (El : d = frame_layout (mkframe (f_link f) (f_network f) rest)) by (rewrite frame_layout_head; exact Ed).
    split; [exact Hf'|]. split; [exact El|]. pose proof (carries_frame no_cattr no_fattr _ Hf') as C.
    destruct (codec_of Layer _ _ [] layer_well C) as [A B]; [rewrite app_nil_r, <- El; exact Hd|].
    rewrite app_nil_r, <- El in B. rewrite <- El in A. split; assumption.
  - right. exists (mkframe (f_link f) (f_network f) []). split; [exact Hf|]. split; [reflexivity|]. split; [exact Hc|].
    exists e, q. split; [|exact Hq]. apply head_fails, De.
Qed.
Theorem C72_socket_any : forall d, allocatable d ->
  (exists v m, socket_ok v m /\ settled SocketMessage (socket_value v m) (socket_layout v m) d) \/
  (exists v tag rest, d = be 1 v ++ be 1 tag ++ rest /\ tag < 256 /\ ~ 1 <= tag <= 5
                      /\ decode SocketMessage d 0 = Err (mkerr 2 InvalidByteLength) 2).
Proof.
  intros d Hd. set (pad := x01 :: x01 :: repeat x01 258). assert (Hl : (260 <= length (d ++ pad))%nat).
  { rewrite app_length. unfold pad. cbn [length]. rewrite repeat_length. lia. }
  destruct (socket_there (d ++ pad)) as (v & t & r & Hv & Ht & E & HT); [lia|].
  assert (Hdec : 1 <= t <= 5 \/ ~ 1 <= t <= 5) by lia. destruct Hdec as [Hin|Hout].
  - left. destruct (HT Hin) as (m & r' & Hm & E'). exists v, m. split; [exact Hm|].
    eapply settle; [exact socket_well|reflexivity|reflexivity|exact socket_safe| | |exact Hd|exact E'].
    + intros. apply carries_socket, Hm.
    + apply small_allocatable, socket_size, Hm.
  - assert (Hone : forall x, x < 256 -> exists b, be 1 x = [b] /\ number Be [b] = x).
    { intros x Hx. destruct (be 1 x) as [|b [|b' l]] eqn:Eb; try (apply (f_equal (@length _)) in Eb; rewrite be_length in Eb; discriminate).
      exists b. split; [reflexivity|]. rewrite <- Eb. unfold be.
      rewrite FieldLemmas.number_digits. apply N.mod_small, Hx. }
    destruct (Hone v Hv) as (bv & Ev & _). destruct (Hone t Ht) as (bt & Et & Nt). rewrite Ev, Et in E.
    destruct d as [|a [|b d]]; unfold pad in E; cbn [app] in E.
    + injection E as _ E _. subst bt. vm_compute in Nt. lia.
    + injection E as _ E _. subst bt. vm_compute in Nt. lia.
    + injection E as -> -> _. right. exists v, t, d. rewrite Ev, Et. split; [reflexivity|]. split; [exact Ht|]. split; [exact Hout|].
      pose proof (socket_unknown v t d Hv Ht Hout) as HU. rewrite Ev, Et in HU. exact (HU Hd).
Qed.
Theorem C72_command_any : forall d, allocatable d ->
  exists v c b, command_ok v c b /\ settled Command (command_value v c b) (command_layout v c b) d.
Proof.
  intros d Hd. destruct (longer d 65600) as (pad & _ & Hl). destruct (command_there (d ++ pad) Hl) as (v & c & b & r & Hh & E).
  exists v, c, b. split; [exact Hh|]. eapply settle; [exact command_well|reflexivity|reflexivity|exact command_safe| | |exact Hd|exact E].
  - intros. apply carries_command, Hh.
  - apply small_allocatable, command_size, Hh.
Qed.

(** The packets in the examples' own files. *)
Definition example_ethernet : bytes := hex [0xff; 0xff; 0xff; 0xff; 0xff; 0xff; 0; 0; 0; 0; 0; 0; 8; 0].
Definition example_ipv4 : bytes :=
  hex [0x45; 0; 0; 0x40; 0xb5; 0xf2; 0; 0; 0x40; 6; 0xa9; 0x7c; 0x0a; 1; 1; 0xea; 0x0a; 0x0a; 5; 0x55].
Definition example_options : bytes := hex [1; 1; 8; 0x0a; 0x37; 0xc4; 0x50; 0xe2; 0; 0xba; 0x7c; 0x1c].
Definition example_tcp : bytes :=
  hex [0xc8; 0xd3; 1; 0xf6; 0xe0; 0x76; 0x90; 0x16; 0xc4; 0x44; 0x9b; 0x5a; 0x80; 0x18; 0xff; 0xff; 0x6c; 0x1c; 0; 0] ++ example_options.
Definition dns_query : bytes := hex [0x10; 0x32; 1; 0; 0; 1] ++ str "google".
Definition example_frame : frame := mkframe
  (mkethernet (hex [0; 0xe0; 0x18; 0xb1; 0x0c; 0xad]) (hex [0; 0xc0; 0x9f; 0x32; 0x41; 0x8c]) 2048)
  (OverIpv4 (mkipv4 4 5 0 56 0 2 0 64 17 0x6547 (hex [192; 168; 170; 8]) (hex [192; 168; 170; 20]) [])
            (OverUdp (mkudp 32795 53 36 0x85ed))) dns_query.
Definition example_request : request := mkrequest (str "GET") (str "http://www.jankincai.com/") (str "HTTP/1.1")
  [(str "Host", str "www.jankincai.com"); (str "Accept-Encoding", str "gzip, deflate")].
Example C72_ethernet_case : let h := mkethernet (repeat x00 6) (repeat xff 6) 2048 in
  ethernet_ok h /\ ethernet_layout h = example_ethernet.
Proof. repeat split. Qed.
Example C72_ipv4_case : let h := mkipv4 4 5 0 64 46578 0 0 64 6 43388 (hex [10; 1; 1; 234]) (hex [10; 10; 5; 85]) [] in
  ipv4_ok h /\ ipv4_layout h = example_ipv4.
Proof. repeat split; discriminate. Qed.
Example C72_tcp_case : let h := mktcp 51411 502 3765866518 3292830554 8 24 65535 27676 0 example_options in
  tcp_ok h /\ tcp_layout h = example_tcp.
Proof. repeat split; discriminate. Qed.
Example C72_frame_case : frame_ok example_frame /\
  frame_layout example_frame = hex [0; 0xc0; 0x9f; 0x32; 0x41; 0x8c; 0; 0xe0; 0x18; 0xb1; 0x0c; 0xad; 8; 0; 0x45; 0;
    0; 0x38; 0; 0; 0x40; 0; 0x40; 0x11; 0x65; 0x47; 0xc0; 0xa8; 0xaa; 8; 0xc0; 0xa8;
    0xaa; 0x14; 0x80; 0x1b; 0; 0x35; 0; 0x24; 0x85; 0xed] ++ dns_query.
Proof. repeat split; try discriminate. Qed.
Lemma absent s l : existsb (fun j => starts_with s (skipn j l)) (seq 0 (S (length l))) = false -> ~ contains s l.
Proof.
  intros H (a & b & ->). enough (existsb (fun j => starts_with s (skipn j (a ++ s ++ b))) (seq 0 (S (length (a ++ s ++ b)))) = true) by congruence.
  apply existsb_exists. exists (length a). split.
  - apply in_seq. rewrite app_length. lia.
  - rewrite skipn_app, skipn_all, PeanoNat.Nat.sub_diag. cbn [app skipn]. apply starts_with_app.
Qed.
Ltac a_token := split; [apply utf8_ok_text; vm_compute; reflexivity|apply absent; vm_compute; reflexivity].
Example C72_http_case : request_ok example_request /\ NoDup (map fst (rq_headers example_request)) /\
  request_layout example_request
  = str "GET http://www.jankincai.com/ HTTP/1.1" ++ crlf ++ str "Host: www.jankincai.com" ++ crlf
    ++ str "Accept-Encoding: gzip, deflate" ++ crlf.
Proof.
  split; [split; [a_token|split; [a_token|split; [a_token|repeat (apply Forall_cons; [split; a_token|]); apply Forall_nil]]]|]. split; [|reflexivity].
  constructor; [|constructor; [intros []|constructor]]. intros [H|[]]. discriminate.
Qed.
Example C72_http_method_case : nth_error methods 0 = Some (rq_method example_request) /\ nth_error methods 8 = Some (str "PATCH")
  /\ method_value 0 example_request <> request_value header_list example_request
  /\ exists e q, decode RequestMethod (str "SET http://www.jankincai.com/ HTTP/1.1" ++ crlf) 0 = Err e q.
Proof. split; [reflexivity|]. split; [reflexivity|]. split; [discriminate|]. do 2 eexists. vm_compute. reflexivity. Qed.
Example C72_socket_case : socket_ok 1 (ReadRsp 2 (hex [0; 1; 2])) /\ socket_layout 1 (ReadRsp 2 (hex [0; 1; 2])) = hex [1; 2; 2; 3; 0; 1; 2].
Proof. repeat split. Qed.
Example C72_command_case : command_ok 1 8 (Write 1 (hex [1; 2; 3])) /\ command_layout 1 8 (Write 1 (hex [1; 2; 3])) = hex [1; 8; 0; 1; 0; 3; 1; 2; 3]
  /\ command_ok 1 9 (Unknown 1) /\ command_ok 1 5 (Read 1 10).
Proof. repeat split; try discriminate. cbn. lia. Qed.

(** Findings. A header length below 20 is not rejected: 236 octets of what follows are
    taken for options of an IPv4 header whose length says 0 (a build with overflow checks panics). *)
Theorem C72_short_header_refuted : exists d v, ~ (exists h rest, ipv4_ok h /\ d = ipv4_layout h ++ rest)
  /\ decode Ipv4 d 0 = Ok v 256 /\ (exists l, v = VList (l ++ [VBytes (repeat x07 236)])).
Proof.
  exists (hex [0x40] ++ repeat x00 19 ++ repeat x07 244). eexists. split; [|split].
  - intros (h & rest & (Hf & H5 & _) & E). apply (f_equal (firstn 1)) in E. unfold ipv4_layout in E. rewrite <- app_assoc in E.
    assert (F : forall x l, firstn 1 (be 1 x ++ l) = be 1 x).
    { intros x l. rewrite firstn_app, be_length. rewrite <- (be_length 1 x) at 1. rewrite firstn_all. apply app_nil_r. }
    rewrite F in E.
    apply (f_equal (number Be)) in E. unfold be in E. rewrite FieldLemmas.number_digits in E. destruct Hf as (Hv & Hw & _).
    change (256 ^ N.of_nat 1) with 256 in E. rewrite N.mod_small in E by lia. vm_compute (number Be _) in E. lia.
  - vm_compute. reflexivity.
  - eexists [_; _; _; _; _; _; _; _; _; _; _; _]. reflexivity.
Qed.
(** The end of the header fields is not looked for: the empty line and a body with a
    colon and a space in it are taken for one more field. *)
Theorem C72_body_refuted : exists r body v l, request_ok r /\ decode Request (request_layout r ++ crlf ++ body) 0 = Ok v l
  /\ v <> request_value header_list r /\ v = request_value header_list (mkrequest (rq_method r) (rq_uri r) (rq_version r) (rq_headers r ++ [(crlf ++ str "a", str "b")])).
Proof.
  exists example_request, (str "a: b" ++ crlf). eexists. eexists. split; [apply C72_http_case|]. split; [vm_compute; reflexivity|].
  split; [discriminate|vm_compute; reflexivity].
Qed.
(** More than 20 fields are written but not read back. *)
Theorem C72_many_fields_refuted : exists r v q, request_ok r
  /\ encode Request (request_value header_list r) = Ok (request_layout r) tt
  /\ decode Request (request_layout r) 0 = Ok v q /\ q < size (request_layout r) /\ v <> request_value header_list r.
Proof.
  exists (mkrequest (str "GET") (str "/") (str "HTTP/1.1") (repeat (str "A", str "b") 21)). eexists. eexists. split; [|split; [vm_compute; reflexivity|split; [vm_compute; reflexivity|split; [vm_compute; reflexivity|discriminate]]]].
  split; [a_token|split; [a_token|split; [a_token|]]]. cbn [rq_headers repeat]. repeat (apply Forall_cons; [split; a_token|]); apply Forall_nil.
Qed.
Print Assumptions C72_ethernet.
Print Assumptions C72_ipv4.
Print Assumptions C72_tcp.
Print Assumptions C72_frame.
Print Assumptions C72_http.
Print Assumptions C72_http_map.
Print Assumptions C72_http_method.
Print Assumptions C72_http_any.
Print Assumptions C72_http_method_any.
Print Assumptions C72_socket.
Print Assumptions C72_command.
Print Assumptions C72_ethernet_any.
Print Assumptions C72_ipv4_any.
Print Assumptions C72_tcp_any.
Print Assumptions C72_frame_any.
Print Assumptions C72_socket_any.
Print Assumptions C72_command_any.
Print Assumptions C72_short_header_refuted.
Print Assumptions C72_body_refuted.
Print Assumptions C72_many_fields_refuted.

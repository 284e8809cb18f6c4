(** Layouts of the packets in /repo/examples, written down from the documents that
    define them (RFC 791, 9293, 768, 9112) and from the comments in the examples.
    Nothing here uses the model. *)
From Coq Require Import String.
From Verif Require Import Base Ints Spec SpecOps Schema Utf8Spec.
Close Scope string_scope.

Definition be (n : nat) (x : N) : bytes := digits Be n x.
Definition num (x : N) : val := VInt (Z.of_N x).

(** Ethernet II: the destination comes first (the example calls it [smac], the source
    [dmac]). *)
Record ethernet := mkethernet { eth_src : bytes; eth_dst : bytes; eth_type : N }.
Definition ethernet_ok (h : ethernet) : Prop := size (eth_src h) = 6 /\ size (eth_dst h) = 6 /\ eth_type h < 2 ^ 16.
Definition ethernet_layout (h : ethernet) : bytes := eth_dst h ++ eth_src h ++ be 2 (eth_type h).
Definition ethernet_value (h : ethernet) : val := VList [VBytes (eth_dst h); VBytes (eth_src h); num (eth_type h)].
Definition ethernet_marked (h : ethernet) : val :=
  VList [VBytes (eth_dst h); VBytes (eth_src h); num (eth_type h); VUnit].

(** RFC 791, 3.1. [ip_words]: the header's length in words of four bytes. *)
Record ipv4 := mkipv4
  { ip_version : N; ip_words : N; ip_tos : N; ip_total : N; ip_id : N; ip_flags : N; ip_fragment : N; ip_ttl : N;
    ip_protocol : N; ip_checksum : N; ip_src : bytes; ip_dst : bytes; ip_options : bytes }.
Definition ipv4_fields (h : ipv4) : Prop :=
  ip_version h < 16 /\ ip_words h < 16 /\ ip_tos h < 2 ^ 8 /\ ip_total h < 2 ^ 16 /\ ip_id h < 2 ^ 16
  /\ ip_flags h < 8 /\ ip_fragment h < 8192 /\ ip_ttl h < 2 ^ 8 /\ ip_protocol h < 2 ^ 8 /\ ip_checksum h < 2 ^ 16
  /\ size (ip_src h) = 4 /\ size (ip_dst h) = 4.
Definition ipv4_ok (h : ipv4) : Prop :=
  ipv4_fields h /\ 5 <= ip_words h /\ 20 + size (ip_options h) = 4 * ip_words h.
(** What the example takes for a header: it computes the size of the options as
    [header_length - 20] in [u8] without overflow checks, so a length
    below 20 wraps around. *)
Definition ipv4_announced (words : N) : N := (4 * words + 236) mod 256.
Definition ipv4_accepted (h : ipv4) : Prop :=
  ipv4_fields h /\ size (ip_options h) = ipv4_announced (ip_words h).
Definition ipv4_layout (h : ipv4) : bytes :=
  be 1 (16 * ip_version h + ip_words h) ++ be 1 (ip_tos h) ++ be 2 (ip_total h)
  ++ be 2 (ip_id h) ++ be 2 (8192 * ip_flags h + ip_fragment h)
  ++ be 1 (ip_ttl h) ++ be 1 (ip_protocol h) ++ be 2 (ip_checksum h)
  ++ ip_src h ++ ip_dst h ++ ip_options h.
(** [header_length] is in bytes. *)
Definition ipv4_value (h : ipv4) : val := VList
  [num (ip_version h); num (4 * ip_words h); num (ip_tos h); num (ip_total h); num (ip_id h); num (ip_flags h);
   num (ip_fragment h); num (ip_ttl h); num (ip_protocol h); num (ip_checksum h); VBytes (ip_src h); VBytes (ip_dst h);
   VBytes (ip_options h)].

(** RFC 9293, 3.1. [tcp_flags]: the reserved bits and the control bits. *)
Record tcp := mktcp
  { tcp_sport : N; tcp_dport : N; tcp_seq : N; tcp_ack : N; tcp_words : N; tcp_flags : N; tcp_window : N;
    tcp_checksum : N; tcp_urgent : N; tcp_options : bytes }.
Definition tcp_fields (h : tcp) : Prop :=
  tcp_sport h < 2 ^ 16 /\ tcp_dport h < 2 ^ 16 /\ tcp_seq h < 2 ^ 32 /\ tcp_ack h < 2 ^ 32 /\ tcp_words h < 16
  /\ tcp_flags h < 4096 /\ tcp_window h < 2 ^ 16 /\ tcp_checksum h < 2 ^ 16 /\ tcp_urgent h < 2 ^ 16.
Definition tcp_ok (h : tcp) : Prop :=
  tcp_fields h /\ 5 <= tcp_words h /\ 20 + size (tcp_options h) = 4 * tcp_words h.
Definition tcp_announced (words : N) : N := (4 * words + 65516) mod 65536.
Definition tcp_accepted (h : tcp) : Prop :=
  tcp_fields h /\ size (tcp_options h) = tcp_announced (tcp_words h).
Definition tcp_layout (h : tcp) : bytes :=
  be 2 (tcp_sport h) ++ be 2 (tcp_dport h) ++ be 4 (tcp_seq h) ++ be 4 (tcp_ack h)
  ++ be 2 (4096 * tcp_words h + tcp_flags h) ++ be 2 (tcp_window h) ++ be 2 (tcp_checksum h) ++ be 2 (tcp_urgent h)
  ++ tcp_options h.
Definition tcp_value (h : tcp) : val := VList
  [num (tcp_sport h); num (tcp_dport h); num (tcp_seq h); num (tcp_ack h); num (4 * tcp_words h); num (tcp_flags h);
   num (tcp_window h); num (tcp_checksum h); num (tcp_urgent h); VBytes (tcp_options h)].

(** RFC 768. *)
Record udp := mkudp { udp_sport : N; udp_dport : N; udp_length : N; udp_checksum : N }.
Definition udp_ok (h : udp) : Prop :=
  udp_sport h < 2 ^ 16 /\ udp_dport h < 2 ^ 16 /\ udp_length h < 2 ^ 16 /\ udp_checksum h < 2 ^ 16.
Definition udp_layout (h : udp) : bytes :=
  be 2 (udp_sport h) ++ be 2 (udp_dport h) ++ be 2 (udp_length h) ++ be 2 (udp_checksum h).
Definition udp_marked (h : udp) : val :=
  VList [num (udp_sport h); num (udp_dport h); num (udp_length h); num (udp_checksum h); VUnit].

(** A whole frame: what comes after a header is what the header says. *)
Inductive transport := OverTcp (h : tcp) | OverUdp (h : udp) | OverOther.
Inductive network := OverIpv4 (h : ipv4) (t : transport) | OverUnknown.
Record frame := mkframe { f_link : ethernet; f_network : network; f_payload : bytes }.
Definition transport_with (tcp_is : tcp -> Prop) (protocol : N) (t : transport) : Prop :=
  match t with
  | OverTcp h => protocol = 6 /\ tcp_is h
  | OverUdp h => protocol = 17 /\ udp_ok h
  | OverOther => protocol <> 6 /\ protocol <> 17
  end.
Definition network_with (ipv4_is : ipv4 -> Prop) (tcp_is : tcp -> Prop) (type : N) (n : network) : Prop :=
  match n with
  | OverIpv4 h t => type = 2048 /\ ipv4_is h /\ transport_with tcp_is (ip_protocol h) t
  | OverUnknown => type <> 2048
  end.
Definition frame_with (ipv4_is : ipv4 -> Prop) (tcp_is : tcp -> Prop) (f : frame) : Prop :=
  ethernet_ok (f_link f) /\ network_with ipv4_is tcp_is (eth_type (f_link f)) (f_network f).
Definition frame_ok : frame -> Prop := frame_with ipv4_ok tcp_ok.
Definition frame_accepted : frame -> Prop := frame_with ipv4_accepted tcp_accepted.
Definition transport_layout (t : transport) : bytes :=
  match t with OverTcp h => tcp_layout h | OverUdp h => udp_layout h | OverOther => [] end.
Definition frame_layout (f : frame) : bytes :=
  ethernet_layout (f_link f)
  ++ (match f_network f with OverIpv4 h t => ipv4_layout h ++ transport_layout t | OverUnknown => [] end) ++ f_payload f.
Definition transport_value (t : transport) : val :=
  match t with
  | OverTcp h => VVariant 0 [tcp_value h]
  | OverUdp h => VVariant 1 [udp_marked h]
  | OverOther => VVariant 2 []
  end.
Definition frame_value (f : frame) : val := VList
  ([ethernet_marked (f_link f)]
   ++ (match f_network f with
       | OverIpv4 h t => [VVariant 0 [ipv4_value h]; transport_value t]
       | OverUnknown => [VVariant 1 []; VVariant 2 []]
       end)
   ++ [VBytes (f_payload f)]).

(** HTTP requests: the request line and the header fields, in order. *)
Definition contains (s l : bytes) : Prop := exists a b, l = a ++ s ++ b.
Definition space : bytes := [x20].
Definition line_end : bytes := [x0d; x0a].
Definition colon_space : bytes := [x3a; x20].
Record request := mkrequest
  { rq_method : bytes; rq_uri : bytes; rq_version : bytes; rq_headers : list (bytes * bytes) }.
Definition token (terminator l : bytes) : Prop := text l /\ ~ contains terminator l.
Definition request_ok (r : request) : Prop :=
  token space (rq_method r) /\ token space (rq_uri r) /\ token line_end (rq_version r)
  /\ Forall (fun h : bytes * bytes => token colon_space (fst h) /\ token line_end (snd h)) (rq_headers r).
Definition header_layout (h : bytes * bytes) : bytes := fst h ++ colon_space ++ snd h ++ line_end.
Definition request_layout (r : request) : bytes :=
  rq_method r ++ space ++ rq_uri r ++ space ++ rq_version r ++ line_end ++ concat (map header_layout (rq_headers r)).
Definition request_value (headers : list (bytes * bytes) -> val) (r : request) : val :=
  VList [VBytes (rq_method r); VBytes (rq_uri r); VBytes (rq_version r); headers (rq_headers r)].
(** As a vector of pairs and as a map. *)
Definition header_list (l : list (bytes * bytes)) : val :=
  VList (map (fun h => VList [VBytes (fst h); VBytes (snd h)]) l).
Definition header_map (l : list (bytes * bytes)) : val :=
  VMap (map (fun h => (VBytes (fst h), VBytes (snd h))) l).
(** With the method as one of the nine, in this order. *)
Definition methods : list bytes :=
  map list_byte_of_string ["GET"; "POST"; "HEAD"; "PUT"; "DELETE"; "CONNECT"; "OPTIONS"; "TRACE"; "PATCH"]%string.
Definition method_value (i : nat) (r : request) : val :=
  VList [VVariant i []; VBytes (rq_uri r); VBytes (rq_version r); header_list (rq_headers r)].

(** The messages of the socket example: a version, a tag from 1, the fields. *)
Inductive socket_body :=
| ReadReq (address length : N) | ReadRsp (address : N) (data : bytes)
| WriteReq (address : N) (data : bytes) | WriteRsp (address length : N) | StopMsg.
Definition socket_ok (version : N) (m : socket_body) : Prop :=
  version < 2 ^ 8 /\
  match m with
  | ReadReq a l | WriteRsp a l => a < 2 ^ 8 /\ l < 2 ^ 8
  | ReadRsp a data | WriteReq a data => a < 2 ^ 8 /\ size data < 2 ^ 8
  | StopMsg => True
  end.
Definition socket_layout (version : N) (m : socket_body) : bytes :=
  be 1 version ++
  match m with
  | ReadReq a l => be 1 1 ++ be 1 a ++ be 1 l
  | ReadRsp a data => be 1 2 ++ be 1 a ++ be 1 (size data) ++ data
  | WriteReq a data => be 1 3 ++ be 1 a ++ be 1 (size data) ++ data
  | WriteRsp a l => be 1 4 ++ be 1 a ++ be 1 l
  | StopMsg => be 1 5
  end.
Definition socket_value (version : N) (m : socket_body) : val := VList
  [num version;
   match m with
   | ReadReq a l => VVariant 0 [num a; num l]
   | ReadRsp a data => VVariant 1 [num a; num (size data); VBytes data]
   | WriteReq a data => VVariant 2 [num a; num (size data); VBytes data]
   | WriteRsp a l => VVariant 3 [num a; num l]
   | StopMsg => VVariant 4 []
   end].

(** The commands of the enum example; the number of the command is a field of its
    own and says which of the bodies follows. *)
Inductive command_body :=
| Stop | Start | Read (address length : N) | Write (address : N) (data : bytes) | Unknown (address : N).
Definition command_ok (version cmd : N) (b : command_body) : Prop :=
  version < 2 ^ 8 /\ cmd < 2 ^ 8 /\
  match b with
  | Stop => cmd = 1
  | Start => cmd = 2
  | Read a l => 4 <= cmd <= 7 /\ a < 2 ^ 16 /\ l < 2 ^ 16
  | Write a data => cmd = 8 /\ a < 2 ^ 16 /\ size data < 2 ^ 16
  | Unknown a => ~ (cmd = 1 \/ cmd = 2 \/ 4 <= cmd <= 7 \/ cmd = 8) /\ a < 2 ^ 16
  end.
Definition command_layout (version cmd : N) (b : command_body) : bytes :=
  be 1 version ++ be 1 cmd ++
  match b with
  | Stop | Start => []
  | Read a l => be 2 a ++ be 2 l
  | Write a data => be 2 a ++ be 2 (size data) ++ data
  | Unknown a => be 2 a
  end.
Definition command_value (version cmd : N) (b : command_body) : val := VList
  [num version; num cmd;
   match b with
   | Stop => VVariant 0 []
   | Start => VVariant 1 []
   | Read a l => VVariant 2 [num a; num l]
   | Write a data => VVariant 3 [num a; num (size data); VList (map (fun x => num (b2n x)) data)]
   | Unknown a => VVariant 4 [num a]
   end].

(** A beginning of a packet that is not all of it. *)
Definition cut_short (d whole : bytes) : Prop := exists missing, missing <> [] /\ d ++ missing = whole.

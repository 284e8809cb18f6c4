(** The text forms of [core::net::Ipv4Addr] and [Ipv6Addr], which [NetAddress] and the
    [from_str] fields rely on (used in src/types/net_address.rs:90, 99, 116-117). They belong
    to the standard library (core/src/net/parser.rs and ip_addr.rs, Rust 1.77 and later) and
    are written here after its documentation and source; /repo does not contain them. *)
From Verif Require Import Base Ints Text.

(** ** Parsing: core::net::parser *)

(** [Parser::read_number]: digits as far as they go; [None] on overflow of the type (below
    [limit]) or on more than [max] digits. The result is the number, how many digits it
    took, and the rest. *)
Fixpoint number_loop (radix limit : N) (max : nat) (acc : N) (count : nat) (s : bytes) : option (N * nat * bytes) :=
  match s with
  | [] => Some (acc, count, s)
  | c :: r =>
      match to_digit radix c with
      | None => Some (acc, count, s)
      | Some d =>
          if (acc * radix <? limit) && (acc * radix + d <? limit) && (S count <=? max)%nat
          then number_loop radix limit max (acc * radix + d) (S count) r
          else None
      end
  end.
Definition read_number (radix limit : N) (max : nat) (allow_zero_prefix : bool) (s : bytes) : option (N * bytes) :=
  match number_loop radix limit max 0 0 s with
  | Some (n, count, r) =>
      if (count =? 0)%nat then None
      else if negb allow_zero_prefix && (match s with c :: _ => Byte.eqb c "0"%byte | [] => false end) && (1 <? count)%nat
      then None
      else Some (n, r)
  | None => None
  end.
(** [read_given_char], [read_separator]. *)
Definition given (c : byte) (s : bytes) : option bytes :=
  match s with x :: r => if Byte.eqb x c then Some r else None | [] => None end.
Definition separated {A} (sep : byte) (i : nat) (p : bytes -> option (A * bytes)) (s : bytes) : option (A * bytes) :=
  match i with
  | O => p s
  | S _ => match given sep s with Some r => p r | None => None end
  end.
(** [read_ipv4_addr]: four decimal numbers of up to three digits, no leading zeros. *)
Definition octet (i : nat) (s : bytes) : option (N * bytes) := separated DOT i (read_number 10 256 3 false) s.
Definition read_ipv4 (s : bytes) : option (list N * bytes) :=
  match octet 0 s with
  | Some (a, s1) =>
      match octet 1 s1 with
      | Some (b, s2) =>
          match octet 2 s2 with
          | Some (c, s3) => match octet 3 s3 with Some (d, s4) => Some ([a; b; c; d], s4) | None => None end
          | None => None
          end
      | None => None
      end
  | None => None
  end.
(** [read_groups]: up to [left] more groups of hexadecimal digits; an IPv4 address may
    take the place of two groups and is the last. *)
Fixpoint read_groups (i left : nat) (s : bytes) : list N * bool * bytes :=
  match left with
  | O => ([], false, s)
  | S left' =>
      match (match left' with O => None | S _ => separated COLON i read_ipv4 s end) with
      | Some (a, r) =>
          ([nth 0 a 0 * 256 + nth 1 a 0; nth 2 a 0 * 256 + nth 3 a 0], true, r)
      | None =>
          match separated COLON i (read_number 16 65536 4 true) s with
          | Some (g, r) => let '(gs, v4, r') := read_groups (S i) left' r in (g :: gs, v4, r')
          | None => ([], false, s)
          end
      end
  end.
(** [read_ipv6_addr]. *)
Definition read_ipv6 (s : bytes) : option (list N * bytes) :=
  let '(head, v4, r) := read_groups 0 8 s in
  if (length head =? 8)%nat then Some (head, r)
  else if v4 then None
  else match given COLON r with
       | Some r1 =>
           match given COLON r1 with
           | Some r2 =>
               let '(tail, _, r3) := read_groups 0 (7 - length head) r2 in
               Some (head ++ repeat 0 (8 - length head - length tail) ++ tail, r3)
           | None => None
           end
       | None => None
       end.
(** [Ipv4Addr::from_str] and [Ipv6Addr::from_str]: nothing may be left over, and an IPv4
    address has at most 15 characters. *)
Definition segments_octets (l : list N) : bytes := flat_map (fun g => to_bytes Be 2 g) l.
Definition std_parse4 (s : bytes) : option bytes :=
  if 15 <? lenN s then None
  else match read_ipv4 s with Some (a, []) => Some (map n2b a) | _ => None end.
Definition std_parse6 (s : bytes) : option bytes :=
  match read_ipv6 s with Some (a, []) => Some (segments_octets a) | _ => None end.

(** ** Display *)

(** [{}] of a u8 and [{:x}] of a u16. *)
Fixpoint in_radix (radix : N) (fuel : nat) (n : N) : bytes :=
  match fuel with
  | O => []
  | S k => (if n <? radix then [] else in_radix radix k (n / radix)) ++ [nth (N.to_nat (n mod radix)) HEX_LOWER x00]
  end.
Definition show_u8 (b : byte) : bytes := in_radix 10 3 (b2n b).
Definition show_x (g : N) : bytes := in_radix 16 4 g.
(** [Display for Ipv4Addr]. *)
Definition std_show4 (a : bytes) : bytes :=
  match a with
  | [p; q; r; s] => show_u8 p ++ [DOT] ++ show_u8 q ++ [DOT] ++ show_u8 r ++ [DOT] ++ show_u8 s
  | _ => []   (* not a [u8; 4] *)
  end.
(** [Ipv6Addr::segments]. *)
Fixpoint segments (a : bytes) : list N :=
  match a with p :: q :: r => from_bytes Be [p; q] :: segments r | _ => [] end.
(** The loop over the segments that looks for the longest run of zeros; a span is where it
    starts and its length, the first of equal length wins. *)
Fixpoint zero_run (i : nat) (current longest : nat * nat) (l : list N) : nat * nat :=
  match l with
  | [] => longest
  | g :: r =>
      if g =? 0 then
        let start := match snd current with O => i | S _ => fst current end in
        let current' := (start, S (snd current)) in
        zero_run (S i) current' (if (snd longest <? snd current')%nat then current' else longest) r
      else zero_run (S i) (0, 0)%nat longest r
  end.
(** [fmt_subslice]. *)
Fixpoint show_groups (l : list N) : bytes :=
  match l with
  | [] => []
  | [g] => show_x g
  | g :: r => show_x g ++ [COLON] ++ show_groups r
  end.
(** [Ipv6Addr::to_ipv4_mapped]: ::ffff:a.b.c.d. *)
Definition mapped (l : list N) : bool :=
  match l with
  | [a; b; c; d; e; f; _; _] => (a =? 0) && (b =? 0) && (c =? 0) && (d =? 0) && (e =? 0) && (f =? 65535)
  | _ => false
  end.
(** [Display for Ipv6Addr]. *)
Definition std_show6 (a : bytes) : bytes :=
  let l := segments a in
  if mapped l then [COLON; COLON] ++ show_x 65535 ++ [COLON] ++ std_show4 (skipn 12 a)
  else
    let '(start, len) := zero_run 0 (0, 0)%nat (0, 0)%nat l in
    if (1 <? len)%nat then show_groups (firstn start l) ++ [COLON; COLON] ++ show_groups (skipn (start + len) l)
    else show_groups l.

Definition std_ip : ip_text := mkip std_parse4 std_show4 std_parse6 std_show6.

(** The texts of IP addresses, as their grammar says. *)
From Verif Require Import Base Text TextSpec AttrSpec.

(** Four decimal numbers with dots between them, none with superfluous zeros. *)
Definition dotted (s l : bytes) : Prop :=
  exists ts, length ts = 4%nat /\ s = joined "."%byte ts /\ Forall2 (fun t b => decimal_text t (Byte.to_N b)) ts l.

(** A group of an IPv6 address: one to four hexadecimal digits of either case. *)
Definition hex_group (t : bytes) (g : N) : Prop := written_in 16 t g /\ (length t <= 4)%nat.
(** Groups with colons between them. With [quad], the text may end with an IPv4 address, which stands for two groups. *)
Inductive groups (quad : bool) : bytes -> list N -> Prop :=
| GroupLast t g : hex_group t g -> groups quad t [g]
| GroupQuad t a b c d : quad = true -> dotted t [a; b; c; d] ->
    groups quad t [256 * Byte.to_N a + Byte.to_N b; 256 * Byte.to_N c + Byte.to_N d]
| GroupMore t g s gs : hex_group t g -> groups quad s gs -> groups quad (t ++ ":"%byte :: s) (g :: gs).
(** No group at all, on one of the sides of "::". *)
Definition some_groups (quad : bool) (s : bytes) (gs : list N) : Prop := (s = [] /\ gs = []) \/ groups quad s gs.
(** Eight groups; or at most seven, with "::" for the others, which are zero. *)
Definition ipv6_text (s : bytes) (gs : list N) : Prop :=
  (groups true s gs /\ length gs = 8%nat) \/
  exists h t hs ts, s = h ++ [":"; ":"]%byte ++ t /\ some_groups false h hs /\ some_groups true t ts /\
    (length hs + length ts <= 7)%nat /\ gs = hs ++ repeat 0 (8 - length hs - length ts) ++ ts.
(** The sixteen bytes of eight groups, the high byte of each first. *)
Definition group_bytes (l : bytes) (gs : list N) : Prop :=
  length l = (2 * length gs)%nat /\
  forall i g, nth_error gs i = Some g -> exists a b, nth_error l (2 * i) = Some a /\ nth_error l (2 * i + 1) = Some b /\ g = 256 * Byte.to_N a + Byte.to_N b.

(** What the text forms of hex strings and addresses are supposed to be. Of the
    model only the type of addresses and the record of IP parsers are used. *)
From Verif Require Import Base Ints Spec SpecOps Text.

(** ** Hexadecimal *)

(** The characters 0..9, a..f and A..F. *)
Definition lower_digit (c : byte) (d : N) : Prop :=
  (d < 10 /\ c = byte_of (48 + d)) \/ (10 <= d < 16 /\ c = byte_of (97 + (d - 10))).
Definition upper_digit (c : byte) (d : N) : Prop :=
  (d < 10 /\ c = byte_of (48 + d)) \/ (10 <= d < 16 /\ c = byte_of (65 + (d - 10))).
Definition hex_digit (c : byte) (d : N) : Prop := lower_digit c d \/ upper_digit c d.
(** Two digits per byte, the high one first. *)
Fixpoint spells (digit : byte -> N -> Prop) (s : bytes) (l : bytes) : Prop :=
  match s, l with
  | [], [] => True
  | h :: k :: s', b :: l' => (exists x y, digit h x /\ digit k y /\ Byte.to_N b = 16 * x + y) /\ spells digit s' l'
  | _, _ => False
  end.

(** ** Groups separated by colons *)
Fixpoint joined (sep : byte) (gs : list bytes) : bytes :=
  match gs with
  | [] => []
  | [g] => g
  | g :: r => g ++ sep :: joined sep r
  end.
(** Six groups of two digits. *)
Definition mac_text (s : bytes) (mac : bytes) : Prop :=
  exists gs, s = joined ":"%byte gs /\ length gs = 6%nat /\ Forall2 (fun g b => spells hex_digit g [b]) gs mac.

(** ** Decimal *)
Definition decimal_value (s : bytes) : N := fold_left (fun acc c => 10 * acc + (Byte.to_N c - 48)) s 0.
Definition decimal_text (s : bytes) (n : N) : Prop :=
  s <> [] /\ Forall (fun c => 48 <= Byte.to_N c <= 57) s /\ decimal_value s = n /\
  (hd x00 s = "0"%byte -> s = ["0"%byte]).

(** ** What is assumed of the text forms of IP addresses, which belong to the
    standard library: they can be read back, IPv4 has dots and no colons, IPv6 has
    colons, and IPv6 text has eight groups, or at least six colons, or a "::". *)
Definition colons (s : bytes) : nat := length (filter (Byte.eqb ":"%byte) s).
Definition ip_standard (ip : ip_text) : Prop :=
  (forall a, size a = 4 -> parse4 ip (show4 ip a) = Some a /\ In "."%byte (show4 ip a) /\ ~ In ":"%byte (show4 ip a)) /\
  (forall a, size a = 16 -> parse6 ip (show6 ip a) = Some a /\ In ":"%byte (show6 ip a)) /\
  (forall s, (colons s < 6)%nat -> (forall i, ~ occurs_at [":"; ":"]%byte s i) -> parse6 ip s = None).
(** Addresses of the right sizes. *)
Definition net_value (a : net_address) : Prop :=
  match a with
  | V4 l => size l = 4
  | V6 l => size l = 16
  | Mac l => size l = 6
  | Number n => n < 2 ^ 64
  end.

(** What the MAC parser accepts: groups of two digits, or a plus sign and a digit. *)
Definition lax_group (g : bytes) (b : byte) : Prop :=
  spells hex_digit g [b] \/ exists c, g = ["+"%byte; c] /\ hex_digit c (Byte.to_N b).

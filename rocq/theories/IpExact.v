(** Proofs about IpText.v: which texts are accepted. *)
From Verif Require Import Base Ints Spec SpecOps BaseLemmas.
From Verif Require Import Text TextSpec TextLemmas MacLemmas NetLemmas IpText IpLemmas AttrSpec AttrLemmas IpSpec.

Lemma digit_10 c d : to_digit 10 c = Some d <-> (48 <= Byte.to_N c <= 57 /\ d = Byte.to_N c - 48).
Proof.
  split.
  - intros H. destruct c; vm_compute in H; try discriminate; injection H as <-; vm_compute; (split; [split; discriminate|reflexivity]).
  - intros [H ->]. destruct c; vm_compute in H |- *; try reflexivity; exfalso; destruct H as [A B]; (now apply A) || (now apply B).
Qed.
Definition is_digit (c : byte) : Prop := 48 <= Byte.to_N c <= 57.
Definition value_from (acc : N) (s : bytes) : N := fold_left (fun acc c => 10 * acc + (Byte.to_N c - 48)) s acc.
Lemma loop_reads max s : forall acc c n m r, number_loop 10 256 max acc c s = Some (n, m, r) -> acc < 256 -> (c <= max)%nat ->
  exists t, s = t ++ r /\ Forall is_digit t /\ value_from acc t = n /\ m = (c + length t)%nat /\ stops 10 r /\ n < 256 /\ (m <= max)%nat.
Proof.
  induction s as [|x s IH]; intros acc c n m r H A C; cbn [number_loop] in H.
  - injection H as <- <- <-. exists []. cbn. repeat split; auto.
  - destruct (to_digit 10 x) as [d|] eqn:D.
    + destruct (_ && _)%bool eqn:B; [|discriminate]. apply andb_prop in B as [B1 B3]. apply andb_prop in B1 as [_ B2]. apply N.ltb_lt in B2. apply Nat.leb_le in B3.
      destruct (IH _ _ _ _ _ H B2 B3) as (t & -> & F & V & L & S & N & M). exists (x :: t). apply digit_10 in D as [D1 D2].
      split; [reflexivity|]. split; [constructor; assumption|]. split; [unfold value_from in *; cbn [fold_left]; rewrite <- V; f_equal; subst d; lia|].
      split; [cbn [length]; lia|]. auto.
    + injection H as <- <- <-. exists []. cbn. rewrite D. repeat split; auto.
Qed.
Lemma value_grows t : forall acc, acc <= value_from acc t.
Proof. induction t as [|x t IH]; intros acc; [reflexivity|]. cbn. etransitivity; [|apply IH]. lia. Qed.
Lemma loop_takes max t r : stops 10 r -> Forall is_digit t -> forall acc c, value_from acc t < 256 -> (c + length t <= max)%nat ->
  number_loop 10 256 max acc c (t ++ r) = Some (value_from acc t, (c + length t)%nat, r).
Proof.
  intros S F. induction F as [|x t D F IH]; intros acc c V L; cbn [app].
  - rewrite loop_stops by exact S. cbn. repeat f_equal. lia.
  - cbn [number_loop]. assert (E : to_digit 10 x = Some (Byte.to_N x - 48)) by (apply digit_10; split; [exact D|reflexivity]). rewrite E.
    change (value_from acc (x :: t)) with (value_from (10 * acc + (Byte.to_N x - 48)) t) in *. cbn [length] in *.
    pose proof (value_grows t (10 * acc + (Byte.to_N x - 48))) as G.
    assert (Q : 10 * acc + (Byte.to_N x - 48) < 256) by (eapply N.le_lt_trans; [exact G|exact V]).
    rewrite (proj2 (N.ltb_lt (acc * 10) 256)) by lia. rewrite (proj2 (N.ltb_lt (acc * 10 + (Byte.to_N x - 48)) 256)) by lia.
    rewrite (proj2 (Nat.leb_le (Datatypes.S c) max)) by lia. cbn [andb]. replace (acc * 10 + (Byte.to_N x - 48)) with (10 * acc + (Byte.to_N x - 48)) by lia.
    rewrite IH by (assumption || lia). replace (Datatypes.S c + length t)%nat with (c + Datatypes.S (length t))%nat by lia. reflexivity.
Qed.
Lemma value_long t : forall acc, 1 <= acc -> 10 ^ N.of_nat (length t) <= value_from acc t.
Proof.
  induction t as [|x t IH]; intros acc A; [cbn; lia|]. change (value_from acc (x :: t)) with (value_from (10 * acc + (Byte.to_N x - 48)) t).
  assert (G : forall t a, 10 ^ N.of_nat (length t) * a <= value_from a t).
  { clear. induction t as [|x t IH]; intros a; [cbn; lia|]. change (value_from a (x :: t)) with (value_from (10 * a + (Byte.to_N x - 48)) t).
    etransitivity; [|apply IH]. cbn [length]. rewrite Nat2N.inj_succ, N.pow_succ_r by lia. nia. }
  etransitivity; [|apply G]. cbn [length]. rewrite Nat2N.inj_succ, N.pow_succ_r by lia. nia.
Qed.
(** One octet: exactly a decimal number below 256 without superfluous zeros. *)
Lemma octet_text_exact s n r : read_number 10 256 3 false s = Some (n, r) <->
  exists t, s = t ++ r /\ decimal_text t n /\ n < 256 /\ stops 10 r.
Proof.
  unfold read_number. split.
  - destruct (number_loop 10 256 3 0 0 s) as [[[n' m] r']|] eqn:E; [|discriminate].
    destruct (loop_reads 3 s 0 0 n' m r' E) as (t & -> & F & V & L & S & N & M); try lia.
    destruct (Nat.eqb_spec m 0) as [Z|Z]; [discriminate|]. destruct (negb false && _ && _)%bool eqn:B; [discriminate|].
    intros H. injection H as <- <-. exists t. split; [reflexivity|]. split; [|auto]. destruct t as [|x t]; [cbn in L; lia|].
    repeat split; [discriminate|exact F|exact V|]. cbn [hd]. intros ->. cbn [app negb andb] in B. change (Byte.eqb "0" "0") with true in B. cbn [andb] in B.
    apply Nat.ltb_ge in B. cbn [length] in L. destruct t; [reflexivity|cbn [length] in L; lia].
  - intros (t & -> & (T & F & V & H) & N & S). destruct t as [|x t]; [now destruct T|].
    assert (L : (length (x :: t) <= 3)%nat).
    { destruct (byte_eqb_eq x "0") as [_ _]. destruct (Byte.eqb x "0") eqn:X.
      - apply byte_eqb_eq in X as ->. cbn [hd] in H. rewrite (H eq_refl). cbn. lia.
      - pose proof (Forall_inv F) as D. cbv beta in D. assert (X1 : 1 <= 10 * 0 + (Byte.to_N x - 48)).
        { destruct (N.eq_dec (Byte.to_N x) 48) as [Q|Q]; [|lia]. assert (x = "0"%byte) by (apply (f_equal Byte.of_N) in Q; rewrite Byte.of_to_N in Q; injection Q as ->; reflexivity). subst x. discriminate. }
        pose proof (value_long t _ X1) as G. change (decimal_value (x :: t)) with (value_from (10 * 0 + (Byte.to_N x - 48)) t) in V.
        cbn [length]. destruct (Nat.le_gt_cases (length t) 2) as [?|K]; [lia|]. exfalso.
        assert (10 ^ 3 <= 10 ^ N.of_nat (length t)) by (apply N.pow_le_mono_r; lia). change (10 ^ 3) with 1000 in *. lia. }
    assert (V' : value_from 0 (x :: t) < 256) by (change (value_from 0 (x :: t)) with (decimal_value (x :: t)); lia).
    rewrite (loop_takes 3 (x :: t) r S F 0 0 V' L). change (value_from 0 (x :: t)) with (decimal_value (x :: t)). rewrite V.
    cbn [length Nat.add Nat.eqb app negb andb]. destruct (Byte.eqb x "0" && (1 <? Datatypes.S (length t))%nat)%bool eqn:B; [|reflexivity].
    apply andb_prop in B as [B1 B2]. apply byte_eqb_eq in B1 as ->. specialize (H eq_refl). injection H as ->. discriminate.
Qed.
Lemma octet_first s n r : octet 0 s = Some (n, r) <-> exists t, s = t ++ r /\ decimal_text t n /\ n < 256 /\ stops 10 r.
Proof. apply octet_text_exact. Qed.
Lemma octet_next i s n r : octet (S i) s = Some (n, r) <-> exists t, s = DOT :: t ++ r /\ decimal_text t n /\ n < 256 /\ stops 10 r.
Proof.
  unfold octet, separated. split.
  - destruct s as [|x s]; cbn [given]; [discriminate|]. destruct (Byte.eqb x DOT) eqn:X; [|discriminate]. apply byte_eqb_eq in X as ->.
    intros H. apply octet_text_exact in H as (t & -> & H). exists t. auto.
  - intros (t & -> & H). rewrite given_same. apply octet_text_exact. exists t. auto.
Qed.
Lemma decimal_short t n : decimal_text t n -> n < 256 -> (length t <= 3)%nat.
Proof.
  intros D N. assert (E : read_number 10 256 3 false (t ++ []) = Some (n, [])) by (apply octet_text_exact; exists t; cbn; auto).
  unfold read_number in E. destruct (number_loop 10 256 3 0 0 (t ++ [])) as [[[n' m] r']|] eqn:L; [|discriminate].
  destruct (Nat.eqb m 0); [discriminate|]. destruct (negb false && _ && _)%bool; [discriminate|]. injection E as -> ->.
  destruct (loop_reads 3 (t ++ []) 0 0 n m [] L) as (t' & E & _ & _ & M1 & _ & _ & M2); try lia. rewrite !app_nil_r in E. subst t'. lia.
Qed.
Lemma parse4_exact s l : std_parse4 s = Some l <->
  exists ts, length ts = 4%nat /\ s = joined DOT ts /\ Forall2 (fun t b => decimal_text t (Byte.to_N b)) ts l.
Proof.
  unfold std_parse4. split.
  - destruct (15 <? lenN s); [discriminate|]. unfold read_ipv4.
    destruct (octet 0 s) as [[a0 s1]|] eqn:E0; [|discriminate]. destruct (octet 1 s1) as [[a1 s2]|] eqn:E1; [|discriminate].
    destruct (octet 2 s2) as [[a2 s3]|] eqn:E2; [|discriminate]. destruct (octet 3 s3) as [[a3 s4]|] eqn:E3; [|discriminate].
    destruct s4; [|discriminate]. intros H. injection H as <-.
    apply octet_first in E0 as (t0 & -> & D0 & N0 & _). apply octet_next in E1 as (t1 & -> & D1 & N1 & _).
    apply octet_next in E2 as (t2 & -> & D2 & N2 & _). apply octet_next in E3 as (t3 & -> & D3 & N3 & _).
    exists [t0; t1; t2; t3]. split; [reflexivity|]. rewrite app_nil_r. split; [reflexivity|].
    assert (K : forall t a, decimal_text t a -> a < 256 -> decimal_text t (Byte.to_N (n2b a))).
    { intros t a D N. change (Byte.to_N (n2b a)) with (b2n (n2b a)). rewrite b2n_n2b, N.mod_small by exact N. exact D. }
    cbn [map]. apply Forall2_cons; [now apply K|]. apply Forall2_cons; [now apply K|]. apply Forall2_cons; [now apply K|]. apply Forall2_cons; [now apply K|]. apply Forall2_nil.
  - intros (ts & L & -> & F). destruct ts as [|t0 [|t1 [|t2 [|t3 [|]]]]]; try discriminate.
    inversion F as [|? b0 ? l0 D0 F0]; subst. inversion F0 as [|? b1 ? l1 D1 F1]; subst. inversion F1 as [|? b2 ? l2 D2 F2]; subst. inversion F2 as [|? b3 ? l3 D3 F3]; subst. inversion F3; subst. clear F F0 F1 F2 F3 L.
    change (Byte.to_N b0) with (b2n b0) in *. change (Byte.to_N b1) with (b2n b1) in *. change (Byte.to_N b2) with (b2n b2) in *. change (Byte.to_N b3) with (b2n b3) in *.
    pose proof (b2n_lt b0) as N0. pose proof (b2n_lt b1) as N1. pose proof (b2n_lt b2) as N2. pose proof (b2n_lt b3) as N3.
    cbn [joined]. replace (15 <? _) with false; cycle 1.
    { symmetry. apply N.ltb_ge. unfold lenN. repeat (rewrite app_length; cbn [length]).
      pose proof (decimal_short _ _ D0 N0). pose proof (decimal_short _ _ D1 N1). pose proof (decimal_short _ _ D2 N2). pose proof (decimal_short _ _ D3 N3). lia. }
    unfold read_ipv4.
    rewrite (proj2 (octet_first _ (b2n b0) (DOT :: t1 ++ DOT :: t2 ++ DOT :: t3))) by (exists t0; cbn; auto).
    rewrite (proj2 (octet_next 0 _ (b2n b1) (DOT :: t2 ++ DOT :: t3))) by (exists t1; cbn; auto).
    rewrite (proj2 (octet_next 1 _ (b2n b2) (DOT :: t3))) by (exists t2; cbn; auto).
    rewrite (proj2 (octet_next 2 _ (b2n b3) [])) by (exists t3; rewrite app_nil_r; cbn; auto).
    cbn [map]. rewrite !n2b_b2n. reflexivity.
Qed.

(** ** IPv6 *)
Lemma loop_sound radix limit max s : forall acc c n m r, number_loop radix limit max acc c s = Some (n, m, r) -> (c <= max)%nat ->
  exists t, s = t ++ r /\ radix_digits radix limit acc t = Some n /\ m = (c + length t)%nat /\ (m <= max)%nat /\ stops radix r.
Proof.
  induction s as [|x s IH]; intros acc c n m r H C; cbn [number_loop] in H.
  - injection H as <- <- <-. exists []. cbn. repeat split; auto.
  - destruct (to_digit radix x) as [d|] eqn:D.
    + destruct (_ && _)%bool eqn:B; [|discriminate]. apply andb_prop in B as [B1 B3]. apply andb_prop in B1 as [_ B2]. apply Nat.leb_le in B3.
      destruct (IH _ _ _ _ _ H B3) as (t & -> & V & L & M & S). exists (x :: t). split; [reflexivity|]. cbn [radix_digits length]. rewrite D, B2.
      split; [exact V|]. split; [lia|]. auto.
    + injection H as <- <- <-. exists []. cbn. rewrite D. repeat split; auto.
Qed.
Lemma loop_complete radix limit max t r : stops radix r -> forall acc c n, radix_digits radix limit acc t = Some n -> (c + length t <= max)%nat ->
  number_loop radix limit max acc c (t ++ r) = Some (n, (c + length t)%nat, r).
Proof.
  intros S. induction t as [|x t IH]; intros acc c n V L; cbn [app radix_digits] in *.
  - injection V as <-. rewrite loop_stops by exact S. cbn. replace (c + 0)%nat with c by lia. reflexivity.
  - cbn [number_loop]. destruct (to_digit radix x) as [d|]; [|discriminate]. cbv zeta in V. cbn [length] in L.
    destruct (acc * radix + d <? limit) eqn:B; [|discriminate]. apply N.ltb_lt in B.
    rewrite (proj2 (N.ltb_lt (acc * radix) limit)) by lia. rewrite (proj2 (Nat.leb_le (Datatypes.S c) max)) by lia. cbn [andb].
    rewrite (IH _ _ _ V) by lia. cbn [length]. replace (Datatypes.S c + length t)%nat with (c + Datatypes.S (length t))%nat by lia. reflexivity.
Qed.
Lemma written_bound t g : written_in 16 t g -> g < 16 ^ N.of_nat (length t).
Proof.
  induction 1 as [c d D B|s n c d W IH D B]; [cbn; lia|]. rewrite app_length. cbn [length]. rewrite Nat.add_1_r, Nat2N.inj_succ, N.pow_succ_r by lia. lia.
Qed.
Lemma hex_group_exact s g r : read_number 16 65536 4 true s = Some (g, r) <-> exists t, s = t ++ r /\ hex_group t g /\ stops 16 r.
Proof.
  unfold read_number, hex_group. split.
  - destruct (number_loop 16 65536 4 0 0 s) as [[[n m] r']|] eqn:E; [|discriminate]. destruct (loop_sound 16 65536 4 s 0 0 n m r' E) as (t & -> & V & L & M & S); [lia|].
    destruct (Nat.eqb_spec m 0) as [Z|Z]; [discriminate|]. cbn [negb andb]. intros H. injection H as <- <-. exists t. split; [reflexivity|]. split; [|exact S].
    split; [|lia]. apply (written_radix 16 65536 t) in V as [W _]; [exact W|lia|]. intros ->. cbn in L. lia.
  - intros (t & -> & (W & L) & S). pose proof (written_nonempty 16 t g W) as T. pose proof (written_bound t g W) as B.
    assert (V : radix_digits 16 65536 0 t = Some g).
    { apply written_radix; [lia|exact T|]. split; [exact W|]. assert (16 ^ N.of_nat (length t) <= 16 ^ 4) by (apply N.pow_le_mono_r; lia). change (16 ^ 4) with 65536 in *. lia. }
    rewrite (loop_complete 16 65536 4 t r S 0 0 g V) by lia. destruct t as [|x t]; [congruence|]. cbn. reflexivity.
Qed.
(** The octets without the bound on the length of the text. *)
Lemma ipv4_exact s a r : read_ipv4 s = Some (a, r) <-> exists t l, s = t ++ r /\ dotted t l /\ a = map b2n l /\ stops 10 r.
Proof.
  unfold read_ipv4. split.
  - destruct (octet 0 s) as [[a0 s1]|] eqn:E0; [|discriminate]. destruct (octet 1 s1) as [[a1 s2]|] eqn:E1; [|discriminate].
    destruct (octet 2 s2) as [[a2 s3]|] eqn:E2; [|discriminate]. destruct (octet 3 s3) as [[a3 s4]|] eqn:E3; [|discriminate].
    intros H. injection H as <- <-.
    apply octet_first in E0 as (t0 & -> & D0 & N0 & _). apply octet_next in E1 as (t1 & -> & D1 & N1 & _).
    apply octet_next in E2 as (t2 & -> & D2 & N2 & _). apply octet_next in E3 as (t3 & -> & D3 & N3 & S).
    exists (joined DOT [t0; t1; t2; t3]), (map n2b [a0; a1; a2; a3]).
    assert (K : forall a, a < 256 -> b2n (n2b a) = a) by (intros a N; rewrite b2n_n2b; apply N.mod_small, N).
    split; [cbn [joined]; repeat (rewrite <- app_assoc; cbn [app]); reflexivity|]. split; [|split; [cbn [map]; now rewrite !K|exact S]].
    exists [t0; t1; t2; t3]. split; [reflexivity|]. split; [reflexivity|]. cbn [map].
    repeat (apply Forall2_cons; [match goal with |- context [Byte.to_N (n2b ?a)] => change (Byte.to_N (n2b a)) with (b2n (n2b a)); rewrite K by assumption; assumption end|]). apply Forall2_nil.
  - intros (t & l & -> & (ts & L & -> & F) & -> & S). destruct ts as [|t0 [|t1 [|t2 [|t3 [|]]]]]; try discriminate.
    inversion F as [|? b0 ? l0 D0 F0]; subst. inversion F0 as [|? b1 ? l1 D1 F1]; subst. inversion F1 as [|? b2 ? l2 D2 F2]; subst. inversion F2 as [|? b3 ? l3 D3 F3]; subst. inversion F3; subst. clear F F0 F1 F2 F3 L.
    change (Byte.to_N b0) with (b2n b0) in *. change (Byte.to_N b1) with (b2n b1) in *. change (Byte.to_N b2) with (b2n b2) in *. change (Byte.to_N b3) with (b2n b3) in *.
    pose proof (b2n_lt b0) as N0. pose proof (b2n_lt b1) as N1. pose proof (b2n_lt b2) as N2. pose proof (b2n_lt b3) as N3.
    cbn [joined]. repeat (rewrite <- app_assoc; cbn [app]).
    rewrite (proj2 (octet_first _ (b2n b0) (DOT :: t1 ++ DOT :: t2 ++ DOT :: t3 ++ r))) by (exists t0; cbn; auto).
    rewrite (proj2 (octet_next 0 _ (b2n b1) (DOT :: t2 ++ DOT :: t3 ++ r))) by (exists t1; cbn; auto).
    rewrite (proj2 (octet_next 1 _ (b2n b2) (DOT :: t3 ++ r))) by (exists t2; cbn; auto).
    rewrite (proj2 (octet_next 2 _ (b2n b3) r)) by (exists t3; auto). reflexivity.
Qed.
Definition sepd (i : nat) (t : bytes) : bytes := match i with O => t | S _ => COLON :: t end.
Lemma separated_sepd {A} i (p : bytes -> option (A * bytes)) t : separated COLON i p (sepd i t) = p t.
Proof. destruct i; cbn [sepd separated]; [reflexivity|]. now rewrite given_same. Qed.
Lemma separated_inv {A} i (p : bytes -> option (A * bytes)) s x : separated COLON i p s = Some x -> exists t, s = sepd i t /\ p t = Some x.
Proof.
  destruct i; cbn [sepd separated]; [eauto|]. destruct s as [|c s]; cbn [given]; [discriminate|]. destruct (Byte.eqb c COLON) eqn:E; [|discriminate].
  apply byte_eqb_eq in E as ->. eauto.
Qed.
Lemma sepd_app i t r : sepd i (t ++ r) = sepd i t ++ r.
Proof. now destruct i. Qed.
Lemma nth_map4 (a b c d : byte) : [nth 0 (map b2n [a; b; c; d]) 0 * 256 + nth 1 (map b2n [a; b; c; d]) 0; nth 2 (map b2n [a; b; c; d]) 0 * 256 + nth 3 (map b2n [a; b; c; d]) 0]
  = [256 * Byte.to_N a + Byte.to_N b; 256 * Byte.to_N c + Byte.to_N d].
Proof. cbn [nth map]. rewrite !(N.mul_comm _ 256). reflexivity. Qed.
Lemma dotted_four t l : dotted t l -> exists a b c d, l = [a; b; c; d].
Proof.
  intros (ts & L & _ & F). assert (E : length ts = length l) by (clear L; induction F; cbn; congruence). rewrite L in E. destruct l as [|a [|b [|c [|d [|]]]]]; try discriminate. eauto.
Qed.
Lemma groups_sound left : forall i s gs v4 r, read_groups i left s = (gs, v4, r) ->
  (gs = [] /\ v4 = false /\ r = s) \/ (exists t, s = sepd i t ++ r /\ groups v4 t gs /\ (length gs <= left)%nat).
Proof.
  induction left as [|left IH]; intros i s gs v4 r H; cbn [read_groups] in H; [injection H as <- <- <-; auto|].
  destruct (match left with O => None | S _ => separated COLON i read_ipv4 s end) as [[a r']|] eqn:Q.
  - injection H as <- <- <-. right. destruct left as [|left]; [discriminate|]. apply separated_inv in Q as (t & -> & Q). apply ipv4_exact in Q as (u & l & -> & D & -> & _).
    exists u. split; [apply sepd_app|]. destruct (dotted_four u l D) as (a & b & c & d & ->). rewrite nth_map4. split; [constructor; auto|cbn; lia].
  - clear Q. destruct (separated COLON i (read_number 16 65536 4 true) s) as [[g r']|] eqn:E; [|injection H as <- <- <-; auto].
    apply separated_inv in E as (t & -> & E). apply hex_group_exact in E as (u & -> & G & _).
    destruct (read_groups (S i) left r') as [[gs' v'] r''] eqn:R. injection H as <- <- <-. right.
    apply IH in R as [(-> & -> & ->)|(w & -> & W & L)].
    + exists u. split; [apply sepd_app|]. split; [constructor; exact G|cbn; lia].
    + exists (u ++ COLON :: w). cbn [sepd]. split; [rewrite !sepd_app, <- app_assoc; reflexivity|]. split; [constructor; assumption|cbn; lia].
Qed.
Definition ends (r : bytes) : Prop := r = [] \/ exists u, r = COLON :: COLON :: u.
Lemma stop_groups i left r : ends r -> read_groups (S i) left r = ([], false, r).
Proof. intros [->|(u & ->)]; destruct left as [|[|left]]; reflexivity. Qed.
Lemma stop_first left u : read_groups 0 left (COLON :: u) = ([], false, COLON :: u).
Proof. destruct left as [|[|left]]; reflexivity. Qed.
Lemma stop_empty left : read_groups 0 left [] = ([], false, []).
Proof. destruct left as [|[|left]]; reflexivity. Qed.
Lemma hex_no_dot t g : written_in 16 t g -> ~ In DOT t.
Proof.
  induction 1 as [c d D B|s n c d W IH D B]; [|rewrite in_app_iff; intros [H|H]; [exact (IH H)|revert H]];
    intros [->|[]]; apply is_hex_iff in D; discriminate.
Qed.
Lemma dotted_starts t l : dotted t l -> exists d u, t = d ++ DOT :: u /\ Forall is_digit d.
Proof.
  intros (ts & L & -> & F). destruct ts as [|t0 [|t1 ts]]; try discriminate. exists t0, (joined DOT (t1 :: ts)). split; [reflexivity|].
  inversion F as [|? b ? ? D]; subst. exact (proj1 (proj2 D)).
Qed.
Lemma dot_first d u : Forall is_digit d -> forall t r, ~ In DOT t -> (r = [] \/ exists v, r = COLON :: v) -> t ++ r <> d ++ DOT :: u.
Proof.
  induction 1 as [|x d X F IH]; intros [|y t] r N R E; cbn [app] in E.
  - destruct R as [->|(v & ->)]; discriminate.
  - injection E as -> _. apply N. now left.
  - destruct R as [->|(v & ->)]; [discriminate|]. injection E as <- _. vm_compute in X. destruct X as [_ X]. now apply X.
  - injection E as -> E. apply (IH t r) in E; auto. intros H. apply N. now right.
Qed.
Lemma no_quad t g r : hex_group t g -> (r = [] \/ exists v, r = COLON :: v) -> read_ipv4 (t ++ r) = None.
Proof.
  intros (W & _) R. destruct (read_ipv4 (t ++ r)) as [[a r']|] eqn:E; [|reflexivity]. exfalso. apply ipv4_exact in E as (w & l & E & D & _).
  apply dotted_starts in D as (d & u & -> & F). rewrite <- app_assoc in E. cbn [app] in E. exact (dot_first d _ F t r (hex_no_dot t g W) R E).
Qed.
Lemma groups_complete q t gs : groups q t gs -> forall r i left, ends r -> (length gs <= left)%nat ->
  exists v4, (v4 = true -> q = true) /\ read_groups i left (sepd i t ++ r) = (gs, v4, r).
Proof.
  induction 1 as [t g G|t a b c d Q D|t g s gs G W IH]; intros r i left R L; cbn [length] in L; destruct left as [|left]; try lia; rewrite <- sepd_app; cbn [read_groups]; rewrite !separated_sepd.
  - assert (R' : r = [] \/ exists v, r = COLON :: v) by (destruct R as [->|(u & ->)]; eauto). rewrite (no_quad t g r G R').
    rewrite (proj2 (hex_group_exact (t ++ r) g r)); [|exists t; split; [reflexivity|]; split; [exact G|]; destruct R as [->|(u & ->)]; exact I || reflexivity].
    rewrite (stop_groups i left r R). exists false. split; [discriminate|]. destruct left; reflexivity.
  - rewrite (proj2 (ipv4_exact (t ++ r) (map b2n [a; b; c; d]) r)); [|exists t, [a; b; c; d]; split; [reflexivity|]; split; [exact D|]; split; [reflexivity|]; destruct R as [->|(u & ->)]; exact I || reflexivity].
    destruct left as [|left]; [lia|]. exists true. split; [auto|]. rewrite nth_map4. reflexivity.
  - change (":"%byte :: s) with (COLON :: s). rewrite <- app_assoc. cbn [app]. rewrite (no_quad t g (COLON :: s ++ r) G) by eauto.
    rewrite (proj2 (hex_group_exact (t ++ COLON :: s ++ r) g (COLON :: s ++ r))); [|exists t; split; [reflexivity|]; split; [exact G|reflexivity]].
    destruct (IH r (S i) left R ltac:(lia)) as (v4 & V & E). cbn [sepd app] in E. rewrite E. exists v4. split; [exact V|]. destruct left; reflexivity.
Qed.
Lemma groups_more t gs q : groups q t gs -> groups true t gs.
Proof. induction 1; constructor; auto. Qed.
Lemma ipv6_exact s gs : read_ipv6 s = Some (gs, []) <-> ipv6_text s gs.
Proof.
  unfold read_ipv6. split.
  - destruct (read_groups 0 8 s) as [[head v4] r] eqn:E. apply groups_sound in E. destruct (Nat.eqb_spec (length head) 8) as [E8|E8].
    + intros H. injection H as <- ->. left. destruct E as [(-> & _)|(t & -> & W & _)]; [discriminate|]. cbn [sepd]. rewrite app_nil_r. split; [exact (groups_more _ _ _ W)|exact E8].
    + destruct v4; [discriminate|]. destruct (given COLON r) as [r1|] eqn:G1; [|discriminate]. destruct (given COLON r1) as [r2|] eqn:G2; [|discriminate].
      destruct (read_groups 0 (7 - length head) r2) as [[tail t4] r3] eqn:E2. apply groups_sound in E2. intros H. injection H as <- ->.
      assert (K : forall x y, given COLON x = Some y -> x = COLON :: y).
      { intros [|c x] y K; cbn [given] in K; [discriminate|]. destruct (Byte.eqb c COLON) eqn:B; [|discriminate]. apply byte_eqb_eq in B as ->. now injection K as ->. }
      apply K in G1, G2. subst r r1. right.
      assert (A : exists h, s = h ++ COLON :: COLON :: r2 /\ some_groups false h head /\ (length head <= 7)%nat).
      { destruct E as [(-> & _ & <-)|(t & -> & W & L)]; [exists []|exists t]; unfold some_groups; cbn [sepd app length]; repeat split; auto; lia. }
      assert (B : some_groups true r2 tail /\ (length tail <= 7 - length head)%nat).
      { destruct E2 as [(-> & _ & <-)|(t & -> & W & L)]; unfold some_groups; cbn [sepd length]; [split; [auto|lia]|]. rewrite app_nil_r. split; [right; exact (groups_more _ _ _ W)|exact L]. }
      destruct A as (h & -> & A1 & A2). destruct B as (B1 & B2). exists h, r2, head, tail. repeat split; auto. lia.
  - intros [(W & L)|(h & t & hs & ts & -> & H & T & L & ->)].
    + destruct (groups_complete true s gs W [] 0 8 (or_introl eq_refl) ltac:(lia)) as (v4 & _ & E). cbn [sepd] in E. rewrite app_nil_r in E. rewrite E, L. reflexivity.
    + assert (E : read_groups 0 8 (h ++ [COLON; COLON] ++ t) = (hs, false, COLON :: COLON :: t)).
      { destruct H as [(-> & ->)|W]; [apply stop_first|].
        destruct (groups_complete false h hs W (COLON :: COLON :: t) 0 8 (or_intror (ex_intro _ t eq_refl)) ltac:(lia)) as (v4 & V & E). cbn [sepd] in E.
        destruct v4; [discriminate (V eq_refl)|exact E]. }
      change [":"%byte; ":"%byte] with [COLON; COLON]. rewrite E. destruct (Nat.eqb_spec (length hs) 8) as [?|_]; [lia|]. rewrite !given_same.
      assert (E2 : exists v4, read_groups 0 (7 - length hs) t = (ts, v4, [])).
      { destruct T as [(-> & ->)|W]; [exists false; apply stop_empty|].
        destruct (groups_complete true t ts W [] 0 (7 - length hs) (or_introl eq_refl) ltac:(lia)) as (v4 & _ & E2). cbn [sepd] in E2. rewrite app_nil_r in E2. eauto. }
      destruct E2 as (v4 & ->). reflexivity.
Qed.
Lemma groups_small q t gs : groups q t gs -> Forall (fun g => g < 65536) gs.
Proof.
  assert (K : forall t g, hex_group t g -> g < 65536).
  { intros u g (W & L). apply written_bound in W. assert (16 ^ N.of_nat (length u) <= 16 ^ 4) by (apply N.pow_le_mono_r; lia). change (16 ^ 4) with 65536 in *. lia. }
  induction 1 as [t g G|t a b c d Q D|t g s gs G W IH]; repeat (apply Forall_cons || apply Forall_nil); eauto;
    match goal with |- 256 * Byte.to_N ?x + Byte.to_N ?y < _ => change (256 * b2n x + b2n y < 65536); pose proof (b2n_lt x); pose proof (b2n_lt y); lia end.
Qed.
Lemma ipv6_small s gs : ipv6_text s gs -> Forall (fun g => g < 65536) gs.
Proof.
  intros [(W & _)|(h & t & hs & ts & _ & H & T & _ & ->)]; [exact (groups_small _ _ _ W)|]. rewrite !Forall_app. repeat split.
  - destruct H as [(_ & ->)|W]; [constructor|exact (groups_small _ _ _ W)].
  - apply Forall_forall. intros g G. apply repeat_spec in G. subst g. reflexivity.
  - destruct T as [(_ & ->)|W]; [constructor|exact (groups_small _ _ _ W)].
Qed.
Lemma group_bytes_cons x y l g gs : group_bytes (x :: y :: l) (g :: gs) <-> g = 256 * Byte.to_N x + Byte.to_N y /\ group_bytes l gs.
Proof.
  unfold group_bytes. cbn [length]. split.
  - intros (L & H). split; [destruct (H 0%nat g eq_refl) as (a & b & A & B & ->); cbn in A, B; injection A as ->; injection B as ->; reflexivity|].
    split; [lia|]. intros i g' G. destruct (H (S i) g' G) as (a & b & A & B & E). exists a, b.
    replace (2 * S i)%nat with (S (S (2 * i))) in * by lia. cbn [nth_error Nat.add] in A, B. auto.
  - intros (-> & L & H). split; [lia|]. intros [|i] g' G; [injection G as <-; exists x, y; auto|].
    destruct (H i g' G) as (a & b & A & B & E). exists a, b. replace (2 * S i)%nat with (S (S (2 * i))) by lia. auto.
Qed.
Lemma pair_bytes g : to_bytes Be 2 g = [n2b (g / 256); n2b g].
Proof. reflexivity. Qed.
Lemma group_bytes_exact gs : forall l, Forall (fun g => g < 65536) gs -> (l = segments_octets gs <-> group_bytes l gs).
Proof.
  induction gs as [|g gs IH]; intros l F.
  - unfold group_bytes. cbn. split; [intros ->; split; [reflexivity|intros [|] ? ?; discriminate]|]. intros (L & _). now destruct l.
  - inversion F as [|? ? G F']; subst. change (segments_octets (g :: gs)) with (to_bytes Be 2 g ++ segments_octets gs). rewrite pair_bytes. cbn [app].
    destruct l as [|x [|y l]]; [split; [discriminate|intros (L & _); cbn in L; lia]|split; [discriminate|intros (L & _); cbn in L; lia]|].
    rewrite group_bytes_cons, <- (IH l F'). pose proof (N.div_mod g 256 ltac:(discriminate)) as D. pose proof (N.mod_lt g 256 ltac:(discriminate)) as M.
    assert (Q : g / 256 < 256) by (apply N.div_lt_upper_bound; lia). split.
    + intros E. injection E as -> -> ->. split; [|reflexivity]. change (g = 256 * b2n (n2b (g / 256)) + b2n (n2b g)). rewrite !b2n_n2b, (N.mod_small (g / 256)) by exact Q. lia.
    + intros (E & ->). change (g = 256 * b2n x + b2n y) in E. pose proof (b2n_lt x). pose proof (b2n_lt y).
      assert (E1 : g / 256 = b2n x) by (rewrite E, (N.mul_comm 256), N.div_add_l by lia; rewrite N.div_small by assumption; lia).
      assert (E2 : n2b g = y).
      { rewrite <- (n2b_b2n y). rewrite <- (n2b_b2n (n2b g)), b2n_n2b. f_equal. rewrite E1 in D. lia. }
      now rewrite E1, E2, n2b_b2n.
Qed.
Lemma parse6_exact s l : std_parse6 s = Some l <-> exists gs, ipv6_text s gs /\ group_bytes l gs.
Proof.
  unfold std_parse6. split.
  - destruct (read_ipv6 s) as [[gs r]|] eqn:E; [|discriminate]. destruct r; [|discriminate]. intros H. injection H as <-. apply ipv6_exact in E. exists gs. split; [exact E|].
    apply group_bytes_exact; [exact (ipv6_small _ _ E)|reflexivity].
  - intros (gs & T & B). pose proof (ipv6_small _ _ T) as F. apply ipv6_exact in T. rewrite T. f_equal. symmetry. now apply group_bytes_exact.
Qed.
